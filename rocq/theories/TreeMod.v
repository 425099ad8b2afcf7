(** TreeMod.v — insertion with and without hints, insertion of ranges, erasure, of one tree object. *)
From Verif Require Import Base Spec SpecSeq SpecListOps SpecTreeOps Facts DList Tree SpecTree TreeRep TreeInsert TreeErase TreeIter TreeUnlink TreeApi TreeOps TreeLookup.
From stdpp Require Import list gmap.

Section modify.
  Context {K V : Type} (alloc : gmap loc (tnode V) -> loc) (Ha : tmalloc_ok alloc).
  Notation M := (gmap loc (tnode V)).
  Notation ctx := (list (frame V)).
  Notation cell := (loc * V)%type.
  Implicit Types (m : M) (h : theap V) (t : tobj K V) (k : ctx) (cs L R : list cell).

  Lemma tstep_refl m A : tstep m m A A.
  Proof. split; [done|]. split; intros z H1 H2; done. Qed.
  Lemma tstep_trans m1 m2 m3 A B C : tstep m1 m2 A B -> tstep m2 m3 B C -> tstep m1 m3 A C.
  Proof.
    intros (H1&H2&H3) (I1&I2&I3). split; [|split]; intros z Hz Hz'; destruct (decide (z ∈ B)) as [HB|HB].
    - rewrite (I2 z HB Hz'). symmetry. by apply H3.
    - rewrite (I1 z HB Hz'). by apply H1.
    - by apply I2.
    - rewrite (I1 z HB Hz'). by apply H2.
    - by apply H3.
    - rewrite <- (H1 z Hz HB). by apply I3.
  Qed.
  Lemma tobj_eta t : t = sized t (cnt t).
  Proof. by destruct t. Qed.
  Lemma tupd_refl h t cs : is_rbtree (mem h) t cs -> tupd h t cs h t cs [].
  Proof. intros HB. split; [|split; [done|split; [apply tstep_refl|by rewrite app_nil_r]]]. destruct HB as (_&_&<-&_). apply tobj_eta. Qed.
  Lemma tupd_trans h1 t1 c1 h2 t2 c2 h3 t3 c3 d1 d2 : tupd h1 t1 c1 h2 t2 c2 d1 -> tupd h2 t2 c2 h3 t3 c3 d2 ->
    tupd h1 t1 c1 h3 t3 c3 (d1 ++ d2).
  Proof.
    intros (->&H1&H2&H3) (->&I1&I2&I3). split; [done|]. split; [done|]. split; [by eapply tstep_trans|]. by rewrite I3, H3, app_assoc.
  Qed.
  (** adding the value at index [i] *)
  Definition added h t cs (i : nat) (a : V) (r : res (theap V * tobj K V * ptr)) : Prop :=
    exists h' x, r = Ok (h', sized t (S (length cs)), Some x) /\ mem h !! x = None /\
      tupd h t cs h' (sized t (S (length cs))) (seq_insert i [(x, a)] cs) [].
  Lemma pos_added t h hint k v a cs : is_rbtree (mem h) t cs -> is_tree (mem h) (hdr t) (plug k Lf) -> cs = lcells k ++ rcells k ->
    valued (mem h) v a -> side_ok t hint a k ->
    (forall c, c ∈ lcells k -> kcomp t (kov t a) (kov t c.2) = false) -> (forall c, c ∈ rcells k -> kcomp t (kov t c.2) (kov t a) = false) ->
    added h t cs (length (lcells k)) a (insert_node alloc t h hint (Some (cpar (hdr t) k)) v).
  Proof.
    intros HB HT -> Hv Hs HL HR. destruct (insert_pos_ok alloc Ha t h hint k v a HB HT Hv Hs HL HR) as (m'&E&H1&H2).
    pose proof HB as (_&_&Hc&_). assert (inc t = sized t (S (length (lcells k ++ rcells k)))) as Ei by (unfold inc, sized; by rewrite Hc).
    rewrite Ei in *. eexists _, _. split; [exact E|]. split; [apply Ha|]. unfold seq_insert. rewrite take_app, drop_app. cbn [app].
    split; [|split; [done|split; [done|by rewrite app_nil_r]]].
    unfold sized. cbn. f_equal. rewrite !app_length. cbn. lia.
  Qed.
  Lemma equal_value_ok t h cs v a : is_rbtree (mem h) t cs -> valued (mem h) v a ->
    added h t cs (upper_index (kcomp t) (kov t) (kov t a) cs.*2) a (c_tree_insert_equal_value alloc t h v).
  Proof.
    intros HB Hv. destruct (insert_equal_value_ok alloc Ha t h v a cs HB Hv) as (L&R&m'&Hcs&HL&HR&E&H1&H2).
    destruct (upper_split t (kov t a) cs L R Hcs HL HR) as [EL ER].
    pose proof HB as (_&_&Hc&_). assert (inc t = sized t (S (length cs))) as Ei by (unfold inc, sized; by rewrite Hc). rewrite Ei in *.
    eexists _, _. split; [exact E|]. split; [apply Ha|]. unfold seq_insert. rewrite <- EL, <- ER. cbn [app].
    split; [|split; [done|split; [done|by rewrite app_nil_r]]].
    unfold sized. cbn. f_equal. rewrite Hcs, !app_length. cbn. lia.
  Qed.
  Definition unique_post h t cs a (r : res (theap V * tobj K V * ptr)) : Prop :=
    (present (kcomp t) (kov t) (kov t a) cs.*2 = false /\ added h t cs (upper_index (kcomp t) (kov t) (kov t a) cs.*2) a r) \/
    (exists x w, (x, w) ∈ cs /\ eq_key t (kov t a) w = true /\ r = Ok (h, t, Some x)).
  Lemma unique_value_ok t h cs v a : is_rbtree (mem h) t cs -> valued (mem h) v a ->
    unique_post h t cs a (c_tree_insert_unique_value alloc t h v).
  Proof.
    intros HB Hv. destruct (insert_unique_value_ok alloc Ha t h v a cs HB Hv) as [(L&R&m'&Hcs&HL&HR&Hn&E&H1&H2)|H]; [|by right].
    left. split; [by apply present_false|].
    destruct (upper_split t (kov t a) cs L R Hcs HL HR) as [EL ER].
    pose proof HB as (_&_&Hc&_). assert (inc t = sized t (S (length cs))) as Ei by (unfold inc, sized; by rewrite Hc). rewrite Ei in *.
    eexists _, _. split; [exact E|]. split; [apply Ha|]. unfold seq_insert. rewrite <- EL, <- ER. cbn [app].
    split; [|split; [done|split; [done|by rewrite app_nil_r]]].
    unfold sized. cbn. f_equal. rewrite Hcs, !app_length. cbn. lia.
  Qed.

  (** ** hinted insertion: the null links next to a position *)
  Lemma gap_first (T : tree V) x w R : cells T = (x, w) :: R ->
    exists k c r, plug (FL c x w r :: k) Lf = T /\ lcells (FL c x w r :: k) = [] /\ rcells (FL c x w r :: k) = (x, w) :: R.
  Proof.
    intros Hc. destruct (left_spine T) as (k&c&s&vs&rs&->&Hk); [by intros ->|].
    rewrite cells_plug, Hk in Hc. cbn [cells app] in Hc. injection Hc as -> -> <-. by exists k, c, rs.
  Qed.
  Lemma gap_after (T : tree V) L x w R : cells T = L ++ (x, w) :: R -> NoDup (locs T) ->
    exists k c l r, T = plug k (Nd c l x w r) /\
      ((r = Lf /\ lcells (FR c l x w :: k) = L ++ [(x, w)] /\ rcells (FR c l x w :: k) = R) \/
       (exists y u R' k' c' r', r <> Lf /\ R = (y, u) :: R' /\ plug (FL c' y u r' :: k') Lf = T /\
          lcells (FL c' y u r' :: k') = L ++ [(x, w)] /\ rcells (FL c' y u r' :: k') = R)).
  Proof.
    intros Hc HN. destruct (split_at _ _ _ _ _ Hc HN) as (k&c&l&r&->&->&->). exists k, c, l, r. split; [done|].
    destruct r as [|rc rl rx rv rr] eqn:Er.
    - left. split; [done|]. cbn [lcells rcells cells app]. by rewrite app_assoc.
    - right. rewrite <- Er. destruct (left_spine r) as (kk&c'&s&vs&rs&Es&Hkk); [by rewrite Er|].
      assert (cells r = (s, vs) :: cells rs ++ rcells kk) as Hcr by (rewrite Es, cells_plug, Hkk; done).
      exists s, vs, (cells rs ++ rcells kk ++ rcells k), (kk ++ FR c l x w :: k), c', rs.
      split; [by rewrite Er|]. split; [by rewrite Hcr; cbn [app]; rewrite <- app_assoc|]. split.
      { cbn [plug]. rewrite plug_app. cbn [plug]. by rewrite <- Es. }
      cbn [lcells rcells]. rewrite lcells_app, rcells_app, Hkk. cbn [lcells rcells]. rewrite Hcr. cbn [app].
      rewrite app_nil_r. split; [by rewrite app_assoc|]. by rewrite <- app_assoc.
  Qed.
  Lemma lt_all_before t L x w a : StrictWeakOrder (kcomp t) -> ksorted t (L ++ [(x, w)]) -> kcomp t (kov t w) (kov t a) = true ->
    forall c, c ∈ L ++ [(x, w)] -> kcomp t (kov t c.2) (kov t a) = true.
  Proof.
    intros HW (_&_&HS)%ksorted_app H c [Hc| ->%elem_of_list_singleton]%elem_of_app; [|done].
    eapply (swo_le_lt_trans (kcomp t) HW); [|exact H]. apply (HS c (x, w)); [done|by left].
  Qed.
  Lemma le_all_before t L x w a : StrictWeakOrder (kcomp t) -> ksorted t (L ++ [(x, w)]) -> kcomp t (kov t a) (kov t w) = false ->
    forall c, c ∈ L ++ [(x, w)] -> kcomp t (kov t a) (kov t c.2) = false.
  Proof.
    intros HW (_&_&HS)%ksorted_app H c [Hc| ->%elem_of_list_singleton]%elem_of_app; [|done].
    eapply (swo_le_trans (kcomp t) HW); [|exact H]. apply (HS c (x, w)); [done|by left].
  Qed.
  Lemma lt_all_after t x w R a : StrictWeakOrder (kcomp t) -> ksorted t ((x, w) :: R) -> kcomp t (kov t a) (kov t w) = true ->
    forall c, c ∈ (x, w) :: R -> kcomp t (kov t a) (kov t c.2) = true.
  Proof.
    intros HW HS H c [->|Hc]%elem_of_cons; [done|]. change ((x, w) :: R) with ([(x, w)] ++ R) in HS. apply ksorted_app in HS as (_&_&HS).
    eapply (swo_lt_le_trans (kcomp t) HW); [exact H|]. apply (HS (x, w) c); [by left|done].
  Qed.
  Lemma le_all_after t x w R a : StrictWeakOrder (kcomp t) -> ksorted t ((x, w) :: R) -> kcomp t (kov t w) (kov t a) = false ->
    forall c, c ∈ (x, w) :: R -> kcomp t (kov t c.2) (kov t a) = false.
  Proof.
    intros HW HS H c [->|Hc]%elem_of_cons; [done|]. change ((x, w) :: R) with ([(x, w)] ++ R) in HS. apply ksorted_app in HS as (_&_&HS).
    eapply (swo_le_trans (kcomp t) HW); [exact H|]. apply (HS (x, w) c); [by left|done].
  Qed.
  Lemma rb_ND m t cs : is_rbtree m t cs -> NoDup (hdr t :: cs.*1).
  Proof. intros (_&H&_). by apply holds_nodes in H as [? _]. Qed.
  Lemma rb_val m t cs x w : is_rbtree m t cs -> (x, w) ∈ cs -> valof m (Some x) = Ok w.
  Proof. intros (_&(T&HT&<-)&_) Hx. by eapply val_ok. Qed.
  Lemma rb_nkey m t cs x w : is_rbtree m t cs -> (x, w) ∈ cs -> nkey t m (Some x) = Ok (kov t w).
  Proof. intros HB Hx. unfold nkey. by rewrite (rb_val _ _ _ _ _ HB Hx). Qed.
  Lemma rb_left m t cs : is_rbtree m t cs -> left m (Some (hdr t)) = Ok (first_loc (hdr t) cs).
  Proof. intros (_&(T&[(Hh&_) _]&<-)&_). by rewrite (left_ok _ _ _ Hh). Qed.
  Lemma rb_right m t cs : is_rbtree m t cs -> right m (Some (hdr t)) = Ok (last_loc (hdr t) cs).
  Proof. intros (_&(T&[(Hh&_) _]&<-)&_). by rewrite (right_ok _ _ _ Hh). Qed.
  Lemma first_app_ne hd (L R : list cell) : NoDup (hd :: (L ++ R).*1) -> L <> [] -> first_loc hd R <> first_loc hd (L ++ R).
  Proof.
    intros HN HL E. destruct L as [|[x w] L]; [done|]. cbn [app] in *. rewrite first_loc_cons in E. destruct R as [|[y u] R].
    - injection E as ->. cbn in HN. apply NoDup_cons in HN as [HN _]. apply HN. by left.
    - rewrite first_loc_cons in E. injection E as ->. cbn in HN. rewrite fmap_app in HN. cbn in HN.
      apply NoDup_cons in HN as [_ HN]. apply NoDup_cons in HN as [HN _]. apply HN. apply elem_of_app. right. by left.
  Qed.
  Lemma first_ne_hd hd (R : list cell) : NoDup (hd :: R.*1) -> R <> [] -> first_loc hd R <> Some hd.
  Proof. intros HN HR E. destruct R as [|[y u] R]; [done|]. rewrite first_loc_cons in E. injection E as ->. cbn in HN. apply NoDup_cons in HN as [HN _]. apply HN. by left. Qed.

  (** insertion in front of a non-empty tree, behind one, and in the middle *)
  Lemma add_first t h v a x w R : is_rbtree (mem h) t ((x, w) :: R) -> valued (mem h) v a -> kcomp t (kov t w) (kov t a) = false ->
    added h t ((x, w) :: R) 0 a (insert_node alloc t h (Some x) (Some x) v).
  Proof.
    intros HB Hv Hw. pose proof HB as (HW&(T&HT&Hc)&_&HS). destruct (gap_first T x w R Hc) as (k&c&r&E&EL&ER).
    change (Some x) with (Some (cpar (hdr t) (FL c x w r :: k))) at 2. rewrite <- E in HT.
    pose proof (pos_added t h (Some x) (FL c x w r :: k) v a ((x, w) :: R) HB HT) as H. rewrite EL, ER in H.
    apply H; [done|done|by left| |by apply le_all_after]. intros d Hd. by apply elem_of_nil in Hd.
  Qed.
  Lemma add_last t h v a x w L : is_rbtree (mem h) t (L ++ [(x, w)]) -> valued (mem h) v a -> kcomp t (kov t a) (kov t w) = false ->
    added h t (L ++ [(x, w)]) (length (L ++ [(x, w)])) a (insert_node alloc t h None (Some x) v).
  Proof.
    intros HB Hv Hw. pose proof HB as (HW&(T&HT&Hc)&_&HS). pose proof (is_tree_ND _ _ _ HT) as HN. apply NoDup_cons in HN as [_ HN].
    destruct (gap_after T L x w [] Hc HN) as (k&c&l&r&->&[(->&EL&ER)|(y&u&R'&k'&c'&r'&_&Hne&_)]); [|done].
    change (Some x) with (Some (cpar (hdr t) (FR c l x w :: k))).
    pose proof (pos_added t h None (FR c l x w :: k) v a (L ++ [(x, w)]) HB HT) as H. rewrite EL, ER in H.
    apply H; [by rewrite app_nil_r|done|done|by apply le_all_before|]. intros d Hd. by apply elem_of_nil in Hd.
  Qed.
  Lemma add_middle t h v a L x w y u R : is_rbtree (mem h) t (L ++ (x, w) :: (y, u) :: R) -> valued (mem h) v a ->
    kcomp t (kov t a) (kov t w) = false -> kcomp t (kov t u) (kov t a) = false ->
    added h t (L ++ (x, w) :: (y, u) :: R) (S (length L)) a
      (do hr <- has_right (mem h) (Some x);
       if negb hr then insert_node alloc t h None (Some x) v else insert_node alloc t h (Some y) (Some y) v).
  Proof.
    intros HB Hv Hw Hu. pose proof HB as (HW&(T&HT&Hc)&_&HS). pose proof (is_tree_ND _ _ _ HT) as HN. apply NoDup_cons in HN as [_ HN].
    assert (HS1 : ksorted t (L ++ [(x, w)]) /\ ksorted t ((y, u) :: R)).
    { change (ksorted t (L ++ [(x, w)] ++ (y, u) :: R)) in HS. rewrite app_assoc in HS. by apply ksorted_app in HS as (?&?&_). }
    destruct HS1 as [HS1 HS2].
    destruct (gap_after T L x w _ Hc HN) as (k&c&l&r&E&Hg). pose proof HT as [HR _]. rewrite E in HR.
    unfold has_right. rewrite (R_right _ _ _ _ _ _ _ _ _ _ HR). cbn [rbind].
    assert (Elen : S (length L) = length (L ++ [(x, w)])) by (rewrite app_length; cbn; lia). rewrite Elen.
    destruct Hg as [(->&EL&ER)|(y'&u'&R'&k'&c'&r'&Hr&[= <- <- <-]&ET&EL&ER)].
    - cbn [root]. rewrite bool_decide_false by auto. cbn [negb]. change (Some x) with (Some (cpar (hdr t) (FR c l x w :: k))). rewrite E in HT.
      pose proof (pos_added t h None (FR c l x w :: k) v a _ HB HT) as H. rewrite EL, ER in H.
      apply H; [by rewrite <- app_assoc|done|done|by apply le_all_before|by apply le_all_after].
    - rewrite bool_decide_true. 2:{ destruct r; done. }
      cbn [negb]. change (Some y) with (Some (cpar (hdr t) (FL c' y u r' :: k'))) at 2. rewrite <- ET in HT.
      pose proof (pos_added t h (Some y) (FL c' y u r' :: k') v a _ HB HT) as H. rewrite EL, ER in H.
      apply H; [by rewrite <- app_assoc|done|by left|by apply le_all_before|by apply le_all_after].
  Qed.

  Lemma upper_at t a L R : (forall c, c ∈ L -> kcomp t a (kov t c.2) = false) -> (forall c, c ∈ R -> kcomp t a (kov t c.2) = true) ->
    upper_index (kcomp t) (kov t) a (L ++ R).*2 = length L.
  Proof.
    intros H1 H2. apply (filter_split (fun w => negb (kcomp t a (kov t w)))); intros c Hc; [by rewrite H1|by rewrite H2].
  Qed.
  Lemma strict_unique t h L R a r : StrictWeakOrder (kcomp t) ->
    (forall c, c ∈ L -> kcomp t (kov t c.2) (kov t a) = true) -> (forall c, c ∈ R -> kcomp t (kov t a) (kov t c.2) = true) ->
    added h t (L ++ R) (length L) a r -> unique_post h t (L ++ R) a r.
  Proof.
    intros HW H1 H2 Hr. left. rewrite upper_at; [|intros c Hc; by apply (swo_asym (kcomp t) HW), H1|done]. split; [|done].
    apply present_false. intros c [Hc|Hc]%elem_of_app; unfold eq_key, equivb; [rewrite (H1 c Hc)|rewrite (H2 c Hc)]; by rewrite ?andb_false_r.
  Qed.
  Lemma hint_cases t h cs i : is_rbtree (mem h) t cs -> i <= length cs ->
    (cs = [] /\ i = 0) \/ (exists x w R, cs = (x, w) :: R /\ i = 0) \/ (exists L x w, cs = L ++ [(x, w)] /\ i = length cs) \/
    (exists L x w y u R, cs = L ++ (x, w) :: (y, u) :: R /\ i = S (length L)).
  Proof.
    intros _ Hi. destruct (decide (i = 0)) as [->|H0].
    { destruct cs as [|[x w] R]; [by left|]. right. left. by exists x, w, R. }
    right. right. destruct (decide (i = length cs)) as [->|Hl].
    - left. destruct (exists_last (l := cs)) as (L&[x w]&->); [by intros ->|]. by exists L, x, w.
    - right. destruct (lookup_lt_is_Some_2 cs (i - 1)) as [[x w] Hx]; [lia|]. destruct (lookup_lt_is_Some_2 cs i) as [[y u] Hy]; [lia|].
      exists (take (i - 1) cs), x, w, y, u, (drop (S i) cs). split; [|rewrite take_length; lia].
      rewrite <- (take_drop_middle cs (i - 1) _ Hx) at 1. f_equal. f_equal. replace (S (i - 1)) with i by lia. by apply drop_S.
  Qed.
  Lemma drop_mid L (x : cell) R : drop (S (length L)) (L ++ x :: R) = R.
  Proof. rewrite drop_app_ge by lia. by replace (S (length L) - length L) with 1 by lia. Qed.
  Lemma insert_unique_ok t h cs i v a : is_rbtree (mem h) t cs -> i <= length cs -> valued (mem h) v a ->
    unique_post h t cs a (c_tree_insert_unique alloc t h (first_loc (hdr t) (drop i cs)) v).
  Proof.
    intros HB Hi Hv. pose proof (unique_value_ok t h cs v a HB Hv) as Hdef. pose proof HB as (HW&HH&Hc&HS). pose proof (rb_ND _ _ _ HB) as HN.
    unfold c_tree_insert_unique. rewrite (rb_left _ _ _ HB). cbn [rbind].
    destruct (hint_cases t h cs i HB Hi) as [(->&->)|[(x&w&R&->&->)|[(L&x&w&->&->)|(L&x&w&y&u&R&->&->)]]].
    - cbn [drop]. rewrite decide_True by done. rewrite Hc. cbn [length Nat.ltb Nat.leb rbind]. done.
    - cbn [drop]. rewrite decide_True by done. rewrite first_loc_cons in *. rewrite Hc. cbn [length]. rewrite (proj2 (Nat.ltb_lt 0 (S (length R)))) by lia.
      rewrite (vkey_ok _ _ _ _ Hv). cbn [rbind]. rewrite (rb_nkey _ _ _ x w HB) by (by left). cbn [rbind].
      destruct (kcomp t (kov t a) (kov t w)) eqn:E; [|done].
      change ((x, w) :: R) with ([] ++ (x, w) :: R). apply strict_unique; [done| | |].
      + intros c Hcc. by apply elem_of_nil in Hcc.
      + by apply lt_all_after.
      + apply add_first; [done|done|]. by apply (swo_asym (kcomp t) HW).
    - rewrite drop_all. change (first_loc (hdr t) []) with (Some (hdr t)). rewrite decide_False.
      2:{ intros E. symmetry in E. revert E. apply first_ne_hd; [done|by destruct L]. }
      rewrite decide_True by done. rewrite (rb_right _ _ _ HB). cbn [rbind]. rewrite last_loc_snoc in *.
      rewrite (rb_nkey _ _ _ x w HB) by (apply elem_of_app; right; by left). cbn [rbind]. rewrite (vkey_ok _ _ _ _ Hv). cbn [rbind].
      destruct (kcomp t (kov t w) (kov t a)) eqn:E; [|done].
      pose proof (strict_unique t h (L ++ [(x, w)]) [] a) as H. rewrite app_nil_r in H. apply H; [done| | |].
      + by apply lt_all_before.
      + intros c Hcc. by apply elem_of_nil in Hcc.
      + apply add_last; [done|done|]. by apply (swo_asym (kcomp t) HW).
    - rewrite drop_mid. assert (E1 : L ++ (x, w) :: (y, u) :: R = (L ++ [(x, w)]) ++ (y, u) :: R) by by rewrite <- app_assoc.
      rewrite decide_False.
      2:{ rewrite E1. apply first_app_ne; [by rewrite <- E1|by destruct L]. }
      rewrite first_loc_cons. rewrite decide_False.
      2:{ rewrite <- (first_loc_cons (hdr t) y u R). apply first_ne_hd; [|done]. rewrite E1, fmap_app in HN.
          apply NoDup_cons in HN as [Hn1 Hn2]. apply NoDup_app in Hn2 as (_&_&Hn2). apply NoDup_cons. split; [|done]. intros Hq. apply Hn1. apply elem_of_app. by right. }
      pose proof HH as (T&HT&HTc). pose proof (prev_at (mem h) (hdr t) T L x w ((y, u) :: R) HT HTc) as Hd. rewrite first_loc_cons in Hd. rewrite Hd. cbn [rbind].
      rewrite (rb_nkey _ _ _ x w HB) by (apply elem_of_app; right; by left). cbn [rbind]. rewrite (vkey_ok _ _ _ _ Hv). cbn [rbind].
      assert (HS1 : ksorted t (L ++ [(x, w)]) /\ ksorted t ((y, u) :: R)).
      { change (ksorted t (L ++ (x, w) :: (y, u) :: R)) in HS. rewrite E1 in HS. by apply ksorted_app in HS as (?&?&_). }
      destruct HS1 as [HS1 HS2].
      destruct (kcomp t (kov t w) (kov t a)) eqn:E; [|done]. rewrite (rb_nkey _ _ _ y u HB) by (apply elem_of_app; right; right; by left). cbn [rbind].
      destruct (kcomp t (kov t a) (kov t u)) eqn:E'; [|done].
      pose proof (strict_unique t h (L ++ [(x, w)]) ((y, u) :: R) a) as H. rewrite <- E1 in H.
      replace (length (L ++ [(x, w)])) with (S (length L)) in H by (rewrite app_length; cbn; lia). apply H; [done| | |].
      + by apply lt_all_before.
      + by apply lt_all_after.
      + apply add_middle; [done|done| |]; by apply (swo_asym (kcomp t) HW).
  Qed.
  Lemma fits_spec t cs i a : fits (kcomp t) (kov t) i a cs.*2 = true <->
    (forall c, c ∈ take i cs -> kcomp t (kov t a) (kov t c.2) = false) /\ (forall c, c ∈ drop i cs -> kcomp t (kov t c.2) (kov t a) = false).
  Proof.
    unfold fits. rewrite andb_true_iff, !forallb_forall, <- fmap_take, <- fmap_drop. split; intros [H1 H2]; split.
    - intros c Hc. apply negb_true_iff, H1, elem_of_list_In, elem_of_list_fmap. by exists c.
    - intros c Hc. apply negb_true_iff, H2, elem_of_list_In, elem_of_list_fmap. by exists c.
    - intros x (c&->&Hc)%elem_of_list_In%elem_of_list_fmap. by apply negb_true_iff, H1.
    - intros x (c&->&Hc)%elem_of_list_In%elem_of_list_fmap. by apply negb_true_iff, H2.
  Qed.
  Definition equal_index t cs (i : nat) a : nat :=
    if fits (kcomp t) (kov t) i a cs.*2 then i else upper_index (kcomp t) (kov t) (kov t a) cs.*2.
  Lemma insert_equal_ok t h cs i v a : is_rbtree (mem h) t cs -> i <= length cs -> valued (mem h) v a ->
    added h t cs (equal_index t cs i a) a (c_tree_insert_equal alloc t h (first_loc (hdr t) (drop i cs)) v).
  Proof.
    intros HB Hi Hv. pose proof (equal_value_ok t h cs v a HB Hv) as Hdef. pose proof HB as (HW&HH&Hc&HS). pose proof (rb_ND _ _ _ HB) as HN.
    unfold c_tree_insert_equal. rewrite (rb_left _ _ _ HB). cbn [rbind]. unfold equal_index. pose proof (fits_spec t cs i a) as HF.
    destruct (hint_cases t h cs i HB Hi) as [(->&->)|[(x&w&R&->&->)|[(L&x&w&->&->)|(L&x&w&y&u&R&->&->)]]].
    - cbn [drop]. rewrite decide_True by done. rewrite Hc. cbn [length Nat.ltb Nat.leb rbind]. cbn [upper_index fmap list_fmap List.filter length fits take drop forallb andb] in *. done.
    - cbn [drop]. rewrite decide_True by done. rewrite first_loc_cons in *. rewrite Hc. cbn [length]. rewrite (proj2 (Nat.ltb_lt 0 (S (length R)))) by lia.
      rewrite (rb_nkey _ _ _ x w HB) by (by left). cbn [rbind]. rewrite (vkey_ok _ _ _ _ Hv). cbn [rbind].
      destruct (kcomp t (kov t w) (kov t a)) eqn:E; cbn [negb].
      + destruct (fits _ _ _ _ _); [|done]. destruct HF as [HF _]. destruct HF as [_ HF]; [done|]. exfalso; unshelve epose proof (HF (x, w) _) as Hq; [by left|cbn in Hq; congruence].
      + rewrite (proj2 HF); [by apply add_first|]. split; [intros c Hcc; by apply elem_of_nil in Hcc|by apply le_all_after].
    - rewrite drop_all in *. change (first_loc (hdr t) []) with (Some (hdr t)). rewrite decide_False.
      2:{ intros E. symmetry in E. revert E. apply first_ne_hd; [done|by destruct L]. }
      rewrite decide_True by done. rewrite (vkey_ok _ _ _ _ Hv). cbn [rbind]. rewrite (rb_right _ _ _ HB). cbn [rbind]. rewrite last_loc_snoc in *.
      rewrite (rb_nkey _ _ _ x w HB) by (apply elem_of_app; right; by left). cbn [rbind]. rewrite firstn_all in HF.
      destruct (kcomp t (kov t a) (kov t w)) eqn:E; cbn [negb].
      + destruct (fits _ _ _ _ _); [|done]. destruct HF as [HF _]. destruct HF as [HF _]; [done|]. exfalso; unshelve epose proof (HF (x, w) _) as Hq; [apply elem_of_app; right; by left|cbn in Hq; congruence].
      + rewrite (proj2 HF); [by apply add_last|]. split; [by apply le_all_before|intros c Hcc; by apply elem_of_nil in Hcc].
    - rewrite drop_mid in *. assert (E1 : L ++ (x, w) :: (y, u) :: R = (L ++ [(x, w)]) ++ (y, u) :: R) by by rewrite <- app_assoc.
      rewrite decide_False.
      2:{ rewrite E1. apply first_app_ne; [by rewrite <- E1|by destruct L]. }
      rewrite first_loc_cons. rewrite decide_False.
      2:{ rewrite <- (first_loc_cons (hdr t) y u R). apply first_ne_hd; [|done]. rewrite E1, fmap_app in HN.
          apply NoDup_cons in HN as [Hn1 Hn2]. apply NoDup_app in Hn2 as (_&_&Hn2). apply NoDup_cons. split; [|done]. intros Hq. apply Hn1. apply elem_of_app. by right. }
      pose proof HH as (T&HT&HTc). pose proof (prev_at (mem h) (hdr t) T L x w ((y, u) :: R) HT HTc) as Hd. rewrite first_loc_cons in Hd. rewrite Hd. cbn [rbind].
      rewrite (vkey_ok _ _ _ _ Hv). cbn [rbind].
      rewrite (rb_nkey _ _ _ x w HB) by (apply elem_of_app; right; by left). cbn [rbind].
      assert (HS1 : ksorted t (L ++ [(x, w)]) /\ ksorted t ((y, u) :: R)).
      { change (ksorted t (L ++ (x, w) :: (y, u) :: R)) in HS. rewrite E1 in HS. by apply ksorted_app in HS as (?&?&_). }
      destruct HS1 as [HS1 HS2].
      assert (Etk : take (S (length L)) (L ++ (x, w) :: (y, u) :: R) = L ++ [(x, w)]).
      { rewrite E1. replace (S (length L)) with (length (L ++ [(x, w)])) by (rewrite app_length; cbn; lia). by rewrite take_app. }
      rewrite Etk in HF.
      destruct (kcomp t (kov t a) (kov t w)) eqn:E; cbn [negb rbind].
      { destruct (fits _ _ _ _ _); [|done]. destruct HF as [HF _]. destruct HF as [HF _]; [done|]. exfalso; unshelve epose proof (HF (x, w) _) as Hq; [apply elem_of_app; right; by left|cbn in Hq; congruence]. }
      rewrite (rb_nkey _ _ _ y u HB) by (apply elem_of_app; right; right; by left). cbn [rbind].
      destruct (kcomp t (kov t u) (kov t a)) eqn:E'; cbn [negb rbind].
      { destruct (fits _ _ _ _ _); [|done]. destruct HF as [HF _]. destruct HF as [_ HF]; [done|]. exfalso; unshelve epose proof (HF (y, u) _) as Hq; [by left|cbn in Hq; congruence]. }
      rewrite (proj2 HF); [|split; [by apply le_all_before|by apply le_all_after]]. by apply add_middle.
  Qed.
  (** ** ranges of values outside the tree *)
  Lemma put_snd cs i x (a : V) : (seq_insert i [(x, a)] cs).*2 = seq_insert i [a] cs.*2.
  Proof. unfold seq_insert. rewrite !fmap_app, fmap_take, fmap_drop. done. Qed.
  Lemma equal_range_insert_ok vs : forall t h cs, is_rbtree (mem h) t cs ->
    exists h' t' cs', c_tree_insert_equal_range alloc t h vs = Ok (h', t') /\ tupd h t cs h' t' cs' [] /\
      cs'.*2 = fold_left (fun l a => put_equal (kcomp t) (kov t) a l) vs cs.*2.
  Proof.
    induction vs as [|a vs IH]; intros t h cs HB; cbn [c_tree_insert_equal_range fold_left].
    - exists h, t, cs. split; [done|]. split; [by apply tupd_refl|done].
    - destruct (equal_value_ok t h cs (RVal a) a HB eq_refl) as (h1&x&->&_&HU). cbn [rbind]. pose proof HU as (_&HB1&_&_).
      destruct (IH _ _ _ HB1) as (h2&t2&c2&E&HU2&Hv). exists h2, t2, c2. split; [done|]. split; [exact (tupd_trans _ _ _ _ _ _ _ _ _ [] [] HU HU2)|].
      cbn [sized kcomp kov] in Hv. rewrite Hv. by rewrite put_snd.
  Qed.
  Lemma unique_range_insert_ok vs : forall t h cs, is_rbtree (mem h) t cs ->
    exists h' t' cs', c_tree_insert_unique_range alloc t h vs = Ok (h', t') /\ tupd h t cs h' t' cs' [] /\
      cs'.*2 = fold_left (fun l a => put_unique (kcomp t) (kov t) a l) vs cs.*2.
  Proof.
    induction vs as [|a vs IH]; intros t h cs HB; cbn [c_tree_insert_unique_range fold_left].
    - exists h, t, cs. split; [done|]. split; [by apply tupd_refl|done].
    - destruct (unique_value_ok t h cs (RVal a) a HB eq_refl) as [(Hp&h1&x&->&_&HU)|(x&w&Hx&Hw&->)]; cbn [rbind].
      + pose proof HU as (_&HB1&_&_).
        destruct (IH _ _ _ HB1) as (h2&t2&c2&E&HU2&Hv). exists h2, t2, c2. split; [done|]. split; [exact (tupd_trans _ _ _ _ _ _ _ _ _ [] [] HU HU2)|].
        cbn [sized kcomp kov] in Hv. rewrite Hv. assert (put_unique (kcomp t) (kov t) a cs.*2 = put_equal (kcomp t) (kov t) a cs.*2) as -> by (unfold put_unique; by rewrite Hp). by rewrite put_snd.
      + destruct (IH _ _ _ HB) as (h2&t2&c2&E&HU2&Hv). exists h2, t2, c2. split; [done|]. split; [done|]. rewrite Hv. f_equal.
        unfold put_unique. by rewrite (present_true t (kov t a) cs x w Hx Hw).
  Qed.

  (** ** erasure *)
  Lemma erase_upd t h L x w R : is_rbtree (mem h) t (L ++ (x, w) :: R) ->
    exists h' t', c_tree_erase t h (Some x) = Ok (h', t', first_loc (hdr t) R) /\ tupd h t (L ++ (x, w) :: R) h' t' (L ++ R) [w].
  Proof.
    intros HB. destruct (erase_ok t h L x w R HB) as (m'&E&H1&H2). eexists _, _. split; [exact E|]. split; [|done].
    pose proof HB as (_&_&Hc&_). unfold dec, sized. f_equal. rewrite Hc, !app_length. cbn. lia.
  Qed.
  Lemma clear_upd t h cs : is_rbtree (mem h) t cs ->
    exists h' t', c_tree_clear t h = Ok (h', t') /\ tupd h t cs h' t' [] (rev cs.*2).
  Proof. intros HB. destruct (clear_ok t h cs HB) as (m'&E&H1&H2). eexists _, _. split; [exact E|]. split; [done|]. done. Qed.
  Lemma erase_range_loop_ok es : forall t h L R fuel, is_rbtree (mem h) t (L ++ es ++ R) -> length es < fuel ->
    exists h' t', erase_range_loop fuel t h (first_loc (hdr t) (es ++ R)) (first_loc (hdr t) R) = Ok (h', t') /\
      tupd h t (L ++ es ++ R) h' t' (L ++ R) es.*2.
  Proof.
    induction es as [|[x w] es IH]; intros t h L R fuel HB Hf; (destruct fuel as [|fuel]; [cbn in Hf; lia|]); cbn [erase_range_loop app length] in *.
    - rewrite decide_True by done. exists h, t. split; [done|by apply tupd_refl].
    - rewrite decide_False.
      2:{ intros E. symmetry in E. revert E. change ((x, w) :: es ++ R) with (((x, w) :: es) ++ R). apply first_app_ne; [|done].
          pose proof (rb_ND _ _ _ HB) as HN. rewrite fmap_app in HN. apply NoDup_cons in HN as [Hn1 Hn2]. apply NoDup_app in Hn2 as (_&_&Hn2).
          apply NoDup_cons. split; [|done]. intros Hq. apply Hn1. apply elem_of_app. by right. }
      rewrite first_loc_cons. destruct (erase_upd t h L x w (es ++ R) HB) as (h1&t1&->&HU). cbn [rbind].
      pose proof HU as (Ht1&HB1&_&_). destruct (IH t1 h1 L R fuel HB1) as (h2&t2&E&HU2); [lia|].
      assert (hdr t1 = hdr t) as Eh by by rewrite Ht1. rewrite Eh in E. rewrite E. exists h2, t2. split; [done|].
      exact (tupd_trans _ _ _ _ _ _ _ _ _ _ _ HU HU2).
  Qed.
  Lemma erase_range_upd t h cs i j : is_rbtree (mem h) t cs -> i <= j <= length cs ->
    exists h' t', c_tree_erase_range t h (first_loc (hdr t) (drop i cs)) (first_loc (hdr t) (drop j cs)) = Ok (h', t') /\
      tupd h t cs h' t' (seq_delete i j cs) (if (i =? 0) && (j =? length cs) then rev cs.*2 else (take (j - i) (drop i cs)).*2).
  Proof.
    intros HB Hij. unfold c_tree_erase_range. rewrite (rb_left _ _ _ HB). cbn [rbind]. pose proof (rb_ND _ _ _ HB) as HN.
    assert (Ed : drop i cs = take (j - i) (drop i cs) ++ drop j cs).
    { rewrite <- (take_drop (j - i) (drop i cs)) at 1. f_equal. rewrite drop_drop. f_equal. lia. }
    destruct ((i =? 0) && (j =? length cs)) eqn:E.
    - apply andb_true_iff in E as [->%Nat.eqb_eq ->%Nat.eqb_eq]. rewrite decide_True by by rewrite drop_all. unfold seq_delete. rewrite drop_all. cbn [take app].
      by apply clear_upd.
    - rewrite decide_False.
      2:{ intros [H1 H2]. assert (i = 0) as ->.
          { destruct (decide (i = 0)); [done|]. exfalso. revert H1. rewrite <- (take_drop i cs) at 2. apply first_app_ne; [by rewrite take_drop|].
            intros Ht. apply (f_equal length) in Ht. rewrite take_length in Ht. cbn in Ht. lia. }
          assert (Hj : j <> length cs) by (intros ->; rewrite !Nat.eqb_refl in E; done). exfalso. revert H2. apply first_ne_hd.
          - rewrite <- (take_drop j cs), fmap_app in HN. apply NoDup_cons in HN as [Hn1 Hn2]. apply NoDup_app in Hn2 as (_&_&Hn2).
            apply NoDup_cons. split; [|done]. intros Hq. apply Hn1. apply elem_of_app. by right.
          - intros Ht. apply (f_equal length) in Ht. rewrite drop_length in Ht. cbn in Ht. lia. }
      assert (Ec : cs = take i cs ++ take (j - i) (drop i cs) ++ drop j cs) by (rewrite <- Ed; by rewrite take_drop).
      unfold seq_delete. pose proof HB as HB0. rewrite Ec in HB0. rename HB into HB1. rename HB0 into HB.
      destruct (erase_range_loop_ok (take (j - i) (drop i cs)) t h (take i cs) (drop j cs) (tfuel (mem h)) HB) as (h'&t'&E'&HU).
      { pose proof HB as (_&(T&HT&HTc)&_). pose proof (is_tree_size _ _ _ HT) as Hs. rewrite HTc, !app_length in Hs. unfold tfuel. lia. }
      exists h', t'. rewrite <- Ed in E'. split; [exact E'|]. by rewrite <- Ec in HU.
  Qed.
  (** the elements between the bounds are those with the key *)
  Lemma between t cs a : StrictWeakOrder (kcomp t) -> ksorted t cs ->
    lower_index (kcomp t) (kov t) a cs.*2 <= upper_index (kcomp t) (kov t) a cs.*2 /\
    seq_delete (lower_index (kcomp t) (kov t) a cs.*2) (upper_index (kcomp t) (kov t) a cs.*2) cs.*2 = without_key (kcomp t) (kov t) a cs.*2 /\
    take (upper_index (kcomp t) (kov t) a cs.*2 - lower_index (kcomp t) (kov t) a cs.*2) (drop (lower_index (kcomp t) (kov t) a cs.*2) cs.*2) = with_key (kcomp t) (kov t) a cs.*2.
  Proof.
    intros HW HS. unfold ksorted in HS. generalize dependent cs.*2. clear cs. intros l HS.
    unfold lower_index, upper_index, without_key, with_key, same_key, equivb, seq_delete.
    induction l as [|w l IH]; [done|]. cbn [fmap list_fmap] in HS. apply (sorted_cons (kcomp t)) in HS as [Hw HS]. specialize (IH HS).
    assert (Hw' : forall u, In u l -> kcomp t (kov t u) (kov t w) = false).
    { intros u Hu. rewrite Forall_forall in Hw. apply Hw, elem_of_list_In. by apply (in_map (kov t)). }
    assert (Hnone : kcomp t (kov t w) a = false -> forall u, In u l -> kcomp t (kov t u) a = false).
    { intros H u Hu. eapply (swo_le_trans (kcomp t) HW); [exact H|]. by apply Hw'. }
    assert (Hnone' : kcomp t a (kov t w) = true -> forall u, In u l -> kcomp t a (kov t u) = true).
    { intros H u Hu. eapply (swo_lt_le_trans (kcomp t) HW); [exact H|]. by apply Hw'. }
    cbn [List.filter]. destruct (kcomp t (kov t w) a) eqn:E1.
    - rewrite (swo_asym (kcomp t) HW _ _ E1). cbn [negb andb length]. destruct IH as (I1&I2&I3). split; [lia|]. cbn [take drop app Nat.sub]. split; [by rewrite I2|done].
    - rewrite (filter_none (fun u => kcomp t (kov t u) a) l) in *. 2-3: intros u Hu; apply Hnone; [done|by apply elem_of_list_In].
      cbn [length take drop app negb] in *. rewrite andb_true_r. destruct (kcomp t a (kov t w)) eqn:E2; cbn [negb].
      + assert (Hz : List.filter (fun u => negb (kcomp t a (kov t u))) l = []).
        { apply filter_none. intros u Hu. by rewrite (Hnone' eq_refl u) by by apply elem_of_list_In. }
        rewrite Hz in *. cbn [length take drop app Nat.sub] in *. destruct IH as (I1&I2&I3). split; [lia|]. split; [by rewrite <- I2|done].
      + cbn [length Nat.sub take drop]. destruct IH as (I1&I2&I3). rewrite Nat.sub_0_r in I3. rewrite drop_0 in I3. split; [lia|]. split; [done|by rewrite I3].
  Qed.
  Lemma erase_key_ok t h cs key a : is_rbtree (mem h) t cs -> kvalued t (mem h) key a ->
    exists h' t' cs', c_tree_erase_key t h key = Ok (h', t', length (with_key (kcomp t) (kov t) a cs.*2)) /\
      cs' = seq_delete (lower_index (kcomp t) (kov t) a cs.*2) (upper_index (kcomp t) (kov t) a cs.*2) cs /\
      cs'.*2 = without_key (kcomp t) (kov t) a cs.*2 /\
      tupd h t cs h' t' cs' (if length (with_key (kcomp t) (kov t) a cs.*2) =? length cs then rev (with_key (kcomp t) (kov t) a cs.*2) else with_key (kcomp t) (kov t) a cs.*2).
  Proof.
    intros HB Hk. unfold c_tree_erase_key. rewrite (lower_bound_ok _ _ _ _ _ HB Hk). cbn [rbind]. rewrite (upper_bound_ok _ _ _ _ _ HB Hk). cbn [rbind].
    pose proof HB as (HW&_&_&HS). destruct (between t cs a HW HS) as (Hle&Hwo&Hwi). pose proof (upper_le t a cs) as Hu.
    set (i := lower_index (kcomp t) (kov t) a cs.*2) in *. set (j := upper_index (kcomp t) (kov t) a cs.*2) in *.
    rewrite (rb_distance_ok _ _ _ i j HB) by lia. cbn [rbind].
    assert (Hlen : length (with_key (kcomp t) (kov t) a cs.*2) = j - i). { rewrite <- Hwi, take_length, drop_length, fmap_length. lia. }
    destruct (erase_range_upd t h cs i j HB) as (h'&t'&->&HU); [lia|]. cbn [rbind]. eexists h', t', _. rewrite Hlen. split; [done|]. split; [done|].
    split; [unfold seq_delete in *; by rewrite fmap_app, fmap_take, fmap_drop|].
    rewrite fmap_take, fmap_drop, Hwi in HU. destruct ((i =? 0) && (j =? length cs)) eqn:E.
    - apply andb_true_iff in E as [E1%Nat.eqb_eq E2%Nat.eqb_eq]. rewrite (proj2 (Nat.eqb_eq (j - i) (length cs))) by lia.
      rewrite <- Hwi. rewrite (take_ge (drop i cs.*2)) by (rewrite drop_length, fmap_length; lia). rewrite E1 at 2. by rewrite drop_0.
    - rewrite (proj2 (Nat.eqb_neq (j - i) (length cs))); [done|]. apply andb_false_iff in E as [E%Nat.eqb_neq|E%Nat.eqb_neq]; lia.
  Qed.
End modify.
