(** TreeAny.v — tree objects whose comparator is any function at all.  The functions that do not compare are
    reduced to the ordered case: they do not read the comparator, and with the comparator that is always false
    (a strict weak order) every sequence is sorted. *)
From Verif Require Import Base Spec SpecSeq SpecListOps SpecTreeOps Facts DList Tree SpecTree TreeRep TreeInsert TreeErase TreeIter TreeUnlink TreeApi TreeOps TreeLookup TreeMod.
From stdpp Require Import list gmap.

Section spec.
  Context {K V : Type}.
  (** the header heads a well-formed red-black tree with cells [cs], and the element count is right *)
  Definition any_tree (m : gmap loc (tnode V)) (t : tobj K V) (cs : list (loc * V)) : Prop :=
    holds m (hdr t) cs /\ cnt t = length cs.
  (** [aupd h t cs h' t' cs' gone]: as [tupd], without any order *)
  Definition aupd (h : theap V) (t : tobj K V) (cs : list (loc * V)) (h' : theap V) (t' : tobj K V) cs' (gone : list V) : Prop :=
    t' = sized t (length cs') /\ any_tree (mem h') t' cs' /\
    tstep (mem h) (mem h') (tnodes (hdr t) cs) (tnodes (hdr t) cs') /\ tdead h' = tdead h ++ gone.
  (** the comparator never says both that [x] comes before [y] and that [y] comes before [x] *)
  Definition asymmetric (comp : K -> K -> bool) : Prop := forall x y, comp x y = true -> comp y x = false.
End spec.

Section any.
  Context {K V : Type} (alloc : gmap loc (tnode V) -> loc) (Ha : tmalloc_ok alloc).
  Notation M := (gmap loc (tnode V)).
  Notation ctx := (list (frame V)).
  Notation cell := (loc * V)%type.
  Implicit Types (m : M) (h : theap V) (t : tobj K V) (k : ctx) (cs L R : list cell).

  Definition loose t : tobj K V := TObj (hdr t) (cnt t) (fun _ _ => false) (kov t).
  Definition retype t (l : tobj K V) : tobj K V := TObj (hdr l) (cnt l) (kcomp t) (kov t).
  Lemma false_swo : StrictWeakOrder (fun _ _ : K => false).
  Proof. split; by intros. Qed.
  Lemma any_loose m t cs : any_tree m t cs -> is_rbtree m (loose t) cs.
  Proof. intros [H1 H2]. split; [apply false_swo|]. split; [done|]. split; [done|]. by intros i j x y _ _ _. Qed.
  Lemma rb_any m t cs : is_rbtree m t cs -> any_tree m t cs.
  Proof. intros (_&H1&H2&_). done. Qed.
  Lemma aupd_refl h t cs : any_tree (mem h) t cs -> aupd h t cs h t cs [].
  Proof. intros HB. split; [|split; [done|split; [apply tstep_refl|by rewrite app_nil_r]]]. destruct HB as (_&<-). apply tobj_eta. Qed.
  Lemma aupd_trans h1 t1 c1 h2 t2 c2 h3 t3 c3 d1 d2 : aupd h1 t1 c1 h2 t2 c2 d1 -> aupd h2 t2 c2 h3 t3 c3 d2 ->
    aupd h1 t1 c1 h3 t3 c3 (d1 ++ d2).
  Proof.
    intros (->&H1&H2&H3) (->&I1&I2&I3). split; [done|]. split; [done|]. split; [by eapply tstep_trans|]. by rewrite I3, H3, app_assoc.
  Qed.
  Lemma loose_aupd h t cs h' lt cs' gone : tupd h (loose t) cs h' lt cs' gone -> aupd h t cs h' (retype t lt) cs' gone.
  Proof. intros (->&HB&H2&H3). split; [done|]. split; [by apply rb_any in HB|]. done. Qed.

  (** ** functions that do not compare *)
  Lemma erase_retype t h p : c_tree_erase t h p = do (r, n) <- c_tree_erase (loose t) h p; let '(h', lt) := r in Ok (h', retype t lt, n).
  Proof.
    unfold c_tree_erase. cbn [hdr loose]. destruct (increment (mem h) p) as [n| |]; cbn [rbind]; [|done|done].
    destruct (rebalance_erase (mem h) (hdr t) p) as [[m en]| |]; cbn [rbind]; [|done|done].
    destruct (destroy_node (THeap m (tdead h)) en) as [h'| |]; done.
  Qed.
  Lemma clear_retype t h : c_tree_clear t h = do (h', lt) <- c_tree_clear (loose t) h; Ok (h', retype t lt).
  Proof.
    unfold c_tree_clear. cbn [hdr loose]. destruct (root_of (mem h) (hdr t)) as [r| |]; cbn [rbind]; [|done|done].
    destruct (erase_all (tfuel (mem h)) h r) as [h1| |]; cbn [rbind]; [|done|done].
    destruct (set_parent (mem h1) (Some (hdr t)) None) as [m1| |]; cbn [rbind]; [|done|done].
    destruct (set_left m1 (Some (hdr t)) (Some (hdr t))) as [m2| |]; cbn [rbind]; [|done|done].
    destruct (set_right m2 (Some (hdr t)) (Some (hdr t))) as [m3| |]; done.
  Qed.
  Lemma retype_loose t lt : kov lt = kov t -> loose (retype t lt) = loose lt.
  Proof. intros E. unfold loose, retype. cbn. by rewrite E. Qed.
  Lemma erase_loop_retype fuel : forall t h p q,
    erase_range_loop fuel t h p q = do (h', lt) <- erase_range_loop fuel (loose t) h p q; Ok (h', retype t lt).
  Proof.
    induction fuel as [|fuel IH]; intros t h p q; [done|]. cbn [erase_range_loop].
    destruct (decide (p = q)) as [->|]; [by destruct t|]. rewrite erase_retype, (erase_retype (loose t)). cbn [loose hdr cnt kov].
    destruct (c_tree_erase (loose (loose t)) h p) as [[[h' lt] nx]| |]; cbn [rbind]; [|done|done].
    rewrite (IH (retype t (retype (loose t) lt))). change (loose (retype t (retype (loose t) lt))) with (retype (loose t) lt).
    destruct (erase_range_loop fuel (retype (loose t) lt) h' nx q) as [[h'' lt']| |]; done.
  Qed.
  Lemma erase_range_retype t h p q : c_tree_erase_range t h p q = do (h', lt) <- c_tree_erase_range (loose t) h p q; Ok (h', retype t lt).
  Proof.
    unfold c_tree_erase_range. cbn [hdr loose]. destruct (left (mem h) (Some (hdr t))) as [lm| |]; cbn [rbind]; [|done|done].
    destruct (decide _); [apply clear_retype|apply erase_loop_retype].
  Qed.
  Lemma aerase_ok t h L x w R : any_tree (mem h) t (L ++ (x, w) :: R) ->
    exists h' t', c_tree_erase t h (Some x) = Ok (h', t', first_loc (hdr t) R) /\ aupd h t (L ++ (x, w) :: R) h' t' (L ++ R) [w].
  Proof.
    intros HB. destruct (erase_upd (loose t) h L x w R (any_loose _ _ _ HB)) as (h'&lt&E&HU). exists h', (retype t lt).
    rewrite erase_retype, E. cbn [rbind]. split; [done|]. by apply loose_aupd.
  Qed.
  Lemma aclear_ok t h cs : any_tree (mem h) t cs ->
    exists h' t', c_tree_clear t h = Ok (h', t') /\ aupd h t cs h' t' [] (rev cs.*2).
  Proof.
    intros HB. destruct (clear_upd (loose t) h cs (any_loose _ _ _ HB)) as (h'&lt&E&HU). exists h', (retype t lt).
    rewrite clear_retype, E. cbn [rbind]. split; [done|]. by apply loose_aupd.
  Qed.
  Lemma aerase_range_ok t h cs i j : any_tree (mem h) t cs -> i <= j <= length cs ->
    exists h' t', c_tree_erase_range t h (first_loc (hdr t) (drop i cs)) (first_loc (hdr t) (drop j cs)) = Ok (h', t') /\
      aupd h t cs h' t' (seq_delete i j cs) (if (i =? 0) && (j =? length cs) then rev cs.*2 else (take (j - i) (drop i cs)).*2).
  Proof.
    intros HB Hij. destruct (erase_range_upd (loose t) h cs i j (any_loose _ _ _ HB) Hij) as (h'&lt&E&HU). exists h', (retype t lt).
    rewrite erase_range_retype. cbn [loose hdr] in E. rewrite E. cbn [rbind]. split; [done|]. by apply loose_aupd.
  Qed.

  (** ** insertion *)
  Definition aadded h t cs (i : nat) (a : V) (r : res (theap V * tobj K V * ptr)) : Prop :=
    exists h' x, r = Ok (h', sized t (S (length cs)), Some x) /\ mem h !! x = None /\
      aupd h t cs h' (sized t (S (length cs))) (seq_insert i [(x, a)] cs) [].
  Lemma apos_added t h hint k v a cs : any_tree (mem h) t cs -> is_tree (mem h) (hdr t) (plug k Lf) -> cs = lcells k ++ rcells k ->
    valued (mem h) v a -> side_ok t hint a k ->
    aadded h t cs (length (lcells k)) a (insert_node alloc t h hint (Some (cpar (hdr t) k)) v).
  Proof.
    intros [_ Hc] HT -> Hv Hs. destruct (insert_node_ok alloc Ha t h hint k v a HT Hv Hs) as (m'&T'&E&HT'&Hc'&HF).
    assert (TObj (hdr t) (S (cnt t)) (kcomp t) (kov t) = sized t (S (length (lcells k ++ rcells k)))) as Ei by (unfold sized; by rewrite Hc).
    rewrite Ei in *. eexists _, _. split; [exact E|]. split; [apply Ha|]. unfold seq_insert. rewrite take_app, drop_app. cbn [app].
    assert (El : S (length (lcells k ++ rcells k)) = length (lcells k ++ (alloc (mem h), a) :: rcells k)) by (rewrite !app_length; cbn; lia).
    split; [by rewrite El|]. split; [split; [by exists T'|by cbn]|]. split; [|by rewrite app_nil_r].
    cbn [mem]. unfold tnodes. split; [|split].
    - intros z H1 H2. apply HF. unfold locs. rewrite cells_plug. cbn [cells app]. rewrite fmap_app in *. cbn in H2. clear - H1 H2. set_solver.
    - intros z H1 H2. exfalso. rewrite fmap_app in *. cbn in H2. clear - H1 H2. set_solver.
    - intros z H1 H2. rewrite fmap_app in *. cbn in H2. assert (z = alloc (mem h)) as -> by (clear - H1 H2; set_solver). apply Ha.
  Qed.
  Lemma adescend_ok t m hd lm rm v a : valued m v a -> forall s k fuel,
    Rep m hd lm rm (plug k s) -> height s < fuel -> side_ok t None a k ->
    exists k', descend fuel t m (Some (cpar hd k)) (root s) (cside k) v = Ok (Some (cpar hd k'), cside k') /\
      plug k' Lf = plug k s /\ side_ok t None a k'.
  Proof.
    intros Hv s. induction s as [|c l IHl x w r IHr]; intros k fuel HR Hf Hk; (destruct fuel as [|fuel]; [lia|]); cbn [descend root].
    - by exists k.
    - rewrite (vkey_ok _ _ _ _ Hv). cbn [rbind]. rewrite (R_nkey t _ _ _ _ _ _ _ _ _ _ HR). cbn [rbind]. cbn [height] in Hf.
      destruct (kcomp t (kov t a) (kov t w)) eqn:Ec.
      + rewrite (R_left _ _ _ _ _ _ _ _ _ _ HR). cbn [rbind].
        destruct (IHl (FL c x w r :: k) fuel HR) as (k'&E&E1&E2); [lia| |by exists k']. cbn [side_ok]. by right.
      + rewrite (R_right _ _ _ _ _ _ _ _ _ _ HR). cbn [rbind].
        destruct (IHr (FR c l x w :: k) fuel HR) as (k'&E&E1&E2); [lia| |by exists k']. by cbn [side_ok].
  Qed.
  Lemma aroot_descend t m T v a : is_tree m (hdr t) T -> valued m v a ->
    exists k, (do r <- root_of m (hdr t); descend (tfuel m) t m (Some (hdr t)) r true v) = Ok (Some (cpar (hdr t) k), cside k) /\
      plug k Lf = T /\ side_ok t None a k.
  Proof.
    intros [HR Hrb] Hv. rewrite (Rep_root _ _ _ _ _ HR). cbn [rbind].
    apply (adescend_ok t m (hdr t) _ _ v a Hv T [] (tfuel m) HR); [|done].
    pose proof (height_le T). pose proof (Rep_size _ _ _ _ _ HR). unfold tfuel. lia.
  Qed.
  Lemma aequal_value_ok t h cs v a : any_tree (mem h) t cs -> valued (mem h) v a ->
    exists i, i <= length cs /\ aadded h t cs i a (c_tree_insert_equal_value alloc t h v).
  Proof.
    intros HB Hv. pose proof HB as ((T&HT&Hcs)&Hc).
    destruct (aroot_descend t (mem h) T v a HT Hv) as (k&E&HkT&Hk). subst T. rewrite cells_plug in Hcs. cbn [cells app] in Hcs. subst cs.
    exists (length (lcells k)). split; [rewrite app_length; lia|]. unfold c_tree_insert_equal_value.
    destruct (root_of (mem h) (hdr t)) as [r| |]; cbn [rbind] in *; [|done|done]. rewrite E. cbn [rbind]. by apply apos_added.
  Qed.
  (** the outcome of an insertion into a set: added somewhere, or refused because of an element the comparator
      does not put before the new one *)
  Definition aunique_post h t cs a (r : res (theap V * tobj K V * ptr)) : Prop :=
    (exists i, i <= length cs /\ aadded h t cs i a r) \/
    (exists x w, (x, w) ∈ cs /\ kcomp t (kov t w) (kov t a) = false /\ r = Ok (h, t, Some x)).
  Lemma aunique_value_ok t h cs v a : any_tree (mem h) t cs -> valued (mem h) v a ->
    aunique_post h t cs a (c_tree_insert_unique_value alloc t h v).
  Proof.
    intros HB Hv. pose proof HB as ((T&HT&Hcs)&Hc).
    destruct (aroot_descend t (mem h) T v a HT Hv) as (k&E&HkT&Hk). subst T. rewrite cells_plug in Hcs. cbn [cells app] in Hcs. subst cs.
    pose proof (apos_added t h None k v a _ HB HT eq_refl Hv Hk) as Hadd.
    assert (Hi : length (lcells k) <= length (lcells k ++ rcells k)) by (rewrite app_length; lia).
    unfold c_tree_insert_unique_value. destruct (root_of (mem h) (hdr t)) as [r| |]; cbn [rbind] in *; [|done|done]. rewrite E. cbn [rbind].
    pose proof HT as [HR _]. pose proof HR as (Hh&_&HN). rewrite (left_ok _ _ _ Hh). cbn [rbind nleft]. unfold locs in HN. rewrite cells_plug in *. cbn [cells app] in *.
    destruct (decide (lcells k = [])) as [Hnil|Hne].
    - assert (cside k = true) as ->. { destruct k as [|[? ? ? ?|? ? ? ?] ?]; [done|done|]. cbn [lcells] in Hnil. by destruct (lcells k), (cells l). }
      rewrite bool_decide_true; [cbn [andb]; left; by exists (length (lcells k))|]. rewrite Hnil. cbn [app]. by rewrite cpar_first.
    - destruct (exists_last Hne) as (L'&[z wz]&EL).
      assert (andb (cside k) (bool_decide (Some (cpar (hdr t) k) = first_loc (hdr t) (lcells k ++ rcells k))) = false) as ->.
      { destruct (cside k) eqn:Ecs; [|done]. cbn [andb]. apply bool_decide_false. rewrite first_loc_app by done.
        destruct k as [|[c x w rr|c l x w] k]; [done| |done]. cbn [cpar lcells rcells] in *. intros E1. symmetry in E1. revert E1.
        rewrite <- (first_loc_app (hdr t) (lcells k) ((x, w) :: cells rr ++ rcells k)) by done. by apply first_loc_ne. }
      assert ((if cside k then decrement (mem h) (Some (cpar (hdr t) k)) else Ok (Some (cpar (hdr t) k))) = Ok (Some z)) as ->.
      { rewrite <- (last_loc_snoc (hdr t) z wz L'), <- EL. destruct k as [|[c x w rr|c l x w] k]; [done| |].
        - cbn [cside cpar]. cbn [lcells rcells] in *. eapply (prev_ok (mem h) (hdr t) _ (lcells k) x w (cells rr ++ rcells k)); [exact HT| |done].
          cbn [plug]. rewrite cells_plug. cbn [cells]. done.
        - cbn [cside cpar lcells]. by rewrite app_assoc, last_loc_snoc. }
      cbn [rbind]. assert (Hz : (z, wz) ∈ lcells k) by (rewrite EL; set_solver).
      assert (Hzv : valof (mem h) (Some z) = Ok wz). { eapply val_ok; [exact HT|]. rewrite cells_plug. apply elem_of_app. by left. }
      unfold nkey. rewrite Hzv. cbn [rbind]. rewrite (vkey_ok _ _ _ _ Hv). cbn [rbind].
      destruct (kcomp t (kov t wz) (kov t a)) eqn:Ec.
      + left. by exists (length (lcells k)).
      + right. exists z, wz. split; [apply elem_of_app; by left|]. done.
  Qed.

  (** hinted *)
  Lemma aadd_first t h v a x w R : any_tree (mem h) t ((x, w) :: R) -> valued (mem h) v a ->
    aadded h t ((x, w) :: R) 0 a (insert_node alloc t h (Some x) (Some x) v).
  Proof.
    intros HB Hv. pose proof HB as ((T&HT&Hc)&_). destruct (gap_first T x w R Hc) as (k&c&r&E&EL&ER).
    change (Some x) with (Some (cpar (hdr t) (FL c x w r :: k))) at 2. rewrite <- E in HT.
    pose proof (apos_added t h (Some x) (FL c x w r :: k) v a ((x, w) :: R) HB HT) as H. rewrite EL, ER in H.
    apply H; [done|done|by left].
  Qed.
  Lemma aadd_last t h v a x w L : any_tree (mem h) t (L ++ [(x, w)]) -> valued (mem h) v a -> kcomp t (kov t a) (kov t w) = false ->
    aadded h t (L ++ [(x, w)]) (length (L ++ [(x, w)])) a (insert_node alloc t h None (Some x) v).
  Proof.
    intros HB Hv Hw. pose proof HB as ((T&HT&Hc)&_). pose proof (is_tree_ND _ _ _ HT) as HN. apply NoDup_cons in HN as [_ HN].
    destruct (gap_after T L x w [] Hc HN) as (k&c&l&r&->&[(->&EL&ER)|(y&u&R'&k'&c'&r'&_&Hne&_)]); [|done].
    change (Some x) with (Some (cpar (hdr t) (FR c l x w :: k))).
    pose proof (apos_added t h None (FR c l x w :: k) v a (L ++ [(x, w)]) HB HT) as H. rewrite EL, ER in H.
    apply H; [by rewrite app_nil_r|done|done].
  Qed.
  Lemma aadd_middle t h v a L x w y u R : any_tree (mem h) t (L ++ (x, w) :: (y, u) :: R) -> valued (mem h) v a ->
    kcomp t (kov t a) (kov t w) = false ->
    aadded h t (L ++ (x, w) :: (y, u) :: R) (S (length L)) a
      (do hr <- has_right (mem h) (Some x);
       if negb hr then insert_node alloc t h None (Some x) v else insert_node alloc t h (Some y) (Some y) v).
  Proof.
    intros HB Hv Hw. pose proof HB as ((T&HT&Hc)&_). pose proof (is_tree_ND _ _ _ HT) as HN. apply NoDup_cons in HN as [_ HN].
    destruct (gap_after T L x w _ Hc HN) as (k&c&l&r&E&Hg). pose proof HT as [HR _]. rewrite E in HR.
    unfold has_right. rewrite (R_right _ _ _ _ _ _ _ _ _ _ HR). cbn [rbind].
    assert (Elen : S (length L) = length (L ++ [(x, w)])) by (rewrite app_length; cbn; lia). rewrite Elen.
    destruct Hg as [(->&EL&ER)|(y'&u'&R'&k'&c'&r'&Hr&[= <- <- <-]&ET&EL&ER)].
    - cbn [root]. rewrite bool_decide_false by auto. cbn [negb]. change (Some x) with (Some (cpar (hdr t) (FR c l x w :: k))). rewrite E in HT.
      pose proof (apos_added t h None (FR c l x w :: k) v a _ HB HT) as H. rewrite EL, ER in H.
      apply H; [by rewrite <- app_assoc|done|done].
    - rewrite bool_decide_true. 2:{ destruct r; done. }
      cbn [negb]. change (Some y) with (Some (cpar (hdr t) (FL c' y u r' :: k'))) at 2. rewrite <- ET in HT.
      pose proof (apos_added t h (Some y) (FL c' y u r' :: k') v a _ HB HT) as H. rewrite EL, ER in H.
      apply H; [by rewrite <- app_assoc|done|by left].
  Qed.
  Lemma any_nkey m t cs x w : any_tree m t cs -> (x, w) ∈ cs -> nkey t m (Some x) = Ok (kov t w).
  Proof. intros HB Hx. exact (rb_nkey m (loose t) cs x w (any_loose _ _ _ HB) Hx). Qed.
  Lemma any_left m t cs : any_tree m t cs -> left m (Some (hdr t)) = Ok (first_loc (hdr t) cs).
  Proof. intros HB. exact (rb_left m (loose t) cs (any_loose _ _ _ HB)). Qed.
  Lemma any_right m t cs : any_tree m t cs -> right m (Some (hdr t)) = Ok (last_loc (hdr t) cs).
  Proof. intros HB. exact (rb_right m (loose t) cs (any_loose _ _ _ HB)). Qed.
  Lemma ainsert_equal_ok t h cs i v a : any_tree (mem h) t cs -> i <= length cs -> valued (mem h) v a ->
    exists j, j <= length cs /\ aadded h t cs j a (c_tree_insert_equal alloc t h (first_loc (hdr t) (drop i cs)) v).
  Proof.
    intros HB Hi Hv. pose proof (aequal_value_ok t h cs v a HB Hv) as Hdef. pose proof HB as (HH&Hc). pose proof (rb_ND _ _ _ (any_loose _ _ _ HB)) as HN. cbn [hdr loose] in HN.
    unfold c_tree_insert_equal. rewrite (any_left _ _ _ HB). cbn [rbind].
    destruct (hint_cases (loose t) h cs i (any_loose _ _ _ HB) Hi) as [(->&->)|[(x&w&R&->&->)|[(L&x&w&->&->)|(L&x&w&y&u&R&->&->)]]].
    - cbn [drop]. rewrite decide_True by done. rewrite Hc. cbn [length Nat.ltb Nat.leb rbind]. done.
    - cbn [drop]. rewrite decide_True by done. rewrite first_loc_cons in *. rewrite Hc. cbn [length]. rewrite (proj2 (Nat.ltb_lt 0 (S (length R)))) by lia.
      rewrite (any_nkey _ _ _ x w HB) by (by left). cbn [rbind]. rewrite (vkey_ok _ _ _ _ Hv). cbn [rbind].
      destruct (kcomp t (kov t w) (kov t a)) eqn:E; cbn [negb]; [done|]. exists 0. split; [lia|]. by apply aadd_first.
    - rewrite drop_all in *. change (first_loc (hdr t) []) with (Some (hdr t)). rewrite decide_False.
      2:{ intros E. symmetry in E. revert E. apply first_ne_hd; [done|by destruct L]. }
      rewrite decide_True by done. rewrite (vkey_ok _ _ _ _ Hv). cbn [rbind]. rewrite (any_right _ _ _ HB). cbn [rbind]. rewrite last_loc_snoc in *.
      rewrite (any_nkey _ _ _ x w HB) by (apply elem_of_app; right; by left). cbn [rbind].
      destruct (kcomp t (kov t a) (kov t w)) eqn:E; cbn [negb]; [done|]. exists (length (L ++ [(x, w)])). split; [lia|]. by apply aadd_last.
    - rewrite drop_mid in *. assert (E1 : L ++ (x, w) :: (y, u) :: R = (L ++ [(x, w)]) ++ (y, u) :: R) by by rewrite <- app_assoc.
      rewrite decide_False.
      2:{ rewrite E1. apply first_app_ne; [by rewrite <- E1|by destruct L]. }
      rewrite first_loc_cons. rewrite decide_False.
      2:{ rewrite <- (first_loc_cons (hdr t) y u R). apply first_ne_hd; [|done]. rewrite E1, fmap_app in HN.
          apply NoDup_cons in HN as [Hn1 Hn2]. apply NoDup_app in Hn2 as (_&_&Hn2). apply NoDup_cons. split; [|done]. intros Hq. apply Hn1. apply elem_of_app. by right. }
      pose proof HH as (T&HT&HTc). pose proof (prev_at (mem h) (hdr t) T L x w ((y, u) :: R) HT HTc) as Hd. rewrite first_loc_cons in Hd. rewrite Hd. cbn [rbind].
      rewrite (vkey_ok _ _ _ _ Hv). cbn [rbind].
      rewrite (any_nkey _ _ _ x w HB) by (apply elem_of_app; right; by left). cbn [rbind].
      destruct (kcomp t (kov t a) (kov t w)) eqn:E; cbn [negb rbind]; [done|].
      rewrite (any_nkey _ _ _ y u HB) by (apply elem_of_app; right; right; by left). cbn [rbind].
      destruct (kcomp t (kov t u) (kov t a)) eqn:E'; cbn [negb rbind]; [done|].
      exists (S (length L)). split; [done|]. by apply aadd_middle.
  Qed.
  Lemma ainsert_unique_ok t h cs i v a : asymmetric (kcomp t) -> any_tree (mem h) t cs -> i <= length cs -> valued (mem h) v a ->
    aunique_post h t cs a (c_tree_insert_unique alloc t h (first_loc (hdr t) (drop i cs)) v).
  Proof.
    intros Hasym HB Hi Hv. pose proof (aunique_value_ok t h cs v a HB Hv) as Hdef. pose proof HB as (HH&Hc). pose proof (rb_ND _ _ _ (any_loose _ _ _ HB)) as HN. cbn [hdr loose] in HN.
    unfold c_tree_insert_unique. rewrite (any_left _ _ _ HB). cbn [rbind].
    destruct (hint_cases (loose t) h cs i (any_loose _ _ _ HB) Hi) as [(->&->)|[(x&w&R&->&->)|[(L&x&w&->&->)|(L&x&w&y&u&R&->&->)]]].
    - cbn [drop]. rewrite decide_True by done. rewrite Hc. cbn [length Nat.ltb Nat.leb rbind]. done.
    - cbn [drop]. rewrite decide_True by done. rewrite first_loc_cons in *. rewrite Hc. cbn [length]. rewrite (proj2 (Nat.ltb_lt 0 (S (length R)))) by lia.
      rewrite (vkey_ok _ _ _ _ Hv). cbn [rbind]. rewrite (any_nkey _ _ _ x w HB) by (by left). cbn [rbind].
      destruct (kcomp t (kov t a) (kov t w)) eqn:E; [|done]. left. exists 0. split; [lia|]. by apply aadd_first.
    - rewrite drop_all in *. change (first_loc (hdr t) []) with (Some (hdr t)). rewrite decide_False.
      2:{ intros E. symmetry in E. revert E. apply first_ne_hd; [done|by destruct L]. }
      rewrite decide_True by done. rewrite (any_right _ _ _ HB). cbn [rbind]. rewrite last_loc_snoc in *.
      rewrite (any_nkey _ _ _ x w HB) by (apply elem_of_app; right; by left). cbn [rbind]. rewrite (vkey_ok _ _ _ _ Hv). cbn [rbind].
      destruct (kcomp t (kov t w) (kov t a)) eqn:E; [|done]. left. exists (length (L ++ [(x, w)])). split; [lia|]. apply aadd_last; [done|done|by apply Hasym].
    - rewrite drop_mid in *. assert (E1 : L ++ (x, w) :: (y, u) :: R = (L ++ [(x, w)]) ++ (y, u) :: R) by by rewrite <- app_assoc.
      rewrite decide_False.
      2:{ rewrite E1. apply first_app_ne; [by rewrite <- E1|by destruct L]. }
      rewrite first_loc_cons. rewrite decide_False.
      2:{ rewrite <- (first_loc_cons (hdr t) y u R). apply first_ne_hd; [|done]. rewrite E1, fmap_app in HN.
          apply NoDup_cons in HN as [Hn1 Hn2]. apply NoDup_app in Hn2 as (_&_&Hn2). apply NoDup_cons. split; [|done]. intros Hq. apply Hn1. apply elem_of_app. by right. }
      pose proof HH as (T&HT&HTc). pose proof (prev_at (mem h) (hdr t) T L x w ((y, u) :: R) HT HTc) as Hd. rewrite first_loc_cons in Hd. rewrite Hd. cbn [rbind].
      rewrite (any_nkey _ _ _ x w HB) by (apply elem_of_app; right; by left). cbn [rbind].
      rewrite (vkey_ok _ _ _ _ Hv). cbn [rbind].
      destruct (kcomp t (kov t w) (kov t a)) eqn:E; cbn [rbind]; [|done].
      rewrite (any_nkey _ _ _ y u HB) by (apply elem_of_app; right; right; by left). cbn [rbind].
      destruct (kcomp t (kov t a) (kov t u)) eqn:E'; cbn [rbind]; [|done].
      left. exists (S (length L)). split; [done|]. apply aadd_middle; [done|done|by apply Hasym].
  Qed.

  (** ** lookups *)
  Lemma alower_loop_ok t m hd lm rm key a : kvalued t m key a -> forall s k fuel,
    Rep m hd lm rm (plug k s) -> height s < fuel ->
    exists k', lower_loop fuel t m (first_loc hd (rcells k)) (root s) key = Ok (first_loc hd (rcells k')) /\ plug k' Lf = plug k s.
  Proof.
    intros Hv s. induction s as [|c l IHl x w r IHr]; intros k fuel HR Hf; (destruct fuel as [|fuel]; [lia|]); cbn [lower_loop root].
    - by exists k.
    - rewrite (R_nkey t _ _ _ _ _ _ _ _ _ _ HR). cbn [rbind]. unfold kvalued in Hv. rewrite Hv. cbn [rbind]. cbn [height] in Hf.
      destruct (kcomp t (kov t w) a) eqn:Ec; cbn [negb].
      + rewrite (R_right _ _ _ _ _ _ _ _ _ _ HR). cbn [rbind].
        destruct (IHr (FR c l x w :: k) fuel HR) as (k'&E&E1); [lia|by exists k'].
      + rewrite (R_left _ _ _ _ _ _ _ _ _ _ HR). cbn [rbind].
        destruct (IHl (FL c x w r :: k) fuel HR) as (k'&E&E1); [lia|by exists k'].
  Qed.
  Lemma aupper_loop_ok t m hd lm rm key a : kvalued t m key a -> forall s k fuel,
    Rep m hd lm rm (plug k s) -> height s < fuel ->
    exists k', upper_loop fuel t m (first_loc hd (rcells k)) (root s) key = Ok (first_loc hd (rcells k')) /\ plug k' Lf = plug k s.
  Proof.
    intros Hv s. induction s as [|c l IHl x w r IHr]; intros k fuel HR Hf; (destruct fuel as [|fuel]; [lia|]); cbn [upper_loop root].
    - by exists k.
    - unfold kvalued in Hv. rewrite Hv. cbn [rbind]. rewrite (R_nkey t _ _ _ _ _ _ _ _ _ _ HR). cbn [rbind]. cbn [height] in Hf.
      destruct (kcomp t a (kov t w)) eqn:Ec; cbn [negb].
      + rewrite (R_left _ _ _ _ _ _ _ _ _ _ HR). cbn [rbind].
        destruct (IHl (FL c x w r :: k) fuel HR) as (k'&E&E1); [lia|by exists k'].
      + rewrite (R_right _ _ _ _ _ _ _ _ _ _ HR). cbn [rbind].
        destruct (IHr (FR c l x w :: k) fuel HR) as (k'&E&E1); [lia|by exists k'].
  Qed.
  (** with an asymmetric comparator the lower bound does not lie behind the upper bound *)
  Lemma alower_upper_ok t m hd lm rm key a : asymmetric (kcomp t) -> kvalued t m key a -> forall s k fuel,
    Rep m hd lm rm (plug k s) -> height s < fuel ->
    exists kl ku, lower_loop fuel t m (first_loc hd (rcells k)) (root s) key = Ok (first_loc hd (rcells kl)) /\ plug kl Lf = plug k s /\
      upper_loop fuel t m (first_loc hd (rcells k)) (root s) key = Ok (first_loc hd (rcells ku)) /\ plug ku Lf = plug k s /\
      length (rcells k) <= length (rcells ku) <= length (rcells kl) /\ length (rcells kl) <= length (cells s) + length (rcells k).
  Proof.
    intros Has Hv s. induction s as [|c l IHl x w r IHr]; intros k fuel HR Hf; (destruct fuel as [|fuel]; [lia|]); cbn [lower_loop upper_loop root].
    - exists k, k. cbn. split_and!; (done || lia).
    - rewrite (R_nkey t _ _ _ _ _ _ _ _ _ _ HR). cbn [rbind]. unfold kvalued in Hv. rewrite Hv. cbn [rbind]. cbn [height] in Hf.
      rewrite (R_right _ _ _ _ _ _ _ _ _ _ HR), (R_left _ _ _ _ _ _ _ _ _ _ HR). cbn [rbind].
      destruct (IHl (FL c x w r :: k) fuel HR) as (kl1&ku1&A1&A2&A3&A4&A5&A6); [lia|].
      destruct (IHr (FR c l x w :: k) fuel HR) as (kl2&ku2&B1&B2&B3&B4&B5&B6); [lia|].
      cbn [cells]. rewrite app_length. cbn [length]. cbn [rcells length] in A1, A3, A5, A6, B1, B3, B5, B6. rewrite first_loc_cons in A1, A3.
      cbn [length] in A5, A6. rewrite app_length in A5, A6.
      destruct (kcomp t (kov t w) a) eqn:Ec; cbn [negb].
      + rewrite (Has _ _ Ec). exists kl2, ku2. split; [done|]. split; [done|]. split; [done|]. split; [done|]. lia.
      + destruct (kcomp t a (kov t w)) eqn:Ec'.
        * exists kl1, ku1. split; [done|]. split; [done|]. split; [done|]. split; [done|]. lia.
        * exists kl1, ku2. split; [done|]. split; [done|]. split; [done|]. split; [done|]. lia.
  Qed.
  Lemma hole_index k cs : lcells k ++ rcells k = cs -> exists i, i <= length cs /\ rcells k = drop i cs /\ i = length cs - length (rcells k).
  Proof. intros <-. exists (length (lcells k)). rewrite app_length, drop_app. split; [lia|]. split; [done|lia]. Qed.
  Lemma alower_ok t h cs key a : any_tree (mem h) t cs -> kvalued t (mem h) key a ->
    exists i, i <= length cs /\ c_tree_lower_bound t h key = Ok (first_loc (hdr t) (drop i cs)).
  Proof.
    intros ((T&HT&<-)&_) Hv. pose proof HT as [HR _]. unfold c_tree_lower_bound. rewrite (Rep_root _ _ _ _ _ HR). cbn [rbind].
    destruct (alower_loop_ok t (mem h) (hdr t) _ _ key a Hv T [] (tfuel (mem h)) HR (root_fuel _ _ _ HT)) as (k&E&Ek).
    change (first_loc (hdr t) (rcells [])) with (Some (hdr t)) in E. rewrite E. cbn [plug] in Ek. subst T.
    destruct (hole_index k (cells (plug k Lf))) as (i&Hi&->&_); [by rewrite cells_plug|]. by exists i.
  Qed.
  Lemma aupper_ok t h cs key a : any_tree (mem h) t cs -> kvalued t (mem h) key a ->
    exists i, i <= length cs /\ c_tree_upper_bound t h key = Ok (first_loc (hdr t) (drop i cs)).
  Proof.
    intros ((T&HT&<-)&_) Hv. pose proof HT as [HR _]. unfold c_tree_upper_bound. rewrite (Rep_root _ _ _ _ _ HR). cbn [rbind].
    destruct (aupper_loop_ok t (mem h) (hdr t) _ _ key a Hv T [] (tfuel (mem h)) HR (root_fuel _ _ _ HT)) as (k&E&Ek).
    change (first_loc (hdr t) (rcells [])) with (Some (hdr t)) in E. rewrite E. cbn [plug] in Ek. subst T.
    destruct (hole_index k (cells (plug k Lf))) as (i&Hi&->&_); [by rewrite cells_plug|]. by exists i.
  Qed.
  Lemma abounds_ok t h cs key a : asymmetric (kcomp t) -> any_tree (mem h) t cs -> kvalued t (mem h) key a ->
    exists i j, i <= j <= length cs /\ c_tree_lower_bound t h key = Ok (first_loc (hdr t) (drop i cs)) /\
      c_tree_upper_bound t h key = Ok (first_loc (hdr t) (drop j cs)).
  Proof.
    intros Has ((T&HT&<-)&_) Hv. pose proof HT as [HR _]. unfold c_tree_lower_bound, c_tree_upper_bound. rewrite (Rep_root _ _ _ _ _ HR). cbn [rbind].
    destruct (alower_upper_ok t (mem h) (hdr t) _ _ key a Has Hv T [] (tfuel (mem h)) HR (root_fuel _ _ _ HT)) as (kl&ku&E&Ek&E'&Ek'&Hle&_).
    change (first_loc (hdr t) (rcells [])) with (Some (hdr t)) in E, E'. rewrite E, E'. cbn [plug] in Ek, Ek'.
    destruct (hole_index kl (cells T)) as (i&Hi&Ei&Hi'); [by rewrite <- Ek, cells_plug|].
    destruct (hole_index ku (cells T)) as (j&Hj&Ej&Hj'); [by rewrite <- Ek', cells_plug|].
    exists i, j. split; [lia|]. by rewrite Ei, Ej.
  Qed.
  Lemma aerase_key_ok t h cs key a : asymmetric (kcomp t) -> any_tree (mem h) t cs -> kvalued t (mem h) key a ->
    exists i j h' t', i <= j <= length cs /\ c_tree_erase_key t h key = Ok (h', t', j - i) /\
      aupd h t cs h' t' (seq_delete i j cs) (if (i =? 0) && (j =? length cs) then rev cs.*2 else (take (j - i) (drop i cs)).*2).
  Proof.
    intros Has HB Hv. destruct (abounds_ok t h cs key a Has HB Hv) as (i&j&Hij&E1&E2). unfold c_tree_erase_key. rewrite E1, E2. cbn [rbind].
    pose proof (rb_distance_ok (loose t) h cs i j (any_loose _ _ _ HB) Hij) as Ed. cbn [hdr loose] in Ed. rewrite Ed. cbn [rbind].
    destruct (aerase_range_ok t h cs i j HB Hij) as (h'&t'&E&HU). rewrite E. cbn [rbind]. exists i, j, h', t'. done.
  Qed.
  Lemma afind_loop_ok t m lm rm key a : kvalued t m key a -> forall s k fuel,
    Rep m (hdr t) lm rm (plug k s) -> height s < fuel ->
    (exists x w, find_loop fuel t m (root s) key = Ok (Some x) /\ (x, w) ∈ cells s /\ eq_key t a w = true) \/
    find_loop fuel t m (root s) key = Ok (Some (hdr t)).
  Proof.
    intros Hv s. induction s as [|c l IHl x w r IHr]; intros k fuel HR Hf; (destruct fuel as [|fuel]; [lia|]); cbn [find_loop root].
    - by right.
    - unfold kvalued in Hv. rewrite Hv. cbn [rbind]. rewrite (R_nkey t _ _ _ _ _ _ _ _ _ _ HR). cbn [rbind]. cbn [height] in Hf.
      destruct (kcomp t a (kov t w)) eqn:Ec; cbn [negb].
      + rewrite (R_left _ _ _ _ _ _ _ _ _ _ HR). cbn [rbind].
        destruct (IHl (FL c x w r :: k) fuel HR) as [(y&u&E&Hy&Hu)|E]; [lia| |by right].
        left. exists y, u. split; [done|]. split; [|done]. cbn [cells]. apply elem_of_app. by left.
      + destruct (kcomp t (kov t w) a) eqn:Ec'; cbn [negb].
        * rewrite (R_right _ _ _ _ _ _ _ _ _ _ HR). cbn [rbind].
          destruct (IHr (FR c l x w :: k) fuel HR) as [(y&u&E&Hy&Hu)|E]; [lia| |by right].
          left. exists y, u. split; [done|]. split; [|done]. cbn [cells]. apply elem_of_app. right. apply elem_of_cons. by right.
        * left. exists x, w. split; [done|]. split; [cbn [cells]; set_solver|]. unfold eq_key, equivb. by rewrite Ec, Ec'.
  Qed.
  Lemma afind_ok t h cs key a : any_tree (mem h) t cs -> kvalued t (mem h) key a ->
    (exists x w, c_tree_find t h key = Ok (Some x) /\ (x, w) ∈ cs /\ eq_key t a w = true) \/ c_tree_find t h key = Ok (Some (hdr t)).
  Proof.
    intros ((T&HT&<-)&_) Hv. pose proof HT as [HR _]. unfold c_tree_find. destruct (c_tree_empty t); [by right|]. rewrite (Rep_root _ _ _ _ _ HR). cbn [rbind].
    exact (afind_loop_ok t (mem h) _ _ key a Hv T [] (tfuel (mem h)) HR (root_fuel _ _ _ HT)).
  Qed.
  Lemma acount_loop_ok t m hd lm rm key a : kvalued t m key a -> forall s k fuel,
    Rep m hd lm rm (plug k s) -> height s < fuel ->
    exists n, count_loop fuel t m (root s) key = Ok n /\ n <= occurrences t a (cells s).
  Proof.
    intros Hv s. induction s as [|c l IHl x w r IHr]; intros k fuel HR Hf; (destruct fuel as [|fuel]; [lia|]); cbn [count_loop root].
    - exists 0. split; [done|]. lia.
    - unfold kvalued in Hv. rewrite Hv. cbn [rbind]. rewrite (R_nkey t _ _ _ _ _ _ _ _ _ _ HR). cbn [rbind]. cbn [height] in Hf.
      cbn [cells]. change ((x, w) :: cells r) with ([(x, w)] ++ cells r). rewrite !occurrences_app.
      destruct (IHl (FL c x w r :: k) fuel HR) as (nl&El&Hl); [lia|]. destruct (IHr (FR c l x w :: k) fuel HR) as (nr&Er&Hr); [lia|].
      rewrite (R_right _ _ _ _ _ _ _ _ _ _ HR), (R_left _ _ _ _ _ _ _ _ _ _ HR). cbn [rbind]. rewrite El, Er. cbn [rbind].
      destruct (kcomp t a (kov t w)) eqn:Ec; cbn [negb]; [exists nl; split; [done|lia]|].
      destruct (kcomp t (kov t w) a) eqn:Ec'; cbn [negb]; [exists nr; split; [done|lia]|].
      eexists. split; [done|]. replace (occurrences t a [(x, w)]) with 1; [lia|]. unfold occurrences. cbn [List.filter snd]. unfold eq_key, equivb.
      by rewrite Ec, Ec'.
  Qed.
  Lemma acount_ok t h cs key a : any_tree (mem h) t cs -> kvalued t (mem h) key a ->
    exists n, c_tree_count t h key = Ok n /\ n <= length (with_key (kcomp t) (kov t) a cs.*2).
  Proof.
    intros ((T&HT&<-)&_) Hv. pose proof HT as [HR _]. unfold c_tree_count. destruct (c_tree_empty t); [exists 0; split; [done|lia]|]. rewrite (Rep_root _ _ _ _ _ HR). cbn [rbind].
    rewrite <- occurrences_with. exact (acount_loop_ok t (mem h) (hdr t) _ _ key a Hv T [] (tfuel (mem h)) HR (root_fuel _ _ _ HT)).
  Qed.
  (** ** whole ranges of values *)
  Lemma aequal_range_insert_ok vs : forall t h cs, any_tree (mem h) t cs ->
    exists h' t' cs', c_tree_insert_equal_range alloc t h vs = Ok (h', t') /\ aupd h t cs h' t' cs' [] /\ cs'.*2 ≡ₚ cs.*2 ++ vs.
  Proof.
    induction vs as [|a vs IH]; intros t h cs HB; cbn [c_tree_insert_equal_range].
    - exists h, t, cs. split; [done|]. split; [by apply aupd_refl|by rewrite app_nil_r].
    - destruct (aequal_value_ok t h cs (RVal a) a HB eq_refl) as (i&Hi&h1&x&->&_&HU). cbn [rbind]. pose proof HU as (_&HB1&_&_).
      destruct (IH _ _ _ HB1) as (h2&t2&c2&E&HU2&Hv). exists h2, t2, c2. split; [done|]. split; [exact (aupd_trans _ _ _ _ _ _ _ _ _ [] [] HU HU2)|].
      rewrite Hv, put_snd. unfold seq_insert. cbn [app]. rewrite <- (take_drop i cs.*2) at 3. solve_Permutation.
  Qed.
End any.
