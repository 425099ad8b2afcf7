(** TreeRangeProofs.v — inserting a range of tree iterators. *)
From Verif Require Import Base Spec SpecSeq SpecListOps SpecTreeOps SpecTreeRange Facts DList Tree SpecTree TreeRep TreeInsert TreeErase TreeIter
  TreeUnlink TreeApi TreeOps TreeLookup TreeMod TreeRange TreeRun TreeRunProofs.
From stdpp Require Import list gmap.

Section proofs.
  Context {K V : Type} (alloc : gmap loc (tnode V) -> loc) (Ha : tmalloc_ok alloc).
  Notation M := (gmap loc (tnode V)).
  Notation cell := (loc * V)%type.
  Implicit Types (m : M) (h : theap V) (t u : tobj K V) (cs ds L R : list cell).

  (** ** positions *)
  Lemma rb_next m t L x w R : is_rbtree m t (L ++ (x, w) :: R) -> increment m (Some x) = Ok (first_loc (hdr t) R).
  Proof. intros (_&(T&HT&HcT)&_). by eapply next_ok. Qed.
  Lemma rb_prev m t L x w R : is_rbtree m t (L ++ (x, w) :: R) -> decrement m (first_loc (hdr t) R) = Ok (Some x).
  Proof. intros (_&(T&HT&HcT)&_). by eapply prev_at. Qed.
  Lemma rb_first_ne m t L es R : is_rbtree m t (L ++ es ++ R) -> es <> [] -> first_loc (hdr t) R <> first_loc (hdr t) (es ++ R).
  Proof.
    intros HB Hne. apply first_app_ne; [|done]. apply rb_ND in HB. rewrite !fmap_app in *. inversion_clear HB as [|?? H1 H2].
    apply NoDup_cons. split; [set_solver|]. by apply NoDup_app in H2 as (_&_&H2).
  Qed.
  (** ** another tree is not touched *)
  Definition apart t cs u ds : Prop := forall z, z ∈ tnodes (hdr u) ds -> z ∉ tnodes (hdr t) cs.
  Lemma apart_upd h t cs h' t' cs' d u ds : tupd h t cs h' t' cs' d -> is_rbtree (mem h) u ds -> apart t cs u ds ->
    is_rbtree (mem h') u ds /\ apart t' cs' u ds.
  Proof.
    intros (->&HB&(H1&H2&H3)&_) HB' HA. assert (Hn : forall z, z ∈ tnodes (hdr u) ds -> z ∉ tnodes (hdr t) cs').
    { intros z Hz Hz'. pose proof (H3 z (HA z Hz) Hz') as Hno. destruct (rb_dom _ _ _ _ HB' Hz) as [? Hs]. congruence. }
    split; [|done]. eapply rb_frame; [|exact HB']. intros z Hz. apply H1; [by apply HA|by apply Hn].
  Qed.

  (** ** one insertion *)
  Lemma put_unique_present t cs x w a : (x, w) ∈ cs -> eq_key t (kov t a) w = true -> put_unique (kcomp t) (kov t) a cs.*2 = cs.*2.
  Proof. intros H1 H2. unfold put_unique. by rewrite (present_true t (kov t a) cs x w H1 H2). Qed.
  Lemma put_ok (unique : bool) t h cs v a : is_rbtree (mem h) t cs -> valued (mem h) v a ->
    exists h' t' p cs', (if unique then c_tree_insert_unique_value alloc t h v else c_tree_insert_equal_value alloc t h v) = Ok (h', t', p) /\
      tupd h t cs h' t' cs' [] /\ cs'.*2 = put_one (kcomp t) (kov t) unique a cs.*2.
  Proof.
    intros HB Hv. destruct unique; cbn [put_one].
    - destruct (unique_value_ok alloc Ha t h cs v a HB Hv) as [(Hp&h1&x&->&_&HU)|(x&w&Hx&Hw&->)].
      + eexists _, _, _, _. split; [done|]. split; [exact HU|]. rewrite put_snd. unfold put_unique. by rewrite Hp.
      + eexists _, _, _, _. split; [done|]. split; [by apply tupd_refl|]. by rewrite (put_unique_present t cs x w a Hx Hw).
    - destruct (equal_value_ok alloc Ha t h cs v a HB Hv) as (h1&x&->&_&HU). eexists _, _, _, _. split; [done|]. split; [exact HU|].
      by rewrite put_snd.
  Qed.

  (** ** the range is in another tree *)
  Lemma forward_other unique u R es : forall L t h cs fuel, is_rbtree (mem h) t cs -> is_rbtree (mem h) u (L ++ es ++ R) ->
    apart t cs u (L ++ es ++ R) -> length es < fuel ->
    exists h' t' cs', insert_range_loop alloc unique false fuel t h (first_loc (hdr u) (es ++ R)) (first_loc (hdr u) R) = Ok (h', t') /\
      tupd h t cs h' t' cs' [] /\ cs'.*2 = put_all (kcomp t) (kov t) unique es.*2 cs.*2.
  Proof.
    induction es as [|[x w] es IH]; intros L t h cs fuel HB HU HA Hf; (destruct fuel as [|fuel]; [lia|]); cbn [insert_range_loop].
    - cbn [app]. rewrite decide_True by done. exists h, t, cs. split; [done|]. split; [by apply tupd_refl|done].
    - rewrite decide_False by (intros E; symmetry in E; revert E; eapply rb_first_ne; [exact HU|done]). cbn [app]. rewrite first_loc_cons. cbn [rbind].
      assert (Hv : valued (mem h) (RNode x) w) by (apply (rb_val _ _ _ _ _ HU); set_solver).
      destruct (put_ok unique t h cs (RNode x) w HB Hv) as (h1&t1&p&cs1&->&HU1&Hc1). cbn [rbind].
      destruct (apart_upd _ _ _ _ _ _ _ _ _ HU1 HU HA) as [HUu HA1]. rewrite (rb_next _ _ _ _ _ _ HUu). cbn [rbind].
      pose proof HU1 as (Et&HB1&_&_).
      destruct (IH (L ++ [(x, w)]) t1 h1 cs1 fuel HB1) as (h2&t2&cs2&E2&HU2&Hc2).
      + by rewrite <- app_assoc.
      + by rewrite <- app_assoc.
      + cbn in Hf. lia.
      + exists h2, t2, cs2. split; [done|]. split; [exact (tupd_trans _ _ _ _ _ _ _ _ _ [] [] HU1 HU2)|].
        rewrite Hc2, Hc1, Et. done.
  Qed.
  Lemma backward_other unique u L es : forall R t h cs fuel, is_rbtree (mem h) t cs -> is_rbtree (mem h) u (L ++ es ++ R) ->
    apart t cs u (L ++ es ++ R) -> length es < fuel ->
    exists h' t' cs', insert_range_loop alloc unique true fuel t h (first_loc (hdr u) R) (first_loc (hdr u) (es ++ R)) = Ok (h', t') /\
      tupd h t cs h' t' cs' [] /\ cs'.*2 = put_all (kcomp t) (kov t) unique (rev es.*2) cs.*2.
  Proof.
    induction es as [|[x w] es IH] using rev_ind; intros R t h cs fuel HB HU HA Hf; (destruct fuel as [|fuel]; [lia|]); cbn [insert_range_loop].
    - cbn [app]. rewrite decide_True by done. exists h, t, cs. split; [done|]. split; [by apply tupd_refl|done].
    - rewrite decide_False by (eapply rb_first_ne; [exact HU|by destruct es]).
      assert (HU' : is_rbtree (mem h) u ((L ++ es) ++ (x, w) :: R)) by (rewrite <- !app_assoc in HU |- *; exact HU).
      rewrite (rb_prev _ _ _ _ _ _ HU'). cbn [rbind].
      assert (Hv : valued (mem h) (RNode x) w) by (apply (rb_val _ _ _ _ _ HU'); set_solver).
      destruct (put_ok unique t h cs (RNode x) w HB Hv) as (h1&t1&p&cs1&->&HU1&Hc1). cbn [rbind].
      destruct (apart_upd _ _ _ _ _ _ _ _ _ HU1 HU HA) as [HUu HA1].
      assert (HU1' : is_rbtree (mem h1) u ((L ++ es) ++ (x, w) :: R)) by (rewrite <- !app_assoc in HUu |- *; exact HUu).
      rewrite (rb_prev _ _ _ _ _ _ HU1'). cbn [rbind]. pose proof HU1 as (Et&HB1&_&_).
      destruct (IH ((x, w) :: R) t1 h1 cs1 fuel HB1) as (h2&t2&cs2&E2&HU2&Hc2).
      + by rewrite <- app_assoc in HU1'.
      + by rewrite <- !app_assoc in HA1.
      + rewrite app_length in Hf. cbn in Hf. lia.
      + exists h2, t2, cs2. rewrite <- app_assoc. cbn [app]. rewrite first_loc_cons in E2. split; [done|].
        split; [exact (tupd_trans _ _ _ _ _ _ _ _ _ [] [] HU1 HU2)|]. rewrite Hc2, Hc1, Et. by rewrite fmap_app, rev_app_distr.
  Qed.

  (** ** the tree's own range, no duplicates kept: nothing happens *)
  Lemma own_present t h cs x w : is_rbtree (mem h) t cs -> (x, w) ∈ cs ->
    exists p, c_tree_insert_unique_value alloc t h (RNode x) = Ok (h, t, p).
  Proof.
    intros HB Hx. pose proof HB as (HW&_). destruct (unique_value_ok alloc Ha t h cs (RNode x) w HB (rb_val _ _ _ _ _ HB Hx)) as [(Hp&_)|(y&b&_&_&->)]; [|by eexists].
    exfalso. rewrite (present_true t (kov t w) cs x w Hx) in Hp; [done|]. unfold eq_key, equivb. by rewrite (swo_irrefl _ HW).
  Qed.
  Lemma forward_own_unique t h R es : forall L fuel, is_rbtree (mem h) t (L ++ es ++ R) -> length es < fuel ->
    insert_range_loop alloc true false fuel t h (first_loc (hdr t) (es ++ R)) (first_loc (hdr t) R) = Ok (h, t).
  Proof.
    induction es as [|[x w] es IH]; intros L fuel HB Hf; (destruct fuel as [|fuel]; [lia|]); cbn [insert_range_loop].
    - cbn [app]. by rewrite decide_True.
    - rewrite decide_False by (intros E; symmetry in E; revert E; eapply rb_first_ne; [exact HB|done]). cbn [app]. rewrite first_loc_cons. cbn [rbind].
      destruct (own_present t h _ x w HB) as [p ->]; [set_solver|]. cbn [rbind].
      rewrite (rb_next _ _ _ _ _ _ HB). cbn [rbind]. apply (IH (L ++ [(x, w)])); [by rewrite <- app_assoc|cbn in Hf; lia].
  Qed.
  Lemma backward_own_unique t h L es : forall R fuel, is_rbtree (mem h) t (L ++ es ++ R) -> length es < fuel ->
    insert_range_loop alloc true true fuel t h (first_loc (hdr t) R) (first_loc (hdr t) (es ++ R)) = Ok (h, t).
  Proof.
    induction es as [|[x w] es IH] using rev_ind; intros R fuel HB Hf; (destruct fuel as [|fuel]; [lia|]); cbn [insert_range_loop].
    - cbn [app]. by rewrite decide_True.
    - rewrite decide_False by (eapply rb_first_ne; [exact HB|by destruct es]).
      assert (HB' : is_rbtree (mem h) t ((L ++ es) ++ (x, w) :: R)) by (rewrite <- !app_assoc in HB |- *; exact HB).
      rewrite (rb_prev _ _ _ _ _ _ HB'). cbn [rbind]. destruct (own_present t h _ x w HB) as [p ->]; [set_solver|]. cbn [rbind].
      rewrite (rb_prev _ _ _ _ _ _ HB'). cbn [rbind]. rewrite <- app_assoc. cbn [app].
      change (Some x) with (first_loc (hdr t) ((x, w) :: R)). apply IH; [by rewrite <- app_assoc in HB'|rewrite app_length in Hf; cbn in Hf; lia].
  Qed.

  (** ** the tree's own range, duplicates kept *)
  Definition not_above t (w : V) R : Prop := forall c, c ∈ R -> kcomp t (kov t w) (kov t c.2) = false.
  Definition above t (w : V) R : Prop := forall c, c ∈ R -> kcomp t (kov t w) (kov t c.2) = true.
  Lemma ksorted_app t L R : ksorted t (L ++ R) -> ksorted t R.
  Proof.
    unfold ksorted. rewrite !fmap_app. intros HS i j x y Hij Hx Hy.
    set (n := length (kov t <$> L.*2)). apply (HS (n + i) (n + j) x y); [lia| |]; rewrite lookup_app_r by (unfold n; lia).
    - by replace (n + i - length (kov t <$> L.*2)) with i by (unfold n; lia).
    - by replace (n + j - length (kov t <$> L.*2)) with j by (unfold n; lia).
  Qed.
  Lemma ksorted_app_l t L R : ksorted t (L ++ R) -> ksorted t L.
  Proof.
    unfold ksorted. rewrite !fmap_app. intros HS i j x y Hij Hx Hy. apply (HS i j x y); [lia| |]; by apply lookup_app_l_Some.
  Qed.
  Lemma run_split t w R : StrictWeakOrder (kcomp t) -> ksorted t R -> exists R1 R2, R = R1 ++ R2 /\ not_above t w R1 /\ above t w R2.
  Proof.
    intros HW. induction R as [|[x b] R IH]; intros HS.
    - exists [], []. split; [done|]. split; intros c Hc; by apply elem_of_nil in Hc.
    - destruct (kcomp t (kov t w) (kov t b)) eqn:E.
      + exists [], ((x, b) :: R). split; [done|]. split; [intros c Hc; by apply elem_of_nil in Hc|]. exact (lt_all_after t x b R w HW HS E).
      + destruct IH as (R1&R2&->&H1&H2); [by apply (ksorted_app t [(x, b)])|]. exists ((x, b) :: R1), R2. split; [done|].
        split; [|done]. intros c [->|Hc]%elem_of_cons; [done|by apply H1].
  Qed.
  Lemma own_equal t h L x w R1 R2 : is_rbtree (mem h) t (L ++ (x, w) :: R1 ++ R2) -> not_above t w R1 -> above t w R2 ->
    exists h' t' n, c_tree_insert_equal_value alloc t h (RNode x) = Ok (h', t', Some n) /\
      tupd h t (L ++ (x, w) :: R1 ++ R2) h' t' (L ++ (x, w) :: (R1 ++ [(n, w)]) ++ R2) [] /\
      (L ++ (x, w) :: (R1 ++ [(n, w)]) ++ R2).*2 = put_equal (kcomp t) (kov t) w (L ++ (x, w) :: R1 ++ R2).*2.
  Proof.
    intros HB H1 H2. pose proof HB as (HW&_&_&HS). assert (Hx : (x, w) ∈ L ++ (x, w) :: R1 ++ R2) by set_solver.
    assert (HS' : ksorted t (L ++ [(x, w)])) by (apply (ksorted_app_l t _ (R1 ++ R2)); by rewrite <- app_assoc).
    pose proof (le_all_before t L x w w HW HS' (swo_irrefl _ HW _)) as HL.
    assert (EU : upper_index (kcomp t) (kov t) (kov t w) (L ++ (x, w) :: R1 ++ R2).*2 = length (L ++ (x, w) :: R1)).
    { replace (L ++ (x, w) :: R1 ++ R2) with ((L ++ (x, w) :: R1) ++ R2) by (by rewrite <- app_assoc). apply upper_at; [|done].
      intros c Hc. apply elem_of_app in Hc as [Hc|[->|Hc]%elem_of_cons]; [apply HL; set_solver|apply HL; set_solver|by apply H1]. }
    destruct (equal_value_ok alloc Ha t h _ (RNode x) w HB (rb_val _ _ _ _ _ HB Hx)) as (h1&n&E&_&HU).
    assert (EC : seq_insert (upper_index (kcomp t) (kov t) (kov t w) (L ++ (x, w) :: R1 ++ R2).*2) [(n, w)] (L ++ (x, w) :: R1 ++ R2) =
      L ++ (x, w) :: (R1 ++ [(n, w)]) ++ R2).
    { rewrite EU. replace (L ++ (x, w) :: R1 ++ R2) with ((L ++ (x, w) :: R1) ++ R2) by (by rewrite <- app_assoc).
      unfold seq_insert. rewrite take_app, drop_app. by rewrite <- !app_assoc. }
    eexists h1, _, n. split; [exact E|]. rewrite <- EC. split; [exact HU|]. by rewrite put_snd.
  Qed.

  (** the last position is inside the run of equivalent keys of the first one *)
  Lemma forward_own_run b es : forall t h L x R fuel, is_rbtree (mem h) t (L ++ es ++ (x, b) :: R) ->
    (forall c, c ∈ es -> kcomp t (kov t c.2) (kov t b) = false) -> length es < fuel ->
    exists h' t' cs', insert_range_loop alloc false false fuel t h (first_loc (hdr t) (es ++ (x, b) :: R)) (Some x) = Ok (h', t') /\
      tupd h t (L ++ es ++ (x, b) :: R) h' t' cs' [] /\ cs'.*2 = put_all (kcomp t) (kov t) false es.*2 (L ++ es ++ (x, b) :: R).*2.
  Proof.
    induction es as [|[y w] es IH]; intros t h L x R fuel HB Hb Hf; (destruct fuel as [|fuel]; [lia|]); cbn [insert_range_loop].
    - cbn [app]. rewrite first_loc_cons, decide_True by done. eexists h, t, _. split; [done|]. split; [by apply tupd_refl|done].
    - rewrite decide_False by (intros E; symmetry in E; revert E; change (Some x) with (first_loc (hdr t) ((x, b) :: R)); eapply rb_first_ne; [exact HB|done]).
      cbn [app]. rewrite first_loc_cons. cbn [rbind]. pose proof HB as (HW&_&_&HS). change (ksorted t (L ++ ((y, w) :: es) ++ (x, b) :: R)) in HS.
      assert (HSb : ksorted t (es ++ (x, b) :: R)) by (apply ksorted_app in HS; by apply (ksorted_app t [(y, w)]) in HS).
      destruct (run_split t w R HW) as (Ra&Rb&->&Hna&Hab); [by apply ksorted_app, (ksorted_app t [(x, b)]) in HSb|].
      destruct (own_equal t h L y w (es ++ (x, b) :: Ra) Rb) as (h1&t1&n&->&HU&Hc).
      + by rewrite <- app_assoc.
      + intros c Hc. assert (Hsb : ksorted t (es ++ [(x, b)])) by (apply (ksorted_app_l t _ (Ra ++ Rb)); by rewrite <- app_assoc).
        assert (Hwb : kcomp t (kov t w) (kov t b) = false) by (apply (Hb (y, w)); set_solver).
        pose proof (le_all_before t es x b w HW Hsb Hwb) as Hle.
        apply elem_of_app in Hc as [Hc|[->|Hc]%elem_of_cons]; [apply Hle; set_solver|apply Hle; set_solver|by apply Hna].
      + done.
      + cbn [rbind]. pose proof HU as (Et&HB1&_&_). rewrite (rb_next _ _ _ _ _ _ HB1). cbn [rbind].
        do 3 (rewrite <- ?app_assoc in HU; rewrite <- ?app_assoc in Hc; rewrite <- ?app_assoc in HB1; rewrite <- ?app_assoc; cbn [app] in *; cbn [app]).
        assert (HB2 : is_rbtree (mem h1) t1 ((L ++ [(y, w)]) ++ es ++ (x, b) :: Ra ++ (n, w) :: Rb)) by (by rewrite <- app_assoc).
        destruct (IH t1 h1 (L ++ [(y, w)]) x (Ra ++ (n, w) :: Rb) fuel HB2) as (h2&t2&cs2&E2&HU2&Hc2).
        * rewrite Et. cbn [sized kcomp kov]. intros c Hcc. apply Hb. set_solver.
        * cbn in Hf. lia.
        * exists h2, t2, cs2. split; [done|]. rewrite <- app_assoc in HU2, Hc2. cbn [app] in HU2, Hc2.
          split; [exact (tupd_trans _ _ _ _ _ _ _ _ _ [] [] HU HU2)|]. rewrite Hc2, Hc, Et. done.
  Qed.
  (** the last position is behind that run: the iterator never gets there *)
  Lemma forward_own_chase fuel : forall t h L y w R1 A R, is_rbtree (mem h) t (L ++ (y, w) :: R1 ++ A ++ R) -> not_above t w R1 -> above t w (A ++ R) ->
    insert_range_loop alloc false false fuel t h (Some y) (first_loc (hdr t) R) = NoFuel.
  Proof.
    induction fuel as [|fuel IH]; intros t h L y w R1 A R HB H1 H2; cbn [insert_range_loop]; [done|].
    rewrite decide_False.
    2:{ change (Some y) with (first_loc (hdr t) (((y, w) :: R1 ++ A) ++ R)). intros E; symmetry in E; revert E. eapply (rb_first_ne _ _ L); [|done]. cbn [app]. by rewrite <- app_assoc. }
    cbn [rbind]. destruct (own_equal t h L y w R1 (A ++ R) HB H1 H2) as (h1&t1&n&->&HU&_). cbn [rbind].
    pose proof HU as (Et&HB1&_&_). rewrite (rb_next _ _ _ _ _ _ HB1). cbn [rbind].
    pose proof HB1 as (HW1&_). rewrite Et in HW1. cbn [sized kcomp] in HW1. pose proof HB as (HW&_&_&HS).
    assert (Eh : hdr t = hdr t1) by (by rewrite Et). rewrite Eh. destruct R1 as [|[z w2] R1]; cbn [app]; rewrite first_loc_cons.
    - apply (IH t1 h1 (L ++ [(y, w)]) n w [] A R).
      + rewrite <- app_assoc. exact HB1.
      + intros c Hc. by apply elem_of_nil in Hc.
      + rewrite Et. exact H2.
    - assert (Hw : kcomp t (kov t w) (kov t w2) = false) by (apply (H1 (z, w2)); set_solver).
      assert (HS' : ksorted t ((y, w) :: (z, w2) :: R1 ++ A ++ R)) by (by apply (ksorted_app t L)).
      assert (Hw2 : kcomp t (kov t w2) (kov t w) = false) by (apply (HS' 0 1); [lia|done|done]).
      apply (IH t1 h1 (L ++ [(y, w)]) z w2 (R1 ++ [(n, w)]) A R).
      + rewrite <- app_assoc. exact HB1.
      + rewrite Et. intros c [Hc| ->%elem_of_list_singleton]%elem_of_app; cbn [sized kcomp kov snd]; [|done].
        eapply (swo_le_trans _ HW); [|exact Hw2]. apply H1. set_solver.
      + rewrite Et. intros c Hc. cbn [sized kcomp kov]. specialize (H2 c Hc). destruct (kcomp t (kov t w2) (kov t c.2)) eqn:Eq; [done|].
        exfalso. assert (kcomp t (kov t w) (kov t c.2) = false); [|congruence]. eapply (swo_le_trans _ HW); [exact Eq|exact Hw].
  Qed.

  (** backwards: it ends, but an element that is the last of its run is copied twice *)
  Lemma backward_own_equal C D : forall t h R fuel, is_rbtree (mem h) t (C ++ D ++ R) -> 2 * length D < fuel ->
    exists h' t' cs', insert_range_loop alloc false true fuel t h (first_loc (hdr t) R) (first_loc (hdr t) (D ++ R)) = Ok (h', t') /\
      tupd h t (C ++ D ++ R) h' t' cs' [] /\
      cs'.*2 = put_all (kcomp t) (kov t) false (backward_copies (kcomp t) (kov t) (rev D.*2) (head R.*2)) (C ++ D ++ R).*2.
  Proof.
    induction D as [|[y w] D IH] using rev_ind; intros t h R fuel HB Hf; (destruct fuel as [|fuel]; [lia|]).
    - cbn [insert_range_loop app]. rewrite decide_True by done. eexists h, t, _. split; [done|]. split; [by apply tupd_refl|done].
    - pose proof HB as (HW&_&_&HS). assert (HSR : ksorted t R) by (by apply (ksorted_app t (C ++ D ++ [(y, w)])); rewrite <- !app_assoc in *; cbn [app] in *).
      rewrite app_length in Hf. cbn [length] in Hf. destruct (run_split t w R HW HSR) as (R1&R2&->&H1&H2).
      set (last := first_loc (hdr t) ((D ++ [(y, w)]) ++ R1 ++ R2)).
      assert (Hlast : forall X, first_loc (hdr t) ((D ++ [(y, w)]) ++ X) = last).
      { intros X. unfold last. rewrite (first_loc_app _ (D ++ [(y, w)]) X), (first_loc_app _ (D ++ [(y, w)]) (R1 ++ R2)) by (by destruct D). done. }
      assert (HB' : is_rbtree (mem h) t ((C ++ D) ++ (y, w) :: R1 ++ R2)) by (rewrite <- !app_assoc in HB |- *; exact HB).
      assert (Hrev : rev (D ++ [(y, w)]).*2 = w :: rev D.*2) by (by rewrite fmap_app, rev_app_distr).
      destruct (own_equal t h (C ++ D) y w R1 R2 HB' H1 H2) as (h1&t1&n&E1&HU&Hc).
      pose proof HU as (Et&HB1&_&_). assert (Eh : hdr t1 = hdr t) by (by rewrite Et). assert (Ek : kcomp t1 = kcomp t) by (by rewrite Et). assert (Ev : kov t1 = kov t) by (by rewrite Et).
      rewrite Hrev. cbn [backward_copies]. cbn [insert_range_loop].
      rewrite decide_False by (eapply rb_first_ne; [exact HB|by destruct D]). rewrite (rb_prev _ _ _ _ _ _ HB'). cbn [rbind]. rewrite E1. cbn [rbind].
      destruct R1 as [|[z b] R1].
      + (* the last of its run *) cbn [app] in *.
        assert (HBn : is_rbtree (mem h1) t1 (((C ++ D) ++ [(y, w)]) ++ (n, w) :: R2)) by (by rewrite <- app_assoc).
        rewrite <- Eh, (rb_prev _ _ _ _ _ _ HBn). cbn [rbind]. destruct fuel as [|fuel]; [lia|]. cbn [insert_range_loop].
        rewrite decide_False.
        2:{ rewrite <- (Hlast ((n, w) :: R2)), <- Eh. change (Some n) with (first_loc (hdr t1) ((n, w) :: R2)). eapply (rb_first_ne _ _ C); [|by destruct D].
            rewrite <- !app_assoc. rewrite <- !app_assoc in HBn. done. }
        change (Some n) with (first_loc (hdr t1) ((n, w) :: R2)) at 1. rewrite (rb_prev _ _ _ _ _ _ HB1). cbn [rbind].
        destruct (own_equal t1 h1 (C ++ D) y w [(n, w)] R2 HB1) as (h2&t2&n2&E2&HU2&Hc2).
        { intros c ->%elem_of_list_singleton. rewrite Ek, Ev. apply (swo_irrefl _ HW). }
        { unfold above. rewrite Ek, Ev. exact H2. }
        rewrite E2. cbn [rbind]. pose proof HU2 as (Et2&HB2&_&_). change (Some n) with (first_loc (hdr t1) (([(n, w)] ++ [(n2, w)]) ++ R2)).
        assert (Eh2 : hdr t2 = hdr t1) by (by rewrite Et2). rewrite <- Eh2, (rb_prev _ _ _ _ _ _ HB2). cbn [rbind].
        assert (HB3 : is_rbtree (mem h2) t2 (C ++ D ++ (y, w) :: ([(n, w)] ++ [(n2, w)]) ++ R2)) by (by rewrite app_assoc).
        destruct (IH t2 h2 _ fuel HB3) as (h3&t3&cs3&E3&HU3&Hc3); [lia|].
        assert (El : first_loc (hdr t2) (D ++ (y, w) :: ([(n, w)] ++ [(n2, w)]) ++ R2) = last).
        { rewrite Eh2, Eh, <- (Hlast (([(n, w)] ++ [(n2, w)]) ++ R2)). by rewrite <- (app_assoc D). }
        rewrite El in E3. rewrite first_loc_cons in E3. exists h3, t3, cs3. split; [done|]. rewrite <- !app_assoc in *. cbn [app] in *.
        split; [exact (tupd_trans _ _ _ _ _ _ _ _ _ [] [] HU (tupd_trans _ _ _ _ _ _ _ _ _ [] [] HU2 HU3))|].
        rewrite Hc3, Hc2, Et2, Ek, Ev. cbn [sized kcomp kov]. rewrite Ek, Ev, Hc. cbn [head fmap list_fmap snd].
        destruct R2 as [|[z b] R2]; cbn [head fmap list_fmap snd]; [done|]. assert (kcomp t (kov t w) (kov t b) = true) as -> by (apply (H2 (z, b)); set_solver). done.
      + (* not the last of its run *) cbn [app] in *. rewrite first_loc_cons.
        assert (HBn : is_rbtree (mem h1) t1 ((C ++ D) ++ (y, w) :: (z, b) :: (R1 ++ [(n, w)]) ++ R2)) by done.
        pose proof (rb_prev _ _ _ _ _ _ HBn) as Ep. rewrite first_loc_cons in Ep. rewrite Ep. cbn [rbind].
        assert (HB3 : is_rbtree (mem h1) t1 (C ++ D ++ (y, w) :: (z, b) :: (R1 ++ [(n, w)]) ++ R2)) by (by rewrite app_assoc).
        destruct (IH t1 h1 _ fuel HB3) as (h3&t3&cs3&E3&HU3&Hc3); [lia|].
        assert (El : first_loc (hdr t1) (D ++ (y, w) :: (z, b) :: (R1 ++ [(n, w)]) ++ R2) = last).
        { rewrite Eh, <- (Hlast ((z, b) :: (R1 ++ [(n, w)]) ++ R2)). by rewrite <- (app_assoc D). }
        rewrite El in E3. rewrite first_loc_cons in E3. exists h3, t3, cs3. split; [done|]. rewrite <- !app_assoc in *. cbn [app] in *.
        split; [exact (tupd_trans _ _ _ _ _ _ _ _ _ [] [] HU HU3)|].
        rewrite Hc3, Hc, Ek, Ev. cbn [head fmap list_fmap snd].
        assert (kcomp t (kov t w) (kov t b) = false) as -> by (apply (H1 (z, b)); set_solver). done.
  Qed.
End proofs.
