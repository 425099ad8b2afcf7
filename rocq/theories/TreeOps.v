(** TreeOps.v — the functions of c_tree.c on one tree object. *)
From Verif Require Import Base Spec Facts DList Tree SpecTree TreeRep TreeInsert TreeErase TreeIter TreeUnlink TreeApi.
From stdpp Require Import list gmap.

Section ops.
  Context {K V : Type} (alloc : gmap loc (tnode V) -> loc) (Ha : tmalloc_ok alloc).
  Notation M := (gmap loc (tnode V)).
  Notation ctx := (list (frame V)).
  Notation cell := (loc * V)%type.
  Implicit Types (m : M) (h : theap V) (t : tobj K V) (k : ctx) (cs L R : list cell).

  Definition inc t : tobj K V := TObj (hdr t) (S (cnt t)) (kcomp t) (kov t).
  Definition dec t : tobj K V := TObj (hdr t) (cnt t - 1) (kcomp t) (kov t).
  Lemma is_rbtree_intro m t cs T : StrictWeakOrder (kcomp t) -> is_tree m (hdr t) T -> cells T = cs -> cnt t = length cs ->
    ksorted t cs -> is_rbtree m t cs.
  Proof. intros H1 H2 H3 H4 H5. split; [done|]. split; [by exists T|]. by split. Qed.
  Lemma ksorted_put t L R x a : StrictWeakOrder (kcomp t) -> ksorted t (L ++ R) ->
    (forall c, c ∈ L -> kcomp t (kov t a) (kov t c.2) = false) -> (forall c, c ∈ R -> kcomp t (kov t c.2) (kov t a) = false) ->
    ksorted t (L ++ (x, a) :: R).
  Proof.
    intros HW (H1&H2&H3)%ksorted_app HL HR. apply ksorted_app. split; [done|]. split.
    - change ((x, a) :: R) with ([(x, a)] ++ R). apply ksorted_app. split; [|split; [done|]].
      + unfold ksorted. cbn. intros i j y z Hij Hi Hj. destruct i, j; cbn in *; try lia; by destruct j.
      + intros c d ->%elem_of_list_singleton Hd. by apply HR.
    - intros c d Hc [->|Hd]%elem_of_cons; [by apply HL|by apply H3].
  Qed.
  Lemma ksorted_delete t L x a R : ksorted t (L ++ (x, a) :: R) -> ksorted t (L ++ R).
  Proof.
    intros (H1&H2&H3)%ksorted_app. change ((x, a) :: R) with ([(x, a)] ++ R) in H2. apply ksorted_app in H2 as (_&H2&_). apply ksorted_app.
    split; [done|]. split; [done|]. intros c d Hc Hd. apply H3; [done|]. apply elem_of_cons. by right.
  Qed.
  Lemma holds_nodes m hd cs : holds m hd cs -> NoDup (tnodes hd cs) /\ forall z, z ∈ tnodes hd cs -> is_Some (m !! z).
  Proof.
    intros (T&[(Hh&Hr&HN) _]&<-). split; [done|]. intros z [->|Hz]%elem_of_cons; [by eexists|]. by eapply rep_dom.
  Qed.

  (** inserting at a given null link *)
  Lemma insert_pos_ok t h hint k v a : is_rbtree (mem h) t (lcells k ++ rcells k) -> is_tree (mem h) (hdr t) (plug k Lf) ->
    valued (mem h) v a -> side_ok t hint a k ->
    (forall c, c ∈ lcells k -> kcomp t (kov t a) (kov t c.2) = false) -> (forall c, c ∈ rcells k -> kcomp t (kov t c.2) (kov t a) = false) ->
    exists m', insert_node alloc t h hint (Some (cpar (hdr t) k)) v = Ok (THeap m' (tdead h), inc t, Some (alloc (mem h))) /\
      is_rbtree m' (inc t) (lcells k ++ (alloc (mem h), a) :: rcells k) /\
      tstep (mem h) m' (tnodes (hdr t) (lcells k ++ rcells k)) (tnodes (hdr t) (lcells k ++ (alloc (mem h), a) :: rcells k)).
  Proof.
    intros (HW&_&Hc&HS) HT Hv Hs HL HR. destruct (insert_node_ok alloc Ha t h hint k v a HT Hv Hs) as (m'&T'&E&HT'&Hc'&HF).
    exists m'. split; [done|]. split.
    - eapply is_rbtree_intro; [done|exact HT'|done| |].
      + cbn [cnt inc]. rewrite Hc, !app_length. cbn [length]. lia.
      + by apply ksorted_put.
    - unfold tnodes. split; [|split].
      + intros z H1 H2. apply HF. unfold locs. rewrite cells_plug. cbn [cells app]. rewrite fmap_app in *. cbn in H2. clear - H1 H2. set_solver.
      + intros z H1 H2. exfalso. rewrite fmap_app in *. cbn in H2. clear - H1 H2. set_solver.
      + intros z H1 H2. rewrite fmap_app in *. cbn in H2. assert (z = alloc (mem h)) as -> by (clear - H1 H2; set_solver). apply Ha.
  Qed.
  Lemma plug_Lf_split m hd k T : is_tree m hd T -> plug k Lf = T -> cells T = lcells k ++ rcells k.
  Proof. intros _ <-. by rewrite cells_plug. Qed.
  Lemma root_descend t m T v a : StrictWeakOrder (kcomp t) -> is_tree m (hdr t) T -> ksorted t (cells T) -> valued m v a ->
    exists k, (do r <- root_of m (hdr t); descend (tfuel m) t m (Some (hdr t)) r true v) = Ok (Some (cpar (hdr t) k), cside k) /\
      plug k Lf = T /\ splits (le_key t (kov t a)) k.
  Proof.
    intros HW [HR Hrb] HS Hv. rewrite (Rep_root _ _ _ _ _ HR). cbn [rbind].
    apply (descend_ok t m (hdr t) _ _ v a HW Hv T [] (tfuel m) HR HS); [|apply splits_nil].
    pose proof (height_le T). pose proof (Rep_size _ _ _ _ _ HR). unfold tfuel. lia.
  Qed.
  Lemma splits_side t a k : splits (le_key t (kov t a)) k -> side_ok t None a k.
  Proof.
    intros [H1 H2]. destruct k as [|[c x w r|c l x w] k]; [done| |]; cbn [side_ok].
    - right. assert (le_key t (kov t a) w = false) as H by (apply (H2 (x, w)); cbn [rcells]; set_solver). unfold le_key in H. by apply negb_false_iff.
    - split; [done|]. assert (le_key t (kov t a) w = true) as H by (apply (H1 (x, w)); cbn [lcells]; set_solver). unfold le_key in H. by apply negb_true_iff.
  Qed.
  Lemma splits_before t a k : splits (le_key t (kov t a)) k -> forall c, c ∈ lcells k -> kcomp t (kov t a) (kov t c.2) = false.
  Proof. intros [H _] c Hc. apply H in Hc. unfold le_key in Hc. by apply negb_true_iff. Qed.
  Lemma splits_after t a k : StrictWeakOrder (kcomp t) -> splits (le_key t (kov t a)) k -> forall c, c ∈ rcells k -> kcomp t (kov t c.2) (kov t a) = false.
  Proof. intros HW [_ H] c Hc. apply H in Hc. unfold le_key in Hc. apply negb_false_iff in Hc. by apply (swo_asym (kcomp t) HW). Qed.

  (** ** unhinted insertion *)
  Lemma insert_equal_value_ok t h v a cs : is_rbtree (mem h) t cs -> valued (mem h) v a ->
    exists L R m', cs = L ++ R /\ (forall c, c ∈ L -> le_key t (kov t a) c.2 = true) /\ (forall c, c ∈ R -> le_key t (kov t a) c.2 = false) /\
      c_tree_insert_equal_value alloc t h v = Ok (THeap m' (tdead h), inc t, Some (alloc (mem h))) /\
      is_rbtree m' (inc t) (L ++ (alloc (mem h), a) :: R) /\
      tstep (mem h) m' (tnodes (hdr t) cs) (tnodes (hdr t) (L ++ (alloc (mem h), a) :: R)).
  Proof.
    intros HB Hv. pose proof HB as (HW&(T&HT&Hcs)&Hc&HS). rewrite <- Hcs in HS.
    destruct (root_descend t (mem h) T v a HW HT HS Hv) as (k&E&HkT&Hk). subst T. rewrite cells_plug in Hcs. cbn [cells app] in Hcs. subst cs.
    exists (lcells k), (rcells k). unfold c_tree_insert_equal_value.
    destruct (insert_pos_ok t h None k v a HB HT Hv (splits_side _ _ _ Hk) (splits_before _ _ _ Hk) (splits_after _ _ _ HW Hk)) as (m'&E'&H1&H2).
    exists m'. split; [done|]. destruct Hk as [Hk1 Hk2]. split; [done|]. split; [done|]. split; [|done].
    destruct (root_of (mem h) (hdr t)) as [r| |]; cbn [rbind] in *; [|done|done]. rewrite E. cbn [rbind]. done.
  Qed.
  Lemma insert_unique_value_ok t h v a cs : is_rbtree (mem h) t cs -> valued (mem h) v a ->
    (exists L R m', cs = L ++ R /\ (forall c, c ∈ L -> le_key t (kov t a) c.2 = true) /\ (forall c, c ∈ R -> le_key t (kov t a) c.2 = false) /\
      (forall c, c ∈ cs -> eq_key t (kov t a) c.2 = false) /\
      c_tree_insert_unique_value alloc t h v = Ok (THeap m' (tdead h), inc t, Some (alloc (mem h))) /\
      is_rbtree m' (inc t) (L ++ (alloc (mem h), a) :: R) /\
      tstep (mem h) m' (tnodes (hdr t) cs) (tnodes (hdr t) (L ++ (alloc (mem h), a) :: R))) \/
    (exists x w, (x, w) ∈ cs /\ eq_key t (kov t a) w = true /\ c_tree_insert_unique_value alloc t h v = Ok (h, t, Some x)).
  Proof.
    intros HB Hv. pose proof HB as (HW&(T&HT&Hcs)&Hc&HS). rewrite <- Hcs in HS.
    destruct (root_descend t (mem h) T v a HW HT HS Hv) as (k&E&HkT&Hk). subst T. rewrite cells_plug in Hcs, HS. cbn [cells app] in Hcs, HS. subst cs.
    destruct (insert_pos_ok t h None k v a HB HT Hv (splits_side _ _ _ Hk) (splits_before _ _ _ Hk) (splits_after _ _ _ HW Hk)) as (m'&E'&H1&H2).
    assert (Hins : (forall c, c ∈ lcells k -> eq_key t (kov t a) c.2 = false) -> forall c, c ∈ lcells k ++ rcells k -> eq_key t (kov t a) c.2 = false).
    { intros H c [Hl|Hr]%elem_of_app; [by apply H|]. destruct Hk as [_ Hk]. apply Hk in Hr. unfold eq_key, equivb. unfold le_key in Hr. by rewrite Hr. }
    unfold c_tree_insert_unique_value. destruct (root_of (mem h) (hdr t)) as [r| |]; cbn [rbind] in *; [|done|done]. rewrite E. cbn [rbind].
    pose proof HT as [HR _]. pose proof HR as (Hh&_&HN). rewrite (left_ok _ _ _ Hh). cbn [rbind nleft]. unfold locs in HN. rewrite cells_plug in *. cbn [cells app] in *.
    destruct (decide (lcells k = [])) as [Hnil|Hne].
    - assert (cside k = true) as ->. { destruct k as [|[? ? ? ?|? ? ? ?] ?]; [done|done|]. cbn [lcells] in Hnil. by destruct (lcells k), (cells l). }
      rewrite Hnil. cbn [app]. rewrite cpar_first by done. rewrite bool_decide_true by done. cbn [andb]. left.
      exists [], (rcells k), m'. rewrite Hnil in *. cbn [app] in *. destruct Hk as [Hk1 Hk2].
      split; [done|]. split; [rewrite Hnil in Hk1; done|]. split; [done|]. split; [|done].
      apply Hins. intros c Hcc. by apply elem_of_nil in Hcc.
    - destruct (exists_last Hne) as (L'&[z wz]&EL).
      assert (andb (cside k) (bool_decide (Some (cpar (hdr t) k) = first_loc (hdr t) (lcells k ++ rcells k))) = false) as ->.
      { destruct (cside k) eqn:Ecs; [|done]. cbn [andb]. apply bool_decide_false. rewrite first_loc_app by done.
        destruct k as [|[c x w rr|c l x w] k]; [done| |done]. cbn [cpar lcells rcells] in *. intros E1. symmetry in E1. revert E1.
        rewrite <- (first_loc_app (hdr t) (lcells k) ((x, w) :: cells rr ++ rcells k)) by done. by apply first_loc_ne. }
      assert ((if cside k then decrement (mem h) (Some (cpar (hdr t) k)) else Ok (Some (cpar (hdr t) k))) = Ok (Some z)) as ->.
      { rewrite <- (last_loc_snoc (hdr t) z wz L'), <- EL. destruct k as [|[c x w rr|c l x w] k]; [done| |].
        - cbn [cside cpar]. cbn [lcells rcells] in *. eapply (prev_ok (mem h) (hdr t) _ (lcells k) x w (cells rr ++ rcells k)); [exact HT| |done].
          cbn [plug]. rewrite cells_plug. cbn [cells]. done.
        - cbn [cside cpar lcells]. by rewrite app_assoc, last_loc_snoc. }
      cbn [rbind]. assert (Hz : (z, wz) ∈ lcells k) by (rewrite EL; set_solver).
      assert (Hzv : valof (mem h) (Some z) = Ok wz). { eapply val_ok; [exact HT|]. rewrite cells_plug. apply elem_of_app. by left. }
      unfold nkey. rewrite Hzv. cbn [rbind]. rewrite (vkey_ok _ _ _ _ Hv). cbn [rbind].
      destruct (kcomp t (kov t wz) (kov t a)) eqn:Ec.
      + left. exists (lcells k), (rcells k), m'. split; [done|]. destruct Hk as [Hk1 Hk2]. split; [done|]. split; [done|]. split; [|done].
        apply Hins. intros c Hcc. unfold eq_key, equivb.
        assert (kcomp t (kov t c.2) (kov t a) = true) as ->; [|by rewrite andb_false_r].
        rewrite EL in Hcc. apply elem_of_app in Hcc as [Hcc|Hcc]; [|by apply elem_of_list_singleton in Hcc as ->].
        eapply (swo_le_lt_trans (kcomp t) HW); [|exact Ec]. rewrite EL in HS. apply ksorted_app in HS as (HS&_). apply ksorted_app in HS as (_&_&HS).
        apply (HS c (z, wz)); [done|set_solver].
      + right. exists z, wz. split; [apply elem_of_app; by left|]. split; [|done]. unfold eq_key, equivb. rewrite Ec.
        pose proof (splits_before _ _ _ Hk (z, wz) Hz) as Hb. cbn in Hb. by rewrite Hb.
  Qed.

  (** ** erasure *)
  Lemma erase_ok t h L x w R : is_rbtree (mem h) t (L ++ (x, w) :: R) ->
    exists m', c_tree_erase t h (Some x) = Ok (THeap m' (tdead h ++ [w]), dec t, first_loc (hdr t) R) /\
      is_rbtree m' (dec t) (L ++ R) /\ tstep (mem h) m' (tnodes (hdr t) (L ++ (x, w) :: R)) (tnodes (hdr t) (L ++ R)).
  Proof.
    intros (HW&(T&HT&Hcs)&Hc&HS). pose proof (is_tree_ND _ _ _ HT) as HN. unfold c_tree_erase.
    rewrite (next_ok _ _ _ _ _ _ _ HT Hcs). cbn [rbind].
    destruct (split_at _ _ _ _ _ Hcs) as (k&c&l&r&->&->&->); [by apply NoDup_cons in HN as [_ ?]|].
    destruct (rebalance_erase_ok _ _ _ _ _ _ _ _ HT) as (m'&T'&->&HT'&Hc'&(n&Hn&Hnv)&HF). cbn [rbind].
    unfold destroy_node. cbn [mem]. rewrite (valof_ok _ _ _ _ Hn Hnv). cbn [rbind tdead].
    eexists. split; [reflexivity|]. cbn [mem].
    set (cs' := (lcells k ++ cells l) ++ cells r ++ rcells k) in *.
    unfold locs in HN. rewrite Hcs in HN. assert (HN' : NoDup (x :: hdr t :: cs'.*1)).
    { eapply NoDup_perm; [exact HN|]. unfold cs'. rewrite !fmap_app. cbn. rewrite !fmap_app. solve_Permutation. }
    apply NoDup_cons in HN' as [Hxn _].
    split.
    - eapply (is_rbtree_intro _ _ _ T'); [done| |done| |].
      + destruct HT' as [(H1&H2&H3) H4]. split; [|done]. cbn [hdr dec]. apply not_elem_of_cons in Hxn as [Hxh Hxn]. split; [|split; [|done]].
        * by rewrite lookup_delete_ne by done.
        * eapply rep_frame; [|exact H2]. intros z Hz. apply lookup_delete_ne. intros ->. apply Hxn. rewrite <- Hc'. done.
      + cbn [cnt dec]. rewrite Hc. unfold cs'. rewrite !app_length. cbn [length]. rewrite app_length. lia.
      + unfold cs'. by eapply ksorted_delete.
    - split; [|split].
      + intros z H1 H2. unfold tnodes in H1. rewrite lookup_delete_ne.
        * apply HF. unfold locs. by rewrite Hcs.
        * intros ->. apply H1. rewrite !fmap_app. cbn. clear. set_solver.
      + intros z H1 H2. unfold tnodes in H1, H2. assert (z = x) as ->; [|apply lookup_delete].
        unfold cs' in H2. rewrite !fmap_app in H1, H2. cbn in H1. rewrite !fmap_app in H1. clear - H1 H2. set_solver.
      + intros z H1 H2. exfalso. apply H1. unfold tnodes, cs' in H2. unfold tnodes. rewrite !fmap_app in H2. rewrite !fmap_app. cbn. rewrite !fmap_app. clear - H2. set_solver.
  Qed.

  (** ** clear *)
  Lemma erase_all_ok s : forall h p fuel, rep (mem h) p s -> NoDup (locs s) -> height s < fuel ->
    exists m', erase_all fuel h (root s) = Ok (THeap m' (tdead h ++ rev (cells s).*2)) /\
      (forall z, z ∉ locs s -> m' !! z = mem h !! z) /\ (forall z, z ∈ locs s -> m' !! z = None).
  Proof.
    induction s as [|c l IHl x w r IHr]; intros h p fuel Hr HN Hf; (destruct fuel as [|fuel]; [lia|]); cbn [erase_all root].
    - exists (mem h). cbn. rewrite app_nil_r. split; [by destruct h|]. split; [done|]. intros z Hz. by apply elem_of_nil in Hz.
    - cbn [rep height] in *. destruct Hr as (Hx&Hl&Hr). rewrite locs_N in HN. rewrite (right_ok _ _ _ Hx). cbn [rbind nright].
      apply NoDup_app in HN as (HNl&HNlr&HN). apply NoDup_cons in HN as [Hxr HNr].
      destruct (IHr h x fuel Hr HNr) as (m1&->&F1&G1); [lia|]. cbn [rbind mem].
      assert (Hx1 : m1 !! x = mem h !! x) by by apply F1. rewrite Hx in Hx1. rewrite (left_ok _ _ _ Hx1). cbn [rbind nleft].
      unfold destroy_node. cbn [mem tdead]. rewrite (valof_ok _ _ _ w Hx1 eq_refl). cbn [rbind].
      assert (Hxl : x ∉ locs l) by (intros H; apply (HNlr _ H), elem_of_cons; by left).
      destruct (IHl (THeap (delete x m1) ((tdead h ++ rev (cells r).*2) ++ [w])) x fuel) as (m2&->&F2&G2); [|done|lia|].
      { cbn [mem]. eapply rep_frame; [|exact Hl]. intros z Hz. rewrite lookup_delete_ne by (intros ->; done). apply F1. intros H. apply (HNlr _ Hz), elem_of_cons. by right. }
      cbn [mem tdead] in *. exists m2. split; [|split].
      + f_equal. f_equal. cbn [cells]. rewrite fmap_app. cbn [fmap list_fmap snd]. rewrite rev_app_distr. cbn [rev]. by rewrite <- !app_assoc.
      + intros z Hz. rewrite locs_N in Hz. apply not_elem_of_app in Hz as [Hz1 Hz2]. apply not_elem_of_cons in Hz2 as [Hz2 Hz3].
        rewrite F2 by done. rewrite lookup_delete_ne by done. by apply F1.
      + intros z Hz. rewrite locs_N in Hz. apply elem_of_app in Hz as [Hz|Hz]; [by apply G2|].
        apply elem_of_cons in Hz as [->|Hz].
        * rewrite F2 by done. by apply lookup_delete.
        * rewrite F2 by (intros H; apply (HNlr _ H), elem_of_cons; by right). rewrite lookup_delete_ne by (intros ->; done). by apply G1.
  Qed.
  Definition zero t : tobj K V := TObj (hdr t) 0 (kcomp t) (kov t).
  Lemma is_tree_nil m hd : m !! hd = Some (TNode RED None (Some hd) (Some hd) None) -> is_tree m hd Lf.
  Proof.
    intros H. split; [|by exists 0; constructor]. split; [done|]. split; [done|]. apply NoDup_cons. split; [by apply not_elem_of_nil|apply NoDup_nil_2].
  Qed.
  Lemma ksorted_nil t : ksorted t [].
  Proof. unfold ksorted. cbn. by apply sorted_nil. Qed.
  Lemma clear_ok t h cs : is_rbtree (mem h) t cs ->
    exists m', c_tree_clear t h = Ok (THeap m' (tdead h ++ rev cs.*2), zero t) /\ is_rbtree m' (zero t) [] /\
      tstep (mem h) m' (tnodes (hdr t) cs) (tnodes (V:=V) (hdr t) []).
  Proof.
    intros (HW&(T&HT&<-)&Hc&HS). pose proof HT as [(Hh&Hr&HN) _]. pose proof HT as [HR _]. unfold c_tree_clear.
    rewrite (Rep_root _ _ _ _ _ HR). cbn [rbind]. apply NoDup_cons in HN as [Hhn HN].
    destruct (erase_all_ok T h (hdr t) (tfuel (mem h)) Hr HN) as (m1&->&F1&G1).
    { pose proof (height_le T). pose proof (Rep_size _ _ _ _ _ HR). unfold tfuel. lia. }
    cbn [rbind mem tdead]. assert (Hh1 : m1 !! hdr t = mem h !! hdr t) by by apply F1. rewrite Hh in Hh1.
    rewrite (set_parent_ok _ _ _ _ Hh1). cbn [rbind]. set (m2 := alter (wpar None) (hdr t) m1).
    assert (Hh2 : m2 !! hdr t = Some (TNode RED None (first_loc (hdr t) (cells T)) (last_loc (hdr t) (cells T)) None)).
    { unfold m2. by rewrite lookup_alter, Hh1. }
    rewrite (set_left_ok _ _ _ _ Hh2). cbn [rbind]. set (m3 := alter (wleft (Some (hdr t))) (hdr t) m2).
    assert (Hh3 : m3 !! hdr t = Some (TNode RED None (Some (hdr t)) (last_loc (hdr t) (cells T)) None)).
    { unfold m3. by rewrite lookup_alter, Hh2. }
    rewrite (set_right_ok _ _ _ _ Hh3). cbn [rbind]. eexists. split; [reflexivity|]. split.
    - eapply (is_rbtree_intro _ _ _ Lf); [done| |done|done|apply ksorted_nil]. apply is_tree_nil. cbn [hdr zero]. by rewrite lookup_alter, Hh3.
    - assert (FF : forall z, z <> hdr t -> alter (wright (Some (hdr t))) (hdr t) m3 !! z = m1 !! z).
      { intros z Hz. rewrite lookup_alter_ne by done. unfold m3. rewrite lookup_alter_ne by done. unfold m2. by rewrite lookup_alter_ne by done. }
      unfold tnodes. split; [|split].
      + intros z H1 H2. apply not_elem_of_cons in H1 as [H1 H1']. rewrite FF by done. by apply F1.
      + intros z H1 H2. apply not_elem_of_cons in H2 as [H2 _]. apply elem_of_cons in H1 as [->|H1]; [done|]. rewrite FF by done. by apply G1.
      + intros z H1 H2. apply not_elem_of_cons in H1 as [H1 _]. by apply elem_of_list_singleton in H2.
  Qed.
End ops.
