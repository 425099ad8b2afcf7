(** DListProofs.v — correctness of the operations of DList.v on well-formed lists. *)
From Verif Require Import Base Spec SpecSeq Facts DList Path SpecList DListCore.
From stdpp Require Import list gmap.

Section proofs.
  Context {A : Type} (dflt : A) (alloc : heap A -> loc) (Halloc : malloc_ok alloc).
  Implicit Types h : heap A.
  Notation cell := (loc * A)%type.
  Implicit Types cs ds : list cell.

  (** the list [s] changes from [cs] to [cs'], the values [ds] being destroyed *)
  Definition upd h h' (s : loc) cs cs' (ds : list A) : Prop :=
    is_list h' s cs' /\ step h h' (nodes s cs) (nodes s cs') /\ dead h' = dead h ++ ds.
  Lemma upd_refl h s cs : is_list h s cs -> upd h h s cs cs [].
  Proof. intros H. split_and!; [done|by apply step_refl|by rewrite app_nil_r]. Qed.
  Lemma upd_trans h1 h2 h3 s a b c d1 d2 : upd h1 h2 s a b d1 -> upd h2 h3 s b c d2 -> upd h1 h3 s a c (d1 ++ d2).
  Proof.
    intros (A1&A2&A3) (B1&B2&B3). split_and!; [done|by eapply step_trans|]. rewrite B3, A3. by rewrite app_assoc.
  Qed.
  Lemma upd_relink h h' s cs cs' : is_list h' s cs' -> relink h h' (nodes s cs) -> cs ≡ₚ cs' -> upd h h' s cs cs' [].
  Proof.
    intros H1 H2 Hp. split_and!; [done| |by rewrite app_nil_r; apply H2].
    eapply relink_step; [done|done|]. intros y. unfold nodes. by rewrite Hp.
  Qed.

  (** ** observers *)
  Lemma begin_ok h s cs : is_list h s cs -> next h s = Ok (hd s cs.*1).
  Proof. intros HL. apply next_ok. by apply (is_list_split h s [] cs). Qed.
  Lemma last_ok h s cs : is_list h s cs -> prev h s = Ok (lst s cs.*1).
  Proof.
    intros HL. apply prev_ok. pose proof (is_list_split h s cs []) as H. rewrite app_nil_r in H. by apply H.
  Qed.
  Lemma next_at h s c1 x a c2 : is_list h s (c1 ++ (x, a) :: c2) -> next h x = Ok (hd s c2.*1).
  Proof. intros HL. apply next_ok. apply is_list_split in HL as (_&H&_&_). cbn in H. tauto. Qed.
  Lemma prev_at h s c1 c2 : is_list h s (c1 ++ c2) -> prev h (hd s c2.*1) = Ok (lst s c1.*1).
  Proof. intros HL. apply prev_ok. by apply is_list_split in HL as (_&_&H&_). Qed.
  Lemma value_at h s c1 x a c2 : is_list h s (c1 ++ (x, a) :: c2) -> value h x = Ok a.
  Proof.
    intros (_&_&_&Hf). apply value_ok. apply Forall_app in Hf as [_ Hf]. by apply Forall_cons in Hf as [Hf _].
  Qed.
  Lemma value_in h s cs x a : is_list h s cs -> (x, a) ∈ cs -> value h x = Ok a.
  Proof. intros HL (c1&c2&->)%elem_of_list_split. by eapply value_at. Qed.
  Lemma not_sentinel h s c1 x a c2 : is_list h s (c1 ++ (x, a) :: c2) -> x ≠ s.
  Proof. intros (Hnd&_). rewrite nodes_app in Hnd. apply NoDup_cons in Hnd as [Hs _]. intros ->. apply Hs. apply elem_of_app. right. left. Qed.
  Lemma pos_inj h s c1 c2 c3 : is_list h s (c1 ++ c2 ++ c3) -> hd s (c2 ++ c3).*1 = hd s c3.*1 -> c2 = [].
  Proof.
    destruct c2 as [|[x a] c2]; [done|]. intros (Hnd&_) He. cbn in He. exfalso. rewrite nodes_app in Hnd.
    cbn in Hnd. destruct c3 as [|c c3]; cbn in He.
    - subst x. apply NoDup_cons in Hnd as [Hs _]. apply Hs. apply elem_of_app. right. left.
    - subst x. apply NoDup_cons in Hnd as [_ Hnd]. apply NoDup_app in Hnd as (_&_&Hnd). apply NoDup_cons in Hnd as [Hs _].
      apply Hs. rewrite fmap_app. apply elem_of_app. right. left.
  Qed.
  Lemma empty_ok h s cs : is_list h s cs -> c_list_empty h s = Ok (bool_decide (cs = [])).
  Proof.
    intros HL. unfold c_list_empty. rewrite (begin_ok _ _ _ HL). cbn. f_equal. apply bool_decide_ext.
    destruct cs as [|[x a] cs]; cbn; [done|]. split; [|done]. intros ->.
    by destruct (not_sentinel h s [] s a cs HL).
  Qed.
  Lemma distance_ok h s c1 c2 c3 fuel : is_list h s (c1 ++ c2 ++ c3) -> length c2 < fuel ->
    distance fuel h (hd s (c2 ++ c3).*1) (hd s c3.*1) = Ok (length c2).
  Proof.
    revert c1 fuel. induction c2 as [|[x a] c2 IH]; intros c1 fuel HL Hf; (destruct fuel as [|fuel]; [lia|]); cbn [distance].
    - by rewrite decide_True.
    - rewrite decide_False by (intros He; by apply pos_inj with (c1 := c1) (h := h) in He). cbn [app fmap list_fmap fst hd].
      cbn [app] in HL. rewrite (next_at _ _ _ _ _ _ HL). cbn.
      rewrite (IH (c1 ++ [(x, a)])); [done|by rewrite <- app_assoc|cbn in Hf; lia].
  Qed.
  Lemma fuel_enough h s cs : is_list h s cs -> length cs < fuel_of h.
  Proof. intros HL. apply is_list_length in HL. unfold fuel_of. lia. Qed.
  Lemma size_ok h s cs : is_list h s cs -> c_list_size h s = Ok (length cs).
  Proof.
    intros HL. unfold c_list_size. rewrite (begin_ok _ _ _ HL). cbn [rbind].
    pose proof (distance_ok h s [] cs [] (fuel_of h)) as H. rewrite app_nil_r in H. apply H; [done|by eapply fuel_enough].
  Qed.
  Lemma front_ok h s cs : is_list h s cs -> c_list_front h s = Ok (head cs.*2).
  Proof.
    intros HL. unfold c_list_front. rewrite (empty_ok _ _ _ HL). cbn. destruct cs as [|[x a] cs]; cbn; [done|].
    rewrite (begin_ok _ _ _ HL). cbn. by rewrite (value_at h s [] x a cs HL).
  Qed.
  Lemma back_ok h s cs : is_list h s cs -> c_list_back h s = Ok (last cs.*2).
  Proof.
    intros HL. unfold c_list_back. rewrite (empty_ok _ _ _ HL). cbn. destruct cs as [|[x a] cs _] using rev_ind; [done|].
    rewrite bool_decide_eq_false_2 by (by destruct cs). rewrite (last_ok _ _ _ HL). cbn.
    rewrite !fmap_app. cbn. rewrite lst_snoc, (value_at h s cs x a [] HL), last_snoc. done.
  Qed.
  Lemma walk_ok h s c1 c2 fuel : is_list h s (c1 ++ c2) -> length c2 < fuel ->
    walk fuel h (hd s c2.*1) s = Ok c2.
  Proof.
    revert c1 fuel. induction c2 as [|[x a] c2 IH]; intros c1 fuel HL Hf; (destruct fuel as [|fuel]; [lia|]); cbn [walk].
    - cbn. by rewrite decide_True.
    - cbn [fmap list_fmap fst hd]. rewrite decide_False by (by eapply not_sentinel).
      rewrite (value_at _ _ _ _ _ _ HL). cbn [rbind].
      rewrite (next_at _ _ _ _ _ _ HL). cbn [rbind].
      rewrite (IH (c1 ++ [(x, a)])); [done|by rewrite <- app_assoc|cbn in Hf; lia].
  Qed.
  Lemma list_walk_ok h s cs : is_list h s cs -> c_list_walk h s = Ok cs.
  Proof.
    intros HL. unfold c_list_walk. rewrite (begin_ok _ _ _ HL). cbn [rbind].
    apply (walk_ok h s []); [done|by eapply fuel_enough].
  Qed.
  Lemma traverse_ok h s cs : is_list h s cs -> c_list_traverse h s = Ok cs.*2.
  Proof. intros HL. unfold c_list_traverse. by rewrite (list_walk_ok _ _ _ HL). Qed.
  Lemma rwalk_ok h s c1 c2 fuel : is_list h s (c1 ++ c2) -> length c1 < fuel ->
    rwalk fuel h (hd s c2.*1) (hd s (c1 ++ c2).*1) = Ok (rev c1.*2).
  Proof.
    revert c2 fuel. induction c1 as [|[x a] c1 IH] using rev_ind; intros c2 fuel HL Hf;
      (destruct fuel as [|fuel]; [lia|]); cbn [rwalk].
    - by rewrite decide_True.
    - rewrite decide_False.
      2:{ intros He. pose proof (pos_inj h s [] (c1 ++ [(x, a)]) c2 HL (eq_sym He)). by destruct c1. }
      rewrite (prev_at _ _ _ _ HL). cbn [rbind]. rewrite fmap_app. cbn [fmap list_fmap fst]. rewrite lst_snoc.
      rewrite <- app_assoc in HL |- *. cbn [app] in HL |- *.
      rewrite (value_at _ _ _ _ _ _ HL). cbn [rbind]. rewrite app_length in Hf. cbn in Hf.
      pose proof (IH ((x, a) :: c2) fuel HL ltac:(lia)) as HI. cbn in HI. cbn. rewrite HI. cbn.
      rewrite fmap_app. by rewrite rev_app_distr.
  Qed.
  Lemma rtraverse_ok h s cs : is_list h s cs -> c_list_rtraverse h s = Ok (rev cs.*2).
  Proof.
    intros HL. unfold c_list_rtraverse. rewrite (begin_ok _ _ _ HL). cbn [rbind].
    pose proof (rwalk_ok h s cs [] (fuel_of h)) as H. rewrite app_nil_r in H. apply H; [done|by eapply fuel_enough].
  Qed.
  (** the observers determine the cells *)
  Lemma is_list_fun h s cs cs' : is_list h s cs -> is_list h s cs' -> cs = cs'.
  Proof. intros H1%list_walk_ok H2%list_walk_ok. congruence. Qed.

  (** ** creation *)
  Lemma create_ok h : let '(h', s) := c_list_create alloc h in
    is_list h' s [] /\ step h h' [] [s] /\ dead h' = dead h /\ s = alloc h.
  Proof.
    cbn. split_and!; [split_and!| |done|done]; cbn.
    - apply NoDup_singleton.
    - unfold nodes. cbn. by rewrite !lookup_insert.
    - by rewrite lookup_insert.
    - constructor.
    - split_and!; cbn.
      + intros y _ Hy. rewrite !lookup_insert_ne by (intros <-; apply Hy; left). done.
      + intros y Hy. by apply elem_of_nil in Hy.
      + intros y _ ->%elem_of_list_singleton. apply Halloc.
  Qed.
  Lemma create_node_ok h v a (Hv : match v with Some v => deref h v = Ok a | None => a = dflt end) :
    exists h', create_node dflt alloc h v = Ok (h', alloc h) /\
      vl h' = <[alloc h := Some a]> (vl h) /\ dead h' = dead h /\
      is_Some (nx h' !! alloc h) /\ is_Some (pv h' !! alloc h) /\
      (forall y, y ≠ alloc h -> nx h' !! y = nx h !! y /\ pv h' !! y = pv h !! y).
  Proof.
    unfold create_node.
    assert ((match v with Some v => deref h v | None => Ok dflt end) = Ok a) as -> by (destruct v; congruence).
    cbn [rbind]. eexists. split; [done|]. cbn. rewrite !lookup_insert. split_and!; [done..|eauto|eauto|].
    intros y Hy. by rewrite !lookup_insert_ne.
  Qed.
  (** a new node in front of a position *)
  Lemma new_before h s c1 c2 v a :
    is_list h s (c1 ++ c2) -> match v with Some v => deref h v = Ok a | None => a = dflt end ->
    exists h1 h', create_node dflt alloc h v = Ok (h1, alloc h) /\ link_before h1 (alloc h) (hd s c2.*1) = Ok h' /\
      upd h h' s (c1 ++ c2) (c1 ++ (alloc h, a) :: c2) [] /\ vl h' = <[alloc h := Some a]> (vl h).
  Proof.
    intros HL Hv. destruct (create_node_ok h v a Hv) as (h1&E1&Hvl&Hde&Hn&Hp&Hfr).
    assert (alloc h ∉ nodes s (c1 ++ c2)) as Hx.
    { intros Hx. pose proof (is_list_vl _ _ _ _ HL Hx) as Hs. rewrite Halloc in Hs. by destruct Hs. }
    assert (is_list h1 s (c1 ++ c2)) as HL1.
    { eapply is_list_frame; [done|]. intros y Hy. assert (y ≠ alloc h) by (intros ->; done).
      rewrite Hvl, lookup_insert_ne by done. split; [done|by apply Hfr]. }
    destruct (link_before_ok h1 s c1 c2 (alloc h) a HL1 Hx) as (h'&E2&HL'&Hvl'&Hde'&Hfr'); [by rewrite Hvl, lookup_insert|done..|].
    exists h1, h'. split; [done|]. split; [done|]. split; [|congruence].
    split_and!; [done| |by rewrite app_nil_r; congruence].
    assert (forall y, y ∈ nodes s (c1 ++ (alloc h, a) :: c2) <-> y = alloc h \/ y ∈ nodes s (c1 ++ c2)) as Heq.
    { intros y. rewrite !nodes_app. cbn. rewrite !elem_of_cons, !elem_of_app, elem_of_cons. tauto. }
    split_and!.
    - intros y Hy Hy'. rewrite Heq in Hy'. rewrite Hvl', Hvl, lookup_insert_ne by naive_solver. split; [done|]. intros _.
      destruct (Hfr y) as [<- <-]; [naive_solver|]. apply Hfr'. rewrite not_elem_of_cons. naive_solver.
    - intros y Hy Hy'. rewrite Heq in Hy'. naive_solver.
    - intros y Hy Hy'. rewrite Heq in Hy'. destruct Hy' as [->|]; [apply Halloc|done].
  Qed.
  Lemma insert_ok h s c1 c2 v a : is_list h s (c1 ++ c2) -> deref h v = Ok a ->
    exists h', c_list_insert dflt alloc h (hd s c2.*1) v = Ok (h', alloc h) /\
      upd h h' s (c1 ++ c2) (c1 ++ (alloc h, a) :: c2) [].
  Proof.
    intros HL Hv. destruct (new_before h s c1 c2 (Some v) a HL Hv) as (h1&h'&E1&E2&HU&_).
    exists h'. split; [|done]. unfold c_list_insert. rewrite E1. cbn [rbind]. rewrite E2. done.
  Qed.
  Lemma push_back_ok h s cs v a : is_list h s cs -> deref h v = Ok a ->
    exists h', c_list_push_back dflt alloc h s v = Ok h' /\ upd h h' s cs (cs ++ [(alloc h, a)]) [] /\
      vl h' = <[alloc h := Some a]> (vl h).
  Proof.
    intros HL Hv. pose proof HL as HL0. rewrite <- (app_nil_r cs) in HL.
    destruct (new_before h s cs [] (Some v) a HL Hv) as (h1&h'&E1&E2&HU&Hvl). rewrite app_nil_r in HU.
    exists h'. split; [|done]. unfold c_list_push_back. rewrite E1. cbn [rbind]. done.
  Qed.
  Lemma push_front_ok h s cs v a : is_list h s cs -> deref h v = Ok a ->
    exists h', c_list_push_front dflt alloc h s v = Ok h' /\ upd h h' s cs ((alloc h, a) :: cs) [].
  Proof.
    intros HL Hv. destruct (new_before h s [] cs (Some v) a HL Hv) as (h1&h'&E1&E2&HU&_).
    exists h'. split; [|done]. unfold c_list_push_front. rewrite E1. cbn [rbind].
    (* compare the order of the four link updates with link_before *)
    destruct (create_node_ok h (Some v) a Hv) as (h1'&E1'&Hvl&Hde&Hn&Hp&Hfr). rewrite E1 in E1'. injection E1' as <-.
    assert (alloc h ∉ nodes s cs) as Hx.
    { intros Hx. pose proof (is_list_vl _ _ _ _ HL Hx) as Hs. rewrite Halloc in Hs. by destruct Hs. }
    pose proof (hd_nodes s [] cs) as Hin. cbn [app] in Hin.
    assert (s ≠ alloc h) as Hs by (intros He; apply Hx; rewrite <- He; left).
    assert (hd s cs.*1 ≠ alloc h) as Hb by (intros He; apply Hx; rewrite <- He; done).
    destruct (Hfr s Hs) as [Hns Hps]. destruct (Hfr (hd s cs.*1) Hb) as [Hnb Hpb].
    destruct (is_list_split h s [] cs HL) as (_&_&Hpp&Hnn). change (lst s ([] : list cell).*1) with s in Hpp, Hnn.
    unfold link_before in E2. rewrite set_next_ok in E2 by done. cbn [rbind] in E2.
    rewrite (prev_ok _ _ s) in E2 by (cbn; congruence). cbn [rbind] in E2.
    rewrite set_prev_ok in E2 by done. cbn [rbind] in E2.
    rewrite (prev_ok _ _ s) in E2 by (cbn; rewrite lookup_insert_ne by done; congruence). cbn [rbind] in E2.
    rewrite set_next_ok in E2 by (cbn; rewrite lookup_insert_ne by done; rewrite Hns; eauto). cbn [rbind] in E2.
    rewrite (next_ok _ _ (hd s cs.*1)) by (cbn; congruence). cbn [rbind].
    rewrite set_next_ok by done. cbn [rbind]. rewrite set_prev_ok by done. cbn [rbind].
    rewrite (next_ok _ _ (hd s cs.*1)) by (cbn; rewrite lookup_insert_ne by done; congruence). cbn [rbind].
    rewrite set_prev_ok by (cbn; rewrite lookup_insert_ne by done; rewrite Hpb; eauto). cbn [rbind].
    rewrite set_next_ok by (cbn; rewrite lookup_insert_ne by done; rewrite Hns; eauto).
    rewrite set_prev_ok in E2 by (cbn; rewrite lookup_insert_ne by done; rewrite Hpb; eauto). exact E2.
  Qed.

  (** ** removal *)
  Lemma erase_ok h s c1 x a c2 : is_list h s (c1 ++ (x, a) :: c2) ->
    exists h', c_list_erase h s x = Ok (h', hd s c2.*1) /\ upd h h' s (c1 ++ (x, a) :: c2) (c1 ++ c2) [a].
  Proof.
    intros HL. destruct (pop_node_ok _ _ _ _ _ _ HL) as (h'&E&H1&H2&H3). exists h'. split; [done|]. by split_and!.
  Qed.
  Lemma erase_loop_ok fuel : forall h s c1 c2 c3, is_list h s (c1 ++ c2 ++ c3) -> length c2 < fuel ->
    exists h', erase_loop fuel h s (hd s (c2 ++ c3).*1) (hd s c3.*1) = Ok (h', hd s c3.*1) /\
      upd h h' s (c1 ++ c2 ++ c3) (c1 ++ c3) c2.*2.
  Proof.
    induction fuel as [|fuel IH]; intros h s c1 c2 c3 HL Hf; [lia|]. cbn [erase_loop].
    destruct c2 as [|[x a] c2].
    - exists h. rewrite decide_True by done. split; [done|]. by apply upd_refl.
    - rewrite decide_False by (intros He; by apply pos_inj with (c1 := c1) (h := h) in He). cbn [app fmap list_fmap fst hd].
      destruct (erase_ok h s c1 x a (c2 ++ c3) HL) as (h1&E1&HU1). rewrite E1. cbn [rbind].
      destruct (IH h1 s c1 c2 c3) as (h2&E2&HU2); [apply HU1|cbn in Hf; lia|].
      exists h2. split; [done|]. by apply (upd_trans _ _ _ _ _ _ _ [a] c2.*2 HU1 HU2).
  Qed.
  Lemma erase_range_ok h s c1 c2 c3 : is_list h s (c1 ++ c2 ++ c3) ->
    exists h', c_list_erase_range h s (hd s (c2 ++ c3).*1) (hd s c3.*1) = Ok (h', hd s c3.*1) /\
      upd h h' s (c1 ++ c2 ++ c3) (c1 ++ c3) c2.*2.
  Proof.
    intros HL. apply erase_loop_ok; [done|]. apply is_list_length in HL. rewrite !app_length in HL. unfold fuel_of. lia.
  Qed.
  Lemma pop_until_ok fuel : forall h s c1 c2, is_list h s (c1 ++ c2) -> length c2 < fuel ->
    exists h', pop_until fuel h s (hd s c2.*1) s = Ok h' /\ upd h h' s (c1 ++ c2) c1 c2.*2.
  Proof.
    induction fuel as [|fuel IH]; intros h s c1 c2 HL Hf; [lia|]. cbn [pop_until].
    destruct c2 as [|[x a] c2].
    - exists h. rewrite decide_True by done. split; [done|]. rewrite app_nil_r in HL |- *. by apply upd_refl.
    - cbn [fmap list_fmap fst hd]. rewrite decide_False by (by eapply not_sentinel).
      destruct (pop_node_ok h s c1 c2 x a HL) as (h1&E1&H1&H2&H3). rewrite E1. cbn [rbind].
      destruct (IH h1 s c1 c2) as (h2&E2&HU2); [done|cbn in Hf; lia|].
      exists h2. split; [done|]. eapply (upd_trans _ _ _ _ _ _ _ [a] c2.*2); [|exact HU2]. by split_and!.
  Qed.
  Lemma clear_ok h s cs : is_list h s cs ->
    exists h', c_list_clear h s = Ok h' /\ upd h h' s cs [] cs.*2.
  Proof.
    intros HL. unfold c_list_clear. rewrite (empty_ok _ _ _ HL). cbn [rbind]. case_bool_decide as Hc.
    - subst cs. exists h. split; [done|]. by apply upd_refl.
    - rewrite (begin_ok _ _ _ HL). cbn [rbind]. apply (pop_until_ok _ h s [] cs HL). by eapply fuel_enough.
  Qed.
  Lemma pop_back_ok h s cs : is_list h s cs ->
    exists h', c_list_pop_back h s = Ok h' /\
      upd h h' s cs (take (length cs - 1) cs) (drop (length cs - 1) cs).*2.
  Proof.
    intros HL. unfold c_list_pop_back. rewrite (empty_ok _ _ _ HL). cbn [rbind].
    destruct cs as [|[x a] cs _] using rev_ind.
    - exists h. split; [done|]. by apply upd_refl.
    - rewrite bool_decide_eq_false_2 by (by destruct cs). rewrite (last_ok _ _ _ HL). cbn [rbind].
      rewrite fmap_app. cbn [fmap list_fmap fst]. rewrite lst_snoc.
      destruct (pop_node_ok h s cs [] x a HL) as (h1&E1&H1&H2&H3). rewrite E1. cbn [rbind]. exists h1. split; [done|].
      rewrite app_length. cbn [length]. replace (length cs + 1 - 1) with (length cs) by lia.
      rewrite app_nil_r in H1, H2. rewrite take_app, drop_app. split_and!; [done|done|done].
  Qed.
  Lemma pop_front_ok h s cs : is_list h s cs ->
    exists h', c_list_pop_front h s = Ok h' /\ upd h h' s cs (drop 1 cs) (take 1 cs).*2.
  Proof.
    intros HL. unfold c_list_pop_front. rewrite (empty_ok _ _ _ HL). cbn [rbind].
    destruct cs as [|[x a] cs].
    - exists h. split; [done|]. by apply upd_refl.
    - rewrite bool_decide_eq_false_2 by done. rewrite (begin_ok _ _ _ HL). cbn [rbind hd fmap list_fmap fst].
      destruct (pop_node_ok h s [] cs x a HL) as (h1&E1&H1&H2&H3). rewrite E1. cbn [rbind]. exists h1. split; [done|].
      cbn. rewrite drop_0. by split_and!.
  Qed.
  (** ** resize *)
  Lemma skip_ok h s c1 c2 n : is_list h s (c1 ++ c2) ->
    skip n h s (hd s c2.*1) = Ok (n - length c2, hd s (drop n c2).*1).
  Proof.
    revert c1 n. induction c2 as [|[x a] c2 IH]; intros c1 n HL.
    - cbn. destruct n; cbn; by rewrite decide_True.
    - destruct n as [|n]; cbn [skip].
      + cbn [fmap list_fmap fst hd]. rewrite decide_False by (by eapply not_sentinel). done.
      + cbn [fmap list_fmap fst hd]. rewrite decide_False by (by eapply not_sentinel).
        rewrite (next_at _ _ _ _ _ _ HL). cbn [rbind]. rewrite (IH (c1 ++ [(x, a)])); [done|by rewrite <- app_assoc].
  Qed.
  Lemma deref_vl h h' v a : deref h v = Ok a -> (forall x, is_Some (vl h !! x) -> vl h' !! x = vl h !! x) -> deref h' v = Ok a.
  Proof.
    destruct v as [b|x]; [done|]. cbn. unfold value. intros Hv Hfr. rewrite Hfr; [done|].
    destruct (vl h !! x); [eauto|done].
  Qed.
  Lemma vref_vl h h' (v : option (lref A)) a : match v with Some v => deref h v = Ok a | None => a = dflt end ->
    (forall x, is_Some (vl h !! x) -> vl h' !! x = vl h !! x) -> match v with Some v => deref h' v = Ok a | None => a = dflt end.
  Proof. destruct v as [v|]; [|done]. apply deref_vl. Qed.
  Lemma vl_fresh h h' a : vl h' = <[alloc h := a]> (vl h) -> forall x, is_Some (vl h !! x) -> vl h' !! x = vl h !! x.
  Proof. intros -> x Hx. rewrite lookup_insert_ne; [done|]. intros <-. rewrite Halloc in Hx. by destruct Hx. Qed.
  Lemma append_n_ok n : forall h s cs v a, is_list h s cs ->
    match v with Some v => deref h v = Ok a | None => a = dflt end ->
    exists h' new, append_n dflt alloc n h s v = Ok h' /\ upd h h' s cs (cs ++ new) [] /\ new.*2 = replicate n a.
  Proof.
    induction n as [|n IH]; intros h s cs v a HL Hv; cbn [append_n].
    - exists h, []. rewrite app_nil_r. split_and!; [done| |done]. by apply upd_refl.
    - pose proof HL as HL0. rewrite <- (app_nil_r cs) in HL0.
      destruct (new_before h s cs [] v a HL0 Hv) as (h1&h2&E1&E2&HU&Hvl). rewrite E1. cbn [rbind]. cbn in E2. rewrite E2. cbn [rbind].
      rewrite app_nil_r in HU.
      destruct (IH h2 s (cs ++ [(alloc h, a)]) v a) as (h3&new&E3&HU3&Hn); [apply HU| |].
      { eapply vref_vl; [done|]. by eapply vl_fresh. }
      exists h3, ((alloc h, a) :: new). split_and!; [done| |cbn; by rewrite Hn].
      rewrite <- app_assoc in HU3. by apply (upd_trans _ _ _ _ _ _ _ [] [] HU HU3).
  Qed.
  Lemma resize_ok h s cs n v a : is_list h s cs ->
    match v with Some v => deref h v = Ok a | None => a = dflt end ->
    exists h' new, c_list_resize_with_value dflt alloc h s n v = Ok h' /\
      upd h h' s cs (take n cs ++ new) (drop n cs).*2 /\ new.*2 = replicate (n - length cs) a.
  Proof.
    intros HL Hv. unfold c_list_resize_with_value. rewrite (begin_ok _ _ _ HL). cbn [rbind].
    rewrite (skip_ok h s [] cs n HL). cbn [rbind]. destruct (n - length cs) as [|k] eqn:Hk.
    - destruct (pop_until_ok (fuel_of h) h s (take n cs) (drop n cs)) as (h'&E&HU).
      { by rewrite take_drop. }
      { rewrite drop_length. pose proof (fuel_enough _ _ _ HL). lia. }
      rewrite take_drop in HU. exists h', []. rewrite app_nil_r. done.
    - destruct (append_n_ok (S k) h s cs v a HL Hv) as (h'&new&E&HU&Hn). exists h', new.
      rewrite take_ge, drop_ge by lia. done.
  Qed.
  (** ** creation from values, copy, assign, destroy *)
  Lemma push_all_ok vs : forall h s cs, is_list h s cs ->
    exists h' new, push_all dflt alloc h s vs = Ok h' /\ upd h h' s cs (cs ++ new) [] /\ new.*2 = vs.
  Proof.
    induction vs as [|a vs IH]; intros h s cs HL; cbn [push_all].
    - exists h, []. rewrite app_nil_r. split_and!; [done| |done]. by apply upd_refl.
    - destruct (push_back_ok h s cs (LVal a) a HL eq_refl) as (h1&E1&HU1&_). rewrite E1. cbn [rbind].
      destruct (IH h1 s (cs ++ [(alloc h, a)])) as (h2&new&E2&HU2&Hn); [apply HU1|].
      exists h2, ((alloc h, a) :: new). split_and!; [done| |cbn; by rewrite Hn].
      rewrite <- app_assoc in HU2. by apply (upd_trans _ _ _ _ _ _ _ [] [] HU1 HU2).
  Qed.
  Lemma create_from_ok h vs : vs <> [] ->
    exists h' s cs, c_list_create_from dflt alloc h vs = Ok (h', Some s) /\ is_list h' s cs /\ cs.*2 = vs /\
      step h h' [] (nodes s cs) /\ dead h' = dead h.
  Proof.
    intros Hvs. unfold c_list_create_from. destruct vs as [|a vs]; [done|].
    pose proof (create_ok h) as Hc. destruct (c_list_create alloc h) as [h1 s]. destruct Hc as (H1&H2&H3&_).
    destruct (push_all_ok (a :: vs) h1 s [] H1) as (h2&new&E2&(HU1&HU2&HU3)&Hn). rewrite E2. cbn [rbind].
    exists h2, s, new. cbn in HU1, HU2. split_and!; [done|done|done|by eapply step_trans|]. rewrite HU3, app_nil_r. done.
  Qed.
  (** copying the cells [d2] of another list to the back of [s] *)
  Lemma copy_loop_ok fuel : forall h s cs t d1 d2, lists h [(s, cs); (t, d1 ++ d2)] -> length d2 < fuel ->
    exists h' new, copy_loop dflt alloc fuel h s t (hd t d2.*1) = Ok h' /\ upd h h' s cs (cs ++ new) [] /\ new.*2 = d2.*2 /\
      lists h' [(s, cs ++ new); (t, d1 ++ d2)].
  Proof.
    induction fuel as [|fuel IH]; intros h s cs t d1 d2 HL Hf; [lia|]. cbn [copy_loop].
    pose proof HL as HL0. apply lists_two in HL as (HLs&HLt&Hdis).
    destruct d2 as [|[x a] d2].
    - exists h, []. rewrite decide_True by done. rewrite !app_nil_r in *. split_and!; [done|by apply upd_refl|done|done..].
    - cbn [fmap list_fmap fst hd]. rewrite decide_False by (by eapply not_sentinel).
      destruct (push_back_ok h s cs (LNode x) a HLs) as (h1&E1&HU1&Hvl1); [cbn; by eapply value_at|].
      rewrite E1. cbn [rbind].
      assert (lists h1 [(s, cs ++ [(alloc h, a)]); (t, (d1 ++ [(x, a)]) ++ d2)]) as HL1.
      { rewrite <- app_assoc. apply (lists_step h h1 [(s, cs)] [(s, cs ++ [(alloc h, a)])] [(t, d1 ++ (x, a) :: d2)]); [done| |].
        - apply lists_one. apply HU1.
        - rewrite !all_nodes_one. apply HU1. }
      assert (is_list h1 t (d1 ++ (x, a) :: d2)) as HLt1.
      { apply lists_two in HL1 as (_&H&_). by rewrite <- app_assoc in H. }
      rewrite (next_at _ _ _ _ _ _ HLt1). cbn [rbind].
      destruct (IH h1 s (cs ++ [(alloc h, a)]) t (d1 ++ [(x, a)]) d2 HL1) as (h2&new&E2&HU2&Hn&HL2); [cbn in Hf; lia|].
      exists h2, ((alloc h, a) :: new). rewrite <- !app_assoc in HU2. rewrite <- !app_assoc in HL2.
      split_and!; [done| |cbn; by rewrite Hn|done..].
      by apply (upd_trans _ _ _ _ _ _ _ [] [] HU1 HU2).
  Qed.
  Lemma copy_ok h t ds : is_list h t ds ->
    exists h' s cs, c_list_copy dflt alloc h t = Ok (h', s) /\ lists h' [(s, cs); (t, ds)] /\ cs.*2 = ds.*2 /\
      step h h' [] (nodes s cs) /\ dead h' = dead h.
  Proof.
    intros HL. unfold c_list_copy. pose proof (create_ok h) as Hc. destruct (c_list_create alloc h) as [h1 s].
    destruct Hc as (H1&H2&H3&_).
    assert (lists h1 [(s, []); (t, ds)]) as HL1.
    { apply (lists_step h h1 [] [(s, [])] [(t, ds)]); [by apply lists_one|by apply lists_one|]. done. }
    assert (is_list h1 t ds) as HLt by (by apply lists_two in HL1 as (_&?&_)).
    rewrite (begin_ok _ _ _ HLt). cbn [rbind].
    destruct (copy_loop_ok (fuel_of h1) h1 s [] t [] ds HL1) as (h2&new&E2&(_&HU2&HU3)&Hn&HL2); [by eapply fuel_enough|].
    rewrite E2. cbn [rbind]. exists h2, s, new. split_and!; [done|done..|by eapply step_trans|]. rewrite HU3, app_nil_r. done.
  Qed.
  Lemma assign_ok h s cs t ds : lists h [(s, cs); (t, ds)] ->
    exists h' cs', c_list_assign dflt alloc h s t = Ok h' /\ upd h h' s cs cs' cs.*2 /\ cs'.*2 = ds.*2.
  Proof.
    intros HL. pose proof HL as (HLs&HLt&Hdis)%lists_two. unfold c_list_assign. rewrite decide_False.
    2:{ intros ->. eapply (Hdis t); left. }
    destruct (clear_ok h s cs HLs) as (h1&E1&HU1). rewrite E1. cbn [rbind].
    assert (lists h1 [(s, []); (t, ds)]) as HL1.
    { apply (lists_step h h1 [(s, cs)] [(s, [])] [(t, ds)]); [done|apply lists_one, HU1|]. rewrite !all_nodes_one. apply HU1. }
    assert (is_list h1 t ds) as HLt1 by (by apply lists_two in HL1 as (_&?&_)).
    rewrite (begin_ok _ _ _ HLt1). cbn [rbind].
    destruct (copy_loop_ok (fuel_of h1) h1 s [] t [] ds HL1) as (h2&new&E2&HU2&Hn&HL2); [by eapply fuel_enough|].
    exists h2, new. split_and!; [done| |done]. pose proof (upd_trans _ _ _ _ _ _ _ _ _ HU1 HU2) as HU. by rewrite app_nil_r in HU.
  Qed.
  Lemma assign_self h s : c_list_assign dflt alloc h s s = Ok h.
  Proof. unfold c_list_assign. by rewrite decide_True. Qed.
  Lemma destroy_ok h s cs : is_list h s cs ->
    exists h', c_list_destroy h s = Ok h' /\ step h h' (nodes s cs) [] /\ dead h' = dead h ++ cs.*2.
  Proof.
    intros HL. unfold c_list_destroy. destruct (clear_ok h s cs HL) as (h1&E1&(H1&H2&H3)). rewrite E1. cbn [rbind].
    eexists. split; [done|]. split; [|done]. eapply step_trans; [exact H2|]. split_and!; cbn.
    - intros y Hy _. assert (s ≠ y) by (intros ->; apply Hy; left). rewrite !lookup_delete_ne by done. done.
    - intros y Hy _. apply elem_of_list_singleton in Hy as ->. by rewrite lookup_delete.
    - intros y _ Hy. by apply elem_of_nil in Hy.
  Qed.
End proofs.
