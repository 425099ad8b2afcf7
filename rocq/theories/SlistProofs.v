(** SlistProofs.v — correctness of the operations of Slist.v on well-formed forward lists. *)
From Verif Require Import Base Spec SpecSeq Facts DList Path Slist SpecSlist SlistCore.
From stdpp Require Import list gmap.

Section proofs.
  Context {A : Type} (dflt : A) (alloc : sheap A -> loc) (Halloc : smalloc_ok alloc).
  Implicit Types h : sheap A.
  Notation cell := (loc * A)%type.
  Implicit Types cs ds c d : list cell.
  Implicit Types s t : sobj.

  (** the list [s] changes from [cs] to [cs'], the values [ds] being destroyed *)
  Definition supd h h' s cs cs' (gone : list A) : Prop :=
    is_slist h' s cs' /\ sstep h h' (snodes s cs) (snodes s cs') /\ sdead h' = sdead h ++ gone.
  Lemma supd_refl h s cs : is_slist h s cs -> supd h h s cs cs [].
  Proof. intros H. refine (conj H (conj _ _)); [by apply sstep_refl|by rewrite app_nil_r]. Qed.
  Lemma supd_trans h1 h2 h3 s c1 c2 c3 g1 g2 : supd h1 h2 s c1 c2 g1 -> supd h2 h3 s c2 c3 g2 -> supd h1 h3 s c1 c3 (g1 ++ g2).
  Proof.
    intros (A1&A2&A3) (B1&B2&B3). refine (conj B1 (conj _ _)); [by eapply sstep_trans|]. rewrite B3, A3. by rewrite app_assoc.
  Qed.
  Lemma supd_relink h h' s cs cs' : is_slist h' s cs' -> srelink h h' (snodes s cs) -> cs ≡ₚ cs' -> supd h h' s cs cs' [].
  Proof.
    intros H1 H2 Hp. refine (conj H1 (conj _ _)); [|by rewrite app_nil_r; apply H2].
    eapply srelink_sstep; [done|done|]. intros y. unfold snodes. by rewrite Hp.
  Qed.
  Lemma snodes_ins s c1 x (a : A) c2 : snodes s (c1 ++ (x, a) :: c2) ≡ₚ x :: snodes s (c1 ++ c2).
  Proof.
    rewrite !snodes_app. cbn [fmap list_fmap fst]. rewrite <- Permutation_middle.
    change ([?x; ?y] ++ ?l) with (x :: y :: l). solve_Permutation.
  Qed.

  (** ** observers *)
  Lemma sbegin_ok h s cs : is_slist h s cs -> snext h s.1 = Ok (hd s.2 cs.*1).
  Proof. intros HL. apply snext_ok. by apply (is_slist_nx h s [] cs). Qed.
  Lemma snext_pos h s c1 c2 : is_slist h s (c1 ++ c2) -> snext h (lst s.1 c1.*1) = Ok (hd s.2 c2.*1).
  Proof. intros HL. apply snext_ok. by apply is_slist_nx. Qed.
  Lemma pos_snoc s c1 x (a : A) : lst s.1 (c1 ++ [(x, a)]).*1 = x.
  Proof. rewrite fmap_app. apply lst_snoc. Qed.
  Lemma snext_at h s c1 x a c2 : is_slist h s (c1 ++ (x, a) :: c2) -> snext h x = Ok (hd s.2 c2.*1).
  Proof.
    intros HL. pose proof (snext_pos h s (c1 ++ [(x, a)]) c2) as H. rewrite pos_snoc, <- app_assoc in H. by apply H.
  Qed.
  Lemma svalue_at h s c1 x a c2 : is_slist h s (c1 ++ (x, a) :: c2) -> svalue h x = Ok a.
  Proof.
    intros (_&_&_&_&Hf). apply svalue_ok. apply Forall_app in Hf as [_ Hf]. by apply Forall_cons in Hf as [Hf _].
  Qed.
  Lemma svalue_in h s cs x a : is_slist h s cs -> (x, a) ∈ cs -> svalue h x = Ok a.
  Proof. intros HL (c1&c2&->)%elem_of_list_split. by eapply svalue_at. Qed.
  Lemma ends_differ h s cs : is_slist h s cs -> s.1 ≠ s.2.
  Proof. intros (Hnd&_) E. apply NoDup_cons in Hnd as [Hs _]. apply Hs. rewrite E. left. Qed.
  Lemma not_ends h s c1 x a c2 : is_slist h s (c1 ++ (x, a) :: c2) -> x ≠ s.1 /\ x ≠ s.2.
  Proof.
    intros (Hnd&_). rewrite snodes_app in Hnd. apply NoDup_cons in Hnd as [H1 Hnd]. apply NoDup_cons in Hnd as [H2 _].
    split; intros ->; [apply H1; right|apply H2]; apply elem_of_app; right; left.
  Qed.
  Lemma not_end h s c1 x a c2 : is_slist h s (c1 ++ (x, a) :: c2) -> x ≠ s.2.
  Proof. intros HL. by apply not_ends in HL as [_ ?]. Qed.
  (** a position is never the end node *)
  Lemma pos_not_end h s c1 c2 : is_slist h s (c1 ++ c2) -> lst s.1 c1.*1 ≠ s.2.
  Proof.
    intros HL E. destruct c1 as [|[x a] c1 _] using rev_ind; [by apply ends_differ in HL|].
    rewrite pos_snoc in E. rewrite <- app_assoc in HL. by destruct (not_ends _ _ _ _ _ _ HL).
  Qed.
  Lemma pos_not_next h s c1 x a c2 : is_slist h s (c1 ++ (x, a) :: c2) -> lst s.1 c1.*1 ≠ x.
  Proof.
    intros HL E. pose proof (not_ends _ _ _ _ _ _ HL) as [N1 _]. destruct HL as (Hnd&_). rewrite snodes_ins in Hnd.
    apply NoDup_cons in Hnd as [Hx _]. apply Hx. rewrite <- E. apply lst_snodes.
  Qed.
  Lemma sempty_ok h s cs : is_slist h s cs -> c_slist_empty h s = Ok (bool_decide (cs = [])).
  Proof.
    intros HL. unfold c_slist_empty. rewrite (sbegin_ok _ _ _ HL). cbn. f_equal. apply bool_decide_ext.
    destruct cs as [|[x a] cs]; cbn; [done|]. split; [|done]. intros ->.
    by destruct (not_ends h s [] s.2 a cs HL).
  Qed.
  Lemma sfront_ok h s cs : is_slist h s cs -> c_slist_front h s = Ok (head cs.*2).
  Proof.
    intros HL. unfold c_slist_front. rewrite (sempty_ok _ _ _ HL). cbn. destruct cs as [|[x a] cs]; cbn; [done|].
    rewrite (sbegin_ok _ _ _ HL). cbn. by rewrite (svalue_at h s [] x a cs HL).
  Qed.
  Lemma sfuel_enough h s cs : is_slist h s cs -> length cs < sfuel h.
  Proof. intros HL. apply is_slist_length in HL. unfold sfuel. lia. Qed.
  Lemma swalk_ok h s c1 c2 fuel : is_slist h s (c1 ++ c2) -> length c2 < fuel ->
    swalk fuel h (hd s.2 c2.*1) s.2 = Ok c2.
  Proof.
    revert c1 fuel. induction c2 as [|[x a] c2 IH]; intros c1 fuel HL Hf; (destruct fuel as [|fuel]; [lia|]); cbn [swalk].
    - cbn. by rewrite decide_True.
    - cbn [fmap list_fmap fst hd]. rewrite decide_False by (by eapply not_end).
      rewrite (svalue_at _ _ _ _ _ _ HL). cbn [rbind].
      rewrite (snext_at _ _ _ _ _ _ HL). cbn [rbind].
      rewrite (IH (c1 ++ [(x, a)])); [done|by rewrite <- app_assoc|cbn in Hf; lia].
  Qed.
  Lemma slist_walk_ok h s cs : is_slist h s cs -> c_slist_walk h s = Ok cs.
  Proof.
    intros HL. unfold c_slist_walk. rewrite (sbegin_ok _ _ _ HL). cbn [rbind].
    apply (swalk_ok h s []); [done|by eapply sfuel_enough].
  Qed.
  Lemma straverse_ok h s cs : is_slist h s cs -> c_slist_traverse h s = Ok cs.*2.
  Proof. intros HL. unfold c_slist_traverse. by rewrite (slist_walk_ok _ _ _ HL). Qed.
  Lemma is_slist_fun h s cs cs' : is_slist h s cs -> is_slist h s cs' -> cs = cs'.
  Proof. intros H1%slist_walk_ok H2%slist_walk_ok. congruence. Qed.
  (** moving along the links *)
  Lemma sdistance_path h e fuel : forall xs, path (snx h) xs e -> e ∉ xs -> length xs < fuel ->
    sdistance fuel h (hd e xs) e = Ok (length xs).
  Proof.
    induction fuel as [|fuel IH]; intros xs Hp He Hf; [lia|]. cbn [sdistance]. destruct xs as [|x xs].
    - by rewrite decide_True.
    - cbn [hd]. rewrite decide_False by (intros ->; apply He; left). destruct Hp as [H1 H2].
      rewrite (snext_ok _ _ _ H1). cbn [rbind]. rewrite IH; [done|done| |cbn in Hf; lia]. intros Hx. apply He. by right.
  Qed.
  Lemma snexts_path h e : forall xs, path (snx h) xs e -> snexts h (hd e xs) (length xs) = Ok e.
  Proof.
    induction xs as [|x xs IH]; intros Hp; [done|]. destruct Hp as [H1 H2]. cbn [hd length snexts].
    rewrite (snext_ok _ _ _ H1). cbn [rbind]. by apply IH.
  Qed.

  (** ** creation *)
  Lemma screate_ok h : let '(h', s) := c_slist_create alloc h in
    is_slist h' s [] /\ sstep h h' [] (snodes s ([] : list cell)) /\ sdead h' = sdead h /\ s.2 = alloc h.
  Proof.
    unfold c_slist_create. set (e := alloc h). set (h1 := SHeap (snx h) (<[e := None]> (svl h)) (sdead h)).
    pose proof (Halloc h) as He. fold e in He. pose proof (Halloc h1) as Ha. set (a := alloc h1) in *.
    assert (a ≠ e) as Hae. { intros E. rewrite E in Ha. cbn in Ha. rewrite lookup_insert in Ha. done. }
    cbn in Ha. rewrite lookup_insert_ne in Ha by done.
    refine (conj _ (conj _ (conj eq_refl eq_refl))).
    - refine (conj _ (conj _ (conj _ (conj _ _)))); cbn.
      + unfold snodes. cbn. apply NoDup_cons. split; [set_solver|]. apply NoDup_singleton.
      + by rewrite lookup_insert.
      + by rewrite lookup_insert.
      + rewrite lookup_insert_ne by done. by rewrite lookup_insert.
      + constructor.
    - unfold snodes. refine (conj _ (conj _ _)); cbn.
      + intros y _ Hy. apply not_elem_of_cons in Hy as [Hy1 Hy2]. apply not_elem_of_cons in Hy2 as [Hy2 _].
        rewrite !lookup_insert_ne by done. done.
      + intros y Hy. by apply elem_of_nil in Hy.
      + intros y _ Hy. apply elem_of_cons in Hy as [->|Hy]; [done|]. by apply elem_of_list_singleton in Hy as ->.
  Qed.
  Lemma screate_node_ok h v a (Hv : match v with Some v => sderef h v = Ok a | None => a = dflt end) :
    s_create_node dflt alloc h v = Ok (SHeap (snx h) (<[alloc h := Some a]> (svl h)) (sdead h), alloc h).
  Proof.
    unfold s_create_node.
    assert ((match v with Some v => sderef h v | None => Ok dflt end) = Ok a) as -> by (destruct v; congruence).
    done.
  Qed.
  (** linking a node after a position *)
  Definition linked h (p x : loc) (n : loc) (a : A) : sheap A :=
    SHeap (<[p := x]> (<[x := n]> (snx h))) (<[x := Some a]> (svl h)) (sdead h).
  Lemma linked_ok h s c1 c2 a : is_slist h s (c1 ++ c2) ->
    supd h (linked h (lst s.1 c1.*1) (alloc h) (hd s.2 c2.*1) a) s (c1 ++ c2) (c1 ++ (alloc h, a) :: c2) [].
  Proof.
    intros HL. set (x := alloc h). set (p := lst s.1 c1.*1).
    assert (x ∉ snodes s (c1 ++ c2)) as Hx.
    { intros Hx. pose proof (is_slist_vl _ _ _ _ HL Hx) as Hs. unfold x in Hs. rewrite Halloc in Hs. by destruct Hs. }
    pose proof (lst_snodes s c1 c2) as Hp. fold p in Hp.
    assert (p ≠ x) as Npx by (intros E; apply Hx; by rewrite <- E).
    pose proof HL as (Hnd&Hpa&Hva&Hve&Hf). unfold linked.
    refine (conj (conj _ (conj _ (conj _ (conj _ _)))) (conj (conj _ (conj _ _)) _)); cbn [snx svl sdead].
    - rewrite snodes_ins. by apply NoDup_cons.
    - rewrite fmap_app, app_comm_cons in Hpa |- *. apply path_app in Hpa as [P1 P2]. apply path_app. cbn [fmap list_fmap fst hd].
      rewrite snodes_app in Hx, Hnd. split.
      + eapply path_reend; [|exact P1| |].
        * apply NoDup_cons in Hnd as [N1 N2]. apply NoDup_cons in N2 as [_ N2]. apply NoDup_app in N2 as (N2&_&_).
          apply NoDup_cons. split; [|done]. intros H. apply N1. right. apply elem_of_app. by left.
        * by rewrite lookup_insert.
        * intros y Hy Hyp. rewrite !lookup_insert_ne; [done| |by apply not_eq_sym]. intros <-. apply Hx.
          apply elem_of_cons in Hy as [->|Hy]; [left|]. do 2 right. apply elem_of_app. by left.
      + cbn [path]. rewrite lookup_insert_ne by done. rewrite lookup_insert. split; [done|].
        eapply path_frame; [exact P2|]. intros y Hy. rewrite !lookup_insert_ne; [done| |].
        * intros <-. apply Hx. do 2 right. apply elem_of_app. by right.
        * intros <-. pose proof (lst_in s.1 c1.*1) as Hi. apply elem_of_cons in Hi as [Hi|Hi].
          -- apply NoDup_cons in Hnd as [N1 _]. apply N1. rewrite <- Hi. right. apply elem_of_app. by right.
          -- apply NoDup_cons in Hnd as [_ N2]. apply NoDup_cons in N2 as [_ N2]. apply NoDup_app in N2 as (_&N2&_). by apply (N2 _ Hi).
    - rewrite lookup_insert_ne; [done|]. intros E. apply Hx. rewrite E. left.
    - rewrite lookup_insert_ne; [done|]. intros E. apply Hx. rewrite E. right; left.
    - assert (forall c : cell, c ∈ c1 ++ c2 -> <[x := Some a]> (svl h) !! c.1 = Some (Some c.2)) as Hin.
      { intros [y b] Hc. rewrite Forall_forall in Hf. rewrite lookup_insert_ne; [by apply Hf|]. cbn. intros E. apply Hx.
        do 2 right. rewrite E. apply elem_of_list_fmap. by exists (y, b). }
      apply Forall_forall. intros c Hc. rewrite elem_of_app, elem_of_cons in Hc.
      destruct Hc as [Hc|[->|Hc]]; [apply Hin, elem_of_app; by left|cbn; by rewrite lookup_insert|apply Hin, elem_of_app; by right].
    - intros y Hy Hy'. rewrite snodes_ins, elem_of_cons in Hy'. rewrite !lookup_insert_ne; [done| | |]; intros <-; tauto.
    - intros y Hy Hy'. rewrite snodes_ins, elem_of_cons in Hy'. exfalso. tauto.
    - intros y Hy Hy'. rewrite snodes_ins, elem_of_cons in Hy'. destruct Hy' as [->|]; [apply Halloc|done].
    - by rewrite app_nil_r.
  Qed.
  (** create a node and link it after the position: the two ways the code does it *)
  Lemma new_after h s c1 c2 v a :
    is_slist h s (c1 ++ c2) -> match v with Some v => sderef h v = Ok a | None => a = dflt end ->
    exists h1 h2, s_create_node dflt alloc h v = Ok (h1, alloc h) /\ snext h1 (lst s.1 c1.*1) = Ok (hd s.2 c2.*1) /\
      set_snext h1 (alloc h) (hd s.2 c2.*1) = Ok h2 /\
      set_snext h2 (lst s.1 c1.*1) (alloc h) = Ok (linked h (lst s.1 c1.*1) (alloc h) (hd s.2 c2.*1) a).
  Proof.
    intros HL Hv. rewrite (screate_node_ok h v a Hv). do 2 eexists. split; [done|].
    assert (lst s.1 c1.*1 ≠ alloc h) as Hne.
    { intros E. pose proof (is_slist_vl _ _ _ _ HL (lst_snodes s c1 c2)) as Hs. rewrite E, Halloc in Hs. by destruct Hs. }
    refine (conj _ (conj _ _)).
    - apply snext_ok. cbn. by apply is_slist_nx.
    - apply set_snext_ok. cbn. rewrite lookup_insert. eauto.
    - rewrite set_snext_ok; [done|]. cbn. rewrite lookup_insert_ne by done. eapply is_slist_vl; [exact HL|apply lst_snodes].
  Qed.
  Lemma insert_after_ok h s c1 c2 v a : is_slist h s (c1 ++ c2) -> sderef h v = Ok a ->
    c_slist_insert_after dflt alloc h (lst s.1 c1.*1) v = Ok (linked h (lst s.1 c1.*1) (alloc h) (hd s.2 c2.*1) a, alloc h).
  Proof.
    intros HL Hv. destruct (new_after h s c1 c2 (Some v) a HL Hv) as (h1&h2&E1&E2&E3&E4).
    unfold c_slist_insert_after. rewrite E1. cbn [rbind]. rewrite E2. cbn [rbind]. rewrite E3. cbn [rbind]. rewrite E4. done.
  Qed.
  Lemma push_front_ok h s cs v a : is_slist h s cs -> sderef h v = Ok a ->
    exists h', c_slist_push_front dflt alloc h s v = Ok h' /\ supd h h' s cs ((alloc h, a) :: cs) [].
  Proof.
    intros HL Hv. destruct (new_after h s [] cs (Some v) a HL Hv) as (h1&h2&E1&E2&E3&E4). cbn in E2, E4.
    eexists. split; [|apply (linked_ok h s [] cs a HL)].
    unfold c_slist_push_front. rewrite E1. cbn [rbind]. rewrite E2. cbn [rbind]. rewrite E3. cbn [rbind]. rewrite E4. done.
  Qed.

  (** ** removal *)
  Lemma pop_after_ok h s c1 x a c2 : is_slist h s (c1 ++ (x, a) :: c2) ->
    exists h', pop_node_after h s (lst s.1 c1.*1) = Ok (h', hd s.2 c2.*1) /\ supd h h' s (c1 ++ (x, a) :: c2) (c1 ++ c2) [a].
  Proof.
    intros HL. unfold pop_node_after. pose proof (not_ends _ _ _ _ _ _ HL) as [Nx1 Nx2].
    rewrite decide_False by (by eapply pos_not_end). rewrite (snext_pos _ _ _ _ HL). cbn [rbind fmap list_fmap fst hd].
    rewrite decide_False by (intros [?|?]; done). rewrite (snext_at _ _ _ _ _ _ HL). cbn [rbind].
    pose proof (lst_snodes s c1 ((x, a) :: c2)) as Hpi. pose proof (pos_not_next _ _ _ _ _ _ HL) as Npx.
    rewrite set_snext_ok by (by eapply is_slist_vl). cbn [rbind].
    unfold s_free_node. rewrite (svalue_ok _ _ a).
    2:{ cbn. pose proof (svalue_at _ _ _ _ _ _ HL) as E. unfold svalue in E. destruct (svl h !! x) as [[b|]|]; congruence. }
    cbn [rbind snx svl sdead]. set (p := lst s.1 c1.*1) in *.
    rewrite (snext_ok _ _ (hd s.2 c2.*1)) by (cbn; rewrite lookup_delete_ne by (by apply not_eq_sym); by rewrite lookup_insert).
    cbn [rbind]. eexists. split; [done|].
    pose proof HL as (Hnd&Hpa&Hva&Hve&Hf). rewrite snodes_ins in Hnd. apply NoDup_cons in Hnd as [Hx Hnd].
    refine (conj (conj Hnd (conj _ (conj _ (conj _ _)))) (conj (conj _ (conj _ _)) eq_refl)); cbn [snx svl sdead].
    - rewrite fmap_app, app_comm_cons in Hpa |- *. apply path_app in Hpa as [P1 P2]. apply path_app. cbn in P2. destruct P2 as [_ P2].
      rewrite snodes_app in Hx, Hnd. split.
      + eapply path_reend; [|exact P1| |].
        * apply NoDup_cons in Hnd as [N1 N2]. apply NoDup_cons in N2 as [_ N2]. apply NoDup_app in N2 as (N2&_&_).
          apply NoDup_cons. split; [|done]. intros H. apply N1. right. apply elem_of_app. by left.
        * rewrite lookup_delete_ne by (by apply not_eq_sym). by rewrite lookup_insert.
        * intros y Hy Hyp. rewrite lookup_delete_ne, lookup_insert_ne; [done|by apply not_eq_sym|]. intros <-. apply Hx.
          apply elem_of_cons in Hy as [->|Hy]; [left|]. do 2 right. apply elem_of_app. by left.
      + eapply path_frame; [exact P2|]. intros y Hy. rewrite lookup_delete_ne, lookup_insert_ne; [done| |].
        * intros <-. pose proof (lst_in s.1 c1.*1) as Hi. apply elem_of_cons in Hi as [Hi|Hi].
          -- apply NoDup_cons in Hnd as [N1 _]. apply N1. rewrite <- Hi. right. apply elem_of_app. by right.
          -- apply NoDup_cons in Hnd as [_ N2]. apply NoDup_cons in N2 as [_ N2]. apply NoDup_app in N2 as (_&N2&_). by apply (N2 _ Hi).
        * intros <-. apply Hx. do 2 right. apply elem_of_app. by right.
    - by rewrite lookup_delete_ne.
    - by rewrite lookup_delete_ne.
    - apply Forall_forall. intros [y b] Hc. rewrite Forall_forall in Hf. rewrite lookup_delete_ne.
      + apply (Hf (y, b)). rewrite elem_of_app, elem_of_cons. rewrite elem_of_app in Hc. tauto.
      + cbn. intros E. apply Hx. do 2 right. rewrite E. apply elem_of_list_fmap. by exists (y, b).
    - intros y Hy Hy'. rewrite snodes_ins, elem_of_cons in Hy. rewrite !lookup_delete_ne; [|intros <-; tauto..].
      rewrite lookup_insert_ne; [done|]. intros <-. apply Hy'. apply lst_snodes.
    - intros y Hy Hy'. rewrite snodes_ins, elem_of_cons in Hy. destruct Hy as [->|]; [|done]. by rewrite lookup_delete.
    - intros y Hy Hy'. rewrite snodes_ins, elem_of_cons in Hy. exfalso. tauto.
  Qed.
  (** nothing follows the position *)
  Lemma pop_after_last h s cs : is_slist h s cs -> pop_node_after h s (lst s.1 cs.*1) = Ok (h, s.2).
  Proof.
    intros HL. rewrite <- (app_nil_r cs) in HL. unfold pop_node_after. rewrite decide_False by (by eapply pos_not_end).
    rewrite (snext_pos _ _ _ _ HL). cbn [rbind]. cbn. rewrite decide_True by (by left). done.
  Qed.
  Lemma pop_after_end h s : pop_node_after h s s.2 = Ok (h, s.2).
  Proof. unfold pop_node_after. by rewrite decide_True. Qed.
  Lemma serase_loop_ok fuel : forall h s c1 c2 c3, is_slist h s (c1 ++ c2 ++ c3) -> length c2 < fuel ->
    exists h', serase_loop fuel h s (lst s.1 c1.*1) (hd s.2 (c2 ++ c3).*1) (hd s.2 c3.*1) = Ok (h', hd s.2 c3.*1) /\
      supd h h' s (c1 ++ c2 ++ c3) (c1 ++ c3) c2.*2.
  Proof.
    induction fuel as [|fuel IH]; intros h s c1 c2 c3 HL Hf; [lia|]. cbn [serase_loop].
    destruct c2 as [|[x a] c2].
    - exists h. rewrite decide_True by done. split; [done|]. by apply supd_refl.
    - rewrite decide_False.
      2:{ cbn. intros ->. destruct c3 as [|[y b] c3]; cbn in HL; [by destruct (not_ends _ _ _ _ _ _ HL)|].
          destruct HL as (Hnd&_). rewrite snodes_ins in Hnd. apply NoDup_cons in Hnd as [Hx _]. apply Hx. cbn.
          rewrite snodes_app. do 2 right. rewrite fmap_app. apply elem_of_app. right. apply elem_of_app. right. left. }
      destruct (pop_after_ok h s c1 x a (c2 ++ c3) HL) as (h1&E1&HU1). unfold c_slist_erase_after. rewrite E1. cbn [rbind].
      destruct (IH h1 s c1 c2 c3) as (h2&E2&HU2); [apply HU1|cbn in Hf; lia|].
      exists h2. split; [done|]. by apply (supd_trans _ _ _ _ _ _ _ [a] c2.*2 HU1 HU2).
  Qed.
  Lemma erase_after_range_ok h s c1 c2 c3 : is_slist h s (c1 ++ c2 ++ c3) ->
    exists h', c_slist_erase_after_range h s (lst s.1 c1.*1) (hd s.2 c3.*1) = Ok (h', hd s.2 c3.*1) /\
      supd h h' s (c1 ++ c2 ++ c3) (c1 ++ c3) c2.*2.
  Proof.
    intros HL. unfold c_slist_erase_after_range. rewrite (snext_pos _ _ _ _ HL). cbn [rbind].
    apply serase_loop_ok; [done|]. apply sfuel_enough in HL. rewrite !app_length in HL. lia.
  Qed.
  Lemma spop_until_ok fuel : forall h s c1 c2, is_slist h s (c1 ++ c2) -> length c2 < fuel ->
    exists h', spop_until fuel h s (lst s.1 c1.*1) (hd s.2 c2.*1) = Ok h' /\ supd h h' s (c1 ++ c2) c1 c2.*2.
  Proof.
    induction fuel as [|fuel IH]; intros h s c1 c2 HL Hf; [lia|]. cbn [spop_until].
    destruct c2 as [|[x a] c2].
    - exists h. rewrite decide_True by done. split; [done|]. rewrite app_nil_r in HL |- *. by apply supd_refl.
    - cbn [fmap list_fmap fst hd]. rewrite decide_False by (by eapply not_end).
      destruct (pop_after_ok h s c1 x a c2 HL) as (h1&E1&HU1). rewrite E1. cbn [rbind].
      destruct (IH h1 s c1 c2) as (h2&E2&HU2); [apply HU1|cbn in Hf; lia|].
      exists h2. split; [done|]. by apply (supd_trans _ _ _ _ _ _ _ [a] c2.*2 HU1 HU2).
  Qed.
  Lemma sclear_ok h s cs : is_slist h s cs ->
    exists h', c_slist_clear h s = Ok h' /\ supd h h' s cs [] cs.*2.
  Proof.
    intros HL. unfold c_slist_clear. rewrite (sempty_ok _ _ _ HL). cbn [rbind]. case_bool_decide as Hc.
    - subst cs. exists h. split; [done|]. by apply supd_refl.
    - rewrite (sbegin_ok _ _ _ HL). cbn [rbind]. apply (spop_until_ok _ h s [] cs HL). by eapply sfuel_enough.
  Qed.
  Lemma spop_front_ok h s cs : is_slist h s cs ->
    exists h', c_slist_pop_front h s = Ok h' /\ supd h h' s cs (drop 1 cs) (take 1 cs).*2.
  Proof.
    intros HL. unfold c_slist_pop_front. rewrite (sempty_ok _ _ _ HL). cbn [rbind].
    destruct cs as [|[x a] cs].
    - exists h. split; [done|]. by apply supd_refl.
    - rewrite bool_decide_eq_false_2 by done.
      destruct (pop_after_ok h s [] x a cs HL) as (h1&E1&HU1). cbn in E1. rewrite E1. cbn [rbind]. exists h1. split; [done|].
      cbn [drop take fmap list_fmap snd]. rewrite drop_0. done.
  Qed.
  (** ** resize *)
  Lemma sskip_ok h s c1 c2 n : is_slist h s (c1 ++ c2) ->
    sskip n h s (lst s.1 c1.*1) (hd s.2 c2.*1) =
      Ok (n - length c2, lst s.1 (c1 ++ take n c2).*1, hd s.2 (drop n c2).*1).
  Proof.
    revert c1 n. induction c2 as [|[x a] c2 IH]; intros c1 n HL.
    - rewrite take_nil, drop_nil, app_nil_r. destruct n; cbn; by rewrite decide_True.
    - destruct n as [|n]; cbn [sskip].
      + cbn [fmap list_fmap fst hd]. rewrite decide_False by (by eapply not_end). cbn. by rewrite app_nil_r.
      + cbn [fmap list_fmap fst hd]. rewrite decide_False by (by eapply not_end).
        rewrite (snext_at _ _ _ _ _ _ HL). cbn [rbind].
        pose proof (IH (c1 ++ [(x, a)]) n) as HI. rewrite pos_snoc, <- !app_assoc in HI. rewrite HI by done. done.
  Qed.
  Lemma sderef_vl h h' v a : sderef h v = Ok a -> (forall x, is_Some (svl h !! x) -> svl h' !! x = svl h !! x) -> sderef h' v = Ok a.
  Proof.
    destruct v as [b|x]; [done|]. cbn. unfold svalue. intros Hv Hfr. rewrite Hfr; [done|].
    destruct (svl h !! x); [eauto|done].
  Qed.
  Lemma svref_vl h h' (v : option (lref A)) a : match v with Some v => sderef h v = Ok a | None => a = dflt end ->
    (forall x, is_Some (svl h !! x) -> svl h' !! x = svl h !! x) -> match v with Some v => sderef h' v = Ok a | None => a = dflt end.
  Proof. destruct v as [v|]; [|done]. apply sderef_vl. Qed.
  Lemma linked_vl h p n a : forall x, is_Some (svl h !! x) -> svl (linked h p (alloc h) n a) !! x = svl h !! x.
  Proof. intros x Hx. cbn. rewrite lookup_insert_ne; [done|]. intros <-. rewrite Halloc in Hx. by destruct Hx. Qed.
  (** appending after the last element writes the links in the other order *)
  Lemma new_last h s cs v a : is_slist h s cs -> match v with Some v => sderef h v = Ok a | None => a = dflt end ->
    exists h1 h2 h3, s_create_node dflt alloc h v = Ok (h1, alloc h) /\ set_snext h1 (lst s.1 cs.*1) (alloc h) = Ok h2 /\
      set_snext h2 (alloc h) s.2 = Ok h3 /\ supd h h3 s cs (cs ++ [(alloc h, a)]) [] /\
      (forall x, is_Some (svl h !! x) -> svl h3 !! x = svl h !! x).
  Proof.
    intros HL Hv. pose proof HL as HL0. rewrite <- (app_nil_r cs) in HL0.
    assert (lst s.1 cs.*1 ≠ alloc h) as Hne.
    { intros E. pose proof (is_slist_vl _ _ _ _ HL0 (lst_snodes s cs [])) as Hs. rewrite E, Halloc in Hs. by destruct Hs. }
    rewrite (screate_node_ok h v a Hv). do 3 eexists. split; [done|].
    rewrite set_snext_ok; cbn [snx svl sdead].
    2:{ rewrite lookup_insert_ne by done. eapply is_slist_vl; [exact HL0|apply lst_snodes]. }
    split; [done|]. rewrite set_snext_ok; cbn [snx svl sdead]. 2:{ rewrite lookup_insert. eauto. }
    split; [done|]. rewrite insert_commute by (by apply not_eq_sym).
    pose proof (linked_ok h s cs [] a HL0) as HU. rewrite app_nil_r in HU. split; [exact HU|].
    apply (linked_vl h (lst s.1 cs.*1) s.2 a).
  Qed.
  Lemma sappend_n_ok n : forall h s cs v a, is_slist h s cs ->
    match v with Some v => sderef h v = Ok a | None => a = dflt end ->
    exists h' new, sappend_n dflt alloc n h s (lst s.1 cs.*1) v = Ok h' /\ supd h h' s cs (cs ++ new) [] /\ new.*2 = replicate n a.
  Proof.
    induction n as [|n IH]; intros h s cs v a HL Hv; cbn [sappend_n].
    - exists h, []. rewrite app_nil_r. refine (conj eq_refl (conj _ eq_refl)). by apply supd_refl.
    - destruct (new_last h s cs v a HL Hv) as (h1&h2&h3&E1&E2&E3&HU&Hvl). rewrite E1. cbn [rbind]. rewrite E2. cbn [rbind].
      rewrite E3. cbn [rbind].
      destruct (IH h3 s (cs ++ [(alloc h, a)]) v a) as (h4&new&E4&HU4&Hn); [apply HU| |].
      { eapply svref_vl; [done|]. exact Hvl. }
      rewrite pos_snoc in E4.
      exists h4, ((alloc h, a) :: new). refine (conj E4 (conj _ _)); [|cbn; by rewrite Hn].
      rewrite <- app_assoc in HU4. by apply (supd_trans _ _ _ _ _ _ _ [] [] HU HU4).
  Qed.
  Lemma sresize_ok h s cs n v a : is_slist h s cs ->
    match v with Some v => sderef h v = Ok a | None => a = dflt end ->
    exists h' new, c_slist_resize_with_value dflt alloc h s n v = Ok h' /\
      supd h h' s cs (take n cs ++ new) (drop n cs).*2 /\ new.*2 = replicate (n - length cs) a.
  Proof.
    intros HL Hv. unfold c_slist_resize_with_value. rewrite (sbegin_ok _ _ _ HL). cbn [rbind].
    pose proof (sskip_ok h s [] cs n HL) as Hs. cbn [fmap list_fmap lst app] in Hs. rewrite Hs. cbn [rbind]. clear Hs.
    destruct (n - length cs) as [|k] eqn:Hk.
    - destruct (spop_until_ok (sfuel h) h s (take n cs) (drop n cs)) as (h'&E&HU).
      { by rewrite take_drop. }
      { rewrite drop_length. pose proof (sfuel_enough _ _ _ HL). lia. }
      rewrite take_drop in HU. exists h', []. rewrite app_nil_r. done.
    - destruct (sappend_n_ok (S k) h s cs v a HL Hv) as (h'&new&E&HU&Hn). exists h', new.
      rewrite take_ge, drop_ge by lia. done.
  Qed.
  (** ** creation from values, copy, assign, destroy *)
  Lemma sinsert_all_ok vs : forall h s cs, is_slist h s cs ->
    exists h' new, sinsert_all dflt alloc h (lst s.1 cs.*1) vs = Ok h' /\ supd h h' s cs (cs ++ new) [] /\ new.*2 = vs.
  Proof.
    induction vs as [|a vs IH]; intros h s cs HL; cbn [sinsert_all].
    - exists h, []. rewrite app_nil_r. refine (conj eq_refl (conj _ eq_refl)). by apply supd_refl.
    - pose proof HL as HL0. rewrite <- (app_nil_r cs) in HL0.
      rewrite (insert_after_ok h s cs [] (LVal a) a HL0 eq_refl). cbn [rbind].
      pose proof (linked_ok h s cs [] a HL0) as HU1. rewrite app_nil_r in HU1.
      destruct (IH _ s (cs ++ [(alloc h, a)]) (proj1 HU1)) as (h2&new&E2&HU2&Hn). rewrite pos_snoc in E2.
      exists h2, ((alloc h, a) :: new). refine (conj E2 (conj _ _)); [|cbn; by rewrite Hn].
      rewrite <- app_assoc in HU2. by apply (supd_trans _ _ _ _ _ _ _ [] [] HU1 HU2).
  Qed.
  Lemma screate_from_ok h vs : vs <> [] ->
    exists h' s cs, c_slist_create_from dflt alloc h vs = Ok (h', Some s) /\ is_slist h' s cs /\ cs.*2 = vs /\
      sstep h h' [] (snodes s cs) /\ sdead h' = sdead h.
  Proof.
    intros Hvs. unfold c_slist_create_from. destruct vs as [|a vs]; [done|].
    pose proof (screate_ok h) as Hc. destruct (c_slist_create alloc h) as [h1 s]. destruct Hc as (H1&H2&H3&_).
    destruct (sinsert_all_ok (a :: vs) h1 s [] H1) as (h2&new&E2&(HU1&HU2&HU3)&Hn). cbn [fmap list_fmap lst] in E2. rewrite E2. cbn [rbind].
    exists h2, s, new. cbn [app] in HU1, HU2. refine (conj eq_refl (conj HU1 (conj Hn (conj _ _)))); [by eapply sstep_trans|].
    rewrite HU3, app_nil_r. done.
  Qed.
  (** copying the cells [d2] of another list to the back of [s] *)
  Lemma scopy_loop_ok fuel : forall h s cs t d1 d2, slists h [(s, cs); (t, d1 ++ d2)] -> length d2 < fuel ->
    exists h' new, scopy_loop dflt alloc fuel h (lst s.1 cs.*1) t (hd t.2 d2.*1) = Ok h' /\ supd h h' s cs (cs ++ new) [] /\ new.*2 = d2.*2 /\
      slists h' [(s, cs ++ new); (t, d1 ++ d2)].
  Proof.
    induction fuel as [|fuel IH]; intros h s cs t d1 d2 HL Hf; [lia|]. cbn [scopy_loop].
    pose proof HL as HL0. apply slists_two in HL as (HLs&HLt&Hdis).
    destruct d2 as [|[x a] d2].
    - exists h, []. rewrite decide_True by done. rewrite !app_nil_r in *.
      refine (conj eq_refl (conj _ (conj eq_refl HL0))). by apply supd_refl.
    - cbn [fmap list_fmap fst hd]. rewrite decide_False by (by eapply not_end).
      pose proof HLs as HLs0. rewrite <- (app_nil_r cs) in HLs0.
      rewrite (insert_after_ok h s cs [] (LNode x) a HLs0) by (cbn; by eapply svalue_at). cbn [rbind].
      pose proof (linked_ok h s cs [] a HLs0) as HU1. rewrite app_nil_r in HU1.
      set (h1 := linked h (lst s.1 cs.*1) (alloc h) (hd s.2 ([] : list cell).*1) a) in *.
      assert (slists h1 [(s, cs ++ [(alloc h, a)]); (t, (d1 ++ [(x, a)]) ++ d2)]) as HL1.
      { rewrite <- (app_assoc d1). apply (slists_step h h1 [(s, cs)] [(s, cs ++ [(alloc h, a)])] [(t, d1 ++ (x, a) :: d2)]); [done| |].
        - apply slists_one. apply HU1.
        - rewrite !all_snodes_one. apply HU1. }
      assert (is_slist h1 t (d1 ++ (x, a) :: d2)) as HLt1.
      { apply slists_two in HL1 as (_&H&_). by rewrite <- app_assoc in H. }
      rewrite (snext_at _ _ _ _ _ _ HLt1). cbn [rbind].
      destruct (IH h1 s (cs ++ [(alloc h, a)]) t (d1 ++ [(x, a)]) d2 HL1) as (h2&new&E2&HU2&Hn&HL2); [cbn in Hf; lia|].
      rewrite pos_snoc in E2.
      exists h2, ((alloc h, a) :: new). rewrite <- !app_assoc in HU2. rewrite <- !app_assoc in HL2.
      refine (conj E2 (conj _ (conj _ HL2))); [|cbn; by rewrite Hn].
      by apply (supd_trans _ _ _ _ _ _ _ [] [] HU1 HU2).
  Qed.
  Lemma scopy_ok h t ds : is_slist h t ds ->
    exists h' s cs, c_slist_copy dflt alloc h t = Ok (h', s) /\ slists h' [(s, cs); (t, ds)] /\ cs.*2 = ds.*2 /\
      sstep h h' [] (snodes s cs) /\ sdead h' = sdead h.
  Proof.
    intros HL. unfold c_slist_copy. pose proof (screate_ok h) as Hc. destruct (c_slist_create alloc h) as [h1 s].
    destruct Hc as (H1&H2&H3&_).
    assert (slists h1 [(s, []); (t, ds)]) as HL1.
    { apply (slists_step h h1 [] [(s, [])] [(t, ds)]); [by apply slists_one|by apply slists_one|]. by rewrite all_snodes_one. }
    assert (is_slist h1 t ds) as HLt by (by apply slists_two in HL1 as (_&?&_)).
    rewrite (sbegin_ok _ _ _ HLt). cbn [rbind].
    destruct (scopy_loop_ok (sfuel h1) h1 s [] t [] ds HL1) as (h2&new&E2&(_&HU2&HU3)&Hn&HL2); [by eapply sfuel_enough|].
    cbn [fmap list_fmap lst] in E2. fold (@fmap list _ _ _ (@fst loc A)) in E2. rewrite E2. cbn [rbind]. exists h2, s, new.
    refine (conj eq_refl (conj HL2 (conj Hn (conj _ _)))); [by eapply sstep_trans|]. rewrite HU3, app_nil_r. done.
  Qed.
  Lemma sassign_ok h s cs t ds : slists h [(s, cs); (t, ds)] ->
    exists h' cs', c_slist_assign dflt alloc h s t = Ok h' /\ supd h h' s cs cs' cs.*2 /\ cs'.*2 = ds.*2.
  Proof.
    intros HL. pose proof HL as (HLs&HLt&Hdis)%slists_two. unfold c_slist_assign. rewrite decide_False.
    2:{ intros ->. eapply (Hdis t.1); left. }
    destruct (sclear_ok h s cs HLs) as (h1&E1&HU1). rewrite E1. cbn [rbind].
    assert (slists h1 [(s, []); (t, ds)]) as HL1.
    { apply (slists_step h h1 [(s, cs)] [(s, [])] [(t, ds)]); [done|apply slists_one, HU1|]. rewrite !all_snodes_one. apply HU1. }
    assert (is_slist h1 t ds) as HLt1 by (by apply slists_two in HL1 as (_&?&_)).
    rewrite (sbegin_ok _ _ _ HLt1). cbn [rbind].
    destruct (scopy_loop_ok (sfuel h1) h1 s [] t [] ds HL1) as (h2&new&E2&HU2&Hn&HL2); [by eapply sfuel_enough|].
    exists h2, new. refine (conj E2 (conj _ Hn)). pose proof (supd_trans _ _ _ _ _ _ _ _ _ HU1 HU2) as HU. by rewrite app_nil_r in HU.
  Qed.
  Lemma sassign_self h s : c_slist_assign dflt alloc h s s = Ok h.
  Proof. unfold c_slist_assign. by rewrite decide_True. Qed.
  Lemma sdestroy_ok h s cs : is_slist h s cs ->
    exists h', c_slist_destroy h s = Ok h' /\ sstep h h' (snodes s cs) [] /\ sdead h' = sdead h ++ cs.*2.
  Proof.
    intros HL. unfold c_slist_destroy. destruct (sclear_ok h s cs HL) as (h1&E1&(H1&H2&H3)). rewrite E1. cbn [rbind].
    eexists. split; [done|]. split; [|done]. eapply sstep_trans; [exact H2|]. unfold snodes. refine (conj _ (conj _ _)); cbn.
    - intros y Hy _. apply not_elem_of_cons in Hy as [Hy1 Hy2]. apply not_elem_of_cons in Hy2 as [Hy2 _].
      rewrite !lookup_delete_ne by done. done.
    - intros y Hy _. apply elem_of_cons in Hy as [->|Hy]; [|apply elem_of_list_singleton in Hy as ->; by rewrite lookup_delete].
      destruct (decide (s.2 = s.1)) as [->|Hn]; [by rewrite lookup_delete|]. rewrite lookup_delete_ne by done. by rewrite lookup_delete.
    - intros y _ Hy. by apply elem_of_nil in Hy.
  Qed.
End proofs.
