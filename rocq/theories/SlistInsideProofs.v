(** SlistInsideProofs.v — moving a segment of a forward list after one of its own nodes (used by PropertiesInside.v). *)
From Verif Require Import Base Spec SpecSeq DList Path Slist SpecSlist SlistCore SlistProofs.
From stdpp Require Import list gmap.

Section proofs.
  Context {A : Type}.
  Implicit Types h : sheap A.
  Notation cell := (loc * A)%type.
  Implicit Types cs ds : list cell.

  Lemma nodup_sbypass (l1 l2 l3 : list loc) : NoDup (l1 ++ l2 ++ l3) -> NoDup (l1 ++ l3) /\ forall y, y ∈ l2 -> y ∉ l1 ++ l3.
  Proof.
    intros (N1&N2&(N3&N4&N5)%NoDup_app)%NoDup_app. split.
    - apply NoDup_app. split_and!; [done| |done]. intros y Hy Hy'. eapply N2; [done|]. apply elem_of_app. by right.
    - intros y Hy [Hy'|Hy']%elem_of_app; [|by eapply N4]. eapply N2; [done|]. apply elem_of_app. by left.
  Qed.

  Lemma stransfer_inside h s c1 x a d c3 p : is_slist h s (c1 ++ ((x, a) :: d) ++ c3) -> p ∈ x :: d.*1 ->
    exists h', stransfer h p (lst s.1 c1.*1) (hd s.2 c3.*1) = Ok h' /\ is_slist h' s (c1 ++ c3) /\ svl h' = svl h /\ sdead h' = sdead h.
  Proof.
    intros HL Hp. pose proof HL as (Nd&Pa&Hs1&Hs2&Hf).
    assert (NoDup (s.1 :: s.2 :: (c1 ++ c3).*1) /\ forall y, y ∈ x :: d.*1 -> y ∉ s.1 :: s.2 :: (c1 ++ c3).*1) as [Nd' Hout].
    { unfold snodes in Nd. rewrite !fmap_app in Nd. rewrite fmap_app.
      apply (nodup_sbypass (s.1 :: s.2 :: c1.*1) (x :: d.*1) c3.*1 Nd). }
    assert (NoDup (x :: d.*1)) as Nx.
    { unfold snodes in Nd. rewrite !fmap_app in Nd. apply NoDup_cons in Nd as [_ Nd]. apply NoDup_cons in Nd as [_ Nd].
      apply NoDup_app in Nd as (_&_&Nd). by apply NoDup_app in Nd as (Nd&_&_). }
    rewrite fmap_app, app_comm_cons in Pa. apply path_app in Pa as [P1 P2]. rewrite fmap_app in P2. apply path_app in P2 as [P2 P3].
    cbn [app fmap list_fmap fst hd] in P1, P2. fold (@fmap list _ _ _ (@fst loc A)) in P1, P2.
    assert (lst s.1 c1.*1 ∈ s.1 :: s.2 :: (c1 ++ c3).*1) as If.
    { pose proof (lst_in s.1 c1.*1) as [E|E]%elem_of_cons; [rewrite E; left|]. do 2 right. rewrite fmap_app. apply elem_of_app. by left. }
    assert (hd s.2 c3.*1 ∈ s.2 :: c3.*1) as Il' by (destruct c3; cbn; [left|right; left]).
    assert (hd s.2 c3.*1 ∈ s.1 :: s.2 :: (c1 ++ c3).*1) as Il.
    { apply elem_of_cons in Il' as [E|E]; [rewrite E; right; left|]. do 2 right. rewrite fmap_app. apply elem_of_app. by right. }
    set (f := lst s.1 c1.*1) in *. set (l := hd s.2 c3.*1) in *.
    pose proof (Hout p Hp) as Op. pose proof (lst_in x d.*1) as Ie. pose proof (Hout _ Ie) as Oe.
    assert (p ≠ f) as Hpf by (intros E; by rewrite <- E in If).
    assert (f ≠ l) as Hfl.
    { intros E. apply NoDup_cons in Nd' as [N1 Nd']. apply NoDup_cons in Nd' as [N2 Nd'].
      rewrite fmap_app in N1, N2, Nd'. apply NoDup_app in Nd' as (_&N3&_).
      pose proof (lst_in s.1 c1.*1) as [F|F]%elem_of_cons; fold f in F; rewrite E in F; apply elem_of_cons in Il' as [G|G].
      - apply N1. rewrite <- F, G. left.
      - apply N1. rewrite <- F. right. apply elem_of_app. by right.
      - rewrite G in F. apply N2. apply elem_of_app. by left.
      - by eapply N3. }
    assert (l ∉ x :: d.*1) as Hlx by (intros E; by eapply Hout).
    assert (forall y, y ∈ x :: d.*1 -> is_Some (svl h !! y)) as Hv.
    { intros y Hy. rewrite !Forall_app in Hf. destruct Hf as (_&Hf&_). rewrite Forall_forall in Hf.
      change (x :: d.*1) with ((x, a) :: d).*1 in Hy. apply elem_of_list_fmap in Hy as (c&->&Hc). rewrite (Hf _ Hc). eauto. }
    assert (is_Some (svl h !! f)) as Hvf.
    { pose proof (lst_in s.1 c1.*1) as [F|F]%elem_of_cons; fold f in F; [rewrite F; eauto|].
      rewrite !Forall_app in Hf. destruct Hf as (Hf&_). rewrite Forall_forall in Hf.
      apply elem_of_list_fmap in F as (c&->&Hc). rewrite (Hf _ Hc). eauto. }
    assert (snx h !! f = Some x) as Enf by (by apply path_last in P1).
    destruct (path_some _ _ _ _ P2 Hp) as [pn Epn].
    set (e := lst x d.*1) in *.
    assert (stransfer h p f l = Ok (SHeap (<[f := l]> (<[p := x]> (<[e := pn]> (snx h)))) (svl h) (sdead h))) as E.
    { unfold stransfer. rewrite decide_False by done. rewrite decide_False by done. rewrite (snext_ok _ _ _ Enf). cbn [rbind].
      rewrite decide_False by (intros ->; apply Hlx; left).
      rewrite (find_prev_ok h l (sfuel h) x d.*1); [|done|intros Hl; apply Hlx; by right|].
      2:{ unfold sfuel. pose proof (nodup_size (svl h) (x :: d.*1) Nx) as Hsz. cbn [length] in Hsz.
          assert (S (length d.*1) <= size (svl h)); [|lia]. apply Hsz. done. }
      cbn [rbind]. rewrite (snext_ok _ _ _ Epn). cbn [rbind]. rewrite set_snext_ok by (by apply Hv). cbn [rbind].
      rewrite (snext_ok _ f x) by (cbn; rewrite lookup_insert_ne; [done|]; intros E; by rewrite <- E in If). cbn [rbind].
      rewrite set_snext_ok by (by apply Hv). cbn [rbind snx svl sdead]. by rewrite set_snext_ok. }
    eexists. split; [exact E|]. split; [|done]. split_and!; cbn [snx svl]; [exact Nd'| |done|done|].
    - rewrite fmap_app, app_comm_cons. apply path_app. split.
      + eapply path_reend; [|exact P1| |].
        * apply NoDup_cons in Nd' as [N1 Nd']. apply NoDup_cons in Nd' as [N2 Nd']. rewrite fmap_app in N1, Nd'.
          apply NoDup_cons. split; [|by apply NoDup_app in Nd' as (?&_&_)]. intros Hin. apply N1. right. apply elem_of_app. by left.
        * fold f. by rewrite lookup_insert.
        * fold f. intros y Hy Hne. assert (y ∈ s.1 :: s.2 :: (c1 ++ c3).*1) as Hy'.
          { apply elem_of_cons in Hy as [->|Hy]; [left|]. do 2 right. rewrite fmap_app. apply elem_of_app. by left. }
          rewrite !lookup_insert_ne; [done| | |done]; intros F; by rewrite <- F in Hy'.
      + eapply path_frame; [exact P3|]. intros y Hy.
        assert (y ∈ s.1 :: s.2 :: (c1 ++ c3).*1) as Hy' by (do 2 right; rewrite fmap_app; apply elem_of_app; by right).
        rewrite !lookup_insert_ne; [done| | |]; intros F; [by rewrite <- F in Hy'..|].
        apply NoDup_cons in Nd' as [N1 Nd']. apply NoDup_cons in Nd' as [N2 Nd']. rewrite fmap_app in N1, Nd'.
        apply NoDup_app in Nd' as (_&N3&_).
        pose proof (lst_in s.1 c1.*1) as [G|G]%elem_of_cons; fold f in G.
        * apply N1. rewrite <- G, F. right. apply elem_of_app. by right.
        * eapply N3; [exact G|]. by rewrite F.
    - rewrite !Forall_app in *. tauto.
  Qed.
End proofs.
