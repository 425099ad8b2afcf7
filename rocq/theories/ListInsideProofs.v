(** ListInsideProofs.v — moving a segment of a list in front of one of its own nodes (used by PropertiesInside.v). *)
From Verif Require Import Base Spec SpecSeq DList Path SpecList DListCore DListProofs.
From stdpp Require Import list gmap.

Section proofs.
  Context {A : Type}.
  Implicit Types h : heap A.
  Notation cell := (loc * A)%type.
  Implicit Types cs ds : list cell.

  Lemma nodup_bypass (l1 l2 l3 : list loc) : NoDup (l1 ++ l2 ++ l3) -> NoDup (l1 ++ l3) /\ forall y, y ∈ l2 -> y ∉ l1 ++ l3.
  Proof.
    intros (N1&N2&(N3&N4&N5)%NoDup_app)%NoDup_app. split.
    - apply NoDup_app. split_and!; [done| |done]. intros y Hy Hy'. eapply N2; [done|]. apply elem_of_app. by right.
    - intros y Hy [Hy'|Hy']%elem_of_app; [|by eapply N4]. eapply N2; [done|]. apply elem_of_app. by left.
  Qed.
  Ltac mem := rewrite ?elem_of_cons, ?elem_of_app, ?elem_of_cons; tauto.

  (** dropping a middle segment out of the links *)
  Lemma is_list_bypass h h' s c1 c2 c3 : is_list h s (c1 ++ c2 ++ c3) ->
    nx h' !! lst s c1.*1 = Some (hd s c3.*1) -> pv h' !! hd s c3.*1 = Some (lst s c1.*1) ->
    (forall y, y ∈ s :: c1.*1 ++ c3.*1 -> y ≠ lst s c1.*1 -> nx h' !! y = nx h !! y) ->
    (forall y, y ∈ s :: c1.*1 ++ c3.*1 -> y ≠ hd s c3.*1 -> pv h' !! y = pv h !! y) ->
    vl h' = vl h -> is_list h' s (c1 ++ c3).
  Proof.
    intros HL Hn Hp Fn Fp Hv. pose proof HL as (Nd&_&Hs&Hf).
    destruct (is_list_split h s c1 (c2 ++ c3) HL) as (P1&P2&_&_).
    rewrite fmap_app in P2. apply dpath_app in P2 as [_ P3].
    assert (NoDup (nodes s (c1 ++ c3))) as Nd'.
    { unfold nodes in Nd |- *. rewrite !fmap_app, app_comm_cons in Nd. rewrite fmap_app, app_comm_cons. by apply nodup_bypass in Nd as [? _]. }
    destruct (split_facts s c1 c3 Nd') as (Nx&Nc3&Fx1&Fx2&Fx3).
    split_and!; [done| |by rewrite Hv|].
    - unfold nodes. rewrite fmap_app, app_comm_cons. apply dpath_app. split.
      + eapply dpath_reend; [done|exact P1|done|done| |].
        * intros y Hy Hy'. apply Fn; [|done]; rewrite app_comm_cons; apply elem_of_app; by left.
        * intros y Hy. apply Fp; [mem|by apply Fx1].
      + eapply dpath_frame; [exact P3| |].
        * intros y Hy. apply Fn; [mem|by apply Fx2].
        * intros y Hy. apply Fp; [|by apply Fx3]. destruct c3 as [|c c3]; cbn in Hy |- *; [by apply elem_of_nil in Hy|]. apply elem_of_app in Hy as [Hy|Hy%elem_of_list_singleton]; [|subst; left]. mem.
    - rewrite Hv. rewrite !Forall_app in *. tauto.
  Qed.

  Lemma nodup_parts (s : loc) (c1 c2 c3 : list cell) : NoDup (nodes s (c1 ++ c2 ++ c3)) ->
    forall y, y ∈ c2.*1 -> y ∉ s :: c1.*1 ++ c3.*1.
  Proof.
    unfold nodes. rewrite !fmap_app, app_comm_cons. intros [_ N]%nodup_bypass y Hy. rewrite app_comm_cons. by apply N.
  Qed.

  (** the destination is an inner node of the segment *)
  Lemma transfer_inside h s c1 f a d p b e c3 : is_list h s (c1 ++ ((f, a) :: d) ++ ((p, b) :: e) ++ c3) ->
    exists h', transfer h p f (hd s c3.*1) = Ok h' /\ is_list h' s (c1 ++ c3) /\ vl h' = vl h /\ dead h' = dead h.
  Proof.
    intros HL. pose proof HL as (Nd&_).
    pose proof HL as HL'. rewrite app_assoc in HL'.
    destruct (is_list_split h s c1 _ HL) as (_&_&Vf&Vr). cbn [app fmap list_fmap fst hd] in Vf, Vr.
    destruct (is_list_split h s (c1 ++ (f, a) :: d) _ HL') as (_&_&Vp&Vq). cbn [app fmap list_fmap fst hd] in Vp, Vq.
    pose proof HL' as HL''. rewrite app_assoc in HL''.
    destruct (is_list_split h s _ c3 HL'') as (_&_&Vl&Ve).
    rewrite fmap_app, lst_app in Vp, Vq. cbn [fmap list_fmap fst lst] in Vp, Vq. fold (@fmap list _ _ _ (@fst loc A)) in Vp, Vq.
    rewrite !fmap_app, lst_app in Vl, Ve. cbn [fmap list_fmap fst lst] in Vl, Ve. fold (@fmap list _ _ _ (@fst loc A)) in Vl, Ve.
    assert (forall y, y ∈ (((f, a) :: d) ++ (p, b) :: e).*1 -> y ∉ s :: c1.*1 ++ c3.*1) as Hout.
    { apply nodup_parts. by rewrite <- !app_assoc. }
    rewrite fmap_app in Hout. cbn [fmap list_fmap fst] in Hout. fold (@fmap list _ _ _ (@fst loc A)) in Hout.
    assert (lst f d.*1 ∈ f :: d.*1) as Iq by apply lst_in. assert (lst p e.*1 ∈ p :: e.*1) as Ie by apply lst_in.
    assert (lst s c1.*1 ∈ s :: c1.*1) as Ir by apply lst_in.
    assert (hd s c3.*1 ∈ s :: c3.*1) as Il by (destruct c3; cbn; [left|right; left]).
    assert (hd s c3.*1 ∈ s :: c1.*1 ++ c3.*1) as Il' by (revert Il; clear; mem).
    assert (lst s c1.*1 ∈ s :: c1.*1 ++ c3.*1) as Ir' by (revert Ir; clear; mem).
    assert (f ≠ p) as Hfp.
    { unfold nodes in Nd. rewrite !fmap_app in Nd. apply NoDup_cons in Nd as [_ Nd]. apply NoDup_app in Nd as (_&_&Nd).
      cbn in Nd. apply NoDup_cons in Nd as [Nd _]. intros ->. apply Nd. apply elem_of_app. right. left. }
    assert (p ∉ s :: c1.*1 ++ c3.*1) as Op by (apply Hout; clear -Iq Ie; mem).
    assert (f ∉ s :: c1.*1 ++ c3.*1) as Of by (apply Hout; clear -Iq Ie; mem).
    assert (lst f d.*1 ∉ s :: c1.*1 ++ c3.*1) as Oq by (apply Hout; apply elem_of_app; by left).
    assert (lst p e.*1 ∉ s :: c1.*1 ++ c3.*1) as Oe by (apply Hout; apply elem_of_app; by right).
    rewrite (transfer_raw h p f (hd s c3.*1) (lst f d.*1) (lst s c1.*1) (lst p e.*1)); [|by intros E; rewrite <- E in Il'|by intros E; rewrite <- E in Il'|done|done|done|done|eauto|eauto|eauto].
    eexists. split; [done|]. split; [|done].
    eapply (is_list_bypass h _ s c1 (((f, a) :: d) ++ (p, b) :: e) c3); [by rewrite <- !app_assoc| | | | |done]; cbn [nx pv].
    - rewrite lookup_insert_ne by (intros E; rewrite E in Oe; done). by rewrite lookup_insert.
    - rewrite lookup_insert_ne by (intros E; rewrite <- E in Il'; done). by rewrite lookup_insert.
    - intros y Hy Hne. rewrite !lookup_insert_ne; [done| | |]; intros E; subst y; done.
    - intros y Hy Hne. rewrite !lookup_insert_ne; [done| | |]; intros E; subst y; done.
  Qed.

  (** walking forward only uses the [next] links and the values, walking backward the [prev] links *)
  Lemma walk_nx h h' last : nx h' = nx h -> vl h' = vl h -> forall fuel x, walk fuel h' x last = walk fuel h x last.
  Proof.
    intros Hn Hv fuel. induction fuel as [|fuel IH]; intros x; [done|]. cbn [walk]. unfold value, next. rewrite Hn, Hv.
    destruct (decide (x = last)); [done|]. destruct (vl h !! x) as [[a|]|]; [|done..]. cbn [rbind].
    destruct (nx h !! x); [|done]. cbn [rbind]. by rewrite IH.
  Qed.
  Lemma traverse_nx h h' s : nx h' = nx h -> vl h' = vl h -> c_list_traverse h' s = c_list_traverse h s.
  Proof.
    intros Hn Hv. unfold c_list_traverse, c_list_walk, fuel_of, next. rewrite Hn, Hv. destruct (nx h !! s); [|done]. cbn [rbind].
    by rewrite (walk_nx h h').
  Qed.
  Lemma rwalk_pv h h' last : pv h' = pv h -> vl h' = vl h -> forall fuel x, rwalk fuel h' x last = rwalk fuel h x last.
  Proof.
    intros Hn Hv fuel. induction fuel as [|fuel IH]; intros x; [done|]. cbn [rwalk]. unfold value, prev. rewrite Hn, Hv.
    destruct (decide (x = last)); [done|]. destruct (pv h !! x); [|done]. cbn [rbind].
    destruct (vl h !! l) as [[a|]|]; [|done..]. cbn [rbind]. by rewrite IH.
  Qed.

  Lemma rwalk_mid h s c0 c1 c2 fuel : is_list h s (c0 ++ c1 ++ c2) -> length c1 < fuel ->
    rwalk fuel h (hd s c2.*1) (hd s (c1 ++ c2).*1) = Ok (rev c1.*2).
  Proof.
    revert c2 fuel. induction c1 as [|[x a] c1 IH] using rev_ind; intros c2 fuel HL Hf;
      (destruct fuel as [|fuel]; [lia|]); cbn [rwalk].
    - by rewrite decide_True.
    - rewrite decide_False.
      2:{ intros He. pose proof (pos_inj h s c0 (c1 ++ [(x, a)]) c2 HL (eq_sym He)). by destruct c1. }
      pose proof HL as HL1. rewrite app_assoc in HL1.
      rewrite (prev_at _ _ _ _ HL1). cbn [rbind]. rewrite !fmap_app, !lst_app. cbn [fmap list_fmap fst lst].
      rewrite <- app_assoc in HL. cbn [app] in HL. pose proof HL as HL2. rewrite app_assoc in HL2.
      rewrite (value_at _ _ _ _ _ _ HL2). cbn [rbind]. rewrite app_length in Hf. cbn in Hf.
      pose proof (IH ((x, a) :: c2) fuel HL ltac:(lia)) as HI. rewrite fmap_app in HI. cbn [fmap list_fmap fst hd] in HI.
      rewrite <- app_assoc. cbn [app fmap list_fmap]. fold (@fmap list _ _ _ (@fst loc A)). rewrite HI. cbn [rbind].
      by rewrite rev_app_distr.
  Qed.

  (** the destination is the first node of the segment *)
  Lemma transfer_onto_first h s c1 f a d c3 : is_list h s (c1 ++ ((f, a) :: d) ++ c3) ->
    exists h' g, transfer h f f (hd s c3.*1) = Ok h' /\ pv h' = pv h /\ vl h' = vl h /\ dead h' = dead h /\
      next h' s = Ok (hd s (c1 ++ c3).*1) /\
      (* the [next] links are those of a list without the segment *)
      nx h' = nx g /\ vl g = vl h /\ is_list g s (c1 ++ c3).
  Proof.
    intros HL. pose proof HL as (Nd&_).
    pose proof HL as HL'. rewrite app_assoc in HL'.
    destruct (is_list_split h s c1 _ HL) as (_&_&Vf&Vr). cbn [app fmap list_fmap fst hd] in Vf, Vr.
    destruct (is_list_split h s (c1 ++ (f, a) :: d) _ HL') as (_&_&Vl&Ve).
    rewrite fmap_app, lst_app in Vl, Ve. cbn [fmap list_fmap fst lst] in Vl, Ve. fold (@fmap list _ _ _ (@fst loc A)) in Vl, Ve.
    assert (forall y, y ∈ ((f, a) :: d).*1 -> y ∉ s :: c1.*1 ++ c3.*1) as Hout by by apply nodup_parts.
    cbn [fmap list_fmap fst] in Hout. fold (@fmap list _ _ _ (@fst loc A)) in Hout.
    assert (lst f d.*1 ∈ f :: d.*1) as Ie by apply lst_in.
    assert (lst s c1.*1 ∈ s :: c1.*1) as Ir by apply lst_in.
    assert (hd s c3.*1 ∈ s :: c3.*1) as Il by (destruct c3; cbn; [left|right; left]).
    assert (hd s c3.*1 ∈ s :: c1.*1 ++ c3.*1) as Il' by (revert Il; clear; mem).
    assert (lst s c1.*1 ∈ s :: c1.*1 ++ c3.*1) as Ir' by (revert Ir; clear; mem).
    assert (f ∉ s :: c1.*1 ++ c3.*1) as Of by (apply Hout; left).
    assert (lst f d.*1 ∉ s :: c1.*1 ++ c3.*1) as Oe by by apply Hout.
    set (r := lst s c1.*1) in *. set (e := lst f d.*1) in *. set (l := hd s c3.*1) in *.
    assert (f ≠ l) as Hfl by (intros E; rewrite <- E in Il'; done).
    assert (e ≠ r) as Her by (intros E; rewrite <- E in Ir'; done).
    assert (forall (m : gmap loc loc) k k' v, is_Some (m !! k) -> is_Some (<[k' := v]> m !! k)) as Hi.
    { intros m k k' v Hk. destruct (decide (k = k')) as [->|]; [rewrite lookup_insert; eauto|by rewrite lookup_insert_ne]. }
    set (nx' := <[e := f]> (<[r := l]> (<[r := f]> (nx h)))).
    set (pv' := <[f := r]> (<[l := e]> (<[f := e]> (pv h)))).
    assert (transfer h f f l = Ok (Heap nx' pv' (vl h) (dead h))) as E.
    { unfold transfer. rewrite !decide_False by done.
      rewrite (prev_ok _ f r) by done. cbn [rbind]. rewrite set_next_ok by (cbn; eauto). cbn [rbind].
      rewrite (prev_ok _ f r) by done. cbn [rbind]. rewrite set_next_ok by (cbn; eauto). cbn [rbind].
      rewrite (prev_ok _ l e) by done. cbn [rbind]. rewrite set_next_ok by (cbn; eauto). cbn [rbind].
      rewrite (prev_ok _ f r) by done. cbn [rbind]. rewrite (prev_ok _ l e) by done. cbn [rbind].
      rewrite set_prev_ok by (cbn; eauto). cbn [rbind].
      rewrite (prev_ok _ f e) by (cbn; by rewrite lookup_insert). cbn [rbind].
      rewrite set_prev_ok by (cbn; eauto). cbn [rbind]. rewrite set_prev_ok by (cbn; eauto). done. }
    assert (pv' = pv h) as Epv.
    { apply map_eq. intros y. unfold pv'. destruct (decide (y = f)) as [->|]; [by rewrite lookup_insert|].
      rewrite lookup_insert_ne by done. destruct (decide (y = l)) as [->|]; [by rewrite lookup_insert|].
      by rewrite !lookup_insert_ne. }
    set (g := Heap nx' (<[l := r]> (pv h)) (vl h) (dead h) : heap A).
    assert (is_list g s (c1 ++ c3)) as Hg.
    { eapply (is_list_bypass h _ s c1 ((f, a) :: d) c3); [done| | | | |done]; cbn [nx pv g]; fold r l.
      - unfold nx'. rewrite lookup_insert_ne by done. by rewrite lookup_insert.
      - by rewrite lookup_insert.
      - intros y Hy Hne. unfold nx'. rewrite !lookup_insert_ne; [done|done|done|]. intros <-. done.
      - intros y Hy Hne. by rewrite lookup_insert_ne. }
    eexists _, g. split; [exact E|]. cbn [pv vl dead nx]. split_and!; [done..| |done|done|done].
    exact (begin_ok _ _ _ Hg).
  Qed.
End proofs.
