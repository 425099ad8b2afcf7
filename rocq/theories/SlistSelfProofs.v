(** SlistSelfProofs.v — c_slist_merge_by with the same forward list as both arguments. *)
From Verif Require Import Base Spec SpecSeq SpecListOps SpecSlistOps Facts MergeFacts DList Path Slist SpecSlist SlistCore SlistProofs SlistAlgo.
From stdpp Require Import list gmap.

Section proofs.
  Context {A : Type} (comp : A -> A -> bool).
  Implicit Types h : sheap A.
  Notation cell := (loc * A)%type.
  Implicit Types C D R cs : list cell.
  Implicit Types s : sobj.

  (** the iterator passes the elements that the first one is not less than *)
  Lemma sself_pass h s x a X : forall C D R fuel, is_slist h s (C ++ D ++ R) -> C ++ D = (x, a) :: X ->
    (forall c, c ∈ D -> comp a c.2 = false) ->
    smerge_loop comp (length D + fuel) h (lst s.1 C.*1) s.2 s.1 s.2 = smerge_loop comp fuel h (lst s.1 (C ++ D).*1) s.2 s.1 s.2.
  Proof.
    intros C D. revert C. induction D as [|[y b] D IH]; intros C R fuel HL HX HD.
    { by rewrite app_nil_r. }
    assert (HL1 : is_slist h s ((x, a) :: X ++ R)) by (rewrite app_comm_cons, <- HX, <- app_assoc; done).
    cbn [length Nat.add smerge_loop].
    rewrite (snext_pos h s C _ HL). cbn [app fmap list_fmap fst hd rbind]. rewrite decide_False by (by eapply not_end).
    rewrite (sbegin_ok h s _ HL1). cbn [app fmap list_fmap fst hd rbind]. rewrite decide_False by (by apply (not_end h s [] x a (X ++ R))).
    rewrite (svalue_at h s [] x a (X ++ R) HL1), (svalue_at h s C y b (D ++ R) HL). cbn [rbind].
    assert (comp a b = false) as -> by (apply (HD (y, b)); left).
    rewrite <- (pos_snoc s C y b) at 1. rewrite (IH (C ++ [(y, b)]) R fuel).
    - by rewrite <- app_assoc.
    - by rewrite <- app_assoc.
    - by rewrite <- app_assoc.
    - intros c Hc. apply HD. by right.
  Qed.
  Lemma sself_pass_never h s x a X : forall C D R, is_slist h s (C ++ D ++ R) -> C ++ D = (x, a) :: X ->
    (forall c, c ∈ D -> comp a c.2 = false) ->
    (forall f, smerge_loop comp f h (lst s.1 (C ++ D).*1) s.2 s.1 s.2 = NoFuel) ->
    forall f, smerge_loop comp f h (lst s.1 C.*1) s.2 s.1 s.2 = NoFuel.
  Proof.
    intros C D. revert C. induction D as [|[y b] D IH]; intros C R HL HX HD HN f.
    { rewrite app_nil_r in HN. apply HN. }
    assert (HL1 : is_slist h s ((x, a) :: X ++ R)) by (rewrite app_comm_cons, <- HX, <- app_assoc; done).
    destruct f as [|f]; [done|]. cbn [smerge_loop].
    rewrite (snext_pos h s C _ HL). cbn [app fmap list_fmap fst hd rbind]. rewrite decide_False by (by eapply not_end).
    rewrite (sbegin_ok h s _ HL1). cbn [app fmap list_fmap fst hd rbind]. rewrite decide_False by (by apply (not_end h s [] x a (X ++ R))).
    rewrite (svalue_at h s [] x a (X ++ R) HL1), (svalue_at h s C y b (D ++ R) HL). cbn [rbind].
    assert (comp a b = false) as -> by (apply (HD (y, b)); left).
    rewrite <- (pos_snoc s C y b) at 1. apply (IH (C ++ [(y, b)]) R).
    - by rewrite <- app_assoc.
    - by rewrite <- app_assoc.
    - intros c Hc. apply HD. by right.
    - by rewrite <- app_assoc.
  Qed.

  Lemma lst_skip (p q x : loc) xs : xs <> [] -> lst p (x :: xs) = lst q xs.
  Proof. destruct xs; [done|]. intros _. reflexivity. Qed.

  (** two or more equivalent elements in front of a greater one go round for ever *)
  Lemma sself_chase fuel : forall h s C E z c R, is_slist h s (C ++ E ++ (z, c) :: R) -> 2 <= length (C ++ E) ->
    (forall u, u ∈ C ++ E -> comp u.2 c = true) -> (forall u v, u ∈ C ++ E -> v ∈ C ++ E -> comp u.2 v.2 = false) ->
    smerge_loop comp fuel h (lst s.1 C.*1) s.2 s.1 s.2 = NoFuel.
  Proof.
    induction fuel as [|fuel IH]; intros h s C E z c R HL Hn Hc He; [done|]. cbn [smerge_loop].
    destruct (C ++ E) as [|[x a] X] eqn:EX; [cbn in Hn; lia|].
    assert (HL1 : is_slist h s ((x, a) :: X ++ (z, c) :: R)) by (rewrite app_comm_cons, <- EX, <- app_assoc; done).
    rewrite (snext_pos h s C _ HL). cbn [rbind]. destruct E as [|[y b] E].
    - rewrite app_nil_r in EX. subst C. cbn [app fmap list_fmap fst hd]. rewrite decide_False by (by eapply not_end).
      rewrite (sbegin_ok h s _ HL1). cbn [app fmap list_fmap fst hd rbind]. rewrite decide_False by (by apply (not_end h s [] x a (X ++ (z, c) :: R))).
      rewrite (svalue_at h s [] x a _ HL1), (svalue_at h s ((x, a) :: X) z c R HL). cbn [rbind].
      assert (comp a c = true) as -> by (apply (Hc (x, a)); left). rewrite (snext_at h s [] x a _ HL1). cbn [rbind].
      assert (HX : X <> []) by (destruct X; [cbn in Hn; lia|done]).
      destruct (transfer_back h s [] [(x, a)] X ((z, c) :: R) HL1 HX) as (h'&Et&HL'&_). cbn [app fmap list_fmap fst] in Et.
      cbn in Et. rewrite lst_cons, Et. cbn [rbind]. rewrite <- (lst_cons s.1 x X.*1), (lst_skip s.1 s.1 x X.*1) by (by destruct X).
      apply (IH h' s X [(x, a)] z c R); [done| | |].
      + rewrite app_length. cbn in *. lia.
      + intros u Hu. apply Hc. set_solver.
      + intros u v Hu Hv. apply He; set_solver.
    - cbn [app fmap list_fmap fst hd]. rewrite decide_False by (by eapply not_end).
      rewrite (sbegin_ok h s _ HL1). cbn [app fmap list_fmap fst hd rbind]. rewrite decide_False by (by apply (not_end h s [] x a (X ++ (z, c) :: R))).
      rewrite (svalue_at h s [] x a _ HL1), (svalue_at h s C y b _ HL). cbn [rbind].
      assert (comp a b = false) as -> by (apply (He (x, a) (y, b)); rewrite <- EX; [rewrite EX; left|apply elem_of_app; right; left]).
      rewrite <- (pos_snoc s C y b) at 1. apply (IH h s (C ++ [(y, b)]) E z c R); rewrite <- !app_assoc; cbn [app]; rewrite ?EX; done.
  Qed.
  (** a node that is its own successor *)
  Lemma sself_stuck fuel h x a z c s : snx h !! x = Some x -> x <> s.2 -> snx h !! s.1 = Some z -> z <> s.2 ->
    svl h !! x = Some (Some a) -> svl h !! z = Some (Some c) -> comp c a = false ->
    smerge_loop comp fuel h x s.2 s.1 s.2 = NoFuel.
  Proof.
    intros H1 H2 H3 H4 H5 H6 H7. induction fuel as [|fuel IH]; [done|]. cbn [smerge_loop].
    rewrite (snext_ok h x x H1). cbn [rbind]. rewrite decide_False by done. rewrite (snext_ok h s.1 z H3). cbn [rbind]. rewrite decide_False by done.
    rewrite (svalue_ok h z c H6), (svalue_ok h x a H5). cbn [rbind]. rewrite H7. done.
  Qed.
  Lemma is_slist_vals h s C x a R : is_slist h s (C ++ (x, a) :: R) -> svl h !! x = Some (Some a).
  Proof. intros (_&_&_&_&HF). apply Forall_app in HF as [_ HF]. by apply Forall_cons in HF as [HF _]. Qed.
  Lemma sself_single fuel h s x a z c R : is_slist h s ((x, a) :: (z, c) :: R) -> comp a c = true -> comp c a = false ->
    smerge_loop comp fuel h x s.2 s.1 s.2 = NoFuel.
  Proof.
    intros HL Hac Hca. destruct fuel as [|fuel]; [done|]. cbn [smerge_loop].
    pose proof (not_ends h s [] x a _ HL) as [Nx1 Nx2]. pose proof (not_ends h s [(x, a)] z c R HL) as [Nz1 Nz2].
    pose proof (pos_not_next h s [(x, a)] z c R HL) as Nxz. cbn in Nxz.
    pose proof (is_slist_vals h s [] x a _ HL) as Vx. pose proof (is_slist_vals h s [(x, a)] z c R HL) as Vz.
    assert (Vs : is_Some (svl h !! s.1)) by (destruct HL as (_&_&HV&_); by eexists).
    rewrite (snext_at h s [] x a _ HL). cbn [fmap list_fmap fst hd rbind]. rewrite decide_False by done.
    rewrite (sbegin_ok h s _ HL). cbn [fmap list_fmap fst hd rbind]. rewrite decide_False by done.
    rewrite (svalue_ok h x a Vx), (svalue_ok h z c Vz). cbn [rbind]. rewrite Hac. rewrite (snext_at h s [] x a _ HL). cbn [fmap list_fmap fst hd rbind].
    unfold stransfer. rewrite decide_False by done. rewrite decide_False by (intros E; by apply Nz1).
    rewrite (sbegin_ok h s _ HL). cbn [fmap list_fmap fst hd rbind]. rewrite decide_False by done.
    rewrite (find_prev_ok h z (sfuel h) x []).
    - cbn [lst rbind]. rewrite (snext_at h s [] x a _ HL). cbn [fmap list_fmap fst hd rbind]. rewrite set_snext_ok by (by eexists). cbn [rbind].
      rewrite (snext_ok _ s.1 x).
      2:{ cbn. rewrite lookup_insert_ne by done. pose proof (is_slist_nx h s [] ((x, a) :: (z, c) :: R) HL) as H. done. }
      cbn [rbind]. rewrite set_snext_ok by (by eexists). cbn [rbind]. rewrite set_snext_ok by done. cbn [rbind snx svl sdead].
      apply (sself_stuck fuel _ x a z c s); cbn [snx svl]; try done.
      + rewrite lookup_insert_ne by done. by rewrite lookup_insert.
      + by rewrite lookup_insert.
    - destruct HL as (_&HP&_). cbn in HP. cbn. tauto.
    - by apply not_elem_of_nil.
    - pose proof (sfuel_enough h s _ HL). cbn in *. lia.
  Qed.

  Lemma ssplit_head (a : A) cs : exists D R, cs = D ++ R /\ (forall c, c ∈ D -> comp a c.2 = false) /\
    match R with [] => True | c :: _ => comp a c.2 = true end.
  Proof.
    induction cs as [|c cs (D&R&->&H1&H2)].
    - exists [], []. split; [done|]. split; [|done]. intros c Hc. by apply elem_of_nil in Hc.
    - destruct (comp a c.2) eqn:E.
      + exists [], (c :: D ++ R). split; [done|]. split; [|done]. intros c' Hc. by apply elem_of_nil in Hc.
      + exists (c :: D), R. split; [done|]. split; [|done]. intros c' [->|Hc]%elem_of_cons; [done|by apply H1].
  Qed.
  Context (HW : StrictWeakOrder comp).
  Lemma sself_head_le (a : A) l x : sorted comp (a :: l) -> x ∈ a :: l -> comp x a = false.
  Proof.
    intros HS Hx. apply elem_of_list_lookup in Hx as [[|i] Hi]; [injection Hi as ->; apply (swo_irrefl _ HW)|].
    apply (HS 0 (S i) a x); [lia|done|done].
  Qed.
  Lemma sself_never h s cs : is_slist h s cs -> sorted comp cs.*2 -> (exists u v, u ∈ cs.*2 /\ v ∈ cs.*2 /\ comp u v = true) ->
    forall f, smerge_loop comp f h s.1 s.2 s.1 s.2 = NoFuel.
  Proof.
    intros HL HS (u&v&Hu&Hv&Huv). destruct cs as [|[x a] cs]; [by apply elem_of_nil in Hu|].
    assert (Hav : comp a v = true).
    { apply (swo_le_lt_trans _ HW) with u; [|done]. by apply (sself_head_le a cs.*2). }
    destruct (ssplit_head a cs) as (D&R&->&H1&H2). destruct R as [|[z c] R].
    { exfalso. rewrite app_nil_r in Hv. cbn in Hv. apply elem_of_cons in Hv as [->|Hv].
      - rewrite (swo_irrefl _ HW) in Hav. done.
      - apply elem_of_list_fmap in Hv as (e&->&He). rewrite (H1 e He) in Hav. done. }
    cbn in H2. apply (sself_pass_never h s x a D [] ((x, a) :: D) ((z, c) :: R)); [done|done| |].
    { intros e [->|He]%elem_of_cons; [apply (swo_irrefl _ HW)|by apply H1]. }
    intros f. cbn [app]. destruct D as [|d D].
    - apply (sself_single f h s x a z c R); [done|done|]. refine (sself_head_le a _ c HS _). set_solver.
    - assert (Hle : forall e, e ∈ (x, a) :: d :: D -> comp a e.2 = false /\ comp e.2 a = false).
      { intros e He. split.
        - apply elem_of_cons in He as [->|He]; [apply (swo_irrefl _ HW)|by apply H1].
        - refine (sself_head_le a _ e.2 HS _). change (e.2 ∈ ((x, a) :: (d :: D) ++ (z, c) :: R).*2).
          apply elem_of_list_fmap. exists e. split; [done|]. rewrite app_comm_cons. apply elem_of_app. by left. }
      apply (sself_chase f h s ((x, a) :: d :: D) [] z c R); rewrite ?app_nil_r.
      + done.
      + cbn. lia.
      + intros e He. apply (swo_le_lt_trans _ HW) with a; [apply Hle, He|done].
      + intros e e' He He'. apply (swo_le_trans _ HW) with a; apply Hle; done.
  Qed.
  (** all elements equivalent: the list is emptied and its nodes stay allocated *)
  Lemma sself_emptied h s cs : is_slist h s cs -> (forall u v, u ∈ cs.*2 -> v ∈ cs.*2 -> comp u v = false) ->
    exists h', c_slist_merge_by comp h s s = Ok h' /\ is_slist h' s [] /\ svl h' = svl h /\ sdead h' = sdead h /\
      (forall y, y ∉ snodes s cs -> snx h' !! y = snx h !! y).
  Proof.
    intros HL HE. unfold c_slist_merge_by. rewrite (sempty_ok h s cs HL). cbn [rbind]. destruct cs as [|[x a] cs].
    { rewrite bool_decide_true by done. by exists h. }
    rewrite bool_decide_false by done.
    pose proof (sfuel_enough h s _ HL) as Hf. cbn [length] in Hf.
    replace (sfuel h) with (length ((x, a) :: cs) + S (sfuel h - length ((x, a) :: cs) - 1)) by (cbn [length]; lia).
    pose proof (sself_pass h s x a cs [] ((x, a) :: cs) [] (S (sfuel h - length ((x, a) :: cs) - 1))) as HP.
    rewrite app_nil_r in HP. specialize (HP HL eq_refl). cbn [app fmap list_fmap lst fst] in HP. rewrite HP.
    2:{ intros c Hc. refine (HE a c.2 _ _); [left|]. change (a :: cs.*2) with (((x, a) :: cs).*2). apply elem_of_list_fmap. by exists c. }
    assert (HL0 : is_slist h s (((x, a) :: cs) ++ [])) by (by rewrite app_nil_r).
    pose proof (snext_pos h s _ _ HL0) as Hn. cbn [fmap list_fmap fst hd lst] in Hn.
    cbn [smerge_loop]. rewrite Hn. cbn [rbind]. rewrite decide_True by done. cbn [rbind].
    rewrite (sbegin_ok h s _ HL). cbn [fmap list_fmap fst hd rbind].
    pose proof (not_ends h s [] x a _ HL) as [Nx1 Nx2]. rewrite decide_False by done.
    pose proof HL as (HN&HPa&V1&V2&HF). cbn [fmap list_fmap fst] in HPa.
    assert (Hlx : lst x cs.*1 ∈ ((x, a) :: cs).*1) by apply lst_in.
    assert (N1 : lst x cs.*1 <> s.1).
    { intros E. unfold snodes in HN. apply NoDup_cons in HN as [HN _]. apply HN. rewrite <- E. by right. }
    assert (Hse : s.1 <> s.2) by (by apply (ends_differ h s _ HL)).
    assert (Vl : is_Some (svl h !! lst x cs.*1)).
    { apply elem_of_list_fmap in Hlx as (e&->&He). rewrite Forall_forall in HF. rewrite (HF e He). by eexists. }
    unfold stransfer. rewrite decide_False by done. rewrite decide_False by done. rewrite (sbegin_ok h s _ HL). cbn [fmap list_fmap fst hd rbind].
    rewrite decide_False by done. rewrite (find_prev_ok h s.2 (sfuel h) x cs.*1).
    - cbn [rbind]. rewrite Hn. cbn [rbind]. rewrite set_snext_ok by done. cbn [rbind].
      rewrite (snext_ok _ s.1 x).
      2:{ cbn. rewrite lookup_insert_ne by done. exact (is_slist_nx h s [] ((x, a) :: cs) HL). }
      cbn [rbind]. rewrite set_snext_ok by done. cbn [rbind]. rewrite set_snext_ok by (by eexists). cbn [snx svl sdead].
      eexists. split; [reflexivity|]. split; [|split; [done|split; [done|]]].
      + split; [|split; [|split; [done|split; [done|by apply Forall_nil]]]].
        * unfold snodes. cbn. apply NoDup_cons. split; [by intros E%elem_of_list_singleton|apply NoDup_singleton].
        * cbn. split; [|done]. by rewrite lookup_insert.
      + cbn [snx]. intros y Hy. rewrite lookup_insert_ne by (intros <-; apply Hy; left).
        rewrite lookup_insert_ne by (intros <-; apply Hy; right; right; exact Hlx).
        rewrite lookup_insert_ne; [done|]. intros <-; apply Hy; right; right; exact Hlx.
    - by destruct HPa.
    - intros Hin. unfold snodes in HN. apply NoDup_cons in HN as [_ HN]. apply NoDup_cons in HN as [HN _]. apply HN. by right.
    - rewrite fmap_length. cbn in Hf. lia.
  Qed.
End proofs.
