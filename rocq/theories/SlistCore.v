(** SlistCore.v — segments, framing, linking, unlinking and moving of nodes (used by SlistProofs.v). *)
From Verif Require Import Base Spec SpecSeq DList Path Slist SpecSlist.
From stdpp Require Import list gmap.

Section proofs.
  Context {A : Type}.
  Implicit Types h : sheap A.
  Notation cell := (loc * A)%type.
  Implicit Types cs ds c d : list cell.
  Implicit Types s t : sobj.

  (** ** is_slist *)
  Lemma is_slist_vl h s cs y : is_slist h s cs -> y ∈ snodes s cs -> is_Some (svl h !! y).
  Proof.
    intros (_&_&Ha&He&Hf) Hy. apply elem_of_cons in Hy as [->|Hy]; [eauto|]. apply elem_of_cons in Hy as [->|Hy]; [eauto|].
    apply elem_of_list_fmap in Hy as [c [-> Hc]]. rewrite Forall_forall in Hf. rewrite (Hf c Hc). eauto.
  Qed.
  Lemma is_slist_length h s cs : is_slist h s cs -> S (S (length cs)) <= size (svl h).
  Proof.
    intros HL. pose proof (nodup_size (svl h) (snodes s cs)) as Hn. unfold snodes in Hn at 3. cbn in Hn.
    rewrite fmap_length in Hn. apply Hn; [apply HL|]. intros y Hy. by eapply is_slist_vl.
  Qed.
  Lemma is_slist_frame h h' s cs : is_slist h s cs ->
    (forall y, y ∈ snodes s cs -> svl h' !! y = svl h !! y /\ snx h' !! y = snx h !! y) ->
    is_slist h' s cs.
  Proof.
    intros (Hnd&Hp&Ha&He&Hf) Hfr. split_and!; [done| | | |].
    - eapply path_frame; [done|]. intros y Hy. apply Hfr. unfold snodes. set_solver.
    - destruct (Hfr s.1) as [-> _]; [left|done].
    - destruct (Hfr s.2) as [-> _]; [right; left|done].
    - rewrite Forall_forall in *. intros c Hc. destruct (Hfr c.1) as [-> _]; [|by apply Hf].
      right. right. apply elem_of_list_fmap. eauto.
  Qed.
  Lemma sstep_frame h h' old new s cs : sstep h h' old new -> is_slist h s cs ->
    (forall y, y ∈ snodes s cs -> y ∉ old) -> is_slist h' s cs.
  Proof.
    intros (H1&H2&H3) HL Hd. eapply is_slist_frame; [done|]. intros y Hy.
    pose proof (is_slist_vl _ _ _ _ HL Hy) as Hs. destruct (H1 y) as [Hv Hnp]; [by apply Hd| |].
    - intros Hnew. rewrite (H3 y) in Hs; [by destruct Hs|by apply Hd|done].
    - split; [done|by apply Hnp].
  Qed.
  Lemma sstep_refl h old new : (forall y, y ∈ old <-> y ∈ new) -> sstep h h old new.
  Proof. intros H. split_and!; [done| |]; intros y ? ?; exfalso; naive_solver. Qed.
  Lemma sstep_trans h1 h2 h3 a b (c : list loc) : sstep h1 h2 a b -> sstep h2 h3 b c -> sstep h1 h3 a c.
  Proof.
    intros (A1&A2&A3) (B1&B2&B3). split_and!; intros y H1 H2; destruct (decide (y ∈ b)) as [Hb|Hb].
    - rewrite (A3 y), (B2 y) by done. split; [done|]. intros [? ?]; done.
    - destruct (A1 y) as [Ha Ha']; [done..|]. destruct (B1 y) as [Hc Hc']; [done..|]. rewrite Hc, Ha. split; [done|].
      intros Hs. rewrite <- (Ha' Hs). rewrite <- Ha in Hs. by apply Hc'.
    - by apply B2.
    - destruct (B1 y) as [Hc _]; [done..|]. rewrite Hc. by apply A2.
    - by apply A3.
    - destruct (A1 y) as [Hc _]; [done..|]. rewrite <- Hc. by apply B3.
  Qed.
  Lemma sstep_equiv h h' a b a' b' : sstep h h' a b -> (forall y, y ∈ a <-> y ∈ a') -> (forall y, y ∈ b <-> y ∈ b') ->
    sstep h h' a' b'.
  Proof. intros (A1&A2&A3) Ha Hb. split_and!; intros y; rewrite <- Ha, <- Hb; eauto. Qed.
  Lemma sstep_weaken h h' a b (c : list loc) : sstep h h' a b -> sstep h h' (c ++ a) (c ++ b).
  Proof.
    intros (A1&A2&A3). split_and!; intros y; rewrite !not_elem_of_app, ?elem_of_app; intros ? ?.
    - apply A1; tauto.
    - apply A2; tauto.
    - apply A3; tauto.
  Qed.

  (** ** several lists *)
  Lemma slists_perm h ls ls' : ls ≡ₚ ls' -> slists h ls -> slists h ls'.
  Proof.
    intros Hp [H1 H2]. split; [|by rewrite <- Hp].
    enough (concat (map (fun l => snodes l.1 l.2) ls) ≡ₚ concat (map (fun l => snodes l.1 l.2) ls')) as <- by done.
    clear -Hp. induction Hp; cbn [map concat]; [done| | |].
    - by rewrite IHHp.
    - rewrite !app_assoc. f_equiv. apply Permutation_app_comm.
    - by etrans.
  Qed.
  Definition all_snodes (ls : list (sobj * list cell)) : list loc := concat (map (fun l => snodes l.1 l.2) ls).
  Lemma all_snodes_app ls ls' : all_snodes (ls ++ ls') = all_snodes ls ++ all_snodes ls'.
  Proof. unfold all_snodes. by rewrite map_app, concat_app. Qed.
  Lemma all_snodes_in ls y : y ∈ all_snodes ls <-> exists l, l ∈ ls /\ y ∈ snodes l.1 l.2.
  Proof.
    induction ls as [|l ls IH]; cbn.
    - split; [set_solver|]. intros [l [H _]]. set_solver.
    - fold (all_snodes ls). rewrite elem_of_app, IH. split.
      + intros [H|[l' [H1 H2]]]; [exists l; split; [left|done]|exists l'; split; [by right|done]].
      + intros [l' [H1 H2]]. apply elem_of_cons in H1 as [->|H1]; [by left|right; eauto].
  Qed.
  Lemma slists_in h ls l : slists h ls -> l ∈ ls -> is_slist h l.1 l.2.
  Proof. intros [_ H]. rewrite Forall_forall in H. apply H. Qed.
  Lemma slists_vl h ls y : slists h ls -> y ∈ all_snodes ls -> is_Some (svl h !! y).
  Proof. intros H Hy. apply all_snodes_in in Hy as [l [H1 H2]]. eapply is_slist_vl; [|done]. by eapply slists_in. Qed.
  Lemma slists_app h ls ls' : slists h (ls ++ ls') <->
    slists h ls /\ slists h ls' /\ (forall y, y ∈ all_snodes ls -> y ∉ all_snodes ls').
  Proof.
    unfold slists. fold (all_snodes (ls ++ ls')) (all_snodes ls) (all_snodes ls').
    rewrite all_snodes_app, NoDup_app, Forall_app. tauto.
  Qed.
  (** an operation that touches only the lists [ls] leaves the others alone *)
  Lemma slists_step h h' ls ls' rest : slists h (ls ++ rest) -> slists h' ls' ->
    sstep h h' (all_snodes ls) (all_snodes ls') -> slists h' (ls' ++ rest).
  Proof.
    intros HL HL' Hst. apply slists_app in HL as (H1&H2&H3). apply slists_app. split_and!; [done| |].
    - split; [apply H2|]. apply Forall_forall. intros l Hl. eapply sstep_frame; [exact Hst|by eapply slists_in|].
      intros y Hy Hy'. eapply H3; [done|]. apply all_snodes_in. eauto.
    - intros y Hy Hy'. destruct (decide (y ∈ all_snodes ls)) as [Hi|Hi]; [by eapply H3|].
      pose proof (slists_vl _ _ _ H2 Hy') as Hs. destruct Hst as (_&_&Hst). rewrite Hst in Hs; [by destruct Hs|done..].
  Qed.
  Lemma slists_nil h : slists h [].
  Proof. split; constructor. Qed.
  Lemma slists_one h s cs : slists h [(s, cs)] <-> is_slist h s cs.
  Proof.
    unfold slists. cbn. rewrite app_nil_r. rewrite Forall_cons, Forall_nil. cbn. unfold is_slist. tauto.
  Qed.
  Lemma all_snodes_one s cs : all_snodes [(s, cs)] = snodes s cs.
  Proof. cbn. by rewrite app_nil_r. Qed.
  Lemma slists_two h s cs t ds : slists h [(s, cs); (t, ds)] <->
    is_slist h s cs /\ is_slist h t ds /\ (forall y, y ∈ snodes s cs -> y ∉ snodes t ds).
  Proof.
    change [(s, cs); (t, ds)] with ([(s, cs)] ++ [(t, ds)]). rewrite slists_app, !slists_one, !all_snodes_one. tauto.
  Qed.
  Lemma all_snodes_two s cs t ds : all_snodes [(s, cs); (t, ds)] = snodes s cs ++ snodes t ds.
  Proof. cbn. by rewrite app_nil_r. Qed.

  (** ** field accesses *)
  Lemma snext_ok h x y : snx h !! x = Some y -> snext h x = Ok y.
  Proof. unfold snext. by intros ->. Qed.
  Lemma svalue_ok h x a : svl h !! x = Some (Some a) -> svalue h x = Ok a.
  Proof. unfold svalue. by intros ->. Qed.
  Lemma set_snext_ok h x y : is_Some (svl h !! x) -> set_snext h x y = Ok (SHeap (<[x := y]> (snx h)) (svl h) (sdead h)).
  Proof. unfold set_snext. by intros [? ->]. Qed.

  (** position [c1] of a list: the last node of [c1], or the before-begin node *)
  Lemma is_slist_nx h s c1 c2 : is_slist h s (c1 ++ c2) -> snx h !! lst s.1 c1.*1 = Some (hd s.2 c2.*1).
  Proof.
    intros (_&Hp&_). rewrite fmap_app, app_comm_cons in Hp. apply path_app in Hp as [Hp _]. by apply path_last in Hp.
  Qed.
  Lemma snodes_app s c1 c2 : snodes s (c1 ++ c2) = s.1 :: s.2 :: c1.*1 ++ c2.*1.
  Proof. unfold snodes. by rewrite fmap_app. Qed.
  Lemma lst_snodes s c1 c2 : lst s.1 c1.*1 ∈ snodes s (c1 ++ c2).
  Proof. rewrite snodes_app. pose proof (lst_in s.1 c1.*1) as H. apply elem_of_cons in H as [->|H]; [left|]. do 2 right. apply elem_of_app. by left. Qed.
  Lemma hd_snodes s c1 c2 : hd s.2 c2.*1 ∈ snodes s (c1 ++ c2).
  Proof. rewrite snodes_app. destruct c2 as [|[x a] c2]; cbn; [right; left|]. do 2 right. apply elem_of_app. right. left. Qed.
  Lemma snodes_perm s s' cs cs' : s = s' -> cs ≡ₚ cs' -> snodes s cs ≡ₚ snodes s' cs'.
  Proof. intros <- Hp. unfold snodes. by rewrite Hp. Qed.

  (** ** segments *)
  Lemma lst_split (x : loc) xs : exists pre, x :: xs = pre ++ [lst x xs].
  Proof.
    revert x. induction xs as [|y xs IH]; intros x; [by exists []|]. destruct (IH y) as [pre Hp]. exists (x :: pre).
    cbn. cbn in Hp. by rewrite Hp.
  Qed.
  (** changing only where a segment ends *)
  Lemma path_reend (m m' : gmap loc loc) x xs e e' : NoDup (x :: xs) -> path m (x :: xs) e ->
    m' !! lst x xs = Some e' -> (forall y, y ∈ x :: xs -> y ≠ lst x xs -> m' !! y = m !! y) ->
    path m' (x :: xs) e'.
  Proof.
    intros Hnd Hp Hn Hf. destruct (lst_split x xs) as [pre Hpre]. rewrite Hpre in Hnd, Hp |- *.
    apply path_app in Hp as [Hp1 _]. apply path_app. split.
    - apply NoDup_app in Hnd as (_ & Hnd & _). eapply path_frame; [exact Hp1|].
      intros y Hy. apply Hf; [rewrite Hpre; set_solver|]. intros ->. eapply Hnd; [done|]. set_solver.
    - cbn. done.
  Qed.
  Lemma find_prev_ok h l fuel : forall x xs, path (snx h) (x :: xs) l -> l ∉ xs -> length xs < fuel ->
    find_prev fuel h x l = Ok (lst x xs).
  Proof.
    induction fuel as [|fuel IH]; intros x xs Hp Hl Hf; [lia|]. cbn [find_prev]. destruct Hp as [H1 H2].
    rewrite (snext_ok _ _ _ H1). cbn [rbind]. destruct xs as [|y xs].
    - cbn. by rewrite decide_True.
    - cbn [hd]. rewrite decide_False; [|intros ->; apply Hl; left]. rewrite (IH y xs); [done|done| |cbn in Hf; lia].
      intros H. apply Hl. by right.
  Qed.
  (** moving the segment [x :: xs], which follows the segment [f :: fs] and precedes [l], after the segment [p :: ps] *)
  Lemma stransfer_segs h p ps pn f fs x xs l :
    NoDup ((p :: ps) ++ (f :: fs) ++ x :: xs) -> path (snx h) (p :: ps) pn -> path (snx h) (f :: fs) x ->
    path (snx h) (x :: xs) l -> l ∉ x :: xs -> l ≠ lst f fs ->
    (forall y, y ∈ (p :: ps) ++ (f :: fs) ++ x :: xs -> is_Some (svl h !! y)) ->
    exists h', stransfer h (lst p ps) (lst f fs) l = Ok h' /\ svl h' = svl h /\ sdead h' = sdead h /\
      path (snx h') (p :: ps) x /\ path (snx h') (x :: xs) pn /\ path (snx h') (f :: fs) l /\
      (forall y, y ∉ (p :: ps) ++ (f :: fs) ++ x :: xs -> snx h' !! y = snx h !! y).
  Proof.
    intros Hnd Hpp Hpf Hpx Hl Hlf Hv.
    pose proof (lst_in p ps) as Ip. pose proof (lst_in f fs) as If. pose proof (lst_in x xs) as Ix.
    apply NoDup_app in Hnd as (Np & Dp & Nd). apply NoDup_app in Nd as (Nf & Df & Nx).
    assert (Npf : lst p ps ≠ lst f fs). { intros E. apply (Dp _ Ip). rewrite E. apply elem_of_app. by left. }
    assert (Npx : lst p ps ≠ lst x xs). { intros E. apply (Dp _ Ip). rewrite E. apply elem_of_app. by right. }
    assert (Nfx : lst f fs ≠ lst x xs). { intros E. apply (Df _ If). by rewrite E. }
    unfold stransfer. rewrite decide_False by done. rewrite decide_False by (by apply not_eq_sym).
    pose proof (path_last _ _ _ _ Hpf) as Ef. rewrite (snext_ok _ _ _ Ef). cbn [rbind].
    rewrite decide_False by (intros ->; apply Hl; left).
    rewrite (find_prev_ok h l (sfuel h) x xs); [|done|intros H; apply Hl; by right|].
    2:{ unfold sfuel. pose proof (nodup_size (svl h) (x :: xs) Nx) as Hs. cbn [length] in Hs.
        assert (S (length xs) <= size (svl h)); [|lia]. apply Hs. intros y Hy. apply Hv. do 2 (apply elem_of_app; right). done. }
    cbn [rbind]. pose proof (path_last _ _ _ _ Hpp) as Ep. rewrite (snext_ok _ _ _ Ep). cbn [rbind].
    rewrite set_snext_ok by (apply Hv; do 2 (apply elem_of_app; right); done). cbn [rbind].
    rewrite (snext_ok _ (lst f fs) x) by (cbn; rewrite lookup_insert_ne by (by apply not_eq_sym); done). cbn [rbind].
    rewrite set_snext_ok by (apply Hv; apply elem_of_app; left; done). cbn [rbind snx svl sdead].
    rewrite set_snext_ok by (apply Hv; apply elem_of_app; right; apply elem_of_app; left; done). cbn [rbind snx svl sdead].
    eexists. split; [done|]. cbn [snx svl sdead]. refine (conj eq_refl (conj eq_refl (conj _ (conj _ (conj _ _))))).
    - eapply path_reend; [exact Np|exact Hpp| |].
      + rewrite lookup_insert_ne by (by apply not_eq_sym). by rewrite lookup_insert.
      + intros y Hy Hne. rewrite !lookup_insert_ne; [done| |by apply not_eq_sym|].
        * intros <-. apply (Dp _ Hy). apply elem_of_app. by right.
        * intros <-. apply (Dp _ Hy). apply elem_of_app. by left.
    - eapply path_reend; [exact Nx|exact Hpx| |].
      + rewrite !lookup_insert_ne by done. by rewrite lookup_insert.
      + intros y Hy Hne. rewrite !lookup_insert_ne; [done|by apply not_eq_sym| |].
        * intros <-. apply (Dp _ Ip). apply elem_of_app. by right.
        * intros <-. by apply (Df _ If).
    - eapply path_reend; [exact Nf|exact Hpf| |].
      + by rewrite lookup_insert.
      + intros y Hy Hne. rewrite !lookup_insert_ne; [done| | |by apply not_eq_sym].
        * intros <-. by apply (Df _ Hy).
        * intros <-. apply (Dp _ Ip). apply elem_of_app. by left.
    - intros y Hy. rewrite !lookup_insert_ne; [done| | |]; intros <-; apply Hy; rewrite !elem_of_app; tauto.
  Qed.

  (** ** changes of links only *)
  Definition srelink h h' (D : list loc) : Prop :=
    svl h' = svl h /\ sdead h' = sdead h /\ forall y, y ∉ D -> snx h' !! y = snx h !! y.
  Lemma srelink_sstep h h' D old new : srelink h h' D -> (forall y, y ∈ D -> y ∈ old) ->
    (forall y, y ∈ old <-> y ∈ new) -> sstep h h' old new.
  Proof.
    intros (H1&H2&H3) Hd He. split_and!.
    - intros y Ho Hn. rewrite H1. split; [done|]. intros _. apply H3. naive_solver.
    - intros y Ho Hn. exfalso. naive_solver.
    - intros y Ho Hn. exfalso. naive_solver.
  Qed.
  Lemma srelink_trans h1 h2 h3 D : srelink h1 h2 D -> srelink h2 h3 D -> srelink h1 h3 D.
  Proof. intros (A1&A2&A3) (B1&B2&B3). split_and!; [congruence|congruence|]. intros y Hy. rewrite B3, A3; done. Qed.
  Lemma srelink_mono h h' D D' : srelink h h' D -> (forall y, y ∈ D -> y ∈ D') -> srelink h h' D'.
  Proof. intros (A1&A2&A3) H. split_and!; [done|done|]. intros y Hy. apply A3. eauto. Qed.
  Lemma srelink_refl h D : srelink h h D.
  Proof. done. Qed.

  Lemma fst_forall h h' cs : svl h' = svl h -> Forall (fun c : cell => svl h !! c.1 = Some (Some c.2)) cs ->
    Forall (fun c : cell => svl h' !! c.1 = Some (Some c.2)) cs.
  Proof. by intros ->. Qed.
End proofs.
