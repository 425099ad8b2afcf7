(** MergeFacts.v — the pure merge that list and forward list merging compute, and stability facts. *)
From Verif Require Import Base Spec SpecSeq SpecListOps Facts.
From stdpp Require Import list.

Section merge.
  Context {B : Type} (comp : B -> B -> bool).
  Implicit Types l a b c : list B.

  Local Notation mrg := (seq_merge comp).
  Lemma mrg_nil_l l : mrg [] l = l.
  Proof. by destruct l. Qed.
  Lemma mrg_nil_r l : mrg l [] = l.
  Proof. by destruct l. Qed.
  Lemma mrg_cons x l1 y l2 : mrg (x :: l1) (y :: l2) = if comp y x then y :: mrg (x :: l1) l2 else x :: mrg l1 (y :: l2).
  Proof. done. Qed.
  Lemma mrg_perm l1 : forall l2, mrg l1 l2 ≡ₚ l1 ++ l2.
  Proof.
    induction l1 as [|x l1 IH]; intros l2; [by rewrite mrg_nil_l|].
    induction l2 as [|y l2 IH2]; [by rewrite mrg_nil_r, app_nil_r|]. rewrite mrg_cons. destruct (comp y x).
    - rewrite IH2. by rewrite (Permutation_middle (x :: l1) l2 y).
    - by rewrite IH.
  Qed.
  Lemma mrg_length l1 l2 : length (mrg l1 l2) = length l1 + length l2.
  Proof. rewrite mrg_perm. by rewrite app_length. Qed.

  Lemma stable_refl' l : stable_rearrangement comp l l.
  Proof. split; done. Qed.
  Lemma stable_trans a b c : stable_rearrangement comp a b -> stable_rearrangement comp b c -> stable_rearrangement comp a c.
  Proof. intros [H1 H2] [H3 H4]. split; [by etrans|]. intros x. by rewrite H4. Qed.
  Lemma stable_app a a' b b' : stable_rearrangement comp a a' -> stable_rearrangement comp b b' ->
    stable_rearrangement comp (a ++ b) (a' ++ b').
  Proof.
    intros [H1 H2] [H3 H4]. split; [by rewrite H1, H3|]. intros x. rewrite !List.filter_app. by rewrite H2, H4.
  Qed.
  Context (HW : StrictWeakOrder comp).
  Lemma mrg_sorted l1 : forall l2, sorted comp l1 -> sorted comp l2 -> sorted comp (mrg l1 l2).
  Proof.
    induction l1 as [|x l1 IH]; intros l2 S1 S2; [by rewrite mrg_nil_l|].
    induction l2 as [|y l2 IH2]; [by rewrite mrg_nil_r|]. rewrite mrg_cons.
    pose proof S1 as [F1 S1']%sorted_cons. pose proof S2 as [F2 S2']%sorted_cons.
    destruct (comp y x) eqn:E; apply sorted_cons.
    - split; [|by apply IH2]. rewrite mrg_perm. cbn. apply Forall_cons. split; [by apply swo_asym|].
      apply Forall_app. split; [|done]. eapply Forall_impl; [exact F1|]. cbn. intros z Hz.
      eapply swo_le_trans; [done| |exact Hz]. by apply swo_asym.
    - split; [|by apply IH]. rewrite mrg_perm. apply Forall_app. split; [done|]. apply Forall_cons. split; [done|].
      eapply Forall_impl; [exact F2|]. cbn. intros z Hz. eapply swo_le_trans; [done|exact E|exact Hz].
  Qed.
  Lemma mrg_stable l1 : forall l2, sorted comp l1 -> stable_rearrangement comp (l1 ++ l2) (mrg l1 l2).
  Proof.
    induction l1 as [|x l1 IH]; intros l2 S1; [rewrite mrg_nil_l; apply stable_refl'|].
    induction l2 as [|y l2 IH2]; [rewrite mrg_nil_r, app_nil_r; apply stable_refl'|]. rewrite mrg_cons.
    pose proof S1 as [F1 S1']%sorted_cons.
    destruct (comp y x) eqn:E.
    - eapply (stable_trans _ (y :: (x :: l1) ++ l2)).
      + split; [symmetry; apply (Permutation_middle (x :: l1) l2 y)|]. intros z.
        (* y is less than every element of x :: l1, so equivalent to none of them *)
        change (y :: (x :: l1) ++ l2) with ([y] ++ (x :: l1) ++ l2). change ((x :: l1) ++ y :: l2) with ((x :: l1) ++ [y] ++ l2).
        rewrite !List.filter_app. rewrite !app_assoc. f_equal.
        destruct (equivb comp z y) eqn:Ez; [|cbn [List.filter]; rewrite Ez; by rewrite app_nil_r].
        enough (List.filter (equivb comp z) (x :: l1) = []) as -> by (by rewrite app_nil_r).
        assert (Hnone : Forall (fun w => equivb comp z w = false) (x :: l1)).
        { assert (forall w, comp w x = false -> equivb comp z w = false) as Hw.
          { intros w Hw. destruct (equivb comp z w) eqn:E2; [|done]. exfalso.
            rewrite equivb_sym in Ez. pose proof (equivb_trans _ HW _ _ _ Ez E2) as Heq. apply equivb_true in Heq as [H1 H2].
            (* comp y w = false, comp w x = false, so comp y x = false *)
            pose proof (swo_le_trans _ HW x w y Hw H1). congruence. }
          apply Forall_cons. split; [apply Hw, swo_irrefl, HW|]. eapply Forall_impl; [exact F1|]. auto. }
        clear -Hnone. induction Hnone as [|w l Hw _ IH]; [done|]. cbn. by rewrite Hw.
      + apply (stable_app [y] [y]); [apply stable_refl'|done].
    - apply (stable_app [x] [x]); [apply stable_refl'|]. by apply IH.
  Qed.
End merge.

(** lifting comparisons to pairs (node, value) *)
Section snd.
  Context {K B : Type} (comp : B -> B -> bool).
  Definition on2 (p : B -> B -> bool) (c d : K * B) : bool := p c.2 d.2.
  Lemma on2_swo : StrictWeakOrder comp -> StrictWeakOrder (on2 comp).
  Proof.
    intros HW. split; unfold on2; intros.
    - by apply swo_irrefl.
    - by eapply swo_trans.
    - by eapply swo_incomp_trans.
  Qed.
  Lemma on2_sorted l : sorted (on2 comp) l <-> sorted comp l.*2.
  Proof.
    split.
    - intros H i j x y Hij Hx Hy. rewrite list_lookup_fmap in Hx, Hy. apply fmap_Some in Hx as [c [Hc ->]].
      apply fmap_Some in Hy as [d [Hd ->]]. by apply (H i j).
    - intros H i j c d Hij Hc Hd. apply (H i j); [done|by rewrite list_lookup_fmap, Hc|by rewrite list_lookup_fmap, Hd].
  Qed.
  Lemma filter_snd (p : B -> bool) (l : list (K * B)) : List.filter p l.*2 = (List.filter (fun c => p c.2) l).*2.
  Proof. induction l as [|c l IH]; [done|]. cbn. destruct (p c.2); cbn; by rewrite IH. Qed.
  Lemma on2_stable (l l' : list (K * B)) : stable_rearrangement (on2 comp) l l' -> stable_rearrangement comp l.*2 l'.*2.
  Proof.
    intros [H1 H2]. split; [by rewrite H1|]. intros x.
    rewrite !filter_snd. destruct (List.filter (fun c => equivb comp x c.2) l) as [|c r] eqn:E.
    - f_equal. destruct (List.filter (fun c => equivb comp x c.2) l') as [|c r] eqn:E'; [done|]. exfalso.
      assert (In c (List.filter (fun c => equivb comp x c.2) l')) as Hc by (rewrite E'; left; done).
      apply List.filter_In in Hc as [Hc1 Hc2]. apply elem_of_list_In in Hc1. rewrite <- H1 in Hc1. apply elem_of_list_In in Hc1.
      assert (In c (List.filter (fun c => equivb comp x c.2) l)) as Hc by (by apply List.filter_In). rewrite E in Hc. done.
    - f_equal. rewrite <- E. specialize (H2 (c.1, x)). apply H2.
  Qed.
  Lemma mrg_snd l1 : forall l2, (seq_merge (on2 comp) l1 l2).*2 = seq_merge comp l1.*2 l2.*2.
  Proof.
    induction l1 as [|x l1 IH]; intros l2; [cbn [fmap list_fmap]; by rewrite !mrg_nil_l|].
    induction l2 as [|y l2 IH2]; [cbn [fmap list_fmap]; by rewrite !mrg_nil_r|].
    cbn [fmap list_fmap]. rewrite !mrg_cons. unfold on2 at 1. destruct (comp y.2 x.2); cbn [fmap list_fmap].
    - f_equal. apply IH2.
    - f_equal. apply IH.
  Qed.
  Lemma keep_runs_snd (p : B -> B -> bool) (l : list (K * B)) : forall c,
    (keep_runs (on2 p) c l).*2 = keep_runs p c.2 l.*2.
  Proof.
    induction l as [|d l IH]; intros c; [done|]. cbn. unfold on2 at 1. destruct (p c.2 d.2); cbn; by rewrite IH.
  Qed.
  Lemma unique_snd (p : B -> B -> bool) (l : list (K * B)) : (unique_spec (on2 p) l).*2 = unique_spec p l.*2.
  Proof. destruct l; [done|]. cbn. by rewrite keep_runs_snd. Qed.
End snd.
