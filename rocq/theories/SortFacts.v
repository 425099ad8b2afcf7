(** SortFacts.v — the stable sort of a sequence is unique, and [seq_sort] computes it. *)
From Verif Require Import Base Spec SpecSeq SpecListOps Facts MergeFacts.
From stdpp Require Import list.

Section sort.
  Context {B : Type} (comp : B -> B -> bool) (HW : StrictWeakOrder comp).
  Implicit Types l : list B.
  Lemma sorted_cons_inv x l : sorted comp (x :: l) -> sorted comp l /\ forall y, y ∈ l -> comp y x = false.
  Proof.
    intros H. split.
    - intros i j a b Hij Hi Hj. apply (H (S i) (S j) a b); [lia|done..].
    - intros y (i&Hi)%elem_of_list_lookup. apply (H 0 (S i) x y); [lia|done..].
  Qed.
  Lemma sorted_cons_intro x l : sorted comp l -> (forall y, y ∈ l -> comp y x = false) -> sorted comp (x :: l).
  Proof.
    intros H H' [|i] [|j] a b Hij Hi Hj; try lia.
    - injection Hi as <-. apply H'. by eapply elem_of_list_lookup_2.
    - apply (H i j); [lia|done..].
  Qed.
  Lemma equivb_refl x : equivb comp x x = true.
  Proof. unfold equivb. by rewrite (swo_irrefl _ HW). Qed.
  Lemma stable_sort_unique l1 : forall l2, sorted comp l1 -> sorted comp l2 -> stable_rearrangement comp l1 l2 -> l1 = l2.
  Proof.
    induction l1 as [|x r1 IH]; intros l2 H1 H2 [Hp Hf].
    { by apply Permutation_nil_l. }
    destruct l2 as [|y r2]; [by apply Permutation_nil_r in Hp|].
    apply sorted_cons_inv in H1 as [H1 H1']. apply sorted_cons_inv in H2 as [H2 H2'].
    assert (x = y) as <-.
    { assert (comp y x = false) as Hyx.
      { assert (y ∈ x :: r1) as Hy by (rewrite Hp; left). apply elem_of_cons in Hy as [->|Hy]; [apply (swo_irrefl _ HW)|by apply H1']. }
      assert (comp x y = false) as Hxy.
      { assert (x ∈ y :: r2) as Hx by (rewrite <- Hp; left). apply elem_of_cons in Hx as [->|Hx]; [apply (swo_irrefl _ HW)|by apply H2']. }
      specialize (Hf x). cbn in Hf. rewrite equivb_refl in Hf. unfold equivb at 1 in Hf. rewrite Hxy, Hyx in Hf. cbn in Hf. congruence. }
    f_equal. apply IH; [done..|]. split; [by apply Permutation_cons_inv in Hp|].
    intros z. specialize (Hf z). cbn in Hf. destruct (equivb comp z x); [congruence|done].
  Qed.
  Lemma seq_put_in x l y : y ∈ seq_put comp x l <-> y = x \/ y ∈ l.
  Proof.
    induction l as [|z l IH]; cbn; [rewrite elem_of_list_singleton; set_solver|].
    destruct (comp z x); rewrite !elem_of_cons; [rewrite IH|]; tauto.
  Qed.
  Lemma seq_put_sorted x l : sorted comp l -> sorted comp (seq_put comp x l).
  Proof.
    induction l as [|z l IH]; intros H; cbn.
    { apply sorted_cons_intro; [done|]. intros y Hy. by apply elem_of_nil in Hy. }
    pose proof (sorted_cons_inv _ _ H) as [H' Hz]. destruct (comp z x) eqn:E.
    - apply sorted_cons_intro; [by apply IH|]. intros y [->|Hy]%seq_put_in; [|by apply Hz].
      destruct (comp x z) eqn:E'; [|done]. pose proof (swo_trans _ HW _ _ _ E E') as Hc. by rewrite (swo_irrefl _ HW) in Hc.
    - apply sorted_cons_intro; [done|]. intros y [->|Hy]%elem_of_cons; [done|]. specialize (Hz y Hy).
      destruct (comp y x) eqn:Eyx; [|done].
      (* y < x, z not > y ... *)
      destruct (comp z y) eqn:Ezy.
      { pose proof (swo_trans _ HW _ _ _ Ezy Eyx). congruence. }
      destruct (comp x z) eqn:Exz.
      { pose proof (swo_trans _ HW _ _ _ Eyx Exz). congruence. }
      pose proof (swo_incomp_trans _ HW y z x Hz Ezy E Exz). congruence.
  Qed.
  Lemma seq_put_stable x l : stable_rearrangement comp (x :: l) (seq_put comp x l).
  Proof.
    induction l as [|z l [IHp IHf]]; cbn; [by apply stable_refl'|].
    destruct (comp z x) eqn:E; [|by apply stable_refl'].
    split; [rewrite <- IHp; by constructor|]. intros w. cbn. rewrite IHf. cbn.
    destruct (equivb comp w z) eqn:Ez, (equivb comp w x) eqn:Ex; try done. exfalso.
    unfold equivb in *. destruct (comp w z) eqn:E1, (comp z w) eqn:E2, (comp w x) eqn:E3, (comp x w) eqn:E4; try done.
    rewrite (swo_incomp_trans _ HW z w x E2 E1 E3 E4) in E. done.
  Qed.
  Lemma seq_sort_ok l : sorted comp (seq_sort comp l) /\ stable_rearrangement comp l (seq_sort comp l).
  Proof.
    induction l as [|x l [IH1 IH2]]; cbn.
    { split; [|by apply stable_refl']. intros i j a b _ Hi. by rewrite lookup_nil in Hi. }
    split; [by apply seq_put_sorted|]. eapply stable_trans; [|by apply seq_put_stable].
    apply (stable_app _ [x] [x]); [apply stable_refl'|done].
  Qed.
  Lemma stable_sym l l' : stable_rearrangement comp l l' -> stable_rearrangement comp l' l.
  Proof. intros [H1 H2]. split; [done|]. intros x. by rewrite H2. Qed.
  Lemma seq_sort_unique l l' : sorted comp l' -> stable_rearrangement comp l l' -> l' = seq_sort comp l.
  Proof.
    intros H1 H2. destruct (seq_sort_ok l) as [H3 H4]. apply stable_sort_unique; [done..|].
    eapply stable_trans; [by apply stable_sym|done].
  Qed.
  Lemma seq_merge_sort l1 l2 : sorted comp l1 -> sorted comp l2 -> seq_merge comp l1 l2 = seq_sort comp (l1 ++ l2).
  Proof. intros H1 H2. apply seq_sort_unique; [by apply mrg_sorted|by apply mrg_stable]. Qed.
End sort.
