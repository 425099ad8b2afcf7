(** SortLen.v — the heap and sorting functions do not change the length of the memory they work on. *)
From Verif Require Import Base Spec Facts AlgoNonMod AlgoMod AlgoModProofs AlgoHeap AlgoSort IterLocals.
From stdpp Require Import list.

(** take the equation [H : e = Ok _] apart *)
Ltac ok_step H :=
  lazymatch type of H with
  | NoFuel = Ok _ => discriminate H
  | UB = Ok _ => discriminate H
  | Ok _ = Ok _ => injection H; clear H; intros; subst
  | rbind _ _ = Ok _ => let x := fresh "x" in let H1 := fresh "H1" in apply rbind_Ok in H as (x&H1&H)
  | (if ?b then _ else _) = Ok _ => destruct b eqn:?
  | match ?e with 0 => _ | S _ => _ end = Ok _ => destruct e eqn:?
  end.
Ltac ok_all H := repeat ok_step H.
Ltac fwd :=
  repeat match goal with
  | H : swp ?a _ _ = Ok ?c |- _ => apply swp_length in H
  | H : wr ?a _ _ = Ok ?c |- _ => apply wr_length in H
  end.

Section len.
  Context {A : Type} (comp : A -> A -> bool).
  Implicit Types m : list A.
  Lemma percolate_down_length fuel : forall m first len hole m', percolate_down comp fuel m first len hole = Ok m' -> length m' = length m.
  Proof.
    induction fuel as [|fuel IH]; intros m first len hole m' H; cbn [percolate_down] in H; [done|].
    apply rbind_Ok in H as (a&_&(c&_&H)%rbind_Ok). ok_all H; [|done]. apply IH in H. fwd. congruence.
  Qed.
  Lemma heapify_loop_length k : forall m first len m', heapify_loop comp m first len k = Ok m' -> length m' = length m.
  Proof.
    induction k as [|k IH]; intros m first len m' H; cbn [heapify_loop] in H; [by injection H as <-|].
    apply rbind_Ok in H as (a&Ha&H). apply percolate_down_length in Ha. apply IH in H. congruence.
  Qed.
  Lemma make_heap_length m f l m' : algo_make_heap_by comp m f l = Ok m' -> length m' = length m.
  Proof. unfold algo_make_heap_by. intros H. ok_all H; [done|]. by eapply heapify_loop_length. Qed.
  Lemma push_heap_loop_length fuel : forall m first hole v m' h', push_heap_loop comp fuel m first hole v = Ok (m', h') -> length m' = length m.
  Proof.
    induction fuel as [|fuel IH]; intros m first hole v m' h' H; cbn [push_heap_loop] in H; [done|]. ok_all H; [|done..].
    apply IH in H. fwd. congruence.
  Qed.
  Lemma push_heap_length m f l m' : algo_push_heap_by comp m f l = Ok m' -> length m' = length m.
  Proof.
    unfold algo_push_heap_by. intros H. ok_step H; [by injection H as <-|]. apply rbind_Ok in H as (v&_&([m1 h1]&H1&H)%rbind_Ok).
    apply push_heap_loop_length in H1. fwd. congruence.
  Qed.
  Lemma pop_heap_loop_length fuel : forall m first li hole m', pop_heap_loop comp fuel m first li hole = Ok m' -> length m' = length m.
  Proof.
    induction fuel as [|fuel IH]; intros m first li hole m' H; cbn [pop_heap_loop] in H; [done|].
    ok_all H; try done; apply IH in H; fwd; congruence.
  Qed.
  Lemma pop_heap_length m f l m' : algo_pop_heap_by comp m f l = Ok m' -> length m' = length m.
  Proof. unfold algo_pop_heap_by. intros H. ok_all H; [done|]. apply pop_heap_loop_length in H. fwd. congruence. Qed.
  Lemma sort_heap_loop_length fuel : forall m f l m', sort_heap_loop comp fuel m f l = Ok m' -> length m' = length m.
  Proof.
    induction fuel as [|fuel IH]; intros m f l m' H; cbn [sort_heap_loop] in H; [done|]. ok_all H; [done|].
    apply IH in H. apply pop_heap_length in H1. congruence.
  Qed.
  Lemma sort_heap_length m f l m' : algo_sort_heap_by comp m f l = Ok m' -> length m' = length m.
  Proof. unfold algo_sort_heap_by. intros H. ok_all H; [done|]. by eapply sort_heap_loop_length. Qed.
  Lemma partial_sort_loop_length fuel : forall m f mid i l m', partial_sort_loop comp fuel m f mid i l = Ok m' -> length m' = length m.
  Proof.
    induction fuel as [|fuel IH]; intros m f mid i l m' H; cbn [partial_sort_loop] in H; [done|].
    ok_step H; [by injection H as <-|]. apply rbind_Ok in H as (x&_&(y&_&H)%rbind_Ok). ok_step H; [|by eapply IH].
    apply rbind_Ok in H as (m1&H1%pop_heap_length&(m2&H2&(m3&H3%push_heap_length&H)%rbind_Ok)%rbind_Ok). apply IH in H. fwd. congruence.
  Qed.
  Lemma partial_sort_length m f mid l m' : algo_partial_sort_by comp m f mid l = Ok m' -> length m' = length m.
  Proof.
    unfold algo_partial_sort_by. intros H. ok_step H; [by injection H as <-|].
    apply rbind_Ok in H as (m1&H1%make_heap_length&(m2&H2%partial_sort_loop_length&H%sort_heap_length)%rbind_Ok). congruence.
  Qed.
  Lemma partition_by_length fuel : forall m f l p m' k, partition_by comp fuel m f l p = Ok (m', k) -> length m' = length m.
  Proof.
    induction fuel as [|fuel IH]; intros m f l p m' k H; cbn [partition_by] in H; [done|].
    apply rbind_Ok in H as (i&_&(j&_&H)%rbind_Ok). ok_all H; [done|]. apply IH in H. fwd. congruence.
  Qed.
  Lemma introspective_length depth : forall m f l m', introspective_sort comp depth m f l = Ok m' -> length m' = length m.
  Proof.
    induction depth as [|depth IH]; intros m f l m' H; cbn [introspective_sort] in H.
    - ok_step H; [by eapply partial_sort_length|by injection H as <-].
    - ok_step H; [|by injection H as <-]. apply rbind_Ok in H as (x&_&(y&_&(z&_&([m1 k]&H1&(m2&H2&H)%rbind_Ok)%rbind_Ok)%rbind_Ok)%rbind_Ok).
      apply partition_by_length in H1. apply IH in H2. apply IH in H. congruence.
  Qed.
  Lemma unguarded_linear_length fuel : forall m l v m', unguarded_linear comp fuel m l v = Ok m' -> length m' = length m.
  Proof.
    induction fuel as [|fuel IH]; intros m l v m' H; cbn [unguarded_linear] in H; [done|]. destruct l as [|next]; [done|].
    apply rbind_Ok in H as (x&_&(y&_&H)%rbind_Ok). ok_step H.
    - apply rbind_Ok in H as (m1&H1&H). apply IH in H. fwd. congruence.
    - by fwd.
  Qed.
  Lemma linear_sort_length m f l m' : f <= l -> linear_sort comp m f l = Ok m' -> length m' = length m.
  Proof.
    intros Hf H. unfold linear_sort in H. apply rbind_Ok in H as (x&Hx%rd_lt&(y&_&H)%rbind_Ok). ok_step H.
    - rewrite copy_backward_ok in H by (try split; lia). cbn [rbind fst] in H. fwd. rewrite patch_length in H; [done|].
      rewrite slice_length by (split; lia). lia.
    - by eapply unguarded_linear_length.
  Qed.
  Lemma insertion_loop_length fuel : forall m f i l m', f <= i -> insertion_loop comp fuel m f i l = Ok m' -> length m' = length m.
  Proof.
    induction fuel as [|fuel IH]; intros m f i l m' Hf H; cbn [insertion_loop] in H; [done|]. ok_step H; [by injection H as <-|].
    apply rbind_Ok in H as (m1&H1%linear_sort_length&H); [|lia]. apply IH in H; [|lia]. congruence.
  Qed.
  Lemma insertion_sort_length m f l m' : insertion_sort comp m f l = Ok m' -> length m' = length m.
  Proof. unfold insertion_sort. intros H. ok_step H; [by injection H as <-|]. eapply insertion_loop_length; [|exact H]. lia. Qed.
End len.
