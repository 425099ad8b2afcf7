(** PropertiesRobust.v — what the algorithms guarantee when the comparison function is not a strict weak order, or
    the ranges are not heaps or not sorted (C95-C97).  [Ok] says the call terminates and touches nothing outside the
    memory it was given; [permutes m m' f l]: the cells [f,l) are rearranged, nothing else changes. *)
From Verif Require Import Base Spec Facts AlgoMod AlgoOrd AlgoOrdProofs AlgoSetProofs AlgoHeap AlgoHeapProofs AlgoHeapAny
  AlgoSort AlgoSortProofs AlgoSortAny PropertiesAlgo.
From stdpp Require Import list.

(** ** C95 heap algorithms, any comparator, any contents *)
Theorem C95_heap_any : forall A (comp : A -> A -> bool) (m : list A) f l, range m f l ->
  (exists m', algo_make_heap_by comp m f l = Ok m' /\ permutes m m' f l) /\
  (exists m', algo_push_heap_by comp m f l = Ok m' /\ permutes m m' f l) /\
  (f < l -> exists m' x, algo_pop_heap_by comp m f l = Ok m' /\ permutes m m' f l /\
     m !! f = Some x /\ m' !! (l - 1) = Some x) /\
  (exists m', algo_sort_heap_by comp m f l = Ok m' /\ permutes m m' f l).
Proof.
  intros A comp m f l H. split; [by apply make_heap_any|]. split; [by apply push_heap_any|].
  split; [by apply pop_heap_any|by apply sort_heap_any].
Qed.
Print Assumptions C95_heap_any.
Theorem C95_partial_sort_any : forall A (comp : A -> A -> bool) (m : list A) f mid l, range m f l -> f <= mid <= l ->
  exists m', algo_partial_sort_by comp m f mid l = Ok m' /\ permutes m m' f l.
Proof. intros A. exact partial_sort_any. Qed.
Print Assumptions C95_partial_sort_any.
Example C95_example : range ex_mem 0 8 /\ algo_make_heap_by (fun _ _ => true) ex_mem 0 8 = Ok [2;5;4;6;1;9;5;1;0;0;0;0;0;0;0;0].
Proof. split; [exact (proj1 ex_range)|vm_compute; reflexivity]. Qed.

(** ** C96 sort with any comparator.  Refuted above 512 elements: with a comparator that always answers "less" it
    runs past the end of the memory, whatever the elements *)
Theorem C96_sort_any_refuted : forall A (m : list A), 512 < length m ->
  algo_sort_by (fun _ _ => true) m 0 (length m) = UB.
Proof.
  intros A m Hm. unfold algo_sort_by. rewrite (proj2 (Nat.eqb_neq _ _)) by lia. rewrite Nat.sub_0_r.
  assert (exists d, lg (length m) * 2 = S d) as (d&->).
  { assert (forall fuel n k, k <= lg_loop fuel n k) as Hmono.
    { induction fuel as [|fuel IH]; intros n k; cbn [lg_loop]; [lia|]. destruct (1 <? n); [|lia]. specialize (IH (n / 2) (S k)). lia. }
    assert (1 <= lg (length m)) as Hl.
    { unfold lg. destruct (length m) as [|n] eqn:E; [lia|]. cbn [lg_loop]. rewrite (proj2 (Nat.ltb_lt 1 (S n))) by lia. apply Hmono. }
    exists (lg (length m) * 2 - 1). lia. }
  cbn [introspective_sort]. rewrite (proj2 (Nat.ltb_lt threshold (length m - 0))) by (unfold threshold; lia).
  destruct (rd_lt m 0) as (x&_&->); [lia|]. cbn [rbind].
  destruct (rd_lt m (0 + (length m - 0) / 2)) as (y&_&->); [pose proof (Nat.div_mod (length m - 0) 2); lia|]. cbn [rbind].
  destruct (rd_lt m (length m - 1)) as (z&_&->); [lia|]. cbn [rbind partition_by].
  rewrite scan_up_all by (done || lia). done.
Qed.
Print Assumptions C96_sort_any_refuted.
Example C96_refuted_example : 512 < length (replicate 513 7).
Proof. rewrite replicate_length. lia. Qed.
(** Missing: ranges of more than 512 elements (refuted). *)
Theorem C96_sort_any_partial : forall A (comp : A -> A -> bool) (m : list A) f l, range m f l -> l - f <= 512 ->
  exists m', algo_sort_by comp m f l = Ok m' /\ permutes m m' f l.
Proof. intros A. exact sort_small_any. Qed.
Print Assumptions C96_sort_any_partial.
Example C96_example : range ex_mem 0 8 /\ algo_sort_by (fun _ _ => true) ex_mem 0 8 = Ok [6;2;9;5;1;4;1;5;0;0;0;0;0;0;0;0].
Proof. split; [exact (proj1 ex_range)|vm_compute; reflexivity]. Qed.

(** ** C97 merge and the set operations, any comparator, sorted or not.  [interleaves l1 l2 out]: [out] is made of the
    elements of [l1] and [l2], those of each in their order *)
Inductive interleaves {A} : list A -> list A -> list A -> Prop :=
| il_nil : interleaves [] [] []
| il_left x l1 l2 out : interleaves l1 l2 out -> interleaves (x :: l1) l2 (x :: out)
| il_right y l1 l2 out : interleaves l1 l2 out -> interleaves l1 (y :: l2) (y :: out).
Lemma interleaves_l {A} (l : list A) : interleaves l [] l.
Proof. induction l; by constructor. Qed.
Lemma interleaves_r {A} (l : list A) : interleaves [] l l.
Proof. induction l; by constructor. Qed.

Theorem C97_merge_any : forall A (comp : A -> A -> bool) (m : list A) f1 l1 f2 l2, range m f1 l1 -> range m f2 l2 ->
  exists out, writes (algo_merge_by comp) m f1 l1 f2 l2 out /\ interleaves (slice m f1 l1) (slice m f2 l2) out.
Proof.
  intros A comp m f1 l1 f2 l2 R1 R2. eexists. split.
  { intros d Hd A1 A2. exact (zip_then_copy_ok _ true true m f1 l1 f2 l2 d R1 R2 Hd A1 A2). }
  generalize (slice m f1 l1) (slice m f2 l2). apply zip_ind2.
  - intros s. rewrite zip_nil_l. apply interleaves_r.
  - intros x s. rewrite zip_nil_r. apply interleaves_l.
  - intros x s y t H1 H2 H3. rewrite zip_cons. unfold merge_step. destruct (comp x y); by constructor.
Qed.
Print Assumptions C97_merge_any.
(** [out ⊆+ l]: every element occurs in [out] at most as often as in [l] *)
Theorem C97_set_ops_any : forall A (comp : A -> A -> bool) (m : list A) f1 l1 f2 l2, range m f1 l1 -> range m f2 l2 ->
  (exists out, writes (algo_set_union_by comp) m f1 l1 f2 l2 out /\ out ⊆+ slice m f1 l1 ++ slice m f2 l2) /\
  (exists out, writes (algo_set_symmetric_difference_by comp) m f1 l1 f2 l2 out /\ out ⊆+ slice m f1 l1 ++ slice m f2 l2) /\
  (exists out, writes (algo_set_intersection_by comp) m f1 l1 f2 l2 out /\ out `sublist_of` slice m f1 l1) /\
  (exists out, writes (algo_set_difference_by comp) m f1 l1 f2 l2 out /\ out `sublist_of` slice m f1 l1).
Proof.
  intros A comp m f1 l1 f2 l2 R1 R2. split; [|split; [|split]]; eexists; (split; [intros d Hd A1 A2; by apply zip_then_copy_ok|]).
  - apply zip_submseteq.
  - apply zip_submseteq.
  - apply zip_sublist_first. intros x y. unfold intersection_step. repeat case_match; done.
  - apply zip_sublist_first. intros x y. unfold difference_step. repeat case_match; done.
Qed.
Print Assumptions C97_set_ops_any.
Theorem C97_includes_any : forall A (comp : A -> A -> bool) (m : list A) f1 l1 f2 l2, range m f1 l1 -> range m f2 l2 ->
  exists b, algo_includes_by comp m f1 l1 f2 l2 = Ok b.
Proof.
  intros A comp m f1 l1 f2 l2 [R1 R1'] [R2 R2']. unfold algo_includes_by. destruct (f2 =? l2); [by eexists|].
  destruct (includes_loop_ok comp m l1 l2 R1' R2' (S (length m)) f1 f2) as (j&->&_); [lia|lia|lia|]. by eexists.
Qed.
Print Assumptions C97_includes_any.
Example C97_example : algo_merge_by Nat.ltb [3;1;2;2;0;0;0;0;0;0] 0 2 2 4 4 = Ok ([3;1;2;2;2;2;3;1;0;0], 8, 4) /\
  range [3;1;2;2;0;0;0;0;0;0] 0 2 /\ range [3;1;2;2;0;0;0;0;0;0] 2 4.
Proof. split; [vm_compute; reflexivity|]. split; split; cbn; lia. Qed.
