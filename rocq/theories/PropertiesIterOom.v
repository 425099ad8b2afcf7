(** PropertiesIterOom.v — C133: the algorithms when there is no memory for their copies of the caller's iterators. *)
From stdpp Require Import list gmap.
From Verif Require Import Base DListOom Iter IterNonMod IterMod IterOrd IterHeap IterSort IterOom IterOomProofs.
From Verif Require Import Vector Deque VectorProofs DequeProofs IterWorld SpecIter PropertiesIter.
#[local] Instance checked_pointers : Checked := true.
From stdpp Require Import list.

(** The call [p], made with memory [M] and the caller's iterators [S], does not return normally when its first malloc
    fails, whatever the later ones do: it reads through a null pointer, aborts or runs forever. *)
Definition dies {A} (W : world A) {R} (p : prog A R) (M : w_mem W) (S : gmap iid (w_pos W)) : Prop :=
  forall r x st', ~ exec_m W p (false :: r) (M, present W S) x st'.

(** ** C133: every algorithm dies when its first allocation fails.
    The functions that return early on an empty range (before allocating) need a range that is not empty ([apart]; for heaps
    two elements, [room]), and those with a counter a counter that is not zero. *)
Theorem C133_non_modifying_refuted : forall A (W : world A) (M : w_mem W) (S : gmap iid (w_pos W)) first last f2 l2 o o2 n v pred pred2
    (eqf : A -> A -> bool) St (op : St -> A -> St * option A) (st : St),
  dies W (all_of_p first last pred) M S /\ dies W (any_of_p first last pred) M S /\ dies W (none_of_p first last pred) M S /\
  dies W (for_each_p first last op st) M S /\ (n <> 0 -> dies W (for_each_n_p first n o op st) M S) /\
  dies W (count_p eqf first last v) M S /\ dies W (count_if_p first last pred) M S /\
  dies W (mismatch_by_p first last f2 o o2 pred2) M S /\ dies W (equal_by_p first last f2 pred2) M S /\
  dies W (find_by_p first last o v pred2) M S /\ dies W (find_if_p first last o pred) M S /\ dies W (find_if_not_p first last o pred) M S /\
  dies W (find_first_of_by_p first last f2 l2 o pred2) M S /\ dies W (find_last_of_by_p first last f2 l2 o pred2) M S /\
  (apart W S first last -> dies W (adjacent_find_by_p first last o pred2) M S) /\
  dies W (search_by_p first last f2 l2 o pred2) M S /\ dies W (search_last_by_p first last f2 l2 o pred2) M S /\
  (n <> 0 -> dies W (search_n_by_p first last n v o pred2) M S) /\ (n <> 0 -> dies W (search_last_n_by_p first last n v o pred2) M S).
Proof.
  intros. split_and!.
  - apply f_all_of.
  - apply f_any_of.
  - apply f_none_of.
  - apply f_for_each.
  - intros Hn. by apply f_for_each_n.
  - apply f_count.
  - apply f_count_if.
  - apply f_mismatch.
  - apply f_equal_by.
  - apply f_find.
  - apply f_find_if.
  - apply f_find_if_not.
  - apply f_find_first_of.
  - apply f_find_last_of.
  - apply f_adjacent_find.
  - apply f_search.
  - apply f_search_last.
  - intros Hn. by apply f_search_n.
  - intros Hn. by apply f_search_last_n.
Qed.
Theorem C133_modifying_refuted : forall A (W : world A) (M : w_mem W) (S : gmap iid (w_pos W)) first last d_first n_first o n (v w : A) pred pred2
    (eqf : A -> A -> bool) op St (gen : St -> St * A) (st : St) (rnd : nat -> nat),
  dies W (copy_p first last d_first o) M S /\ dies W (copy_if_p first last d_first o pred) M S /\
  dies W (remove_copy_p eqf first last d_first v o) M S /\ dies W (remove_copy_if_p first last d_first o pred) M S /\
  dies W (replace_copy_p eqf first last d_first v w o) M S /\ dies W (replace_copy_if_p first last d_first pred w o) M S /\
  dies W (transform_p first last d_first op) M S /\ dies W (copy_backward_p first last d_first o) M S /\
  dies W (reverse_copy_p first last d_first o) M S /\ dies W (rotate_copy_p first n_first last d_first o) M S /\
  (apart W S first last -> o <> None -> dies W (unique_copy_by_p first last d_first o pred2) M S) /\
  dies W (fill_p first last v) M S /\ (n <> 0 -> dies W (fill_n_p first n v o) M S) /\
  dies W (generate_p first last gen st) M S /\ (n <> 0 -> dies W (generate_n_p first n gen o st) M S) /\
  dies W (remove_p eqf first last v o) M S /\ dies W (remove_if_p first last o pred) M S /\
  dies W (replace_p eqf first last v w) M S /\ dies W (replace_if_p first last pred w) M S /\
  (apart W S first last -> dies W (unique_by_p first last o pred2) M S) /\ dies W (swap_range_p first last d_first) M S /\
  dies W (reverse_p first last) M S /\
  (apart W S first n_first -> apart W S n_first last -> dies W (rotate_p first n_first last o) M S) /\
  dies W (random_shuffle_by_p first last rnd) M S.
Proof.
  intros. split_and!.
  - apply f_copy.
  - apply f_copy_if.
  - apply f_remove_copy.
  - apply f_remove_copy_if.
  - apply f_replace_copy.
  - apply f_replace_copy_if.
  - apply f_transform.
  - apply f_copy_backward.
  - apply f_reverse_copy.
  - apply f_rotate_copy.
  - apply f_unique_copy.
  - apply f_fill.
  - intros Hn. by apply f_fill_n.
  - apply f_generate.
  - intros Hn. by apply f_generate_n.
  - apply f_remove.
  - apply f_remove_if.
  - apply f_replace.
  - apply f_replace_if.
  - apply f_unique.
  - apply f_swap_range.
  - apply f_reverse.
  - apply f_rotate.
  - apply f_random_shuffle.
Qed.
Theorem C133_ordering_refuted : forall A (W : world A) (M : w_mem W) (S : gmap iid (w_pos W)) (comp : A -> A -> bool) first last f2 l2 d d2 o o2 (v : A) pred,
  (apart W S first last -> dies W (is_partitioned_p first last pred) M S) /\ dies W (partition_p first last o pred) M S /\
  dies W (partition_copy_p first last d d2 o o2 pred) M S /\ dies W (partition_point_p first last o pred) M S /\
  dies W (lower_bound_by_p comp first last v o) M S /\ dies W (upper_bound_by_p comp first last v o) M S /\
  dies W (binary_search_by_p comp first last v) M S /\
  (o <> None -> o2 <> None -> dies W (equal_range_by_p comp first last v o o2) M S) /\
  dies W (max_element_by_p comp first last o) M S /\ dies W (min_element_by_p comp first last o) M S /\
  (o <> None -> o2 <> None -> dies W (minmax_element_by_p comp first last o o2) M S) /\
  dies W (lexicographical_compare_by_p comp first last f2 l2) M S /\
  dies W (merge_by_p comp first last f2 l2 d o) M S /\ dies W (set_difference_by_p comp first last f2 l2 d o) M S /\
  dies W (set_intersection_by_p comp first last f2 l2 d o) M S /\ dies W (set_symmetric_difference_by_p comp first last f2 l2 d o) M S /\
  dies W (set_union_by_p comp first last f2 l2 d o) M S /\
  (apart W S f2 l2 -> dies W (includes_by_p comp first last f2 l2) M S) /\
  (apart W S first last -> dies W (is_sorted_until_by_p comp first last o) M S) /\ dies W (is_sorted_by_p comp first last) M S.
Proof.
  intros. split_and!.
  - apply f_is_partitioned.
  - apply f_partition.
  - apply f_partition_copy.
  - apply f_partition_point.
  - apply f_lower_bound.
  - apply f_upper_bound.
  - apply f_binary_search.
  - apply f_equal_range.
  - apply f_max_element.
  - apply f_min_element.
  - apply f_minmax_element.
  - apply f_lexicographical.
  - apply f_merge.
  - apply f_difference.
  - apply f_intersection.
  - apply f_symdiff.
  - apply f_union.
  - apply f_includes.
  - apply f_is_sorted_until.
  - apply f_is_sorted.
Qed.
Theorem C133_heap_sort_refuted : forall A (W : world A) (M : w_mem W) (S : gmap iid (w_pos W)) (comp : A -> A -> bool) first middle last d_first d_last o,
  (room W M S first last 2 -> dies W (make_heap_by_p comp first last) M S /\ dies W (push_heap_by_p comp first last) M S /\
    dies W (pop_heap_by_p comp first last) M S /\ dies W (sort_heap_by_p comp first last) M S) /\
  (o <> None -> dies W (is_heap_until_by_p comp first last o) M S) /\ dies W (is_heap_by_p comp first last) M S /\
  (apart W S first last -> dies W (sort_by_p comp first last) M S) /\
  (apart W S first middle -> dies W (partial_sort_by_p comp first middle last) M S) /\
  (apart W S first last -> apart W S d_first d_last -> dies W (partial_sort_copy_by_p comp first last d_first d_last o) M S).
Proof.
  intros. split_and!.
  - intros Hr. split_and!; [by apply f_make_heap|by apply f_push_heap|by apply f_pop_heap|by apply f_sort_heap].
  - apply f_is_heap_until.
  - apply f_is_heap.
  - apply f_sort.
  - apply f_partial_sort.
  - apply f_partial_sort_copy.
Qed.

(** ** what remains true: with enough memory the calls behave as in the other theorems about iterator programs *)
Theorem C133_enough_memory_partial : forall A (W : world A) R (p : prog A R) M S r x M' S', Forall (eq true) r ->
  exec W p (M, S) x (M', S') <-> exec_m W p r (M, present W S) x (M', present W S').
Proof.
  intros A W R p M S r x M' S' Hr. split.
  - intros [fuel H]. pose proof (run_m_run W p fuel r M S Hr) as HL. rewrite H in HL. destruct HL as (r'&_&HL). by exists fuel, r'.
  - intros (fuel & r' & H). pose proof (run_m_run W p fuel r M S Hr) as HL. exists fuel.
    destruct (run W fuel p (M, S)) as [[y [m1 s1]]| |]; cbn in HL.
    + destruct HL as (r1&_&HL). rewrite HL in H. injection H as -> -> -> Hs.
      assert (s1 = S') as ->; [|done].
      apply map_eq. intros i. apply (f_equal (fun s => s !! i)) in Hs. unfold present in Hs. rewrite !lookup_fmap in Hs.
      destruct (s1 !! i), (S' !! i); naive_solver.
    + by rewrite HL in H.
    + by rewrite HL in H.
Qed.

(** ** the hypotheses are met; later failures.  The vector holds 6, 20, 30; iterators 3 and 4 delimit its middle element.
    Is every element of the range below 25?  When the copy of [last] cannot be made, the call reads on behind the range and
    answers "no" although the answer is "yes". *)
Definition ex_S_mid : gmap iid cpos := <[it4 := PBlk false false 0 2%Z]> ex_S.
Definition verdict {R} (x : res (R * list bool * mstate (cworld nat))) : option R :=
  match x with Ok (r, _, _) => Some r | _ => None end.
Theorem C133_wrong_answer_refuted :
  shown ex_M ex_vec /\ range_in ex_S_mid ex_vec it3 it4 1 2 /\
  verdict (run_m (cworld nat) 9 (all_of_p it3 it4 (fun x => x <? 25)) [true; true] (ex_M, present (cworld nat) ex_S_mid)) = Some true /\
  verdict (run_m (cworld nat) 9 (all_of_p it3 it4 (fun x => x <? 25)) [true; false] (ex_M, present (cworld nat) ex_S_mid)) = Some false.
Proof.
  split_and!; [apply ex_vec_ok| |vm_compute; reflexivity..].
  split_and!; [here|here|lia].
Qed.
(** a failed allocation of the result only leaves the variable null: found, but the caller is not told where *)
Example C133_out_example :
  match run_m (cworld nat) 9 (find_if_p it1 it2 (Some None) (fun x => x =? 20)) [true; true; false] (ex_M, present (cworld nat) ex_S) with
  | Ok ((b, Some i), _, (_, S')) => (b, S' !! i) = (true, Some None)
  | _ => False
  end.
Proof. vm_compute. reflexivity. Qed.
Example C133_example : apart (cworld nat) ex_S it3 it4 /\ room (cworld nat) ex_M ex_S it3 it4 2 /\
  verdict (run_m (cworld nat) 9 (sort_by_p Nat.ltb it3 it4) [true] (ex_M, present (cworld nat) ex_S)) = Some tt /\
  verdict (run_m (cworld nat) 9 (sort_by_p Nat.ltb it3 it4) [false] (ex_M, present (cworld nat) ex_S)) = None.
Proof.
  split_and!; [| |vm_compute; reflexivity..].
  - intros p q [= <-] [= <-]. vm_compute. done.
  - intros p q d [= <-] [= <-]. vm_compute. intros [= <-]. done.
Qed.
