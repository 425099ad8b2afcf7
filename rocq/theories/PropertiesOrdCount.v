(** PropertiesOrdCount.v — how many comparisons binary searches, set operations, minima and maxima, lexicographical
    comparison and the sortedness checks make (C152).  The functions with suffix [_n] (OrdCount.v) are those of the model
    (AlgoOrd.v, AlgoSort.v) that also return how often they called the comparator. *)
From Verif Require Import Base Spec AlgoNonMod AlgoMod AlgoOrd AlgoSort AlgoCost DListCount HeapCount IntroCount OrdCount.
From stdpp Require Import list.

(** ** C152: forgetting the counts, the counting functions are those of the model, for any comparator and in any memory *)
Theorem C152_counting_is_model : forall A (comp : A -> A -> bool) (m : list A) f l f2 l2 d v,
  let drop B (r : res (B * nat)) := match r with Ok (x, _) => Ok x | UB => UB | NoFuel => NoFuel end in
  drop _ (algo_lower_bound_by_n comp m f l v) = algo_lower_bound_by comp m f l v /\
  drop _ (algo_upper_bound_by_n comp m f l v) = algo_upper_bound_by comp m f l v /\
  drop _ (algo_binary_search_by_n comp m f l v) = algo_binary_search_by comp m f l v /\
  drop _ (algo_equal_range_by_n comp m f l v) = algo_equal_range_by comp m f l v /\
  drop _ (algo_merge_by_n comp m f l f2 l2 d) = algo_merge_by comp m f l f2 l2 d /\
  drop _ (algo_includes_by_n comp m f l f2 l2) = algo_includes_by comp m f l f2 l2 /\
  drop _ (algo_set_difference_by_n comp m f l f2 l2 d) = algo_set_difference_by comp m f l f2 l2 d /\
  drop _ (algo_set_intersection_by_n comp m f l f2 l2 d) = algo_set_intersection_by comp m f l f2 l2 d /\
  drop _ (algo_set_symmetric_difference_by_n comp m f l f2 l2 d) = algo_set_symmetric_difference_by comp m f l f2 l2 d /\
  drop _ (algo_set_union_by_n comp m f l f2 l2 d) = algo_set_union_by comp m f l f2 l2 d /\
  drop _ (algo_max_element_by_n comp m f l) = algo_max_element_by comp m f l /\
  drop _ (algo_min_element_by_n comp m f l) = algo_min_element_by comp m f l /\
  drop _ (algo_minmax_element_by_n comp m f l) = algo_minmax_element_by comp m f l /\
  drop _ (algo_lexicographical_compare_by_n comp m f l f2 l2) = algo_lexicographical_compare_by comp m f l f2 l2 /\
  drop _ (algo_is_sorted_until_by_n comp m f l) = algo_is_sorted_until_by comp m f l /\
  drop _ (algo_is_sorted_by_n comp m f l) = algo_is_sorted_by comp m f l.
Proof.
  intros A comp m f l f2 l2 d v. cbv zeta.
  split; [exact (erase_alower comp m f l v)|]. split; [exact (erase_aupper comp m f l v)|]. split; [exact (erase_abinary comp m f l v)|].
  split; [exact (erase_aequal comp m f l v)|]. split; [change (erase (algo_merge_by_n comp m f l f2 l2 d) = algo_merge_by comp m f l f2 l2 d); apply erase_zip, step_merge|].
  split; [exact (erase_includes comp m f l f2 l2)|]. split; [change (erase (algo_set_difference_by_n comp m f l f2 l2 d) = algo_set_difference_by comp m f l f2 l2 d); apply erase_zip, step_difference|].
  split; [change (erase (algo_set_intersection_by_n comp m f l f2 l2 d) = algo_set_intersection_by comp m f l f2 l2 d); apply erase_zip, step_intersection|].
  split; [change (erase (algo_set_symmetric_difference_by_n comp m f l f2 l2 d) = algo_set_symmetric_difference_by comp m f l f2 l2 d); apply erase_zip, step_symdiff|].
  split; [change (erase (algo_set_union_by_n comp m f l f2 l2 d) = algo_set_union_by comp m f l f2 l2 d); apply erase_zip, step_union|].
  split; [exact (erase_max comp m f l)|]. split; [exact (erase_min comp m f l)|]. split; [exact (erase_minmax_loop comp m l _ _ _ _)|].
  split; [exact (erase_lex comp m f l f2 l2)|]. split; [exact (erase_sorted_until comp m f l)|exact (erase_is_sorted comp m f l)].
Qed.
Print Assumptions C152_counting_is_model.

(** the number of probes of a binary search among [n] elements: the number of binary digits of [n] *)
Lemma probes_spec n : n < 2 ^ probes n /\ (0 < n -> 2 ^ (probes n - 1) <= n).
Proof.
  unfold probes. destruct (Nat.eqb_spec n 0) as [->|Hn]; [cbn; lia|]. cbn [Nat.sub]. rewrite Nat.sub_0_r. pose proof (Nat.log2_spec n ltac:(lia)). lia.
Qed.
(** binary search in [n] elements: log2 n + 1 comparisons (none for n = 0), one more to compare with the element found *)
Theorem C152_binary_search : forall A (comp : A -> A -> bool) (m : list A) f l v,
  (forall r c, algo_lower_bound_by_n comp m f l v = Ok (r, c) -> c <= probes (l - f)) /\
  (forall r c, algo_upper_bound_by_n comp m f l v = Ok (r, c) -> c <= probes (l - f)) /\
  (forall r c, algo_binary_search_by_n comp m f l v = Ok (r, c) -> c <= probes (l - f) + 1) /\
  (forall r c, algo_equal_range_by_n comp m f l v = Ok (r, c) -> c <= 2 * probes (l - f)).
Proof.
  intros A comp m f l v.
  assert (forall r c, algo_lower_bound_by_n comp m f l v = Ok (r, c) -> c <= probes (l - f)) as HL by (intros r c; apply (bsearch_n_bound comp)).
  assert (forall r c, algo_upper_bound_by_n comp m f l v = Ok (r, c) -> c <= probes (l - f)) as HU by (intros r c; apply (bsearch_n_bound comp)).
  split; [done|]. split; [done|]. split.
  - intros r c E. unfold algo_binary_search_by_n in E. apply rbind_Ok in E as ([i n]&E1&E). apply HL in E1.
    destruct (i =? l); [injection E as <- <-; lia|]. apply rbind_Ok in E as (?&_&[= <- <-]). lia.
  - intros r c E. unfold algo_equal_range_by_n in E. apply rbind_Ok in E as ([i n]&E1&E). apply HL in E1.
    apply rbind_Ok in E as ([j k]&E2&[= <- <-]). apply HU in E2. lia.
Qed.
Print Assumptions C152_binary_search.
(** merging and set operations of n1 and n2 elements: n1 + n2 - 1 rounds with one comparison (merge, difference) or at
    most two *)
Theorem C152_set_operations : forall A (comp : A -> A -> bool) (m : list A) f1 l1 f2 l2 d, f1 <= l1 -> f2 <= l2 ->
  let n := l1 - f1 + (l2 - f2) in
  (forall r c, algo_merge_by_n comp m f1 l1 f2 l2 d = Ok (r, c) -> c <= n - 1) /\
  (forall r c, algo_set_difference_by_n comp m f1 l1 f2 l2 d = Ok (r, c) -> c <= n - 1) /\
  (forall r c, algo_set_intersection_by_n comp m f1 l1 f2 l2 d = Ok (r, c) -> c <= 2 * (n - 1)) /\
  (forall r c, algo_set_symmetric_difference_by_n comp m f1 l1 f2 l2 d = Ok (r, c) -> c <= 2 * (n - 1)) /\
  (forall r c, algo_set_union_by_n comp m f1 l1 f2 l2 d = Ok (r, c) -> c <= 2 * (n - 1)) /\
  (forall r c, algo_includes_by_n comp m f1 l1 f2 l2 = Ok (r, c) -> c <= 2 * (l1 - f1)).
Proof.
  intros A comp m f1 l1 f2 l2 d H1 H2. cbv zeta.
  split. { intros r c E. apply (zip_copy_n_bound comp _ 1) in E; [lia| |done..]. intros x y. unfold merge_step_n. destruct (comp x y); cbn; lia. }
  split. { intros r c E. apply (zip_copy_n_bound comp _ 1) in E; [lia| |done..]. intros x y. unfold difference_step_n. destruct (comp x y); cbn; lia. }
  split. { intros r c E. apply (zip_copy_n_bound comp _ 2) in E; [lia| |done..]. intros x y. unfold intersection_step_n. destruct (comp x y), (comp y x); cbn; lia. }
  split. { intros r c E. apply (zip_copy_n_bound comp _ 2) in E; [lia| |done..]. intros x y. unfold symdiff_step_n. destruct (comp x y), (comp y x); cbn; lia. }
  split. { intros r c E. apply (zip_copy_n_bound comp _ 2) in E; [lia| |done..]. intros x y. unfold union_step_n. destruct (comp x y), (comp y x); cbn; lia. }
  intros r c E. unfold algo_includes_by_n in E. destruct (f2 =? l2); [injection E as <- <-; lia|].
  apply rbind_Ok in E as ([i n]&E&[= <- <-]). by apply includes_n_bound in E.
Qed.
Print Assumptions C152_set_operations.
(** extreme elements, lexicographical comparison and sortedness: linear *)
Theorem C152_linear : forall A (comp : A -> A -> bool) (m : list A) f l f2 l2, f <= l -> f2 <= l2 ->
  (forall r c, algo_max_element_by_n comp m f l = Ok (r, c) -> c <= l - f - 1) /\
  (forall r c, algo_min_element_by_n comp m f l = Ok (r, c) -> c <= l - f - 1) /\
  (forall r c, algo_minmax_element_by_n comp m f l = Ok (r, c) -> c <= 2 * (l - f - 1)) /\
  (forall r c, algo_lexicographical_compare_by_n comp m f l f2 l2 = Ok (r, c) -> c <= 2 * Nat.min (l - f) (l2 - f2)) /\
  (forall r c, algo_is_sorted_until_by_n comp m f l = Ok (r, c) -> c <= l - f - 1) /\
  (forall r c, algo_is_sorted_by_n comp m f l = Ok (r, c) -> c <= l - f - 1).
Proof.
  intros A comp m f l f2 l2 H H2.
  assert (forall r c, algo_is_sorted_until_by_n comp m f l = Ok (r, c) -> c <= l - f - 1) as HS.
  { intros r c E. unfold algo_is_sorted_until_by_n in E. destruct (Nat.eqb_spec f l); [injection E as <- <-; lia|].
    apply rbind_Ok in E as ([? ?]&E&[= <- <-]). apply sorted_until_n_bound in E; lia. }
  split; [intros r c; by apply max_n_bound|]. split; [intros r c; by apply min_n_bound|]. split; [intros r c; by apply minmax_n_bound|].
  split. { intros r c E. unfold algo_lexicographical_compare_by_n in E. apply rbind_Ok in E as ([[[? ?] ?] ?]&E&[= <- <-]). by apply lex_n_bound in E. }
  split; [done|]. intros r c E. unfold algo_is_sorted_by_n in E. apply rbind_Ok in E as ([? ?]&E&[= <- <-]). by apply HS in E.
Qed.
Print Assumptions C152_linear.

(** all of them return on concrete ranges; cells 0-4 and 5-7 are sorted, cells 8-15 are room for the output *)
Definition ex_ord : list nat := [1; 3; 5; 7; 9; 3; 4; 9] ++ repeat 0 8.
Example C152_example :
  (do (_, a) <- algo_lower_bound_by_n Nat.ltb ex_ord 0 5 4; do (_, b) <- algo_binary_search_by_n Nat.ltb ex_ord 0 5 9;
   do (_, c) <- algo_merge_by_n Nat.ltb ex_ord 0 5 5 8 8; do (_, d) <- algo_set_union_by_n Nat.ltb ex_ord 0 5 5 8 8;
   do (_, e) <- algo_set_difference_by_n Nat.ltb ex_ord 0 5 5 8 8; do (_, g) <- algo_includes_by_n Nat.ltb ex_ord 0 5 5 8;
   do (_, i) <- algo_minmax_element_by_n Nat.ltb ex_ord 0 5; do (_, j) <- algo_lexicographical_compare_by_n Nat.ltb ex_ord 0 5 0 5;
   do (_, k) <- algo_is_sorted_by_n Nat.ltb ex_ord 0 5; Ok [a; b; c; d; e; g; i; j; k])
  = Ok [2; 4; 7; 9; 5; 5; 8; 10; 4].
Proof. vm_compute. reflexivity. Qed.
