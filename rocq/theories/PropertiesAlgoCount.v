(** PropertiesAlgoCount.v — how many comparisons the heap algorithms, partial_sort and sort make (C149, C150).
    The functions with suffix [_n] (HeapCount.v, IntroCount.v) are those of AlgoHeap.v and AlgoSort.v that also return
    how often they called the comparator. *)
From Verif Require Import Base Spec Facts AlgoHeap AlgoHeapProofs AlgoHeapAny AlgoSort AlgoSortProofs AlgoSortAny DListCount HeapCount IntroCount.
From stdpp Require Import list.

(** ** C149: the counting functions do what the functions of the model do, for any comparator and in any memory *)
Theorem C149_counting_is_model : forall A (comp : A -> A -> bool) (m : list A) f l d dl,
  (do (r, n) <- algo_make_heap_by_n comp m f l; Ok r) = algo_make_heap_by comp m f l /\
  (do (r, n) <- algo_push_heap_by_n comp m f l; Ok r) = algo_push_heap_by comp m f l /\
  (do (r, n) <- algo_pop_heap_by_n comp m f l; Ok r) = algo_pop_heap_by comp m f l /\
  (do (r, n) <- algo_sort_heap_by_n comp m f l; Ok r) = algo_sort_heap_by comp m f l /\
  (do (r, n) <- algo_partial_sort_by_n comp m f d l; Ok r) = algo_partial_sort_by comp m f d l /\
  (do (r, n) <- algo_partial_sort_copy_by_n comp m f l d dl; Ok r) = algo_partial_sort_copy_by comp m f l d dl.
Proof.
  intros A comp m f l d dl. split; [apply erase_make|]. split; [apply erase_push|]. split; [apply erase_pop|].
  split; [apply erase_sort_heap|]. split; [apply erase_partial_sort|apply erase_psc].
Qed.
Print Assumptions C149_counting_is_model.
(** make_heap is linear, whatever the comparator answers *)
Theorem C149_make_heap : forall A (comp : A -> A -> bool) (m : list A) f l, range m f l ->
  exists m' c, algo_make_heap_by_n comp m f l = Ok (m', c) /\ c <= 2 * (l - f - 1).
Proof.
  intros A comp m f l HR. destruct (make_heap_any comp m f l HR) as (m'&E&_). rewrite <- erase_make in E. apply erase_Ok in E as [c E].
  exists m', c. split; [done|]. by eapply make_heap_count.
Qed.
Print Assumptions C149_make_heap.
Theorem C149_push_heap : forall A (comp : A -> A -> bool) (m : list A) f l, range m f l ->
  exists m' c, algo_push_heap_by_n comp m f l = Ok (m', c) /\ c <= Nat.log2 (l - f).
Proof.
  intros A comp m f l HR. destruct (push_heap_any comp m f l HR) as (m'&E&_). rewrite <- erase_push in E. apply erase_Ok in E as [c E].
  exists m', c. split; [done|]. by eapply push_heap_count.
Qed.
Print Assumptions C149_push_heap.
Theorem C149_pop_heap : forall A (comp : A -> A -> bool) (m : list A) f l, range m f l -> f < l ->
  exists m' c, algo_pop_heap_by_n comp m f l = Ok (m', c) /\ c <= 2 * Nat.log2 (l - f - 1).
Proof.
  intros A comp m f l HR Hl. destruct (pop_heap_any comp m f l HR Hl) as (m'&?&E&_). rewrite <- erase_pop in E. apply erase_Ok in E as [c E].
  exists m', c. split; [done|]. by eapply pop_heap_count.
Qed.
Print Assumptions C149_pop_heap.
Theorem C149_sort_heap : forall A (comp : A -> A -> bool) (m : list A) f l, range m f l ->
  exists m' c, algo_sort_heap_by_n comp m f l = Ok (m', c) /\ c <= 2 * (l - f) * Nat.log2 (l - f).
Proof.
  intros A comp m f l HR. destruct (sort_heap_any comp m f l HR) as (m'&E&_). rewrite <- erase_sort_heap in E. apply erase_Ok in E as [c E].
  exists m', c. split; [done|]. apply sort_heap_count in E. pose proof (Nat.log2_le_mono (l - f - 1) (l - f) ltac:(lia)). nia.
Qed.
Print Assumptions C149_sort_heap.
(** partial_sort of the [k] least of [n] elements: n - k elements are compared with the heap of k elements, each in
    1 + 3 log2 k comparisons at most *)
Theorem C149_partial_sort : forall A (comp : A -> A -> bool) (m : list A) f mid l, range m f l -> f <= mid <= l ->
  let k := mid - f in
  exists m' c, algo_partial_sort_by_n comp m f mid l = Ok (m', c) /\
    c <= 2 * k + (l - mid) * (1 + 3 * Nat.log2 k) + 2 * k * Nat.log2 k.
Proof.
  intros A comp m f mid l HR Hm. cbn zeta. destruct (partial_sort_any comp m f mid l HR Hm) as (m'&E&_).
  rewrite <- erase_partial_sort in E. apply erase_Ok in E as [c E].
  exists m', c. split; [done|]. apply partial_sort_count in E; [|lia]. lia.
Qed.
Print Assumptions C149_partial_sort.
Theorem C149_partial_sort_copy : forall A (comp : A -> A -> bool), StrictWeakOrder comp ->
  forall (m : list A) f l d dl, range m f l -> range m d dl -> apart d dl f l ->
  let k := (l - f) `min` (dl - d) in
  exists r c, algo_partial_sort_copy_by_n comp m f l d dl = Ok (r, c) /\
    c <= 2 * k + (l - f - k) * (1 + 3 * Nat.log2 k) + 2 * k * Nat.log2 k.
Proof.
  intros A comp HW m f l d dl HR HRd Hap. cbn zeta. destruct (partial_sort_copy_ok comp HW m f l d dl HR HRd Hap) as (o&rest&E&Hlen&_).
  rewrite <- erase_psc in E. apply erase_Ok in E as [c E]. exists (patch m d o, d + length o, length o), c. split; [done|].
  apply psc_count in E; [|apply HR]. cbn zeta in E. replace (d + length o - d) with (length o) in E by lia. rewrite Hlen in E. lia.
Qed.
Print Assumptions C149_partial_sort_copy.
(** the comparisons made on some numbers; the bounds are 14, 3, 4, 48, 40 and 40 *)
Example C149_example :
  (do (m, a) <- algo_make_heap_by_n Nat.ltb [3; 1; 4; 1; 5; 9; 2; 6] 0 8;
   do (_, b) <- algo_push_heap_by_n Nat.ltb [8; 7; 3; 5; 6; 1; 2; 9] 0 8;
   do (_, c) <- algo_pop_heap_by_n Nat.ltb m 0 8;
   do (_, d) <- algo_sort_heap_by_n Nat.ltb m 0 8;
   do (_, e) <- algo_partial_sort_by_n Nat.ltb [9; 8; 7; 6; 5; 4; 3; 2; 1; 0] 0 3 10;
   do (_, g) <- algo_partial_sort_copy_by_n Nat.ltb ([9; 8; 7; 6; 5; 4; 3; 2; 1; 0] ++ [0; 0; 0]) 0 10 10 13;
   Ok [a; b; c; d; e; g]) = Ok [10; 3; 4; 15; 24; 24].
Proof. vm_compute. reflexivity. Qed.

(** ** C150 *)
Theorem C150_counting_is_model : forall A (comp : A -> A -> bool) (m : list A) f l,
  (do (r, n) <- algo_sort_by_n comp m f l; Ok r) = algo_sort_by comp m f l.
Proof. intros A comp m f l. apply erase_algo_sort. Qed.
Print Assumptions C150_counting_is_model.
(** sorting never gets quadratic: 5 n log2 n + 259 n comparisons suffice for any n elements (the elements up to the
    threshold of 512 are sorted by insertion) *)
Theorem C150_sort : forall A (comp : A -> A -> bool), StrictWeakOrder comp -> forall (m : list A) f l, range m f l ->
  exists m' c, algo_sort_by_n comp m f l = Ok (m', c) /\ c <= 5 * (l - f) * Nat.log2 (l - f) + 259 * (l - f).
Proof. intros A comp HW m f l HR. by apply algo_sort_count. Qed.
Print Assumptions C150_sort.
(** up to the threshold: at most n (n + 1) / 2 comparisons *)
Theorem C150_sort_small : forall A (comp : A -> A -> bool), StrictWeakOrder comp -> forall (m : list A) f l, range m f l ->
  l - f <= 512 -> exists m' c, algo_sort_by_n comp m f l = Ok (m', c) /\ 2 * c <= (l - f) * (l - f + 1).
Proof. intros A comp HW m f l HR Hs. by apply algo_sort_small_count. Qed.
Print Assumptions C150_sort_small.
(** 10 and 600 elements; the bounds are 55 and 182400 *)
Example C150_example :
  (do (_, a) <- algo_sort_by_n Nat.ltb [3; 1; 4; 1; 5; 9; 2; 6; 5; 3] 0 10; Ok a) = Ok 31 /\
  (do (_, b) <- algo_sort_by_n Nat.ltb (map (fun i => 7 * i mod 600) (seq 0 600)) 0 600; Ok (N.of_nat b)) = Ok 34724%N.
Proof. vm_compute. split; reflexivity. Qed.
