(** PropertiesSortCount.v — how many comparisons merging and sorting lists and forward lists take (C148).
    [c_list_merge_by_n], [c_list_sort_by_n], [c_slist_merge_by_n] and [c_slist_sort_by_n] (DListCount.v,
    SlistCount.v) are the functions of the model that also return how often they called the comparator;
    [erase] forgets that number. *)
From Verif Require Import Base Spec SpecSeq SpecListOps Facts DList Path SpecList DListCore DListProofs DListAlgo DListSort DListCount
  DListRun PropertiesList.
From Verif Require Import SpecSlistOps Slist SpecSlist SlistCore SlistProofs SlistAlgo SlistSort SlistCount SlistRun.
From Verif Require PropertiesSlist.
From stdpp Require Import list gmap.

(** ** C148: the counting functions do what the functions of the model do, for any comparator and in any memory *)
Theorem C148_counting_is_model : forall A alloc salloc (comp : A -> A -> bool),
  (forall (h : heap A) s t, (do (h', n) <- c_list_merge_by_n comp h s t; Ok h') = c_list_merge_by comp h s t) /\
  (forall (h : heap A) s, (do (r, n) <- c_list_sort_by_n alloc comp h s; Ok r) = c_list_sort_by alloc comp h s) /\
  (forall (h : sheap A) s t, (do (h', n) <- c_slist_merge_by_n comp h s t; Ok h') = c_slist_merge_by comp h s t) /\
  (forall (h : sheap A) s, (do (r, n) <- c_slist_sort_by_n salloc comp h s; Ok r) = c_slist_sort_by salloc comp h s).
Proof.
  intros A alloc salloc comp. split; [intros; apply erase_merge|]. split; [intros; apply erase_sort|].
  split; [intros; apply erase_smerge|intros; apply erase_ssort].
Qed.
Print Assumptions C148_counting_is_model.
(** merging lists: at most one comparison less than there are elements, none if a list is empty *)
Theorem C148_list_merge : forall A (comp : A -> A -> bool) (h : heap A) s cs t ds, lists h [(s, cs); (t, ds)] ->
  exists h' n, c_list_merge_by_n comp h s t = Ok (h', n) /\ n <= length cs + length ds - 1 /\ (cs = [] \/ ds = [] -> n = 0).
Proof. intros A comp h s cs t ds HL. destruct (merge_count comp h s cs t ds HL) as (h'&n&E&_&H1&H2). by exists h', n. Qed.
Print Assumptions C148_list_merge.
(** sorting a list of n elements: at most n log2 n + 2 n comparisons *)
Theorem C148_list_sort : forall A alloc, malloc_ok alloc -> forall (comp : A -> A -> bool) (h : heap A) s cs,
  is_list h s cs -> (Z.of_nat (length cs) < 2 ^ 64)%Z ->
  exists h' s' n, c_list_sort_by_n alloc comp h s = Ok (h', s', n) /\
    n <= length cs * Nat.log2 (length cs) + 2 * length cs.
Proof.
  intros A alloc Ha comp h s cs HL Hlen. destruct (sort_count alloc Ha comp h s cs HL Hlen) as ([h' s']&n&E&Hn). by exists h', s', n.
Qed.
Print Assumptions C148_list_sort.
(** forward lists: each element moved out of [t] is compared once more than in a list, as c_slist_merge_by steps over
    it by comparing it with the next one *)
Theorem C148_slist_merge : forall A (comp : A -> A -> bool) (h : sheap A) s cs t ds, slists h [(s, cs); (t, ds)] ->
  exists h' n, c_slist_merge_by_n comp h s t = Ok (h', n) /\ n <= length cs + 2 * length ds - 1 /\ (cs = [] \/ ds = [] -> n = 0).
Proof. intros A comp h s cs t ds HL. destruct (smerge_count comp h s cs t ds HL) as (h'&n&E&_&H1&H2). by exists h', n. Qed.
Print Assumptions C148_slist_merge.
Theorem C148_slist_sort : forall A alloc, smalloc_ok alloc -> forall (comp : A -> A -> bool) (h : sheap A) s cs,
  is_slist h s cs -> (Z.of_nat (length cs) < 2 ^ 64)%Z ->
  exists h' s' n, c_slist_sort_by_n alloc comp h s = Ok (h', s', n) /\
    2 * n <= 3 * (length cs * Nat.log2 (length cs) + 2 * length cs).
Proof.
  intros A alloc Ha comp h s cs HL Hlen. destruct (ssort_count alloc Ha comp h s cs HL Hlen) as ([h' s']&n&E&Hn). by exists h', s', n.
Qed.
Print Assumptions C148_slist_sort.
(** the counts of some runs: merging 4 with 3 elements, and sorting 7; the bounds there are 6 and 28, 9 and 42 *)
Example C148_example :
  (do (h, env) <- lhist_run 0 ex_alloc (heap0, []) [LCreateFrom [1; 4; 6; 12]; LCreateFrom [2; 3; 9]; LCreateFrom [5; 3; 8; 1; 9; 2; 7]];
   do s <- handle env 0; do t <- handle env 1; do u <- handle env 2;
   do (_, n) <- c_list_merge_by_n Nat.ltb h s t; do (_, k) <- c_list_sort_by_n ex_alloc Nat.ltb h u; Ok (n, k)) = Ok (6, 14) /\
  (do (h, env) <- fhist_run 0 PropertiesSlist.ex_salloc (sheap0, []) [FCreateFrom [1; 4; 6; 12]; FCreateFrom [2; 3; 9]; FCreateFrom [5; 3; 8; 1; 9; 2; 7]];
   do s <- shandle env 0; do t <- shandle env 1; do u <- shandle env 2;
   do (_, n) <- c_slist_merge_by_n Nat.ltb h s t; do (_, k) <- c_slist_sort_by_n PropertiesSlist.ex_salloc Nat.ltb h u; Ok (n, k)) = Ok (8, 17).
Proof. vm_compute. split; reflexivity. Qed.
