(** PropertiesSortAny.v — C131: sort of /repo/container/c_list.c (lines 898-939) and of
    /repo/container/c_forward_list.c (lines 570-611) with a comparator that need not be an order: it may be any
    function at all (reflexive, cyclic, constant), so that nothing can be said about the order of the result, but
    no element may be lost, duplicated, copied or freed, and the list must still be a list. *)
From Verif Require Import Base Spec SpecSeq SpecListOps Facts MergeFacts SortFacts DList Path SpecList DListCore
  DListProofs DListAlgo DListSort DListRun DListRunProofs SpecSlistOps Slist SpecSlist SlistCore SlistProofs
  SlistAlgo SlistSort SlistRun SlistRunProofs PropertiesList PropertiesSlist.
From stdpp Require Import list gmap.

(** ** C131 (2^64 is past any list that fits in memory) *)
Theorem C131_list_sort : forall A alloc, malloc_ok alloc -> forall comp (h : heap A) s cs,
  is_list h s cs -> (Z.of_nat (length cs) < 2 ^ 64)%Z ->
  exists h' s' cs', c_list_sort_by alloc comp h s = Ok (h', s') /\ is_list h' s' cs' /\ list_reads h' s' cs'.*2 /\
    cs ≡ₚ cs' /\ step h h' (nodes s cs) (nodes s' cs') /\ dead h' = dead h.
Proof.
  intros A alloc Ha comp h s cs HL Hlen. destruct (sort_any_ok alloc Ha comp h s cs HL Hlen) as (h'&s'&cs'&E&H1&H2&H3&H4&_).
  exists h', s', cs'. split; [done|]. split; [done|]. split; [by apply reads_ok|]. done.
Qed.
Print Assumptions C131_list_sort.
Theorem C131_slist_sort : forall A alloc, smalloc_ok alloc -> forall comp (h : sheap A) s cs,
  is_slist h s cs -> (Z.of_nat (length cs) < 2 ^ 64)%Z ->
  exists h' s' cs', c_slist_sort_by alloc comp h s = Ok (h', s') /\ is_slist h' s' cs' /\ slist_reads h' s' cs'.*2 /\
    cs ≡ₚ cs' /\ sstep h h' (snodes s cs) (snodes s' cs') /\ sdead h' = sdead h.
Proof.
  intros A alloc Ha comp h s cs HL Hlen. destruct (ssort_any_ok alloc Ha comp h s cs HL Hlen) as (h'&s'&cs'&E&H1&H2&H3&H4&_).
  exists h', s', cs'. split; [done|]. split; [done|]. split; [by apply sreads_ok|]. done.
Qed.
Print Assumptions C131_slist_sort.
(** a comparator that is no order: "differs by one modulo three", and less-or-equal (equal elements swap) *)
Definition ex_cycle (x y : nat) : bool := Nat.eqb ((x + 1) mod 3) (y mod 3).
Example C131_no_order : ex_cycle 0 1 = true /\ ex_cycle 1 2 = true /\ ex_cycle 2 0 = true.
Proof. by vm_compute. Qed.
Example C131_example_list : (do (h, env) <- lhist_run 0 ex_alloc (heap0, []) [LCreateFrom [5; 3; 8; 1; 9; 2; 7]; LSort 0 ex_cycle];
  do s <- handle env 0; do a <- c_list_traverse h s; Ok a) = Ok [1; 7; 5; 8; 2; 3; 9].
Proof. vm_compute. reflexivity. Qed.
Example C131_example_slist : (do (h, env) <- fhist_run 0 ex_salloc (sheap0, []) [FCreateFrom [5; 3; 8; 1; 9; 2; 7]; FSort 0 Nat.leb];
  do s <- shandle env 0; do a <- c_slist_traverse h s; Ok a) = Ok [1; 2; 3; 5; 7; 8; 9].
Proof. vm_compute. reflexivity. Qed.
