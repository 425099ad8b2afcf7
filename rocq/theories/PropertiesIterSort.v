(** PropertiesIterSort.v — c_heap.c and the sorting functions of c_sorting.c run on iterator objects of vectors and
    deques (the containers whose iterators have the random-access category these functions assert).

    The conventions are those of PropertiesIter.v, PropertiesIterMod.v and PropertiesIterOrd.v: [changes M S q i l p v] says
    that the call [p] returns [v], that the elements of container [q] from position [i] on have become [l], and that nothing
    else in memory and no iterator object of the caller has changed.
    Theorems that assume [checked = false] are about the reading in which moving an iterator outside the block of its
    container is harmless as long as it is not dereferenced there; the refutations below show that in the strict reading of
    the C standard these calls have undefined behaviour. *)
From stdpp Require Import list gmap.
From Verif Require Import Base Spec Vector Deque VectorProofs DequeProofs Iter IterWorld SpecIter SpecIterOrd IterStuck AlgoSort
  IterHeap IterHeapLift IterSort IterSortLift PropertiesAlgo PropertiesIter PropertiesIterMod.
From stdpp Require Import list.
Local Notation qc A := (cont * list cpos * list A)%type.

(** ** C123: heaps *)
Theorem C123_push_heap : forall A {CK : Checked} `{Inhabited A} M S (q : qc A) (comp : A -> A -> bool) first last i j,
  StrictWeakOrder comp -> own_range M S q first last i j -> cat_of q.1.1 = RANDOM -> max_heap comp (slice q.2 i (j - 1)) ->
  exists l, Permutation (slice q.2 i j) l /\ max_heap comp l /\ changes M S q i l (push_heap_by_p comp first last) tt.
Proof. intros. by apply push_heap_run. Qed.
Theorem C123_pop_heap : forall A {CK : Checked} `{Inhabited A} M S (q : qc A) (comp : A -> A -> bool) first last i j,
  StrictWeakOrder comp -> own_range M S q first last i j -> cat_of q.1.1 = RANDOM -> i < j -> max_heap comp (slice q.2 i j) ->
  exists l x, q.2 !! i = Some x /\ Permutation (slice q.2 i j) (l ++ [x]) /\ max_heap comp l /\ (forall y, y ∈ slice q.2 i j -> comp x y = false) /\
    changes M S q i (l ++ [x]) (pop_heap_by_p comp first last) tt.
Proof. intros. by apply pop_heap_run. Qed.
Theorem C123_sort_heap : forall A {CK : Checked} `{Inhabited A} M S (q : qc A) (comp : A -> A -> bool) first last i j,
  StrictWeakOrder comp -> own_range M S q first last i j -> cat_of q.1.1 = RANDOM -> max_heap comp (slice q.2 i j) ->
  exists l, Permutation (slice q.2 i j) l /\ sorted comp l /\ changes M S q i l (sort_heap_by_p comp first last) tt.
Proof. intros. by apply sort_heap_run. Qed.
Theorem C123_is_heap : forall A {CK : Checked} `{Inhabited A} M S (q : qc A) (comp : A -> A -> bool) first last i j,
  shown M q -> range_in S q first last i j -> cat_of q.1.1 = RANDOM ->
  exists b, answers M S (is_heap_by_p comp first last) b /\ (b = true <-> max_heap comp (slice q.2 i j)).
Proof. intros. by apply is_heap_run. Qed.
(** the position reported is that of the first parent that is smaller than one of its children, or the end *)
Theorem C123_is_heap_until : forall A {CK : Checked} `{Inhabited A} M S (q : qc A) (comp : A -> A -> bool) first last i j o,
  shown M q -> range_in S q first last i j -> cat_of q.1.1 = RANDOM -> out_ok S q (Some o) ->
  exists u, i <= u <= j /\ max_heap comp (slice q.2 i u) /\ (u = j <-> max_heap comp (slice q.2 i j)) /\
    (u < j -> exists k x y, (k = 2 * (u - i) + 1 \/ k = 2 * (u - i) + 2) /\ k < j - i /\ q.2 !! u = Some x /\ q.2 !! (i + k) = Some y /\ comp x y = true) /\
    points M S q (Some o) u (is_heap_until_by_p comp first last (Some o)).
Proof. intros. by apply is_heap_until_run. Qed.

(** ** C124: make_heap *)
(** tolerant reading: the claim holds.  Missing in the strict reading: see the refutation. *)
Theorem C124_make_heap_partial : forall A {CK : Checked} `{Inhabited A} M S (q : qc A) (comp : A -> A -> bool) first last i j,
  checked = false -> StrictWeakOrder comp -> own_range M S q first last i j -> cat_of q.1.1 = RANDOM ->
  exists l, Permutation (slice q.2 i j) l /\ max_heap comp l /\ changes M S q i l (make_heap_by_p comp first last) tt.
Proof. intros. by apply make_heap_run. Qed.

(** a full vector with the elements [l], the iterator object 1 at its begin and 2 at its end *)
Definition full_M (l : list nat) : cmem nat := CMem ex_lheap ex_sheap [Vec (Some <$> l) (length l) 0 []] [] (m_tree ex_M).
Definition full_S (n : nat) : gmap iid cpos :=
  list_to_map [(it1, PBlk false false 0 0%Z); (it2, PBlk false false 0 (Z.of_nat n))].
Definition full_vec (l : list nat) : qc nat := (CBlk false false 0, PBlk false false 0 <$> (Z.of_nat <$> seq 0 (S (length l))), l).
Lemma full_own l : own_range (full_M l) (full_S (length l)) (full_vec l) it1 it2 0 (length l).
Proof.
  refine (conj _ (conj (conj _ (conj _ _)) _)); [| | |lia|done].
  - eexists _, l. split; [reflexivity|]. split; [|done]. exists []. by rewrite app_nil_r.
  - eexists. split; [|reflexivity]. unfold full_vec. cbn [fst snd]. rewrite !list_lookup_fmap, lookup_seq_lt by lia. done.
  - eexists. split; [|reflexivity]. unfold full_vec. cbn [fst snd]. rewrite !list_lookup_fmap, lookup_seq_lt by lia. done.
Qed.
(** strict reading: make_heap (and partial_sort, which calls it) on the full vector [1; 2; 3] moves an iterator behind the
    end of the block *)
Theorem C124_make_heap_refuted : exists (M : cmem nat) S (q : qc nat) first last,
  own_range M S q first last 0 3 /\ cat_of q.1.1 = RANDOM /\ StrictWeakOrder Nat.ltb /\
  (forall r st, ~ exec (cworld nat (CK := true)) (make_heap_by_p Nat.ltb first last) (M, S) r st) /\
  (forall r st, ~ exec (cworld nat (CK := true)) (partial_sort_by_p Nat.ltb first last last) (M, S) r st).
Proof.
  exists (full_M [1; 2; 3]), (full_S 3), (full_vec [1; 2; 3]), it1, it2. split; [apply (full_own [1; 2; 3])|]. split; [done|].
  split; [exact ex_swo|]. split; intros r st; apply (stuck _ _ _ 20); vm_compute; reflexivity.
Qed.

(** ** C125: sort, up to 512 elements, in both readings *)
Theorem C125_sort_512 : forall A {CK : Checked} `{Inhabited A} M S (q : qc A) (comp : A -> A -> bool) first last i j,
  StrictWeakOrder comp -> own_range M S q first last i j -> cat_of q.1.1 = RANDOM -> j - i <= 512 ->
  exists l, stable_rearrangement comp (slice q.2 i j) l /\ sorted comp l /\ changes M S q i l (sort_by_p comp first last) tt.
Proof. intros. by apply sort_small_run. Qed.

(** ** C126: sort and partial sort, any length *)
(** tolerant reading, any length.  Missing: that the result is a permutation, see the refutation. *)
Theorem C126_sort_partial : forall A {CK : Checked} `{Inhabited A} M S (q : qc A) (comp : A -> A -> bool) first last i j,
  checked = false -> StrictWeakOrder comp -> own_range M S q first last i j -> cat_of q.1.1 = RANDOM ->
  exists l, length l = j - i /\ sorted comp l /\ (forall x, x ∈ l -> x ∈ slice q.2 i j) /\ changes M S q i l (sort_by_p comp first last) tt.
Proof. intros. by apply sort_any_run. Qed.
(** a vector of 513 different numbers becomes one in which 512 occurs twice and 511 not at all *)
Theorem C126_sort_refuted : exists (M M' : cmem nat) S (q : qc nat) first last l,
  own_range M S q first last 0 513 /\ cat_of q.1.1 = RANDOM /\ StrictWeakOrder Nat.ltb /\ NoDup q.2 /\
  exec (cworld nat (CK := false)) (sort_by_p Nat.ltb first last) (M, S) tt (M', S) /\ becomes M [(q, l)] M' /\ ~ Permutation q.2 l.
Proof.
  assert (algo_sort_by Nat.ltb sort_witness 0 513 = Ok (seq 0 511 ++ [512; 512])) as Hs by (vm_compute; reflexivity).
  assert (own_range (full_M sort_witness) (full_S 513) (full_vec sort_witness) it1 it2 0 513) as Hown.
  { replace 513 with (length sort_witness) by (vm_compute; reflexivity). apply full_own. }
  destruct (sort_exact_run (CK := false) (full_M sort_witness) (full_S 513) (full_vec sort_witness) Nat.ltb it1 it2 0 513 _ eq_refl ex_swo Hown eq_refl Hs)
    as (M' & He & Hb).
  exists (full_M sort_witness), M', (full_S 513), (full_vec sort_witness), it1, it2, (seq 0 511 ++ [512; 512]).
  split; [exact Hown|]. split; [done|]. split; [exact ex_swo|]. split; [|split; [exact He|split; [exact Hb|]]].
  - cbn [snd full_vec]. unfold sort_witness. apply NoDup_app. split; [apply NoDup_seq|]. split.
    + intros x Hx Hx'. apply elem_of_seq in Hx. rewrite !elem_of_cons in Hx'. destruct Hx' as [Hx'|[Hx'|Hx']]; [lia|lia|].
      by apply elem_of_nil in Hx'.
    + apply NoDup_cons. split; [|apply NoDup_singleton]. intros Hx. apply elem_of_list_singleton in Hx. lia.
  - cbn [snd full_vec]. intros HP. assert (511 ∈ seq 0 511 ++ [512; 512]) as Hin.
    { rewrite <- HP. unfold sort_witness. apply elem_of_app. right. apply elem_of_cons. right. left. }
    apply elem_of_app in Hin as [Hin|Hin].
    + apply elem_of_seq in Hin. lia.
    + rewrite !elem_of_cons in Hin. destruct Hin as [Hin|[Hin|Hin]]; [lia|lia|]. by apply elem_of_nil in Hin.
Qed.
(** tolerant reading: the [k - i] smallest elements, sorted, in front.  In the strict reading C124_make_heap_refuted applies. *)
Theorem C126_partial_sort_partial : forall A {CK : Checked} `{Inhabited A} M S (q : qc A) (comp : A -> A -> bool) first middle last i k j,
  checked = false -> StrictWeakOrder comp -> own_range M S q first last i j -> at_pos S q middle k -> i <= k <= j -> cat_of q.1.1 = RANDOM ->
  exists l1 l2, length l1 = k - i /\ Permutation (slice q.2 i j) (l1 ++ l2) /\ sorted comp l1 /\ (forall x y, x ∈ l1 -> y ∈ l2 -> comp y x = false) /\
    changes M S q i (l1 ++ l2) (partial_sort_by_p comp first middle last) tt.
Proof. intros. by apply partial_sort_run. Qed.
(** the source may be any container; it is not written *)
Theorem C126_partial_sort_copy_partial : forall A {CK : Checked} `{Inhabited A} M S (q1 q2 : qc A) (comp : A -> A -> bool) first last d_first d_last o i j d e,
  checked = false -> StrictWeakOrder comp -> two_ranges M S q1 q2 first last d_first d_last i j d e ->
  mutable q2.1.1 = true -> cat_of q2.1.1 = RANDOM -> same_or_apart q1 q2 -> (q1 = q2 -> apart d e i j) -> out_ok S q2 o ->
  exists l rest, length l = (j - i) `min` (e - d) /\ sorted comp l /\ Permutation (slice q1.2 i j) (l ++ rest) /\
    (forall x y, x ∈ l -> y ∈ rest -> comp y x = false) /\
    changes_out M S q2 o d l (d + length l) (partial_sort_copy_by_p comp first last d_first d_last o) (length l).
Proof. intros A CK HI M S q1 q2 comp first last d_first d_last o i j d e H1 H2 (H3&H4&H5&H6&H7). intros. by apply partial_sort_copy_run. Qed.

(** ** Examples: hypotheses met, and the runs *)
(** the vector [6; 20; 30] of PropertiesIter.v between positions 1 and 3, the deque [20; 20; 8], the full vector [3; 9; 4] *)
Definition heap_S : gmap iid cpos :=
  list_to_map [(it1, PBlk true false 0 1%Z); (it2, PBlk true false 0 4%Z); (it3, PBlk false false 0 0%Z); (it4, PBlk false false 0 3%Z); (it5, PBlk true false 0 2%Z)].
Example C123_example : own_range ex_M heap_S ex_deq it1 it2 0 3 /\ cat_of ex_deq.1.1 = RANDOM /\ max_heap Nat.ltb (slice ex_deq.2 0 3) /\
  (m_deq <$> after (run (cworld nat (CK := true)) 20 (pop_heap_by_p Nat.ltb it1 it2) (ex_M, heap_S))) = Some [Deq [None; Some 20; Some 8; Some 20; None] 1 4 0 []] /\
  (m_deq <$> after (run (cworld nat (CK := true)) 20 (sort_heap_by_p Nat.ltb it1 it2) (ex_M, heap_S))) = Some [Deq [None; Some 8; Some 20; Some 20; None] 1 4 0 []] /\
  ends (run (cworld nat (CK := true)) 20 (is_heap_by_p Nat.ltb it1 it2) (ex_M, heap_S)) true heap_S /\
  ends (run (cworld nat (CK := true)) 20 (is_heap_by_p Nat.ltb it3 it4) (ex_M, heap_S)) false heap_S /\
  own_range ex_M heap_S ex_vec it3 it4 0 3 /\
  ends (run (cworld nat (CK := true)) 20 (is_heap_until_by_p Nat.ltb it3 it4 (Some (Some it3))) (ex_M, heap_S)) (Some it3) heap_S.
Proof.
  split. { refine (conj ex_deq_ok (conj (conj _ (conj _ _)) _)); [here|here|lia|done]. }
  split; [done|]. split.
  { intros i' x y Hi Hx Hy. destruct i' as [|[|[|i']]]; cbn in *; try lia; naive_solver. }
  do 4 (split; [vm_compute; first [reflexivity|by split]|]). split; [|vm_compute; by split].
  refine (conj ex_vec_ok (conj (conj _ (conj _ _)) _)); [here|here|lia|done].
Qed.
Example C124_example : own_range (full_M [3; 9; 4]) (full_S 3) (full_vec [3; 9; 4]) it1 it2 0 3 /\ cat_of (full_vec [3; 9; 4]).1.1 = RANDOM /\
  (m_vec <$> after (run (cworld nat (CK := false)) 20 (make_heap_by_p Nat.ltb it1 it2) (full_M [3; 9; 4], full_S 3))) = Some [Vec [Some 9; Some 3; Some 4] 3 0 []].
Proof. split; [apply (full_own [3; 9; 4])|]. split; [done|]. vm_compute. reflexivity. Qed.
Example C125_example : own_range (full_M [3; 9; 4; 2]) (full_S 4) (full_vec [3; 9; 4; 2]) it1 it2 0 4 /\ cat_of (full_vec [3; 9; 4; 2]).1.1 = RANDOM /\
  (m_vec <$> after (run (cworld nat (CK := true)) 20 (sort_by_p half_lt it1 it2) (full_M [3; 9; 4; 2], full_S 4))) = Some [Vec [Some 3; Some 2; Some 4; Some 9] 4 0 []].
Proof. split; [apply (full_own [3; 9; 4; 2])|]. split; [done|]. vm_compute. reflexivity. Qed.
(** the two smallest of the vector [6; 20; 30] and the deque [20; 20; 8] *)
Example C126_example : own_range ex_M heap_S ex_deq it1 it2 0 3 /\ at_pos heap_S ex_deq it5 1 /\ cat_of ex_deq.1.1 = RANDOM /\
  (m_deq <$> after (run (cworld nat (CK := false)) 20 (partial_sort_by_p Nat.ltb it1 it5 it2) (ex_M, heap_S))) = Some [Deq [None; Some 8; Some 20; Some 20; None] 1 4 0 []] /\
  two_ranges ex_M heap_S ex_deq ex_vec it1 it2 it3 it4 0 3 0 3 /\ same_or_apart ex_deq ex_vec /\
  (m_vec <$> after (run (cworld nat (CK := false)) 20 (partial_sort_copy_by_p Nat.ltb it1 it2 it3 it4 None) (ex_M, heap_S))) = Some [Vec [Some 8; Some 20; Some 20; None] 3 0 []].
Proof.
  split. { refine (conj ex_deq_ok (conj (conj _ (conj _ _)) _)); [here|here|lia|done]. }
  split; [here|]. split; [done|]. split; [vm_compute; reflexivity|]. split.
  { refine (conj ex_deq_ok (conj ex_vec_ok (conj (conj _ (conj _ _)) (conj (conj _ (conj _ _)) _)))); [here|here|lia|here|here|lia|].
    right. intros x. rewrite !elem_of_cons, !elem_of_nil. intros [->|[->|[]]] [E|[E|[]]]; discriminate E. }
  split; [by right|]. vm_compute; reflexivity.
Qed.

Print Assumptions C123_push_heap.
Print Assumptions C123_pop_heap.
Print Assumptions C123_sort_heap.
Print Assumptions C123_is_heap.
Print Assumptions C123_is_heap_until.
Print Assumptions C124_make_heap_partial.
Print Assumptions C124_make_heap_refuted.
Print Assumptions C125_sort_512.
Print Assumptions C126_sort_partial.
Print Assumptions C126_sort_refuted.
Print Assumptions C126_partial_sort_partial.
Print Assumptions C126_partial_sort_copy_partial.
