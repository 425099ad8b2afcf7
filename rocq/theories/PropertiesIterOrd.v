(** PropertiesIterOrd.v — c_partition.c, c_binary_search.c, c_min_max.c, c_set_op.c and the sortedness tests of
    c_sorting.c run on iterator objects of real containers.

    The conventions are those of PropertiesIter.v and PropertiesIterMod.v.
    [points M S q o k p]: the call [p] changes nothing in memory and stores position [k] of the container [q] through
    its out parameter [o]; every other iterator object is unchanged.  [points2]: the same with two out parameters.
    [answers M S p b]: the call returns [b] and changes nothing. *)
From stdpp Require Import list gmap.
From Verif Require Import Base Spec DList SpecList Slist SpecSlist Path Tree SpecTree Vector Deque VectorProofs DequeProofs
  Iter IterWorld SpecIter SpecIterOrd AlgoOrd AlgoSetProofs IterNonMod IterMod IterModLift IterOrd IterSetProofs IterOrdLift
  PropertiesTree PropertiesAlgo PropertiesIter PropertiesIterMod.
From stdpp Require Import list.
Local Notation qc A := (cont * list cpos * list A)%type.

(** ** C119: partitioning *)
(** the examples run in the strict reading of pointer arithmetic *)
#[local] Existing Instance checked_pointers.
Theorem C119_is_partitioned : forall A {CK : Checked} `{Inhabited A} M S (q : qc A) first last i j (pred : A -> bool),
  shown M q -> range_in S q first last i j ->
  exists b, answers M S (is_partitioned_p first last pred) b /\ (b = true <-> exists k, boundary q.2 i j pred k).
Proof. intros. by apply is_partitioned_run. Qed.
(** on any range: the first element that fails the predicate *)
Theorem C119_partition_point : forall A {CK : Checked} `{Inhabited A} M S (q : qc A) first last i j (pred : A -> bool) o,
  shown M q -> range_in S q first last i j -> out_ok S q o ->
  exists k, i <= k <= j /\ (forall x, x ∈ slice q.2 i k -> pred x = true) /\ (k < j -> exists x, q.2 !! k = Some x /\ pred x = false) /\
    points M S q o k (partition_point_p first last o pred).
Proof. intros. by apply partition_point_run. Qed.
Theorem C119_partition : forall A {CK : Checked} `{Inhabited A} M S (q : qc A) first last i j (pred : A -> bool) o,
  own_range M S q first last i j -> out_ok S q o ->
  let yes := List.filter pred (slice q.2 i j) in
  exists no, Permutation (List.filter (fun x => negb (pred x)) (slice q.2 i j)) no /\
    changes_o M S q o i (yes ++ no) (i + length yes) (partition_p first last o pred).
Proof. intros. by apply partition_run. Qed.
(** two destinations in one container *)
Theorem C119_partition_copy_same : forall A {CK : Checked} `{Inhabited A} M S (q1 q2 : qc A) (pred : A -> bool) first last dft dff o1 o2 i j dt df,
  two_dests M S q1 q2 q2 first last dft dff i j dt df -> out_ok S q2 o1 -> out_ok S q2 o2 -> two_outs o1 o2 ->
  let yes := List.filter pred (slice q1.2 i j) in let no := List.filter (fun x => negb (pred x)) (slice q1.2 i j) in
  dt + length yes <= length q2.2 -> df + length no <= length q2.2 ->
  (q1 = q2 -> apart dt (dt + length yes) i j /\ apart df (df + length no) i j) ->
  apart dt (dt + length yes) df (df + length no) ->
  exists v w M' S1 S', exec (cworld A) (partition_copy_p first last dft dff o1 o2 pred) (M, S) (j - i, v, w) (M', S') /\
    stored q2 o1 (dt + length yes) S v S1 /\ stored q2 o2 (df + length no) S1 w S' /\
    becomes M [(q2, patch (patch q2.2 dt yes) df no)] M'.
Proof.
  intros A CK HI M S q1 q2 pred first last dft dff o1 o2 i j dt df H1 H2 H3 H4 yes no H5 H6 H7 H8.
  destruct (partition_copy_run M S q1 q2 q2 pred first last dft dff o1 o2 i j dt df) as (v & w & M' & S1 & S' & R1 & R2 & R3 & R4 & _);
    try done; [by intros E; apply H7 in E as [? _]|by intros E; apply H7 in E as [_ ?]|].
  exists v, w, M', S1, S'. split; [done|]. split; [done|]. split; [done|]. by apply R4.
Qed.
(** two destinations in different containers *)
Theorem C119_partition_copy_apart : forall A {CK : Checked} `{Inhabited A} M S (q1 q2 q3 : qc A) (pred : A -> bool) first last dft dff o1 o2 i j dt df,
  two_dests M S q1 q2 q3 first last dft dff i j dt df -> out_ok S q2 o1 -> out_ok S q3 o2 -> two_outs o1 o2 ->
  obj_of q2.1.1 <> obj_of q3.1.1 ->
  let yes := List.filter pred (slice q1.2 i j) in let no := List.filter (fun x => negb (pred x)) (slice q1.2 i j) in
  dt + length yes <= length q2.2 -> df + length no <= length q3.2 ->
  (q1 = q2 -> apart dt (dt + length yes) i j) -> (q1 = q3 -> apart df (df + length no) i j) ->
  exists v w M' S1 S', exec (cworld A) (partition_copy_p first last dft dff o1 o2 pred) (M, S) (j - i, v, w) (M', S') /\
    stored q2 o1 (dt + length yes) S v S1 /\ stored q3 o2 (df + length no) S1 w S' /\
    becomes M [(q2, patch q2.2 dt yes); (q3, patch q3.2 df no)] M'.
Proof.
  intros A CK HI M S q1 q2 q3 pred first last dft dff o1 o2 i j dt df H1 H2 H3 H4 Hob yes no H5 H6 H7 H8.
  destruct (partition_copy_run M S q1 q2 q3 pred first last dft dff o1 o2 i j dt df) as (v & w & M' & S1 & S' & R1 & R2 & R3 & _ & R4);
    try done; [by intros ->|].
  exists v, w, M', S1, S'. split; [done|]. split; [done|]. split; [done|]. by apply R4.
Qed.
(** partitioning the forward list [4; 4; 7] into odd and even; the vector's elements 20 and 30 into the list and the deque *)
Example C119_example : own_range ex_M ex_S3 ex_slist 6%positive 7%positive 0 3 /\ out_ok ex_S3 ex_slist (Some None) /\
  ends (run (cworld nat) 9 (partition_p 6%positive 7%positive (Some None) Nat.odd) (ex_M, ex_S3)) (Some 10%positive) (<[10%positive := PSlist 2]> ex_S3) /\
  ((fun M' => bool_decide (svl (m_slist M') = (<[5%positive := Some 7]> (<[9%positive := Some 4]> (svl ex_sheap))))) <$>
    after (run (cworld nat) 9 (partition_p 6%positive 7%positive None Nat.odd) (ex_M, ex_S3))) = Some true /\
  ends (run (cworld nat) 9 (is_partitioned_p 6%positive 7%positive Nat.odd) (ex_M, ex_S3)) false ex_S3 /\
  two_dests ex_M ex_S2 ex_vec ex_list ex_deq it3 it4 6%positive it5 1 3 1 1 /\ obj_of ex_list.1.1 <> obj_of ex_deq.1.1 /\
  ends (run (cworld nat) 9 (partition_copy_p it3 it4 6%positive it5 (Some (Some 6%positive)) None (fun x => 25 <? x)) (ex_M, ex_S2))
    (2, Some 6%positive, None) (<[6%positive := PList false 9]> ex_S2) /\
  ((fun M' => bool_decide (vl (m_list M') = (<[2%positive := Some 30]> (vl ex_lheap)))) <$>
    after (run (cworld nat) 9 (partition_copy_p it3 it4 6%positive it5 (Some (Some 6%positive)) None (fun x => 25 <? x)) (ex_M, ex_S2))) = Some true /\
  (m_deq <$> after (run (cworld nat) 9 (partition_copy_p it3 it4 6%positive it5 None None (fun x => 25 <? x)) (ex_M, ex_S2)))
    = Some [Deq [None; Some 20; Some 20; Some 8; None] 1 4 0 []].
Proof.
  assert (forall a b c : iid, c <> a -> c <> b -> forall x, x ∈ [a; b] -> x ∉ [c]) as Hnin.
  { intros a b c H1 H2 x. rewrite !elem_of_cons, !elem_of_nil. intros [->|[->|[]]] [E|[]]; congruence. }
  split. { refine (conj ex_slist_ok (conj (conj _ (conj _ _)) _)); [here|here|lia|done]. }
  split; [done|]. split; [vm_compute; by split|]. split; [vm_compute; reflexivity|]. split; [vm_compute; by split|].
  split. { refine (conj ex_vec_ok (conj ex_list_ok (conj ex_deq_ok (conj (conj _ (conj _ _)) (conj _ (conj _ (conj _ (conj _ (conj _ (conj _ (conj _ (conj _ (conj _ _))))))))))))).
    - here. - here. - lia. - here. - here. - done. - done. - right. by apply Hnin. - by right. - right. by apply Hnin. - by right.
    - right. intros x. rewrite !elem_of_cons, !elem_of_nil. intros [->|[]] [E|[]]. discriminate E.
    - by right. }
  split; [done|]. split; [vm_compute; by split|]. split; [vm_compute; reflexivity|]. vm_compute; reflexivity.
Qed.

(** ** C120: binary search *)
Theorem C120_lower_bound : forall A {CK : Checked} `{Inhabited A} M S (q : qc A) (comp : A -> A -> bool) first last i j value o k,
  shown M q -> range_in S q first last i j -> out_ok S q o ->
  boundary q.2 i j (fun x => comp x value) k -> points M S q o k (lower_bound_by_p comp first last value o).
Proof. intros. by eapply lower_bound_run. Qed.
Theorem C120_upper_bound : forall A {CK : Checked} `{Inhabited A} M S (q : qc A) (comp : A -> A -> bool) first last i j value o k,
  shown M q -> range_in S q first last i j -> out_ok S q o ->
  boundary q.2 i j (fun x => negb (comp value x)) k -> points M S q o k (upper_bound_by_p comp first last value o).
Proof. intros. by eapply upper_bound_run. Qed.
Theorem C120_equal_range : forall A {CK : Checked} `{Inhabited A} M S (q : qc A) (comp : A -> A -> bool) first last i j value v1 v2 lo hi,
  shown M q -> range_in S q first last i j -> out_ok S q (Some v1) -> out_ok S q (Some v2) ->
  boundary q.2 i j (fun x => comp x value) lo -> boundary q.2 i j (fun x => negb (comp value x)) hi ->
  points2 M S q (Some v1) (Some v2) lo hi (equal_range_by_p comp first last value (Some v1) (Some v2)).
Proof. intros. by eapply equal_range_run. Qed.
Theorem C120_binary_search : forall A {CK : Checked} `{Inhabited A} M S (q : qc A) (comp : A -> A -> bool) first last i j value lo hi,
  shown M q -> range_in S q first last i j ->
  boundary q.2 i j (fun x => comp x value) lo -> boundary q.2 i j (fun x => negb (comp value x)) hi ->
  exists b, answers M S (binary_search_by_p comp first last value) b /\ (b = true <-> exists x, x ∈ slice q.2 i j /\ equivb comp x value = true).
Proof. intros. by eapply binary_search_run. Qed.
(** a sorted range has both boundaries *)
Theorem C120_sorted : forall A (q : qc A) (comp : A -> A -> bool) i j value,
  StrictWeakOrder comp -> i <= j -> j <= length q.2 -> sorted comp (slice q.2 i j) ->
  exists lo hi, boundary q.2 i j (fun x => comp x value) lo /\ boundary q.2 i j (fun x => negb (comp value x)) hi.
Proof. intros. by apply sorted_bounds. Qed.
(** on a range that is not sorted the functions still stay inside it *)
Theorem C120_safe : forall A {CK : Checked} `{Inhabited A} M S (q : qc A) (comp : A -> A -> bool) first last i j value o,
  shown M q -> range_in S q first last i j -> out_ok S q o ->
  exists lo hi b, i <= lo <= j /\ i <= hi <= j /\ points M S q o lo (lower_bound_by_p comp first last value o) /\
    points M S q o hi (upper_bound_by_p comp first last value o) /\ answers M S (binary_search_by_p comp first last value) b.
Proof. intros. by apply bsearch_safe_run. Qed.
(** with a null out parameter equal_range and minmax_element do nothing at all, not even store through the other one *)
Theorem C120_null_out : forall A {CK : Checked} M S (comp : A -> A -> bool) first last value o1 o2,
  o1 = None \/ o2 = None ->
  answers M S (equal_range_by_p comp first last value o1 o2) (default None o1, default None o2) /\
  answers M S (minmax_element_by_p comp first last o1 o2) (default None o1, default None o2).
Proof. intros A CK M S comp first last value o1 o2 [->| ->]; [|destruct o1]; split; by exists 1. Qed.
Definition ex_half (a b : nat) : bool := a / 15 <? b / 15.
(** in the list [10; 20; 30], comparing by fifteens, 25 is equivalent to the second element only *)
Example C120_example : shown ex_M ex_list /\ range_in ex_S ex_list it1 it2 0 3 /\ out_ok ex_S ex_list (Some None) /\ out_ok ex_S ex_list (Some (Some it2)) /\
  boundary ex_list.2 0 3 (fun x => ex_half x 25) 1 /\ boundary ex_list.2 0 3 (fun x => negb (ex_half 25 x)) 2 /\
  ends (run (cworld nat) 9 (equal_range_by_p ex_half it1 it2 25 (Some None) (Some (Some it2))) (ex_M, ex_S))
    (Some 11%positive, Some it2) (<[11%positive := PList false 2]> (<[it2 := PList false 9]> ex_S)) /\
  ends (run (cworld nat) 9 (binary_search_by_p ex_half it1 it2 25) (ex_M, ex_S)) true ex_S /\
  ends (run (cworld nat) 9 (lower_bound_by_p Nat.ltb it1 it2 99 (Some (Some it1))) (ex_M, ex_S)) (Some it1) (<[it1 := PList false 1]> ex_S).
Proof.
  split; [apply ex_list_ok|]. split. { split; [here|]. split; [here|lia]. } split; [done|]. split; [here|].
  split. { split; [lia|]. split; intros x; unfold slice; cbn [ex_list snd take drop Nat.sub]; rewrite !elem_of_cons, elem_of_nil; intuition subst; done. }
  split. { split; [lia|]. split; intros x; unfold slice; cbn [ex_list snd take drop Nat.sub]; rewrite !elem_of_cons, elem_of_nil; intuition subst; done. }
  split; [vm_compute; by split|]. split; vm_compute; by split.
Qed.

(** ** C121: least and greatest element, sortedness, lexicographical order, inclusion *)
Theorem C121_elements : forall A {CK : Checked} `{Inhabited A} M S (q : qc A) (comp : A -> A -> bool) first last i j o v1 v2,
  StrictWeakOrder comp -> shown M q -> range_in S q first last i j -> i < j ->
  out_ok S q o -> out_ok S q (Some v1) -> out_ok S q (Some v2) ->
  exists mn mx, smallest_at comp q.2 i j mn /\ greatest_at comp q.2 i j mx /\
    points M S q o mn (min_element_by_p comp first last o) /\ points M S q o mx (max_element_by_p comp first last o) /\
    points2 M S q (Some v1) (Some v2) mn mx (minmax_element_by_p comp first last (Some v1) (Some v2)).
Proof. intros. by apply minmax_run. Qed.
Theorem C121_elements_empty : forall A {CK : Checked} `{Inhabited A} M S (q : qc A) (comp : A -> A -> bool) first last i o v1 v2,
  shown M q -> range_in S q first last i i -> out_ok S q o -> out_ok S q (Some v1) -> out_ok S q (Some v2) ->
  points M S q o i (min_element_by_p comp first last o) /\ points M S q o i (max_element_by_p comp first last o) /\
  points2 M S q (Some v1) (Some v2) i i (minmax_element_by_p comp first last (Some v1) (Some v2)).
Proof. intros. by apply minmax_empty_run. Qed.
Theorem C121_is_sorted : forall A {CK : Checked} `{Inhabited A} M S (q : qc A) (comp : A -> A -> bool) first last i j,
  StrictWeakOrder comp -> shown M q -> range_in S q first last i j ->
  exists b, answers M S (is_sorted_by_p comp first last) b /\ (b = true <-> sorted comp (slice q.2 i j)).
Proof. intros. by apply is_sorted_run. Qed.
(** [last] if the range is sorted, else the last element, not the end, of its longest sorted prefix (C41) *)
Theorem C121_is_sorted_until : forall A {CK : Checked} `{Inhabited A} M S (q : qc A) (comp : A -> A -> bool) first last i j o,
  StrictWeakOrder comp -> shown M q -> range_in S q first last i j -> out_ok S q o ->
  exists u, i <= u <= j /\ (u = j <-> sorted comp (slice q.2 i j)) /\
    (u < j -> Datatypes.S u < j /\ sorted comp (slice q.2 i (Datatypes.S u)) /\ ~ sorted comp (slice q.2 i (Datatypes.S (Datatypes.S u)))) /\
    points M S q o u (is_sorted_until_by_p comp first last o).
Proof. intros. by apply is_sorted_until_run. Qed.
Theorem C121_lexicographical_compare : forall A {CK : Checked} `{Inhabited A} M S (q1 q2 : qc A) (comp : A -> A -> bool) first1 last1 first2 last2 i1 j1 i2 j2,
  two_ranges M S q1 q2 first1 last1 first2 last2 i1 j1 i2 j2 ->
  exists b, answers M S (lexicographical_compare_by_p comp first1 last1 first2 last2) b /\
    (b = true <-> lex_less comp (slice q1.2 i1 j1) (slice q2.2 i2 j2)).
Proof. intros. by apply lexicographical_compare_run. Qed.
Theorem C121_includes : forall A {CK : Checked} `{Inhabited A} M S (q1 q2 : qc A) (comp : A -> A -> bool) first1 last1 first2 last2 i1 j1 i2 j2,
  StrictWeakOrder comp -> two_ranges M S q1 q2 first1 last1 first2 last2 i1 j1 i2 j2 ->
  sorted comp (slice q1.2 i1 j1) -> sorted comp (slice q2.2 i2 j2) ->
  exists b, answers M S (includes_by_p comp first1 last1 first2 last2) b /\
    (b = true <-> forall x, occ comp x (slice q2.2 i2 j2) <= occ comp x (slice q1.2 i1 j1)).
Proof. intros. by apply includes_run. Qed.
Lemma ex_ranges : two_ranges ex_M ex_S ex_list ex_vec it1 it2 it3 it4 0 3 1 3.
Proof.
  refine (conj ex_list_ok (conj ex_vec_ok (conj (conj _ (conj _ _)) (conj (conj _ (conj _ _)) _)))); [here|here|lia|here|here|lia|].
  right. intros x. rewrite !elem_of_cons, !elem_of_nil. intros [->|[->|[]]] [E|[E|[]]]; discriminate E.
Qed.
Lemma ex_list_sorted : sorted Nat.ltb (slice ex_list.2 0 3).
Proof. apply (ex_sorted [10; 20; 30] 0 3); [split; cbn; lia|]. vm_compute. reflexivity. Qed.
Lemma ex_vec_sorted : sorted Nat.ltb (slice ex_vec.2 1 3).
Proof. apply (ex_sorted [6; 20; 30] 1 3); [split; cbn; lia|]. vm_compute. reflexivity. Qed.
Example C121_example : two_ranges ex_M ex_S ex_list ex_vec it1 it2 it3 it4 0 3 1 3 /\ sorted Nat.ltb (slice ex_list.2 0 3) /\ sorted Nat.ltb (slice ex_vec.2 1 3) /\
  ends (run (cworld nat) 9 (includes_by_p Nat.ltb it1 it2 it3 it4) (ex_M, ex_S)) true ex_S /\
  ends (run (cworld nat) 9 (includes_by_p Nat.ltb it3 it4 it1 it2) (ex_M, ex_S)) false ex_S /\
  ends (run (cworld nat) 9 (lexicographical_compare_by_p Nat.ltb it1 it2 it3 it4) (ex_M, ex_S)) true ex_S /\
  ends (run (cworld nat) 9 (minmax_element_by_p Nat.ltb it1 it2 (Some (Some it1)) (Some (Some it2))) (ex_M, ex_S))
    (Some it1, Some it2) (<[it1 := PList false 5]> (<[it2 := PList false 9]> ex_S)) /\
  ends (run (cworld nat) 9 (is_sorted_by_p Nat.ltb it3 it4) (ex_M, ex_S)) true ex_S /\
  ends (run (cworld nat) 9 (is_sorted_until_by_p Nat.ltb it5 7%positive (Some (Some it5))) (ex_M, ex_S2)) (Some it5) (<[it5 := PBlk true false 0 2%Z]> ex_S2).
Proof.
  split; [apply ex_ranges|]. split; [apply ex_list_sorted|]. split; [apply ex_vec_sorted|].
  do 5 (split; [vm_compute; by split|]). vm_compute; by split.
Qed.

(** ** C122: the five operations that write a merged range.
    [class comp x l] is the sublist of the elements of [l] equivalent to [x] (PropertiesAlgo.v); with sortedness these
    equations determine the output.  [room]: the output fits where it is written and does not overlap the sources. *)
Theorem C122_merge : forall A {CK : Checked} `{Inhabited A} M S (q1 q2 q3 : qc A) (comp : A -> A -> bool) first1 last1 first2 last2 d_first o i1 j1 i2 j2 d,
  StrictWeakOrder comp -> two_sources M S q1 q2 q3 first1 last1 first2 last2 d_first i1 j1 i2 j2 d -> out_ok S q3 o ->
  sorted comp (slice q1.2 i1 j1) -> sorted comp (slice q2.2 i2 j2) ->
  exists out, sorted comp out /\ Permutation (slice q1.2 i1 j1 ++ slice q2.2 i2 j2) out /\
    (forall x, class comp x out = class comp x (slice q2.2 i2 j2) ++ class comp x (slice q1.2 i1 j1)) /\
    (room q1 q2 q3 i1 j1 i2 j2 d out ->
      changes_out M S q3 o d out (d + length out) (merge_by_p comp first1 last1 first2 last2 d_first o) (length out)).
Proof.
  intros A CK HI M S q1 q2 q3 comp first1 last1 first2 last2 d_first o i1 j1 i2 j2 d HW Hs Ho S1 S2.
  exists (AlgoSetProofs.zip (merge_step comp) true true (slice q1.2 i1 j1) (slice q2.2 i2 j2)).
  split; [by apply zip_sorted; [|apply merge_good|..]|]. split; [apply zip_merge_perm|]. split; [intros x; by apply zip_merge_filter|].
  intros Hr. eapply (two_range_run M S q1 q2 q3); [intros L F1 F2 D; by apply (merge_body_ok L comp F1 F2 D)|done..].
Qed.
Theorem C122_union : forall A {CK : Checked} `{Inhabited A} M S (q1 q2 q3 : qc A) (comp : A -> A -> bool) first1 last1 first2 last2 d_first o i1 j1 i2 j2 d,
  StrictWeakOrder comp -> two_sources M S q1 q2 q3 first1 last1 first2 last2 d_first i1 j1 i2 j2 d -> out_ok S q3 o ->
  sorted comp (slice q1.2 i1 j1) -> sorted comp (slice q2.2 i2 j2) ->
  exists out, sorted comp out /\
    (forall x, class comp x out = class comp x (slice q1.2 i1 j1) ++ drop (occ comp x (slice q1.2 i1 j1)) (class comp x (slice q2.2 i2 j2))) /\
    (room q1 q2 q3 i1 j1 i2 j2 d out ->
      changes_out M S q3 o d out (d + length out) (set_union_by_p comp first1 last1 first2 last2 d_first o) (length out)).
Proof.
  intros A CK HI M S q1 q2 q3 comp first1 last1 first2 last2 d_first o i1 j1 i2 j2 d HW Hs Ho S1 S2.
  exists (AlgoSetProofs.zip (union_step comp) true true (slice q1.2 i1 j1) (slice q2.2 i2 j2)).
  split; [by apply zip_sorted; [|apply union_good|..]|]. split; [intros x; by apply zip_union_filter|].
  intros Hr. eapply (two_range_run M S q1 q2 q3); [intros L F1 F2 D; by apply (union_body_ok L comp F1 F2 D)|done..].
Qed.
Theorem C122_intersection : forall A {CK : Checked} `{Inhabited A} M S (q1 q2 q3 : qc A) (comp : A -> A -> bool) first1 last1 first2 last2 d_first o i1 j1 i2 j2 d,
  StrictWeakOrder comp -> two_sources M S q1 q2 q3 first1 last1 first2 last2 d_first i1 j1 i2 j2 d -> out_ok S q3 o ->
  sorted comp (slice q1.2 i1 j1) -> sorted comp (slice q2.2 i2 j2) ->
  exists out, sorted comp out /\
    (forall x, class comp x out = take (occ comp x (slice q2.2 i2 j2)) (class comp x (slice q1.2 i1 j1))) /\
    (room q1 q2 q3 i1 j1 i2 j2 d out ->
      changes_out M S q3 o d out (d + length out) (set_intersection_by_p comp first1 last1 first2 last2 d_first o) (length out)).
Proof.
  intros A CK HI M S q1 q2 q3 comp first1 last1 first2 last2 d_first o i1 j1 i2 j2 d HW Hs Ho S1 S2.
  exists (AlgoSetProofs.zip (intersection_step comp) false false (slice q1.2 i1 j1) (slice q2.2 i2 j2)).
  split; [by apply zip_sorted; [|apply intersection_good|..]|]. split; [intros x; by apply zip_intersection_filter|].
  intros Hr. eapply (two_range_run M S q1 q2 q3); [intros L F1 F2 D; by apply (intersection_body_ok L comp F1 F2 D)|done..].
Qed.
Theorem C122_symmetric_difference : forall A {CK : Checked} `{Inhabited A} M S (q1 q2 q3 : qc A) (comp : A -> A -> bool) first1 last1 first2 last2 d_first o i1 j1 i2 j2 d,
  StrictWeakOrder comp -> two_sources M S q1 q2 q3 first1 last1 first2 last2 d_first i1 j1 i2 j2 d -> out_ok S q3 o ->
  sorted comp (slice q1.2 i1 j1) -> sorted comp (slice q2.2 i2 j2) ->
  exists out, sorted comp out /\
    (forall x, class comp x out = drop (occ comp x (slice q2.2 i2 j2)) (class comp x (slice q1.2 i1 j1))
                                  ++ drop (occ comp x (slice q1.2 i1 j1)) (class comp x (slice q2.2 i2 j2))) /\
    (room q1 q2 q3 i1 j1 i2 j2 d out ->
      changes_out M S q3 o d out (d + length out) (set_symmetric_difference_by_p comp first1 last1 first2 last2 d_first o) (length out)).
Proof.
  intros A CK HI M S q1 q2 q3 comp first1 last1 first2 last2 d_first o i1 j1 i2 j2 d HW Hs Ho S1 S2.
  exists (AlgoSetProofs.zip (symdiff_step comp) true true (slice q1.2 i1 j1) (slice q2.2 i2 j2)).
  split; [by apply zip_sorted; [|apply symdiff_good|..]|]. split; [intros x; by apply zip_symdiff_filter|].
  intros Hr. eapply (two_range_run M S q1 q2 q3); [intros L F1 F2 D; by apply (symdiff_body_ok L comp F1 F2 D)|done..].
Qed.
(** set_difference is wrong in general (C50); always a sorted subsequence of the first range, and the difference
    when no element below one of the first range occurs more often in the second *)
Theorem C122_difference : forall A {CK : Checked} `{Inhabited A} M S (q1 q2 q3 : qc A) (comp : A -> A -> bool) first1 last1 first2 last2 d_first o i1 j1 i2 j2 d,
  StrictWeakOrder comp -> two_sources M S q1 q2 q3 first1 last1 first2 last2 d_first i1 j1 i2 j2 d -> out_ok S q3 o ->
  sorted comp (slice q1.2 i1 j1) -> sorted comp (slice q2.2 i2 j2) ->
  exists out, sorted comp out /\ out `sublist_of` slice q1.2 i1 j1 /\
    ((forall x a, a ∈ slice q1.2 i1 j1 -> comp x a = true -> occ comp x (slice q2.2 i2 j2) <= occ comp x (slice q1.2 i1 j1)) ->
      forall x, class comp x out = drop (occ comp x (slice q2.2 i2 j2)) (class comp x (slice q1.2 i1 j1))) /\
    (room q1 q2 q3 i1 j1 i2 j2 d out ->
      changes_out M S q3 o d out (d + length out) (set_difference_by_p comp first1 last1 first2 last2 d_first o) (length out)).
Proof.
  intros A CK HI M S q1 q2 q3 comp first1 last1 first2 last2 d_first o i1 j1 i2 j2 d HW Hs Ho S1 S2.
  exists (AlgoSetProofs.zip (difference_step comp) true false (slice q1.2 i1 j1) (slice q2.2 i2 j2)).
  split; [by apply zip_sorted; [|apply difference_good|..]|]. split; [apply zip_difference_sublist|]. split; [intros Hc x; by apply zip_difference_filter|].
  intros Hr. eapply (two_range_run M S q1 q2 q3); [intros L F1 F2 D; by apply (difference_body_ok L comp F1 F2 D)|done..].
Qed.
(** the elements of the list and of the vector, written to the deque *)
Lemma ex_sources : two_sources ex_M ex_S ex_list ex_vec ex_deq it1 it2 it3 it4 it5 0 3 1 3 1.
Proof.
  assert (forall a b c : iid, c <> a -> c <> b -> forall x, x ∈ [a; b] -> x ∉ [c]) as Hnin.
  { intros a b c H1 H2 x. rewrite !elem_of_cons, !elem_of_nil. intros [->|[->|[]]] [E|[]]; congruence. }
  refine (conj ex_ranges (conj ex_deq_ok (conj _ (conj _ (conj _ (conj _ (conj _ _))))))).
  - here. - done. - right. by apply Hnin. - by right. - right. by apply Hnin. - by right.
Qed.
Example C122_example : two_sources ex_M ex_S ex_list ex_vec ex_deq it1 it2 it3 it4 it5 0 3 1 3 1 /\
  sorted Nat.ltb (slice ex_list.2 0 3) /\ sorted Nat.ltb (slice ex_vec.2 1 3) /\ room ex_list ex_vec ex_deq 0 3 1 3 1 [20; 30] /\
  ends (run (cworld nat) 9 (set_intersection_by_p Nat.ltb it1 it2 it3 it4 it5 (Some (Some it5))) (ex_M, ex_S)) (2, Some it5) (<[it5 := PBlk true false 0 4%Z]> ex_S) /\
  (m_deq <$> after (run (cworld nat) 9 (set_intersection_by_p Nat.ltb it1 it2 it3 it4 it5 None) (ex_M, ex_S))) = Some [Deq [None; Some 20; Some 20; Some 30; None] 1 4 0 []] /\
  (m_deq <$> after (run (cworld nat) 9 (set_difference_by_p Nat.ltb it1 it2 it3 it4 it5 None) (ex_M, ex_S))) = Some [Deq [None; Some 20; Some 10; Some 8; None] 1 4 0 []].
Proof.
  split; [apply ex_sources|]. split; [apply ex_list_sorted|]. split; [apply ex_vec_sorted|].
  split. { split; [cbn; lia|]. split; intros E; discriminate E. }
  split; [vm_compute; by split|]. split; vm_compute; reflexivity.
Qed.

Print Assumptions C119_is_partitioned.
Print Assumptions C119_partition_point.
Print Assumptions C119_partition.
Print Assumptions C119_partition_copy_same.
Print Assumptions C119_partition_copy_apart.
Print Assumptions C120_lower_bound.
Print Assumptions C120_upper_bound.
Print Assumptions C120_equal_range.
Print Assumptions C120_binary_search.
Print Assumptions C120_sorted.
Print Assumptions C120_safe.
Print Assumptions C120_null_out.
Print Assumptions C121_elements.
Print Assumptions C121_elements_empty.
Print Assumptions C121_is_sorted.
Print Assumptions C121_is_sorted_until.
Print Assumptions C121_lexicographical_compare.
Print Assumptions C121_includes.
Print Assumptions C122_merge.
Print Assumptions C122_union.
Print Assumptions C122_intersection.
Print Assumptions C122_symmetric_difference.
Print Assumptions C122_difference.
