(** PropertiesIter.v — the algorithms run on iterator objects of real containers.

    Everywhere below: [M] is a memory with any number of lists, forward lists, vectors, deques and
    trees; [S] is the store of iterator objects of the caller; [q] is one of the containers read in one
    direction, with its positions and its elements [q.2] ([shown M q]); [range_in S q first last i j]
    says that the caller's iterators [first] and [last] stand at positions [i] <= [j] of it.
    [exec p (M, S) r (M', S')] says that the call returns [r] normally (no undefined behaviour, no failed
    assertion, no endless loop) and leaves memory [M'] and iterator objects [S']; the outcome is unique
    ([Iter.exec_det]).  [S' = S] says that the caller's iterators are where they were and that every
    iterator object the call allocated has been freed.
    [CK : Checked] says how pointer arithmetic is read: [true] (the C standard's reading) makes forming a
    pointer outside a block, even one that is never dereferenced, undefined behaviour; [false] tolerates
    it.  The theorems here hold for both, so these algorithms never step outside a block. *)
From stdpp Require Import list gmap.
From Verif Require Import Base Spec DList SpecList Slist SpecSlist Path Tree SpecTree Vector Deque VectorProofs DequeProofs
  Iter IterWorld SpecIter IterNonMod IterNonModLift PropertiesTree.
From stdpp Require Import list.

(** the examples run in the strict reading of pointer arithmetic *)
#[local] Instance checked_pointers : Checked := true.

(** ** An example memory *)
(** list 10 -> 20 -> 30 with sentinel 1 and nodes 5, 2, 9; forward list 4 -> 4 -> 7; a vector, a deque, and the
    tree of PropertiesTree.v with keys 2 3 4 5 8 *)
Definition ex_lheap : heap nat :=
  Heap (list_to_map [(1, 5); (5, 2); (2, 9); (9, 1)]%positive) (list_to_map [(5, 1); (2, 5); (9, 2); (1, 9)]%positive)
    (list_to_map [(1%positive, None); (5%positive, Some 10); (2%positive, Some 20); (9%positive, Some 30)]) [].
Definition ex_sheap : sheap nat :=
  SHeap (list_to_map [(1, 5); (5, 2); (2, 9); (9, 7)]%positive)
    (list_to_map [(1%positive, None); (7%positive, None); (5%positive, Some 4); (2%positive, Some 4); (9%positive, Some 7)]) [].
Definition ex_M : cmem nat :=
  CMem ex_lheap ex_sheap [Vec [Some 6; Some 20; Some 30; None] 3 0 []] [Deq [None; Some 20; Some 20; Some 8; None] 1 4 0 []] ex_tree.1.
Definition ex_list : cont * list cpos * list nat := (CList false 1, PList false <$> [5; 2; 9; 1]%positive, [10; 20; 30]).
Definition ex_rlist : cont * list cpos * list nat := (CList true 1, PList true <$> [1; 9; 2; 5]%positive, [30; 20; 10]).
Definition ex_slist : cont * list cpos * list nat := (CSlist (1, 7)%positive, PSlist <$> [5; 2; 9; 7]%positive, [4; 4; 7]).
Definition ex_vec : cont * list cpos * list nat := (CBlk false false 0, PBlk false false 0 <$> [0; 1; 2; 3]%Z, [6; 20; 30]).
Definition ex_deq : cont * list cpos * list nat := (CBlk true false 0, PBlk true false 0 <$> [1; 2; 3; 4]%Z, [20; 20; 8]).
Ltac nodup := unfold nodes, snodes; cbn [fmap list_fmap fst snd]; repeat (apply NoDup_cons_2; [rewrite ?elem_of_cons, ?elem_of_nil; naive_solver|]); apply NoDup_nil_2.
Lemma ex_list_ok : shown ex_M ex_list.
Proof.
  exists [(5%positive, 10); (2%positive, 20); (9%positive, 30)]. split; [|done]. split_and!; [nodup|done..|].
  by repeat constructor.
Qed.
Lemma ex_rlist_ok : shown ex_M ex_rlist.
Proof.
  exists [(5%positive, 10); (2%positive, 20); (9%positive, 30)]. split; [|done]. split_and!; [nodup|done..|].
  by repeat constructor.
Qed.
Lemma ex_slist_ok : shown ex_M ex_slist.
Proof.
  exists [(5%positive, 4); (2%positive, 4); (9%positive, 7)]. split; [|done]. split_and!; [nodup|done..|].
  by repeat constructor.
Qed.
Lemma ex_vec_ok : shown ex_M ex_vec.
Proof. eexists _, [6; 20; 30]. split_and!; [done| |done..]. by exists [None]. Qed.
Lemma ex_deq_ok : shown ex_M ex_deq.
Proof. eexists _, [20; 20; 8]. split_and!; [done| |done..]. by exists [None], [None]. Qed.
Lemma ex_set_ok : exists hd ps, shown ex_M (CTree false hd, ps, [2; 3; 4; 5; 8]).
Proof.
  destruct ex_tree_ok as (t&cs&_&HB&Hcs&_). exists (hdr t). eexists. exists cs. split; [apply HB|]. split; [reflexivity|]. by cbn.
Qed.
(** five iterator objects of the caller: 1-2 in the list, 3-4 in the vector, 5 in the deque *)
Definition ex_S : gmap iid cpos :=
  list_to_map [(1%positive, PList false 5); (2%positive, PList false 1); (3%positive, PBlk false false 0 1%Z);
    (4%positive, PBlk false false 0 3%Z); (5%positive, PBlk true false 0 2%Z)].
Definition it1 : iid := 1%positive.
Definition it2 : iid := 2%positive.
Definition it3 : iid := 3%positive.
Definition it4 : iid := 4%positive.
Definition it11 : iid := 11%positive.
Definition it5 : iid := 5%positive.
Global Instance cpos_eq_dec : EqDecision cpos.
Proof. solve_decision. Defined.
(** the run ends with this result and these iterator objects *)
Definition ends {R} (x : res (R * istate (cworld nat))) (r : R) (S : gmap iid cpos) : Prop :=
  match x with Ok (r', (_, S')) => r' = r /\ bool_decide ((S' : gmap iid cpos) = S) = true | _ => False end.
Ltac here := eexists; split; [reflexivity|reflexivity].

(** ** C112: questions about one range *)
Theorem C112_all_of : forall A {CK : Checked} `{Inhabited A} M S (q : cont * list cpos * list A) first last i j pred,
  shown M q -> range_in S q first last i j ->
  exists b, exec (cworld A) (all_of_p first last pred) (M, S) b (M, S) /\
    (b = true <-> forall x, x ∈ slice q.2 i j -> pred x = true).
Proof. intros. by apply all_of_run. Qed.
Theorem C112_any_of : forall A {CK : Checked} `{Inhabited A} M S (q : cont * list cpos * list A) first last i j pred,
  shown M q -> range_in S q first last i j ->
  exists b, exec (cworld A) (any_of_p first last pred) (M, S) b (M, S) /\
    (b = true <-> exists x, x ∈ slice q.2 i j /\ pred x = true).
Proof. intros. by apply any_of_run. Qed.
Theorem C112_none_of : forall A {CK : Checked} `{Inhabited A} M S (q : cont * list cpos * list A) first last i j pred,
  shown M q -> range_in S q first last i j ->
  exists b, exec (cworld A) (none_of_p first last pred) (M, S) b (M, S) /\
    (b = true <-> forall x, x ∈ slice q.2 i j -> pred x = false).
Proof. intros. by apply none_of_run. Qed.
Theorem C112_count_if : forall A {CK : Checked} `{Inhabited A} M S (q : cont * list cpos * list A) first last i j pred,
  shown M q -> range_in S q first last i j ->
  exec (cworld A) (count_if_p first last pred) (M, S) (length (List.filter pred (slice q.2 i j))) (M, S).
Proof. intros. by apply count_if_run. Qed.
Theorem C112_count : forall A {CK : Checked} `{Inhabited A} M S (q : cont * list cpos * list A) (eqf : A -> A -> bool) first last i j value,
  shown M q -> range_in S q first last i j ->
  exec (cworld A) (count_p eqf first last value) (M, S) (length (List.filter (fun x => eqf x value) (slice q.2 i j))) (M, S).
Proof. intros. by apply count_run. Qed.
Example C112_example : shown ex_M ex_list /\ range_in ex_S ex_list it1 it2 0 3 /\ shown ex_M ex_vec /\ range_in ex_S ex_vec it3 it4 1 3 /\
  ends (run (cworld nat) 9 (count_if_p it1 it2 (fun x => 15 <? x)) (ex_M, ex_S)) 2 ex_S /\
  ends (run (cworld nat) 9 (all_of_p it3 it4 (fun x => 15 <? x)) (ex_M, ex_S)) true ex_S.
Proof.
  split; [apply ex_list_ok|]. split; [split_and!; [here|here|lia]|]. split; [apply ex_vec_ok|].
  split; [split_and!; [here|here|lia]|]. split; vm_compute; by split.
Qed.

(** ** C113: searches *)
Theorem C113_find_if : forall A {CK : Checked} `{Inhabited A} M S (q : cont * list cpos * list A) first last i j o pred,
  shown M q -> range_in S q first last i j -> out_ok S q o ->
  exists b k v S', exec (cworld A) (find_if_p first last o pred) (M, S) (b, v) (M, S') /\
    first_position i j (cell q.2 pred) (b, k) /\ stored q o k S v S'.
Proof. intros. by apply find_if_run. Qed.
Theorem C113_find_if_not : forall A {CK : Checked} `{Inhabited A} M S (q : cont * list cpos * list A) first last i j o pred,
  shown M q -> range_in S q first last i j -> out_ok S q o ->
  exists b k v S', exec (cworld A) (find_if_not_p first last o pred) (M, S) (b, v) (M, S') /\
    first_position i j (cell q.2 (fun x => negb (pred x))) (b, k) /\ stored q o k S v S'.
Proof. intros. by apply find_if_not_run. Qed.
Theorem C113_find_by : forall A {CK : Checked} `{Inhabited A} M S (q : cont * list cpos * list A) first last i j o value pred,
  shown M q -> range_in S q first last i j -> out_ok S q o ->
  exists b k v S', exec (cworld A) (find_by_p first last o value pred) (M, S) (b, v) (M, S') /\
    first_position i j (cell q.2 (fun x => pred x value)) (b, k) /\ stored q o k S v S'.
Proof. intros. by apply find_by_run. Qed.
Theorem C113_adjacent_find_by : forall A {CK : Checked} `{Inhabited A} M S (q : cont * list cpos * list A) first last i j o pred,
  shown M q -> range_in S q first last i j -> out_ok S q o ->
  exists b k v S', exec (cworld A) (adjacent_find_by_p first last o pred) (M, S) (b, v) (M, S') /\
    first_position i j (adjacent_at q.2 pred j) (b, k) /\ stored q o k S v S'.
Proof. intros. by apply adjacent_find_by_run. Qed.
Theorem C113_search_n_by : forall A {CK : Checked} `{Inhabited A} M S (q : cont * list cpos * list A) first last i j n value o pred,
  shown M q -> range_in S q first last i j -> out_ok S q o ->
  exists b k v S', exec (cworld A) (search_n_by_p first last n value o pred) (M, S) (b, v) (M, S') /\
    first_position i j (fun k => 0 < n /\ run_at q.2 pred value j n k) (b, k) /\ stored q o k S v S'.
Proof. intros. by apply search_n_by_run. Qed.
Theorem C113_search_last_n_by : forall A {CK : Checked} `{Inhabited A} M S (q : cont * list cpos * list A) first last i j n value o pred,
  shown M q -> range_in S q first last i j -> out_ok S q o ->
  exists b k v S', exec (cworld A) (search_last_n_by_p first last n value o pred) (M, S) (b, v) (M, S') /\
    last_position i j (fun k => 0 < n /\ run_at q.2 pred value j n k) (b, k) /\ stored q o k S v S'.
Proof. intros. by apply search_last_n_by_run. Qed.
Theorem C113_find_first_of_by : forall A {CK : Checked} `{Inhabited A} M S (q1 q2 : cont * list cpos * list A) first last s_first s_last i j a c o pred,
  shown M q1 -> shown M q2 -> range_in S q1 first last i j -> range_in S q2 s_first s_last a c ->
  unmixed q1 [first; last] q2 [s_first; s_last] -> out_ok S q1 o ->
  exists b k v S', exec (cworld A) (find_first_of_by_p first last s_first s_last o pred) (M, S) (b, v) (M, S') /\
    first_position i j (matches_one_of q1.2 pred (slice q2.2 a c)) (b, k) /\ stored q1 o k S v S'.
Proof. intros. by eapply find_first_of_by_run. Qed.
Theorem C113_find_last_of_by : forall A {CK : Checked} `{Inhabited A} M S (q1 q2 : cont * list cpos * list A) first last s_first s_last i j a c o pred,
  shown M q1 -> shown M q2 -> range_in S q1 first last i j -> range_in S q2 s_first s_last a c ->
  unmixed q1 [first; last] q2 [s_first; s_last] -> out_ok S q1 o ->
  exists b k v S', exec (cworld A) (find_last_of_by_p first last s_first s_last o pred) (M, S) (b, v) (M, S') /\
    last_position i j (matches_one_of q1.2 pred (slice q2.2 a c)) (b, k) /\ stored q1 o k S v S'.
Proof. intros. by eapply find_last_of_by_run. Qed.
Theorem C113_search_by : forall A {CK : Checked} `{Inhabited A} M S (q1 q2 : cont * list cpos * list A) first last s_first s_last i j a c o pred,
  shown M q1 -> shown M q2 -> range_in S q1 first last i j -> range_in S q2 s_first s_last a c ->
  unmixed q1 [first; last] q2 [s_first; s_last] -> out_ok S q1 o ->
  exists b k v S', exec (cworld A) (search_by_p first last s_first s_last o pred) (M, S) (b, v) (M, S') /\
    first_position i j (pattern_at q1.2 pred j (slice q2.2 a c)) (b, k) /\ stored q1 o k S v S'.
Proof. intros. by eapply search_by_run. Qed.
Theorem C113_search_last_by : forall A {CK : Checked} `{Inhabited A} M S (q1 q2 : cont * list cpos * list A) first last s_first s_last i j a c o pred,
  shown M q1 -> shown M q2 -> range_in S q1 first last i j -> range_in S q2 s_first s_last a c ->
  unmixed q1 [first; last] q2 [s_first; s_last] -> out_ok S q1 o ->
  exists b k v S', exec (cworld A) (search_last_by_p first last s_first s_last o pred) (M, S) (b, v) (M, S') /\
    last_position i j (pattern_at q1.2 pred j (slice q2.2 a c)) (b, k) /\ stored q1 o k S v S'.
Proof. intros. by eapply search_last_by_run. Qed.
(** the pattern 20, 30 of the vector is found at position 1 of the list (node 2); the result goes into the caller's
    iterator object 1 itself, into a new object, or nowhere *)
Example C113_example : shown ex_M ex_list /\ shown ex_M ex_vec /\ range_in ex_S ex_list it1 it2 0 3 /\ range_in ex_S ex_vec it3 it4 1 3 /\
  unmixed ex_list [it1; it2] ex_vec [it3; it4] /\ out_ok ex_S ex_list (Some (Some it1)) /\
  ends (run (cworld nat) 9 (search_by_p it1 it2 it3 it4 (Some (Some it1)) Nat.eqb) (ex_M, ex_S))
    (true, Some it1) (<[it1 := PList false 2]> ex_S) /\
  ends (run (cworld nat) 9 (search_by_p it1 it2 it3 it4 None Nat.eqb) (ex_M, ex_S)) (true, None) ex_S.
Proof.
  split; [apply ex_list_ok|]. split; [apply ex_vec_ok|]. split; [split_and!; [here|here|lia]|].
  split; [split_and!; [here|here|lia]|]. split; [right; intros x; rewrite !elem_of_cons, !elem_of_nil; naive_solver|].
  split; [by eexists|]. split; vm_compute; by split.
Qed.

(** ** C114: comparing two ranges *)
Theorem C114_equal_by : forall A {CK : Checked} `{Inhabited A} M S (q1 q2 : cont * list cpos * list A) first1 last1 first2 i j a pred,
  shown M q1 -> shown M q2 -> range_in S q1 first1 last1 i j ->
  at_pos S q2 first2 a -> a + (j - i) <= length q2.2 -> unmixed q1 [first1; last1] q2 [first2] ->
  exists b, exec (cworld A) (equal_by_p first1 last1 first2 pred) (M, S) b (M, S) /\
    (b = true <-> forall d, d < j - i -> exists x y, q1.2 !! (i + d) = Some x /\ q2.2 !! (a + d) = Some y /\ pred x y = true).
Proof. intros. by apply equal_by_run. Qed.
Theorem C114_mismatch_by : forall A {CK : Checked} `{Inhabited A} M S (q1 q2 : cont * list cpos * list A) first1 last1 first2 i j a o1 o2 pred,
  shown M q1 -> shown M q2 -> range_in S q1 first1 last1 i j ->
  at_pos S q2 first2 a -> a + (j - i) <= length q2.2 -> unmixed q1 [first1; last1] q2 [first2] -> out_ok S q1 o1 -> out_ok S q2 o2 ->
  exists b k v1 v2 S1 S', exec (cworld A) (mismatch_by_p first1 last1 first2 o1 o2 pred) (M, S) (b, v1, v2) (M, S') /\
    first_position i j (fun k => exists x y, q1.2 !! k = Some x /\ q2.2 !! (a + (k - i)) = Some y /\ pred x y = false) (b, k) /\
    stored q1 o1 k S v1 S1 /\ stored q2 o2 (a + (k - i)) S1 v2 S'.
Proof. intros. by apply mismatch_by_run. Qed.
Example C114_example : shown ex_M ex_vec /\ shown ex_M ex_deq /\ range_in ex_S ex_vec it3 it4 1 3 /\ at_pos ex_S ex_deq it5 1 /\
  unmixed ex_vec [it3; it4] ex_deq [it5] /\
  ends (run (cworld nat) 9 (mismatch_by_p it3 it4 it5 (Some None) (Some (Some it5)) Nat.eqb) (ex_M, ex_S))
    (true, Some it11, Some it5) (<[it5 := PBlk true false 0 3%Z]> (<[it11 := PBlk false false 0 2%Z]> ex_S)).
Proof.
  split; [apply ex_vec_ok|]. split; [apply ex_deq_ok|]. split; [split_and!; [here|here|lia]|]. split; [here|].
  split; [right; intros x; rewrite !elem_of_cons, !elem_of_nil; naive_solver|]. vm_compute. by split.
Qed.

(** ** C115: visiting elements *)
(** the operation with its effect on the element: unchanged when it returns [None] *)
Definition effect {A St} (op : St -> A -> St * option A) (st : St) (x : A) : St * A := ((op st x).1, default x (op st x).2).
Theorem C115_for_each : forall A {CK : Checked} `{Inhabited A} St M S (q : cont * list cpos * list A) first last i j (op : St -> A -> St * option A) st,
  shown M q -> range_in S q first last i j -> mutable q.1.1 = true \/ (forall st x, (op st x).2 = None) ->
  exists M', exec (cworld A) (for_each_p first last op st) (M, S) ((visit (effect op) st (slice q.2 i j)).2, j - i) (M', S) /\
    becomes M [(q, patch q.2 i (visit (effect op) st (slice q.2 i j)).1)] M'.
Proof. intros. by apply (for_each_run M S q first last i j op st). Qed.
Theorem C115_for_each_n : forall A {CK : Checked} `{Inhabited A} St M S (q : cont * list cpos * list A) first i n o (op : St -> A -> St * option A) st,
  shown M q -> at_pos S q first i -> i + n <= length q.2 -> out_ok S q o ->
  mutable q.1.1 = true \/ (forall st x, (op st x).2 = None) ->
  exists v M' S', exec (cworld A) (for_each_n_p first n o op st) (M, S) ((visit (effect op) st (slice q.2 i (i + n))).2, v) (M', S') /\
    becomes M [(q, patch q.2 i (visit (effect op) st (slice q.2 i (i + n))).1)] M' /\ stored q o (i + n) S v S'.
Proof. intros. by apply (for_each_n_run M S q first i n o op st). Qed.
Example C115_example : shown ex_M ex_list /\ range_in ex_S ex_list it1 it2 0 3 /\ mutable ex_list.1.1 = true /\
  match run (cworld nat) 9 (for_each_p it1 it2 (fun n x => (n + x, if x =? 20 then None else Some (x + n))) 1) (ex_M, ex_S) with
  | Ok (r, (M', S')) => r = (61, 3) /\ bool_decide ((S' : gmap iid cpos) = ex_S) = true /\ m_vec M' = m_vec ex_M /\
      vl (m_list M') !! 5%positive = Some (Some 11) /\ vl (m_list M') !! 2%positive = Some (Some 20) /\
      vl (m_list M') !! 9%positive = Some (Some 61)
  | _ => False end.
Proof.
  split; [apply ex_list_ok|]. split; [split_and!; [here|here|lia]|]. split; [done|]. vm_compute. split_and!; reflexivity.
Qed.

Print Assumptions C112_all_of.
Print Assumptions C112_any_of.
Print Assumptions C112_none_of.
Print Assumptions C112_count_if.
Print Assumptions C112_count.
Print Assumptions C113_find_if.
Print Assumptions C113_find_if_not.
Print Assumptions C113_find_by.
Print Assumptions C113_adjacent_find_by.
Print Assumptions C113_search_n_by.
Print Assumptions C113_search_last_n_by.
Print Assumptions C113_find_first_of_by.
Print Assumptions C113_find_last_of_by.
Print Assumptions C113_search_by.
Print Assumptions C113_search_last_by.
Print Assumptions C114_equal_by.
Print Assumptions C114_mismatch_by.
Print Assumptions C115_for_each.
Print Assumptions C115_for_each_n.
