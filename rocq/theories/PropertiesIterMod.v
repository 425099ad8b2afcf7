(** PropertiesIterMod.v — c_modifying.c run on iterator objects of real containers.

    The conventions are those of PropertiesIter.v.  [source_dest M S q1 q2 first last d_first i j d]: the caller's
    iterators [first], [last] delimit the positions [\[i, j)] of container [q1] and [d_first] stands at position [d] of
    container [q2], whose elements may be overwritten; the two may be the same container.
    [own_range M S q first last i j]: the same for one range of a container whose elements may be overwritten.
    [changes M S q d l p v]: the call [p] returns [v], the elements of [q] from [d] on have become [l], every other
    container and all iterator objects are unchanged.  [changes_out ... o ... k ...]: moreover the position [k] of [q]
    is stored through the out parameter [o]; every other iterator object is unchanged. *)
From stdpp Require Import list gmap.
From Verif Require Import Base Spec DList SpecList Slist SpecSlist Path Tree SpecTree Vector Deque VectorProofs DequeProofs
  Iter IterWorld SpecIter IterNonMod IterMod IterModLift PropertiesTree PropertiesIter.
From stdpp Require Import list.

(** ** C116: copying *)
(** the examples run in the strict reading of pointer arithmetic *)
#[local] Existing Instance checked_pointers.
Theorem C116_copy : forall A {CK : Checked} `{Inhabited A} M S (q1 q2 : cont * list cpos * list A) first last d_first o i j d,
  source_dest M S q1 q2 first last d_first i j d -> out_ok S q2 o -> d + (j - i) <= length q2.2 -> (q1 = q2 -> d <= i \/ j <= d) ->
  changes_out M S q2 o d (slice q1.2 i j) (d + (j - i)) (copy_p first last d_first o) (j - i).
Proof. intros. by apply copy_run. Qed.
Theorem C116_replace_copy : forall A {CK : Checked} `{Inhabited A} M S (q1 q2 : cont * list cpos * list A) (eqf : A -> A -> bool) old new first last d_first o i j d,
  source_dest M S q1 q2 first last d_first i j d -> out_ok S q2 o -> d + (j - i) <= length q2.2 -> (q1 = q2 -> d <= i \/ j <= d) ->
  changes_out M S q2 o d (map (fun x => if eqf x old then new else x) (slice q1.2 i j)) (d + (j - i)) (replace_copy_p eqf first last d_first old new o) (j - i).
Proof. intros. by apply replace_copy_run. Qed.
Theorem C116_replace_copy_if : forall A {CK : Checked} `{Inhabited A} M S (q1 q2 : cont * list cpos * list A) (pred : A -> bool) new first last d_first o i j d,
  source_dest M S q1 q2 first last d_first i j d -> out_ok S q2 o -> d + (j - i) <= length q2.2 -> (q1 = q2 -> d <= i \/ j <= d) ->
  changes_out M S q2 o d (map (fun x => if pred x then new else x) (slice q1.2 i j)) (d + (j - i)) (replace_copy_if_p first last d_first pred new o) (j - i).
Proof. intros. by apply replace_copy_if_run. Qed.
Theorem C116_copy_if : forall A {CK : Checked} `{Inhabited A} M S (q1 q2 : cont * list cpos * list A) (pred : A -> bool) first last d_first o i j d,
  source_dest M S q1 q2 first last d_first i j d -> out_ok S q2 o ->
  let kept := List.filter pred (slice q1.2 i j) in
  d + length kept <= length q2.2 -> (q1 = q2 -> d <= i \/ j <= d) ->
  changes_out M S q2 o d kept (d + length kept) (copy_if_p first last d_first o pred) (length kept).
Proof. intros. by apply copy_if_run. Qed.
Theorem C116_remove_copy : forall A {CK : Checked} `{Inhabited A} M S (q1 q2 : cont * list cpos * list A) (eqf : A -> A -> bool) value first last d_first o i j d,
  source_dest M S q1 q2 first last d_first i j d -> out_ok S q2 o ->
  let kept := List.filter (fun x => negb (eqf x value)) (slice q1.2 i j) in
  d + length kept <= length q2.2 -> (q1 = q2 -> d <= i \/ j <= d) ->
  changes_out M S q2 o d kept (d + length kept) (remove_copy_p eqf first last d_first value o) (length kept).
Proof. intros. by apply remove_copy_run. Qed.
Theorem C116_remove_copy_if : forall A {CK : Checked} `{Inhabited A} M S (q1 q2 : cont * list cpos * list A) (pred : A -> bool) first last d_first o i j d,
  source_dest M S q1 q2 first last d_first i j d -> out_ok S q2 o ->
  let kept := List.filter (fun x => negb (pred x)) (slice q1.2 i j) in
  d + length kept <= length q2.2 -> (q1 = q2 -> d <= i \/ j <= d) ->
  changes_out M S q2 o d kept (d + length kept) (remove_copy_if_p first last d_first o pred) (length kept).
Proof. intros. by apply remove_copy_if_run. Qed.
Theorem C116_transform : forall A {CK : Checked} `{Inhabited A} M S (q1 q2 : cont * list cpos * list A) (op : A -> A) first last d_first i j d,
  source_dest M S q1 q2 first last d_first i j d -> d + (j - i) <= length q2.2 -> (q1 = q2 -> d <= i \/ j <= d) ->
  changes M S q2 d (map op (slice q1.2 i j)) (transform_p first last d_first op) (j - i).
Proof. intros. by apply (transform_run M S q1 q2). Qed.
Theorem C116_copy_backward : forall A {CK : Checked} `{Inhabited A} M S (q1 q2 : cont * list cpos * list A) first last d_last o i j d,
  source_dest M S q1 q2 first last d_last i j d -> out_ok S q2 o -> BIDIRECTION <= cat_of q1.1.1 -> BIDIRECTION <= cat_of q2.1.1 ->
  j - i <= d -> (q1 = q2 -> j <= d \/ d <= i) ->
  changes_out M S q2 o (d - (j - i)) (slice q1.2 i j) (d - (j - i)) (copy_backward_p first last d_last o) (j - i).
Proof. intros. by apply copy_backward_run. Qed.
Theorem C116_reverse_copy : forall A {CK : Checked} `{Inhabited A} M S (q1 q2 : cont * list cpos * list A) first last d_first o i j d,
  source_dest M S q1 q2 first last d_first i j d -> out_ok S q2 o -> BIDIRECTION <= cat_of q1.1.1 ->
  d + (j - i) <= length q2.2 -> (q1 = q2 -> d + (j - i) <= i \/ j <= d) ->
  changes_out M S q2 o d (rev (slice q1.2 i j)) (d + (j - i)) (reverse_copy_p first last d_first o) (j - i).
Proof. intros. by apply reverse_copy_run. Qed.
Theorem C116_rotate_copy : forall A {CK : Checked} `{Inhabited A} M S (q1 q2 : cont * list cpos * list A) first n_first last d_first o i nf j d,
  source_dest M S q1 q2 first last d_first i j d -> out_ok S q2 o ->
  at_pos S q1 n_first nf -> i <= nf <= j -> unmixed q1 [first; last; n_first] q2 [d_first] ->
  d + (j - i) <= length q2.2 -> (q1 = q2 -> d + (j - i) <= i \/ j <= d) ->
  changes_out M S q2 o d (slice q1.2 nf j ++ slice q1.2 i nf) (d + (j - i)) (rotate_copy_p first n_first last d_first o) (j - i).
Proof. intros. by apply rotate_copy_run. Qed.
Theorem C116_unique_copy_by : forall A {CK : Checked} `{Inhabited A} M S (q1 q2 : cont * list cpos * list A) (pred : A -> A -> bool) first last d_first o i j d,
  source_dest M S q1 q2 first last d_first i j d -> out_ok S q2 o -> o <> None ->
  let kept := unique_spec pred (slice q1.2 i j) in
  d + length kept <= length q2.2 -> (q1 = q2 -> d <= i \/ j <= d) ->
  changes_out M S q2 o d kept (d + length kept) (unique_copy_by_p first last d_first o pred) (length kept).
Proof. intros. by apply unique_copy_by_run. Qed.
(** with a null out parameter unique_copy alone does nothing *)
Theorem C116_unique_copy_by_null : forall A {CK : Checked} M S first last d_first (pred : A -> A -> bool),
  exec (cworld A) (unique_copy_by_p first last d_first None pred) (M, S) (0, None) (M, S).
Proof. intros. by exists 1. Qed.
(** what is left of memory after a run *)
Definition after {R} (x : res (R * istate (cworld nat))) : option (cmem nat) := match x with Ok (_, (M', _)) => Some M' | _ => None end.
(** copying two elements of the vector over the list, and part of the deque over itself; the set as a source *)
Definition ex_S2 : gmap iid cpos := <[6%positive := PList false 2]> (<[7%positive := PBlk true false 0 4%Z]> (<[8%positive := PBlk true false 0 1%Z]> ex_S)).
Example C116_example : source_dest ex_M ex_S2 ex_vec ex_list it3 it4 6%positive 1 3 1 /\ out_ok ex_S2 ex_list (Some None) /\ 1 + (3 - 1) <= length ex_list.2 /\
  ends (run (cworld nat) 9 (copy_p it3 it4 6%positive (Some None)) (ex_M, ex_S2)) (2, Some 12%positive) (<[12%positive := PList false 1]> ex_S2) /\
  ((fun M' => bool_decide (vl (m_list M') = (<[2%positive := Some 25]> (<[9%positive := Some 35]> (vl ex_lheap))))) <$> after (run (cworld nat) 9 (transform_p it3 it4 6%positive (fun x => x + 5)) (ex_M, ex_S2))) = Some true /\
  (** overlapping, downwards *)
  source_dest ex_M ex_S2 ex_deq ex_deq it5 7%positive 8%positive 1 3 0 /\
  ends (run (cworld nat) 9 (copy_p it5 7%positive 8%positive (Some (Some it5))) (ex_M, ex_S2)) (2, Some it5) (<[it5 := PBlk true false 0 3%Z]> ex_S2) /\
  (m_deq <$> after (run (cworld nat) 9 (copy_p it5 7%positive 8%positive (Some (Some it5))) (ex_M, ex_S2))) = Some [Deq [None; Some 20; Some 8; Some 8; None] 1 4 0 []].
Proof.
  assert (forall a b c : iid, c <> a -> c <> b -> forall x, x ∈ [a; b] -> x ∉ [c]) as Hnin.
  { intros a b c H1 H2 x. rewrite !elem_of_cons, !elem_of_nil. intros [->|[->|[]]] [E|[]]; congruence. }
  split. { refine (conj ex_vec_ok (conj ex_list_ok (conj (conj _ (conj _ _)) (conj _ (conj _ (conj _ _)))))); [here|here|lia|here|right; by apply Hnin|done|by right]. }
  split; [done|]. split; [cbn; lia|]. split; [vm_compute; by split|]. split; [vm_compute; reflexivity|].
  split. { refine (conj ex_deq_ok (conj ex_deq_ok (conj (conj _ (conj _ _)) (conj _ (conj _ (conj _ _)))))); [here|here|lia|here|by left|done|by left]. }
  split; [vm_compute; by split|]. vm_compute; reflexivity.
Qed.

(** ** C117: filling, replacing, removing *)
Theorem C117_fill : forall A {CK : Checked} `{Inhabited A} M S (q : cont * list cpos * list A) first last i j value,
  own_range M S q first last i j ->
  changes M S q i (replicate (j - i) value) (fill_p first last value) (j - i).
Proof. intros. by apply fill_run. Qed.
Theorem C117_fill_n : forall A {CK : Checked} `{Inhabited A} M S (q : cont * list cpos * list A) first i n value o,
  shown M q -> at_pos S q first i -> i + n <= length q.2 -> mutable q.1.1 = true -> out_ok S q o ->
  changes_o M S q o i (replicate n value) (i + n) (fill_n_p first n value o).
Proof. intros. by apply fill_n_run. Qed.
Theorem C117_generate : forall A {CK : Checked} `{Inhabited A} M S St (q : cont * list cpos * list A) first last i j (gen : St -> St * A) st,
  own_range M S q first last i j ->
  changes M S q i (generated gen st (j - i)).1 (generate_p first last gen st) ((generated gen st (j - i)).2, j - i).
Proof. intros. by apply generate_run. Qed.
Theorem C117_generate_n : forall A {CK : Checked} `{Inhabited A} M S St (q : cont * list cpos * list A) first i n (gen : St -> St * A) o st,
  shown M q -> at_pos S q first i -> i + n <= length q.2 -> mutable q.1.1 = true -> out_ok S q o ->
  changes_out M S q o i (generated gen st n).1 (i + n) (generate_n_p first n gen o st) (generated gen st n).2.
Proof. intros. by apply generate_n_run. Qed.
Theorem C117_replace_if : forall A {CK : Checked} `{Inhabited A} M S (q : cont * list cpos * list A) first last i j (pred : A -> bool) new,
  own_range M S q first last i j ->
  changes M S q i (map (fun x => if pred x then new else x) (slice q.2 i j)) (replace_if_p first last pred new)
    (length (List.filter pred (slice q.2 i j))).
Proof. intros. by apply replace_if_run. Qed.
Theorem C117_replace : forall A {CK : Checked} `{Inhabited A} M S (q : cont * list cpos * list A) (eqf : A -> A -> bool) first last i j old new,
  own_range M S q first last i j ->
  changes M S q i (map (fun x => if eqf x old then new else x) (slice q.2 i j)) (replace_p eqf first last old new)
    (length (List.filter (fun x => eqf x old) (slice q.2 i j))).
Proof. intros. by apply replace_run. Qed.
Theorem C117_remove_if : forall A {CK : Checked} `{Inhabited A} M S (q : cont * list cpos * list A) first last i j o (pred : A -> bool),
  own_range M S q first last i j -> out_ok S q o ->
  let kept := List.filter (fun x => negb (pred x)) (slice q.2 i j) in
  changes_out M S q o i kept (i + length kept) (remove_if_p first last o pred) (length (List.filter pred (slice q.2 i j))).
Proof. intros. by apply remove_if_run. Qed.
Theorem C117_remove : forall A {CK : Checked} `{Inhabited A} M S (q : cont * list cpos * list A) (eqf : A -> A -> bool) first last i j o value,
  own_range M S q first last i j -> out_ok S q o ->
  let kept := List.filter (fun x => negb (eqf x value)) (slice q.2 i j) in
  changes_out M S q o i kept (i + length kept) (remove_p eqf first last value o) (length (List.filter (fun x => eqf x value) (slice q.2 i j))).
Proof. intros. by apply remove_run. Qed.
Theorem C117_unique_by : forall A {CK : Checked} `{Inhabited A} M S (q : cont * list cpos * list A) first last i j o (pred : A -> A -> bool),
  own_range M S q first last i j -> out_ok S q o ->
  let kept := unique_spec pred (slice q.2 i j) in
  changes_out M S q o i kept (i + length kept) (unique_by_p first last o pred) (length kept).
Proof. intros. by apply unique_by_run. Qed.
(** removing the 4s of the forward list and the 20s of the list *)
Definition ex_S3 : gmap iid cpos := <[6%positive := PSlist 5]> (<[7%positive := PSlist 7]> ex_S).
Example C117_example : own_range ex_M ex_S3 ex_slist 6%positive 7%positive 0 3 /\ own_range ex_M ex_S3 ex_list it1 it2 0 3 /\
  ends (run (cworld nat) 9 (remove_p Nat.eqb 6%positive 7%positive 4 (Some (Some 6%positive))) (ex_M, ex_S3)) (2, Some 6%positive) (<[6%positive := PSlist 2]> ex_S3) /\
  ((fun M' => bool_decide (svl (m_slist M') = (<[5%positive := Some 7]> (svl ex_sheap)))) <$> after (run (cworld nat) 9 (remove_p Nat.eqb 6%positive 7%positive 4 None) (ex_M, ex_S3))) = Some true /\
  ends (run (cworld nat) 9 (remove_p Nat.eqb it1 it2 20 None) (ex_M, ex_S3)) (1, None) ex_S3 /\
  ((fun M' => bool_decide (vl (m_list M') = (<[2%positive := Some 30]> (vl ex_lheap)))) <$> after (run (cworld nat) 9 (remove_p Nat.eqb it1 it2 20 None) (ex_M, ex_S3))) = Some true.
Proof.
  split. { refine (conj ex_slist_ok (conj (conj _ (conj _ _)) _)); [here|here|lia|done]. }
  split. { refine (conj ex_list_ok (conj (conj _ (conj _ _)) _)); [here|here|lia|done]. }
  split; [vm_compute; by split|]. split; [vm_compute; reflexivity|]. split; [vm_compute; by split|]. vm_compute; reflexivity.
Qed.

(** ** C118: reversing, rotating, shuffling, swapping *)
Theorem C118_reverse : forall A {CK : Checked} `{Inhabited A} M S (q : cont * list cpos * list A) first last i j,
  own_range M S q first last i j -> BIDIRECTION <= cat_of q.1.1 ->
  changes M S q i (rev (slice q.2 i j)) (reverse_p first last) (j - i).
Proof. intros. by apply reverse_run. Qed.
Theorem C118_rotate : forall A {CK : Checked} `{Inhabited A} M S (q : cont * list cpos * list A) first n_first last i nf j o,
  own_range M S q first last i j -> at_pos S q n_first nf -> i <= nf <= j -> out_ok S q o ->
  changes_o M S q o i (slice q.2 nf j ++ slice q.2 i nf) (i + (j - nf)) (rotate_p first n_first last o).
Proof. intros. by apply rotate_run. Qed.
Theorem C118_shuffle : forall A {CK : Checked} `{Inhabited A} M S (q : cont * list cpos * list A) first last i j (r : nat -> nat),
  own_range M S q first last i j -> cat_of q.1.1 = RANDOM -> (forall k, 0 < k < j - i -> r k <= k) ->
  exists l, Permutation (slice q.2 i j) l /\ changes M S q i l (random_shuffle_by_p first last r) tt.
Proof. intros. by apply shuffle_run. Qed.
Theorem C118_swap_range_apart : forall A {CK : Checked} `{Inhabited A} M S (q1 q2 : cont * list cpos * list A) first1 last1 first2 i j d,
  own_range M S q1 first1 last1 i j -> shown M q2 -> at_pos S q2 first2 d ->
  mutable q2.1.1 = true -> obj_of q1.1.1 <> obj_of q2.1.1 -> unmixed q1 [first1; last1] q2 [first2] -> d + (j - i) <= length q2.2 ->
  exists M', exec (cworld A) (swap_range_p first1 last1 first2) (M, S) (j - i) (M', S) /\
    becomes M [(q1, patch q1.2 i (slice q2.2 d (d + (j - i)))); (q2, patch q2.2 d (slice q1.2 i j))] M'.
Proof. intros. by apply swap_range_apart_run. Qed.
Theorem C118_swap_range_same : forall A {CK : Checked} `{Inhabited A} M S (q : cont * list cpos * list A) first1 last1 first2 i j d,
  own_range M S q first1 last1 i j -> at_pos S q first2 d ->
  d + (j - i) <= length q.2 -> (j <= d \/ d + (j - i) <= i) ->
  exists M', exec (cworld A) (swap_range_p first1 last1 first2) (M, S) (j - i) (M', S) /\
    becomes M [(q, patch (patch q.2 i (slice q.2 d (d + (j - i)))) d (slice q.2 i j))] M'.
Proof. intros. by apply swap_range_same_run. Qed.
Theorem C118_iter_swap_apart : forall A {CK : Checked} `{Inhabited A} M S (q1 q2 : cont * list cpos * list A) x y i d vx vy,
  shown M q1 -> shown M q2 -> at_pos S q1 x i -> at_pos S q2 y d ->
  mutable q1.1.1 = true -> mutable q2.1.1 = true -> obj_of q1.1.1 <> obj_of q2.1.1 -> x <> y -> q1.2 !! i = Some vx -> q2.2 !! d = Some vy ->
  exists M', exec (cworld A) (iter_swap_p x y) (M, S) tt (M', S) /\ becomes M [(q1, <[i := vy]> q1.2); (q2, <[d := vx]> q2.2)] M'.
Proof. intros. by apply iter_swap_apart_run. Qed.
Theorem C118_iter_swap_same : forall A {CK : Checked} `{Inhabited A} M S (q : cont * list cpos * list A) x y i d vx vy,
  shown M q -> at_pos S q x i -> at_pos S q y d ->
  mutable q.1.1 = true -> q.2 !! i = Some vx -> q.2 !! d = Some vy ->
  exists M', exec (cworld A) (iter_swap_p x y) (M, S) tt (M', S) /\ becomes M [(q, <[d := vx]> (<[i := vy]> q.2))] M'.
Proof. intros. by apply iter_swap_same_run. Qed.
Example C118_example : own_range ex_M ex_S2 ex_list it1 it2 0 3 /\ at_pos ex_S2 ex_list 6%positive 1 /\
  ends (run (cworld nat) 9 (rotate_p it1 6%positive it2 (Some None)) (ex_M, ex_S2)) (Some 13%positive) (<[13%positive := PList false 9]> ex_S2) /\
  ((fun M' => bool_decide (vl (m_list M') = (<[5%positive := Some 20]> (<[2%positive := Some 30]> (<[9%positive := Some 10]> (vl ex_lheap)))))) <$> after (run (cworld nat) 9 (rotate_p it1 6%positive it2 None) (ex_M, ex_S2))) = Some true /\
  own_range ex_M ex_S2 ex_vec it3 it4 1 3 /\ cat_of ex_vec.1.1 = RANDOM /\
  (m_vec <$> after (run (cworld nat) 9 (random_shuffle_by_p it3 it4 (fun _ => 0)) (ex_M, ex_S2))) = Some [Vec [Some 6; Some 30; Some 20; None] 3 0 []] /\
  at_pos ex_S2 ex_deq it5 1 /\
  match run (cworld nat) 9 (swap_range_p it3 it4 it5) (ex_M, ex_S2) with
  | Ok (r, (M', S')) => r = 2 /\ m_vec M' = [Vec [Some 6; Some 20; Some 8; None] 3 0 []] /\ m_deq M' = [Deq [None; Some 20; Some 20; Some 30; None] 1 4 0 []]
  | _ => False end.
Proof.
  split. { refine (conj ex_list_ok (conj (conj _ (conj _ _)) _)); [here|here|lia|done]. } split; [here|].
  split; [vm_compute; by split|]. split; [vm_compute; reflexivity|].
  split. { refine (conj ex_vec_ok (conj (conj _ (conj _ _)) _)); [here|here|lia|done]. } split; [done|]. split; [vm_compute; reflexivity|].
  split; [here|]. vm_compute. split_and!; reflexivity.
Qed.

Print Assumptions C116_copy.
Print Assumptions C116_replace_copy.
Print Assumptions C116_replace_copy_if.
Print Assumptions C116_copy_if.
Print Assumptions C116_remove_copy.
Print Assumptions C116_remove_copy_if.
Print Assumptions C116_transform.
Print Assumptions C116_copy_backward.
Print Assumptions C116_reverse_copy.
Print Assumptions C116_rotate_copy.
Print Assumptions C116_unique_copy_by.
Print Assumptions C116_unique_copy_by_null.
Print Assumptions C117_fill.
Print Assumptions C117_fill_n.
Print Assumptions C117_generate.
Print Assumptions C117_generate_n.
Print Assumptions C117_replace_if.
Print Assumptions C117_replace.
Print Assumptions C117_remove_if.
Print Assumptions C117_remove.
Print Assumptions C117_unique_by.
Print Assumptions C118_reverse.
Print Assumptions C118_rotate.
Print Assumptions C118_shuffle.
Print Assumptions C118_swap_range_apart.
Print Assumptions C118_swap_range_same.
Print Assumptions C118_iter_swap_apart.
Print Assumptions C118_iter_swap_same.
