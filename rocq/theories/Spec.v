(** Spec.v — the independent vocabulary in which the properties are stated.
    Nothing here refers to the models. *)
From Verif Require Import Base.

Section order.
  Context {A : Type} (comp : A -> A -> bool).

  (** The comparison callback is a strict weak order ("less"). *)
  Record StrictWeakOrder : Prop := {
    swo_irrefl : forall x, comp x x = false;
    swo_trans : forall x y z, comp x y = true -> comp y z = true -> comp x z = true;
    swo_incomp_trans : forall x y z,
      comp x y = false -> comp y x = false -> comp y z = false -> comp z y = false ->
      comp x z = false
  }.

  (** x and y are equivalent: neither is less than the other. *)
  Definition equivb (x y : A) : bool := negb (comp x y) && negb (comp y x).

  (** No later element is less than an earlier one. *)
  Definition sorted (l : list A) : Prop :=
    forall i j x y, i < j -> l !! i = Some x -> l !! j = Some y -> comp y x = false.

  (** Every element is strictly less than every later one. *)
  Definition strictly_sorted (l : list A) : Prop :=
    forall i j x y, i < j -> l !! i = Some x -> l !! j = Some y -> comp x y = true.

  (** [l'] is a rearrangement of [l] keeping the relative order of equivalent elements. *)
  Definition stable_rearrangement (l l' : list A) : Prop :=
    Permutation l l' /\
    forall x, List.filter (equivb x) l' = List.filter (equivb x) l.

  (** number of elements of [l] equivalent to [x] *)
  Definition occ (x : A) (l : list A) : nat := length (List.filter (equivb x) l).

  (** [l], read as an implicit binary tree (children of i are 2i+1 and 2i+2), is a max heap:
      no child is greater than its parent. *)
  Definition max_heap (l : list A) : Prop :=
    forall i j x y, (j = 2 * i + 1 \/ j = 2 * i + 2) ->
      l !! i = Some x -> l !! j = Some y -> comp x y = false.
End order.

(** The cells [i,j) of a memory. *)
Definition slice {A} (m : list A) (i j : nat) : list A := take (j - i) (drop i m).

(** [first,last) is a valid range of memory [m]. *)
Definition range {A} (m : list A) (first last : nat) : Prop := first <= last <= length m.

(** [m'] is [m] with the cells [i, i + length l) overwritten by [l] and nothing else changed. *)
Definition patch {A} (m : list A) (i : nat) (l : list A) : list A :=
  take i m ++ l ++ drop (i + length l) m.

(** Keep the first element of every run: an element is dropped when [p] holds between the last
    kept element and it. *)
Fixpoint keep_runs {A} (p : A -> A -> bool) (cur : A) (l : list A) : list A :=
  match l with
  | [] => []
  | x :: l' => if p cur x then keep_runs p cur l' else x :: keep_runs p x l'
  end.
Definition unique_spec {A} (p : A -> A -> bool) (l : list A) : list A :=
  match l with [] => [] | x :: l' => x :: keep_runs p x l' end.

(** Result of a search over positions [first,last) for the first (last) position satisfying [P]:
    [(true, j)] with [j] that position, or [(false, last)] when there is none. *)
Definition first_position (first last : nat) (P : nat -> Prop) (r : bool * nat) : Prop :=
  match r with
  | (true, j) => first <= j < last /\ P j /\ forall k, first <= k < j -> ~ P k
  | (false, j) => j = last /\ forall k, first <= k < last -> ~ P k
  end.
Definition last_position (first last : nat) (P : nat -> Prop) (r : bool * nat) : Prop :=
  match r with
  | (true, j) => first <= j < last /\ P j /\ forall k, j < k < last -> ~ P k
  | (false, j) => j = last /\ forall k, first <= k < last -> ~ P k
  end.
(** Cell [k] of [m] holds a value satisfying [p]. *)
Definition cell {A} (m : list A) (p : A -> bool) (k : nat) : Prop :=
  exists x, m !! k = Some x /\ p x = true.
(** The pattern in cells [s_first,s_last) matches, cell by cell, the cells from [k] on, inside [..last). *)
Definition occurs_at {A} (m : list A) (pred : A -> A -> bool) (last s_first s_last k : nat) : Prop :=
  k + (s_last - s_first) <= last /\
  forall d, d < s_last - s_first ->
    exists x y, m !! (k + d) = Some x /\ m !! (s_first + d) = Some y /\ pred x y = true.

(** [k] splits the cells [first,last): [p] holds of everything before [k], of nothing from [k] on. *)
Definition boundary {A} (m : list A) (first last : nat) (p : A -> bool) (k : nat) : Prop :=
  first <= k <= last /\
  (forall x, x ∈ slice m first k -> p x = true) /\
  (forall x, x ∈ slice m k last -> p x = false).

(** The two cell ranges [a,b) and [c,d) do not overlap. *)
Definition apart (a b c d : nat) : Prop := b <= c \/ d <= a.

(** [l1] is lexicographically less than [l2]: a proper prefix up to equivalence, or smaller at the
    first position where they are not equivalent. *)
Definition lex_less {A} (comp : A -> A -> bool) (l1 l2 : list A) : Prop :=
  exists k, (forall i x y, i < k -> l1 !! i = Some x -> l2 !! i = Some y -> equivb comp x y = true) /\
    k <= length l1 /\
    match l2 !! k with
    | Some y => match l1 !! k with Some x => comp x y = true | None => True end
    | None => False
    end.

(** [j] is the first position of a greatest (smallest) element of the cells [f,l). *)
Definition greatest_at {A} (comp : A -> A -> bool) (m : list A) (f l j : nat) : Prop :=
  exists x, f <= j < l /\ m !! j = Some x /\
    forall k y, f <= k < l -> m !! k = Some y -> comp x y = false /\ (k < j -> comp y x = true).
Definition smallest_at {A} (comp : A -> A -> bool) (m : list A) (f l j : nat) : Prop :=
  exists x, f <= j < l /\ m !! j = Some x /\
    forall k y, f <= k < l -> m !! k = Some y -> comp y x = false /\ (k < j -> comp x y = true).

(** [m'] is [m] with the cells [f,l) rearranged and every other cell unchanged. *)
Definition permutes {A} (m m' : list A) (f l : nat) : Prop :=
  length m' = length m /\
  (forall k, k < f \/ l <= k -> m' !! k = m !! k) /\
  Permutation (slice m f l) (slice m' f l).

(** Visiting the elements of [l] from left to right with an operation that may change the element and
    a state; the new elements and the final state. *)
Fixpoint visit {A St} (op : St -> A -> St * A) (st : St) (l : list A) : list A * St :=
  match l with
  | [] => ([], st)
  | x :: l' => let (st', x') := op st x in let (r, st'') := visit op st' l' in (x' :: r, st'')
  end.
(** The first [n] values of a generator started in [st], and its final state. *)
Fixpoint generated {A St} (gen : St -> St * A) (st : St) (n : nat) : list A * St :=
  match n with
  | 0 => ([], st)
  | S n' => let (st', v) := gen st in let (r, st'') := generated gen st' n' in (v :: r, st'')
  end.
(** Cell [k] matches some element of the cells [s_first,s_last). *)
Definition matches_any {A} (m : list A) (pred : A -> A -> bool) (s_first s_last k : nat) : Prop :=
  exists x y, m !! k = Some x /\ y ∈ slice m s_first s_last /\ pred x y = true.
(** Cells [k] and [k+1], both before [last], are related by [pred]. *)
Definition adjacent_at {A} (m : list A) (pred : A -> A -> bool) (last k : nat) : Prop :=
  S k < last /\ exists x y, m !! k = Some x /\ m !! S k = Some y /\ pred x y = true.
(** The [n] cells from [k] on are before [last] and all match [value]. *)
Definition run_at {A} (m : list A) (pred : A -> A -> bool) (value : A) (last n k : nat) : Prop :=
  k + n <= last /\ forall d, d < n -> cell m (fun x => pred x value) (k + d).
(** [u] is the end of the longest prefix of the cells [f,l) with property [P]. *)
Definition longest_prefix {A} (P : list A -> Prop) (m : list A) (f l u : nat) : Prop :=
  f <= u <= l /\ P (slice m f u) /\ forall v, u < v <= l -> ~ P (slice m f v).

(** [op] on the cells [f1,l1) and [f2,l2) writes [out] to any destination that has room for it and does
    not overlap the sources, changes nothing else, and reports the end and the length of the output. *)
Definition writes {A} (op : list A -> nat -> nat -> nat -> nat -> nat -> res (list A * nat * nat))
    (m : list A) (f1 l1 f2 l2 : nat) (out : list A) : Prop :=
  forall d, d + length out <= length m -> apart d (d + length out) f1 l1 ->
    apart d (d + length out) f2 l2 ->
    op m f1 l1 f2 l2 d = Ok (patch m d out, d + length out, length out).
