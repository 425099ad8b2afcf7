(** SpecTreeOps.v — what the operations of the search tree mean on mathematical sequences sorted by key, and
    what a history over several trees means.  Nothing here refers to the models. *)
From Verif Require Import Base Spec SpecSeq SpecListOps.
From stdpp Require Import list.

Section ord.
  Context {K V : Type} (comp : K -> K -> bool) (key : V -> K).
  Implicit Types (l : list V) (v : V) (k : K).
  (** the number of elements whose key is less than, respectively not greater than, [k] *)
  Definition lower_index k l : nat := length (List.filter (fun w => comp (key w) k) l).
  Definition upper_index k l : nat := length (List.filter (fun w => negb (comp k (key w))) l).
  (** neither key is less than the other *)
  Definition same_key k (w : V) : bool := equivb comp k (key w).
  Definition present k l : bool := existsb (same_key k) l.
  (** insertion that keeps duplicates: after all elements that are not greater *)
  Definition put_equal v l : list V := seq_insert (upper_index (key v) l) [v] l.
  (** insertion that rejects duplicates *)
  Definition put_unique v l : list V := if present (key v) l then l else put_equal v l.
  (** inserting at index [i] keeps the sequence sorted *)
  Definition fits (i : nat) v l : bool :=
    forallb (fun w => negb (comp (key v) (key w))) (take i l) && forallb (fun w => negb (comp (key w) (key v))) (drop i l).
  Definition put_equal_at (i : nat) v l : list V := if fits i v l then seq_insert i [v] l else put_equal v l.
  Definition without_key k l : list V := List.filter (fun w => negb (same_key k w)) l.
  Definition with_key k l : list V := List.filter (same_key k) l.
End ord.

(** ** Histories over any number of trees, each with its own comparison, key function and contents.  Trees are
    named by their index, elements by their index in their tree. *)
Record tmod (K V : Type) := TMod { tm_comp : K -> K -> bool; tm_key : V -> K; tm_vals : list V }.
Global Arguments TMod {K V}.
Global Arguments tm_comp {K V}.
Global Arguments tm_key {K V}.
Global Arguments tm_vals {K V}.
(** a key argument: the caller's own object, or a reference to the key of element [k] of tree [j] *)
Inductive karg (K : Type) := AKey (k : K) | AKeyOf (j k : nat).
Global Arguments AKey {K} k.
Global Arguments AKeyOf {K} j k.
Inductive tree_op (K V : Type) :=
| TCreate (comp : K -> K -> bool) (key : V -> K) | TDestroy (i : nat) | TSwap (i j : nat) | TClear (i : nat)
| TInsertUnique (i : nat) (v : larg V) | TInsertEqual (i : nat) (v : larg V)
| TInsertUniqueAt (i k : nat) (v : larg V) | TInsertEqualAt (i k : nat) (v : larg V)
| TInsertUniqueAll (i : nat) (vs : list V) | TInsertEqualAll (i : nat) (vs : list V)
| TErase (i k : nat) | TEraseRange (i k m : nat) | TEraseKey (i : nat) (k : karg K).
Global Arguments TCreate {K V} comp key.
Global Arguments TDestroy {K V} i.
Global Arguments TSwap {K V} i j.
Global Arguments TClear {K V} i.
Global Arguments TInsertUnique {K V} i v.
Global Arguments TInsertEqual {K V} i v.
Global Arguments TInsertUniqueAt {K V} i k v.
Global Arguments TInsertEqualAt {K V} i k v.
Global Arguments TInsertUniqueAll {K V} i vs.
Global Arguments TInsertEqualAll {K V} i vs.
Global Arguments TErase {K V} i k.
Global Arguments TEraseRange {K V} i k m.
Global Arguments TEraseKey {K V} i k.

Section spec.
  Context {K V : Type}.
  Implicit Types ts : list (tmod K V).
  Definition tm_set (t : tmod K V) (l : list V) : tmod K V := TMod (tm_comp t) (tm_key t) l.
  Definition targ_val ts (v : larg V) : option V := larg_val (tm_vals <$> ts) v.
  Definition karg_val ts (t : tmod K V) (k : karg K) : option K :=
    match k with AKey k => Some k | AKeyOf j k => tm_key t <$> targ_val ts (AElem j k) end.
  (** the new trees, and the elements destroyed, in order; [None] when a tree or position does not exist *)
  Definition top_spec ts (o : tree_op K V) : option (list (tmod K V) * list V) :=
    match o with
    | TCreate comp key => Some (ts ++ [TMod comp key []], [])
    | TDestroy i => t ← ts !! i; Some (delete i ts, rev (tm_vals t))
    | TSwap i j => t ← ts !! i; t' ← ts !! j; Some (<[j := t]> (<[i := t']> ts), [])
    | TClear i => t ← ts !! i; Some (<[i := tm_set t []]> ts, rev (tm_vals t))
    | TInsertUnique i v => t ← ts !! i; a ← targ_val ts v;
        Some (<[i := tm_set t (put_unique (tm_comp t) (tm_key t) a (tm_vals t))]> ts, [])
    | TInsertEqual i v => t ← ts !! i; a ← targ_val ts v;
        Some (<[i := tm_set t (put_equal (tm_comp t) (tm_key t) a (tm_vals t))]> ts, [])
    | TInsertUniqueAt i k v => t ← ts !! i; a ← targ_val ts v; _ ← check (k <=? length (tm_vals t));
        Some (<[i := tm_set t (put_unique (tm_comp t) (tm_key t) a (tm_vals t))]> ts, [])
    | TInsertEqualAt i k v => t ← ts !! i; a ← targ_val ts v; _ ← check (k <=? length (tm_vals t));
        Some (<[i := tm_set t (put_equal_at (tm_comp t) (tm_key t) k a (tm_vals t))]> ts, [])
    | TInsertUniqueAll i vs => t ← ts !! i;
        Some (<[i := tm_set t (fold_left (fun l a => put_unique (tm_comp t) (tm_key t) a l) vs (tm_vals t))]> ts, [])
    | TInsertEqualAll i vs => t ← ts !! i;
        Some (<[i := tm_set t (fold_left (fun l a => put_equal (tm_comp t) (tm_key t) a l) vs (tm_vals t))]> ts, [])
    | TErase i k => t ← ts !! i; a ← tm_vals t !! k; Some (<[i := tm_set t (seq_delete k (S k) (tm_vals t))]> ts, [a])
    | TEraseRange i k m => t ← ts !! i; let l := tm_vals t in
        _ ← check ((k <=? m) && (m <=? length l));
        Some (<[i := tm_set t (seq_delete k m l)]> ts,
              (* a range that is the whole tree is erased back to front *)
              if (k =? 0) && (m =? length l) then rev l else take (m - k) (drop k l))
    | TEraseKey i k => t ← ts !! i; a ← karg_val ts t k; let l := tm_vals t in
        let gone := with_key (tm_comp t) (tm_key t) a l in
        Some (<[i := tm_set t (without_key (tm_comp t) (tm_key t) a l)]> ts,
              if length gone =? length l then rev gone else gone)
    end.
  Fixpoint thist_spec ts (os : list (tree_op K V)) : option (list (tmod K V) * list V) :=
    match os with
    | [] => Some (ts, [])
    | o :: os' => r ← top_spec ts o; r' ← thist_spec r.1 os'; Some (r'.1, r.2 ++ r'.2)
    end.
  (** comparisons are strict weak orders *)
  Definition top_order (o : tree_op K V) : Prop := match o with TCreate comp _ => StrictWeakOrder comp | _ => True end.
  (** the elements an operation creates, and all those a history creates *)
  Definition top_added ts (o : tree_op K V) : list V :=
    let arg v := match targ_val ts v with Some a => [a] | None => [] end in
    let new i a := match ts !! i with
                   | Some t => if present (tm_comp t) (tm_key t) (tm_key t a) (tm_vals t) then [] else [a]
                   | None => [] end in
    match o with
    | TInsertEqual _ v | TInsertEqualAt _ _ v => arg v
    | TInsertUnique i v | TInsertUniqueAt i _ v => match targ_val ts v with Some a => new i a | None => [] end
    | TInsertEqualAll _ vs => vs
    | TInsertUniqueAll i vs =>
        match ts !! i with
        | Some t => (fold_left (fun s a => if present (tm_comp t) (tm_key t) (tm_key t a) s.1 then s
                       else (put_equal (tm_comp t) (tm_key t) a s.1, s.2 ++ [a])) vs (tm_vals t, [])).2
        | None => []
        end
    | _ => []
    end.
  Fixpoint thist_added ts (os : list (tree_op K V)) : list V :=
    match os with
    | [] => []
    | o :: os' => top_added ts o ++ match top_spec ts o with Some r => thist_added r.1 os' | None => [] end
    end.
End spec.
