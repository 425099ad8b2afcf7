(** SpecListOps.v — what the linked-list operations mean on mathematical sequences, and what a history over
    several lists means.  Nothing here refers to the models. *)
From Verif Require Import Base Spec SpecSeq.
From stdpp Require Import list.

(** ** Sequence functions of the linked lists *)
Section lists.
  Context {A : Type}.
  (** merge two sequences: take from the second exactly when its head is less than the head of the first *)
  Fixpoint seq_merge (comp : A -> A -> bool) (l1 : list A) : list A -> list A :=
    fix aux (l2 : list A) : list A :=
      match l1, l2 with
      | [], _ => l2
      | _, [] => l1
      | x :: l1', y :: l2' => if comp y x then y :: aux l2' else x :: seq_merge comp l1' l2
      end.
  (** insertion sort: an element goes before the first one that is not less than it *)
  Fixpoint seq_put (comp : A -> A -> bool) (x : A) (l : list A) : list A :=
    match l with
    | [] => [x]
    | y :: l' => if comp y x then y :: seq_put comp x l' else x :: l
    end.
  Fixpoint seq_sort (comp : A -> A -> bool) (l : list A) : list A :=
    match l with [] => [] | x :: l' => seq_put comp x (seq_sort comp l') end.
  (** the elements a removal of consecutive duplicates drops, [cur] being the element kept last *)
  Fixpoint dropped (pred : A -> A -> bool) (cur : A) (l : list A) : list A :=
    match l with
    | [] => []
    | x :: l' => if pred cur x then x :: dropped pred cur l' else dropped pred x l'
    end.
  Definition seq_unique_gone (pred : A -> A -> bool) (l : list A) : list A :=
    match l with [] => [] | x :: l' => dropped pred x l' end.
End lists.

(** ** Histories over any number of lists.  A state is the sequence of the contents of the live lists; lists
    are named by their index, elements by their index in their list. *)
(** a value argument: the caller's own object, or a reference to element [k] of list [j] *)
Inductive larg (A : Type) := AVal (a : A) | AElem (j k : nat).
Global Arguments AVal {A} a.
Global Arguments AElem {A} j k.
Definition larg_val {A} (ls : list (list A)) (v : larg A) : option A :=
  match v with AVal a => Some a | AElem j k => ls !! j ≫= (fun l => l !! k) end.

Inductive lop (A : Type) :=
| LCreate | LCreateFrom (vs : list A) | LCopy (i : nat) | LAssign (i j : nat) | LDestroy (i : nat) | LSwap (i j : nat)
| LPushBack (i : nat) (v : larg A) | LPushFront (i : nat) (v : larg A) | LPopBack (i : nat) | LPopFront (i : nat)
| LInsert (i k : nat) (v : larg A) | LErase (i k : nat) | LEraseRange (i k m : nat) | LClear (i : nat)
| LResize (i n : nat) | LResizeWith (i n : nat) (v : larg A)
| LSplice (i k j : nat) | LSpliceFrom (i k j m : nat) | LSpliceRange (i k j m n : nat)
| LMerge (i j : nat) (comp : A -> A -> bool) | LSort (i : nat) (comp : A -> A -> bool) | LReverse (i : nat)
| LRemove (i : nat) (eqb : A -> A -> bool) (v : larg A) | LRemoveIf (i : nat) (p : A -> bool)
| LUnique (i : nat) (pred : A -> A -> bool).
Global Arguments LCreate {A}.
Global Arguments LCreateFrom {A} vs.
Global Arguments LCopy {A} i.
Global Arguments LAssign {A} i j.
Global Arguments LDestroy {A} i.
Global Arguments LSwap {A} i j.
Global Arguments LPushBack {A} i v.
Global Arguments LPushFront {A} i v.
Global Arguments LPopBack {A} i.
Global Arguments LPopFront {A} i.
Global Arguments LInsert {A} i k v.
Global Arguments LErase {A} i k.
Global Arguments LEraseRange {A} i k m.
Global Arguments LClear {A} i.
Global Arguments LResize {A} i n.
Global Arguments LResizeWith {A} i n v.
Global Arguments LSplice {A} i k j.
Global Arguments LSpliceFrom {A} i k j m.
Global Arguments LSpliceRange {A} i k j m n.
Global Arguments LMerge {A} i j comp.
Global Arguments LSort {A} i comp.
Global Arguments LReverse {A} i.
Global Arguments LRemove {A} i eqb v.
Global Arguments LRemoveIf {A} i p.
Global Arguments LUnique {A} i pred.

Section spec.
  Context {A : Type} (dflt : A).
  Implicit Types ls : list (list A).
  Definition check (b : bool) : option unit := if b then Some () else None.
  (** moving the elements with index in [m,n) of list [j] in front of the element with index [k] of list [i].
      Within one list (i = j) the target must lie before the moved elements or not before their end. *)
  Definition splice_spec ls (i k j m n : nat) : option (list (list A)) :=
    l ← ls !! i; l' ← ls !! j;
    _ ← check ((k <=? length l) && (m <=? n) && (n <=? length l'));
    if decide (i = j) then
      if k <? m then Some (<[i := take k l ++ take (n - m) (drop m l) ++ take (m - k) (drop k l) ++ drop n l]> ls)
      else if n <=? k then Some (<[i := take m l ++ take (k - n) (drop n l) ++ take (n - m) (drop m l) ++ drop k l]> ls)
      else None
    else Some (<[j := seq_delete m n l']> (<[i := seq_insert k (take (n - m) (drop m l')) l]> ls)).
  (** the new contents of the lists, and the elements destroyed, in order; [None] when a list or position
      does not exist or the call is outside the function's contract *)
  Definition lop_spec ls (o : lop A) : option (list (list A) * list A) :=
    match o with
    | LCreate => Some (ls ++ [[]], [])
    | LCreateFrom vs => _ ← check (negb (length vs =? 0)); Some (ls ++ [vs], [])
    | LCopy i => l ← ls !! i; Some (ls ++ [l], [])
    | LAssign i j => l ← ls !! i; l' ← ls !! j;
        if decide (i = j) then Some (ls, []) else Some (<[i := l']> ls, l)
    | LDestroy i => l ← ls !! i; Some (delete i ls, l)
    | LSwap i j => l ← ls !! i; l' ← ls !! j; Some (<[j := l]> (<[i := l']> ls), [])
    | LPushBack i v => l ← ls !! i; a ← larg_val ls v; Some (<[i := l ++ [a]]> ls, [])
    | LPushFront i v => l ← ls !! i; a ← larg_val ls v; Some (<[i := a :: l]> ls, [])
    | LPopBack i => l ← ls !! i; Some (<[i := take (length l - 1) l]> ls, drop (length l - 1) l)
    | LPopFront i => l ← ls !! i; Some (<[i := drop 1 l]> ls, take 1 l)
    | LInsert i k v => l ← ls !! i; a ← larg_val ls v; _ ← check (k <=? length l);
        Some (<[i := seq_insert k [a] l]> ls, [])
    | LErase i k => l ← ls !! i; a ← l !! k; Some (<[i := seq_delete k (S k) l]> ls, [a])
    | LEraseRange i k m => l ← ls !! i; _ ← check ((k <=? m) && (m <=? length l));
        Some (<[i := seq_delete k m l]> ls, take (m - k) (drop k l))
    | LClear i => l ← ls !! i; Some (<[i := []]> ls, l)
    | LResize i n => l ← ls !! i; Some (<[i := seq_resize n dflt l]> ls, drop n l)
    | LResizeWith i n v => l ← ls !! i; a ← larg_val ls v; Some (<[i := seq_resize n a l]> ls, drop n l)
    | LSplice i k j => l' ← ls !! j; _ ← check (negb (i =? j)); ls' ← splice_spec ls i k j 0 (length l'); Some (ls', [])
    | LSpliceFrom i k j m => l' ← ls !! j; ls' ← splice_spec ls i k j m (length l'); Some (ls', [])
    | LSpliceRange i k j m n => ls' ← splice_spec ls i k j m n; Some (ls', [])
    | LMerge i j comp => l ← ls !! i; l' ← ls !! j; _ ← check (negb (i =? j));
        Some (<[j := []]> (<[i := seq_merge comp l l']> ls), [])
    | LSort i comp => l ← ls !! i; _ ← check (Z.of_nat (length l) <? 2 ^ 64)%Z; Some (<[i := seq_sort comp l]> ls, [])
    | LReverse i => l ← ls !! i; Some (<[i := rev l]> ls, [])
    | LRemove i eqb v => l ← ls !! i; a ← larg_val ls v;
        _ ← check (match v with AVal _ => true | AElem j _ => negb (j =? i) end);
        Some (<[i := List.filter (fun x => negb (eqb x a)) l]> ls, List.filter (fun x => eqb x a) l)
    | LRemoveIf i p => l ← ls !! i; Some (<[i := List.filter (fun x => negb (p x)) l]> ls, List.filter p l)
    | LUnique i pred => l ← ls !! i; Some (<[i := unique_spec pred l]> ls, seq_unique_gone pred l)
    end.
  (** a whole history: final contents and the elements destroyed, in order *)
  Fixpoint lhist_spec ls (os : list (lop A)) : option (list (list A) * list A) :=
    match os with
    | [] => Some (ls, [])
    | o :: os' => r ← lop_spec ls o; r' ← lhist_spec r.1 os'; Some (r'.1, r.2 ++ r'.2)
    end.
  (** sort is given a strict weak order *)
  Definition lop_order (o : lop A) : Prop := match o with LSort _ comp => StrictWeakOrder comp | _ => True end.
  (** the elements an operation creates, and all those a history creates *)
  Definition lop_added ls (o : lop A) : list A :=
    let content i := default [] (ls !! i) in
    let arg v := match larg_val ls v with Some a => [a] | None => [] end in
    match o with
    | LCreateFrom vs => vs
    | LCopy i => content i
    | LAssign i j => if decide (i = j) then [] else content j
    | LPushBack _ v | LPushFront _ v | LInsert _ _ v => arg v
    | LResize i n => replicate (n - length (content i)) dflt
    | LResizeWith i n v => concat (replicate (n - length (content i)) (arg v))
    | _ => []
    end.
  Fixpoint lhist_added ls (os : list (lop A)) : list A :=
    match os with
    | [] => []
    | o :: os' => lop_added ls o ++ match lop_spec ls o with Some r => lhist_added r.1 os' | None => [] end
    end.
End spec.
