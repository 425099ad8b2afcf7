(** SpecSlistOps.v — what the forward-list operations mean on mathematical sequences, and what a history over
    several forward lists means.  Nothing here refers to the models. *)
From Verif Require Import Base Spec SpecSeq SpecListOps.
From stdpp Require Import list.

Section lists.
  Context {A : Type} (comp : A -> A -> bool).
  (** the general effect of merging [d] into [c]: the first of [d] goes before the first element of [c] it is less
      than, and the next of [d] is compared with it first.  When [d] is sorted this is [seq_merge comp c d]. *)
  Fixpoint seq_merge_into (d : list A) : list A -> list A :=
    fix aux (c : list A) : list A :=
      match d, c with
      | [], _ => c
      | _, [] => d
      | y :: d', x :: c' => if comp y x then seq_merge_into d' (y :: x :: c') else x :: aux c'
      end.
  (** no element is less than the one before it *)
  Fixpoint ascending (l : list A) : bool :=
    match l with
    | x :: (y :: _) as l' => negb (comp y x) && ascending l'
    | _ => true
    end.
End lists.

(** ** Histories over any number of forward lists.  A state is the sequence of the contents of the live lists;
    lists are named by their index.  Position [k] of a list is the place after its first [k] elements: position 0
    is before_begin(), and position [k + 1] is also the element with index [k]; a value argument [AElem j k] refers
    to the element with index [k] of list [j]. *)
Inductive fop (A : Type) :=
| FCreate | FCreateFrom (vs : list A) | FCopy (i : nat) | FAssign (i j : nat) | FDestroy (i : nat) | FSwap (i j : nat)
| FPushFront (i : nat) (v : larg A) | FPopFront (i : nat)
| FInsertAfter (i k : nat) (v : larg A) | FEraseAfter (i k : nat) | FEraseAfterRange (i k m : nat) | FClear (i : nat)
| FResize (i n : nat) | FResizeWith (i n : nat) (v : larg A)
| FSplice (i k j : nat) | FSpliceFrom (i k j m : nat) | FSpliceRange (i k j m n : nat)
| FMerge (i j : nat) (comp : A -> A -> bool) | FSort (i : nat) (comp : A -> A -> bool) | FReverse (i : nat)
| FRemove (i : nat) (eqb : A -> A -> bool) (v : larg A) | FRemoveIf (i : nat) (p : A -> bool)
| FUnique (i : nat) (pred : A -> A -> bool).
Global Arguments FCreate {A}.
Global Arguments FCreateFrom {A} vs.
Global Arguments FCopy {A} i.
Global Arguments FAssign {A} i j.
Global Arguments FDestroy {A} i.
Global Arguments FSwap {A} i j.
Global Arguments FPushFront {A} i v.
Global Arguments FPopFront {A} i.
Global Arguments FInsertAfter {A} i k v.
Global Arguments FEraseAfter {A} i k.
Global Arguments FEraseAfterRange {A} i k m.
Global Arguments FClear {A} i.
Global Arguments FResize {A} i n.
Global Arguments FResizeWith {A} i n v.
Global Arguments FSplice {A} i k j.
Global Arguments FSpliceFrom {A} i k j m.
Global Arguments FSpliceRange {A} i k j m n.
Global Arguments FMerge {A} i j comp.
Global Arguments FSort {A} i comp.
Global Arguments FReverse {A} i.
Global Arguments FRemove {A} i eqb v.
Global Arguments FRemoveIf {A} i p.
Global Arguments FUnique {A} i pred.

Section spec.
  Context {A : Type} (dflt : A).
  Implicit Types ls : list (list A).
  (** moving the elements with index in [m,n) of list [j] to position [k] of list [i].  Within one list (i = j) the
      target must not lie after the first and not after the last of the moved elements. *)
  Definition fsplice_spec ls (i k j m n : nat) : option (list (list A)) :=
    l ← ls !! i; l' ← ls !! j;
    _ ← check ((k <=? length l) && (m <=? n) && (n <=? length l'));
    if decide (i = j) then
      if k <=? m then Some (<[i := take k l ++ take (n - m) (drop m l) ++ take (m - k) (drop k l) ++ drop n l]> ls)
      else if n <? k then Some (<[i := take m l ++ take (k - n) (drop n l) ++ take (n - m) (drop m l) ++ drop k l]> ls)
      else None
    else Some (<[j := seq_delete m n l']> (<[i := seq_insert k (take (n - m) (drop m l')) l]> ls)).
  (** the new contents of the lists, and the elements destroyed, in order; [None] when a list or position
      does not exist or the call is outside the function's contract *)
  Definition fop_spec ls (o : fop A) : option (list (list A) * list A) :=
    match o with
    | FCreate => Some (ls ++ [[]], [])
    | FCreateFrom vs => _ ← check (negb (length vs =? 0)); Some (ls ++ [vs], [])
    | FCopy i => l ← ls !! i; Some (ls ++ [l], [])
    | FAssign i j => l ← ls !! i; l' ← ls !! j;
        if decide (i = j) then Some (ls, []) else Some (<[i := l']> ls, l)
    | FDestroy i => l ← ls !! i; Some (delete i ls, l)
    | FSwap i j => l ← ls !! i; l' ← ls !! j; Some (<[j := l]> (<[i := l']> ls), [])
    | FPushFront i v => l ← ls !! i; a ← larg_val ls v; Some (<[i := a :: l]> ls, [])
    | FPopFront i => l ← ls !! i; Some (<[i := drop 1 l]> ls, take 1 l)
    | FInsertAfter i k v => l ← ls !! i; a ← larg_val ls v; _ ← check (k <=? length l);
        Some (<[i := seq_insert k [a] l]> ls, [])
    | FEraseAfter i k => l ← ls !! i; _ ← check (k <=? length l);
        Some (<[i := seq_delete k (S k) l]> ls, take 1 (drop k l))
    (** the open range of iterators from position [k] to the element with index [m] (or end()) *)
    | FEraseAfterRange i k m => l ← ls !! i; _ ← check ((k <=? m) && (m <=? length l));
        Some (<[i := seq_delete k m l]> ls, take (m - k) (drop k l))
    | FClear i => l ← ls !! i; Some (<[i := []]> ls, l)
    | FResize i n => l ← ls !! i; Some (<[i := seq_resize n dflt l]> ls, drop n l)
    | FResizeWith i n v => l ← ls !! i; a ← larg_val ls v; Some (<[i := seq_resize n a l]> ls, drop n l)
    | FSplice i k j => l' ← ls !! j; _ ← check (negb (i =? j)); ls' ← fsplice_spec ls i k j 0 (length l'); Some (ls', [])
    | FSpliceFrom i k j m => l' ← ls !! j; ls' ← fsplice_spec ls i k j m (length l'); Some (ls', [])
    | FSpliceRange i k j m n => ls' ← fsplice_spec ls i k j m n; Some (ls', [])
    (** the list merged in is sorted *)
    | FMerge i j comp => l ← ls !! i; l' ← ls !! j; _ ← check (negb (i =? j) && ascending comp l');
        Some (<[j := []]> (<[i := seq_merge comp l l']> ls), [])
    | FSort i comp => l ← ls !! i; _ ← check (Z.of_nat (length l) <? 2 ^ 64)%Z; Some (<[i := seq_sort comp l]> ls, [])
    | FReverse i => l ← ls !! i; Some (<[i := rev l]> ls, [])
    | FRemove i eqb v => l ← ls !! i; a ← larg_val ls v;
        _ ← check (match v with AVal _ => true | AElem j _ => negb (j =? i) end);
        Some (<[i := List.filter (fun x => negb (eqb x a)) l]> ls, List.filter (fun x => eqb x a) l)
    | FRemoveIf i p => l ← ls !! i; Some (<[i := List.filter (fun x => negb (p x)) l]> ls, List.filter p l)
    | FUnique i pred => l ← ls !! i; Some (<[i := unique_spec pred l]> ls, seq_unique_gone pred l)
    end.
  (** a whole history: final contents and the elements destroyed, in order *)
  Fixpoint fhist_spec ls (os : list (fop A)) : option (list (list A) * list A) :=
    match os with
    | [] => Some (ls, [])
    | o :: os' => r ← fop_spec ls o; r' ← fhist_spec r.1 os'; Some (r'.1, r.2 ++ r'.2)
    end.
  (** sort is given a strict weak order *)
  Definition fop_order (o : fop A) : Prop := match o with FSort _ comp => StrictWeakOrder comp | _ => True end.
  (** the elements an operation creates, and all those a history creates *)
  Definition fop_added ls (o : fop A) : list A :=
    let content i := default [] (ls !! i) in
    let arg v := match larg_val ls v with Some a => [a] | None => [] end in
    match o with
    | FCreateFrom vs => vs
    | FCopy i => content i
    | FAssign i j => if decide (i = j) then [] else content j
    | FPushFront _ v | FInsertAfter _ _ v => arg v
    | FResize i n => replicate (n - length (content i)) dflt
    | FResizeWith i n v => concat (replicate (n - length (content i)) (arg v))
    | _ => []
    end.
  Fixpoint fhist_added ls (os : list (fop A)) : list A :=
    match os with
    | [] => []
    | o :: os' => fop_added ls o ++ match fop_spec ls o with Some r => fhist_added r.1 os' | None => [] end
    end.
End spec.
