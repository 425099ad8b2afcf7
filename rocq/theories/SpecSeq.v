(** SpecSeq.v — operations on mathematical sequences, the specification of vector, deque, list and
    forward list.  Nothing here refers to the models. *)
From Verif Require Import Base.
From stdpp Require Import list.

Section seq.
  Context {A : Type}.
  (** insert the elements [x] at index [i] *)
  Definition seq_insert (i : nat) (x l : list A) : list A := take i l ++ x ++ drop i l.
  (** remove the elements with index in [i,j) *)
  Definition seq_delete (i j : nat) (l : list A) : list A := take i l ++ drop j l.
  (** keep the first [n], padding with copies of [d] *)
  Definition seq_resize (n : nat) (d : A) (l : list A) : list A := take n l ++ replicate (n - length l) d.
End seq.

(** Operations of a vector history and their meaning on a sequence.  A position past the end leaves the
    sequence unchanged (the functions detect it and return end()). *)
Inductive vec_op (A : Type) :=
| VPushBack (a : A) | VPopBack | VInsert (i : nat) (a : A) | VErase (i : nat) | VEraseRange (i j : nat)
| VClear | VResize (n : nat) | VResizeWith (n : nat) (a : A) | VShrinkToFit.
Global Arguments VPushBack {A} a.
Global Arguments VPopBack {A}.
Global Arguments VInsert {A} i a.
Global Arguments VErase {A} i.
Global Arguments VEraseRange {A} i j.
Global Arguments VClear {A}.
Global Arguments VResize {A} n.
Global Arguments VResizeWith {A} n a.
Global Arguments VShrinkToFit {A}.
Definition vec_spec {A} (dflt : A) (l : list A) (o : vec_op A) : list A :=
  match o with
  | VPushBack a => l ++ [a]
  | VPopBack => take (length l - 1) l
  | VInsert i a => if i <=? length l then seq_insert i [a] l else l
  | VErase i => seq_delete i (S i) l
  | VEraseRange i j => if (i <=? j) && (j <=? length l) then seq_delete i j l else l
  | VClear => []
  | VResize n => seq_resize n dflt l
  | VResizeWith n a => seq_resize n a l
  | VShrinkToFit => l
  end.

(** The same for a deque; positions are offsets from the beginning. *)
Inductive deq_op (A : Type) :=
| DPushBack (a : A) | DPushFront (a : A) | DPopBack | DPopFront | DInsert (i : nat) (a : A)
| DInsertN (i n : nat) (a : A) | DErase (i : nat) | DEraseRange (i j : nat)
| DClear | DResize (n : nat) | DResizeWith (n : nat) (a : A) | DShrinkToFit.
Global Arguments DPushBack {A} a.
Global Arguments DPushFront {A} a.
Global Arguments DPopBack {A}.
Global Arguments DPopFront {A}.
Global Arguments DInsert {A} i a.
Global Arguments DInsertN {A} i n a.
Global Arguments DErase {A} i.
Global Arguments DEraseRange {A} i j.
Global Arguments DClear {A}.
Global Arguments DResize {A} n.
Global Arguments DResizeWith {A} n a.
Global Arguments DShrinkToFit {A}.
Definition deq_spec {A} (dflt : A) (l : list A) (o : deq_op A) : list A :=
  match o with
  | DPushBack a => l ++ [a]
  | DPushFront a => a :: l
  | DPopBack => take (length l - 1) l
  | DPopFront => drop 1 l
  | DInsert i a => if i <=? length l then seq_insert i [a] l else l
  | DInsertN i n a => if i <=? length l then seq_insert i (replicate n a) l else l
  | DErase i => seq_delete i (S i) l
  | DEraseRange i j => if (i <=? j) && (j <=? length l) then seq_delete i j l else l
  | DClear => []
  | DResize n => seq_resize n dflt l
  | DResizeWith n a => seq_resize n a l
  | DShrinkToFit => l
  end.

(** The elements an operation adds to the sequence. *)
Definition vec_added {A} (dflt : A) (l : list A) (o : vec_op A) : list A :=
  match o with
  | VPushBack a => [a]
  | VInsert i a => if i <=? length l then [a] else []
  | VResize n => replicate (n - length l) dflt
  | VResizeWith n a => replicate (n - length l) a
  | _ => []
  end.
Definition deq_added {A} (dflt : A) (l : list A) (o : deq_op A) : list A :=
  match o with
  | DPushBack a | DPushFront a => [a]
  | DInsert i a => if i <=? length l then [a] else []
  | DInsertN i n a => if i <=? length l then replicate n a else []
  | DResize n => replicate (n - length l) dflt
  | DResizeWith n a => replicate (n - length l) a
  | _ => []
  end.
(** all the elements added during a history *)
Fixpoint vec_all_added {A} (dflt : A) (l : list A) (os : list (vec_op A)) : list A :=
  match os with
  | [] => []
  | o :: os' => vec_added dflt l o ++ vec_all_added dflt (vec_spec dflt l o) os'
  end.
Fixpoint deq_all_added {A} (dflt : A) (l : list A) (os : list (deq_op A)) : list A :=
  match os with
  | [] => []
  | o :: os' => deq_added dflt l o ++ deq_all_added dflt (deq_spec dflt l o) os'
  end.
