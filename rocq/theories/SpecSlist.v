(** SpecSlist.v — what it means for a heap to hold well-formed forward lists; independent of the list
    operations.  [path m xs e] (Path.v): following [m] from the first of [xs] passes exactly through [xs] and
    then reaches [e]. *)
From Verif Require Import Base DList Path Slist.
From stdpp Require Import list gmap.

Section spec.
  Context {A : Type}.
  Implicit Types h : sheap A.
  Notation cell := (loc * A)%type.

  (** the nodes of the list object [s] = (before-begin, end) with cells [cs] *)
  Definition snodes (s : sobj) (cs : list cell) : list loc := s.1 :: s.2 :: cs.*1.
  Global Arguments snodes : simpl never.
  (** [is_slist h s cs]: distinct nodes; the links lead from the before-begin node through the cells, which hold
      the values [cs], to the end node *)
  Definition is_slist h (s : sobj) (cs : list cell) : Prop :=
    NoDup (snodes s cs) /\ path (snx h) (s.1 :: cs.*1) s.2 /\ svl h !! s.1 = Some None /\ svl h !! s.2 = Some None /\
    Forall (fun c => svl h !! c.1 = Some (Some c.2)) cs.
  (** several lists that share no node *)
  Definition slists h (ls : list (sobj * list cell)) : Prop :=
    NoDup (concat (map (fun l => snodes l.1 l.2) ls)) /\ Forall (fun l => is_slist h l.1 l.2) ls.
  (** [sstep h h' old new]: the only nodes freed are those in [old] but not in [new], the only nodes allocated
      are those in [new] but not in [old], and no other node of the heap is touched *)
  Definition sstep h h' (old new : list loc) : Prop :=
    (forall y, y ∉ old -> y ∉ new -> svl h' !! y = svl h !! y /\ (is_Some (svl h !! y) -> snx h' !! y = snx h !! y)) /\
    (forall y, y ∈ old -> y ∉ new -> svl h' !! y = None) /\
    (forall y, y ∉ old -> y ∈ new -> svl h !! y = None).
  (** malloc returns a location that is not in use *)
  Definition smalloc_ok (alloc : sheap A -> loc) : Prop := forall h, svl h !! alloc h = None.
End spec.
