(** SpecList.v — what it means for a heap to hold well-formed doubly linked lists; independent of the
    list operations. *)
From Verif Require Import Base DList.
From stdpp Require Import list gmap.

Section spec.
  Context {A : Type}.
  Implicit Types h : heap A.
  Notation cell := (loc * A)%type.

  (** [dpath h xs e]: the nodes [xs] are linked one after the other, the last one to [e], and every [prev]
      link mirrors the [next] link *)
  Fixpoint dpath h (xs : list loc) (e : loc) : Prop :=
    match xs with
    | [] => True
    | x :: r => nx h !! x = Some (hd e r) /\ pv h !! hd e r = Some x /\ dpath h r e
    end.
  (** the nodes of the list with sentinel [s] and cells [cs] *)
  Definition nodes (s : loc) (cs : list cell) : list loc := s :: cs.*1.
  Global Arguments nodes : simpl never.
  (** [is_list h s cs]: the sentinel [s] heads a circular doubly linked list of distinct nodes; reading it
      forward gives [cs], the nodes with the values they hold *)
  Definition is_list h (s : loc) (cs : list cell) : Prop :=
    NoDup (nodes s cs) /\ dpath h (nodes s cs) s /\ vl h !! s = Some None /\
    Forall (fun c => vl h !! c.1 = Some (Some c.2)) cs.
  (** several lists that share no node *)
  Definition lists h (ls : list (loc * list cell)) : Prop :=
    NoDup (concat (map (fun l => nodes l.1 l.2) ls)) /\ Forall (fun l => is_list h l.1 l.2) ls.
  (** [step h h' old new]: the only nodes freed are those in [old] but not in [new], the only nodes
      allocated are those in [new] but not in [old], and no other node of the heap is touched *)
  Definition step h h' (old new : list loc) : Prop :=
    (forall y, y ∉ old -> y ∉ new -> vl h' !! y = vl h !! y /\
       (is_Some (vl h !! y) -> nx h' !! y = nx h !! y /\ pv h' !! y = pv h !! y)) /\
    (forall y, y ∈ old -> y ∉ new -> vl h' !! y = None) /\
    (forall y, y ∉ old -> y ∈ new -> vl h !! y = None).
  (** malloc returns a location that is not in use *)
  Definition malloc_ok (alloc : heap A -> loc) : Prop := forall h, vl h !! alloc h = None.
End spec.
