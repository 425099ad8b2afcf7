(** Buffer.v — the storage block shared by the vector and deque models.

    A block obtained from malloc is a list of element slots; [None] is a slot whose bytes hold no
    element.  A pointer into the block is a slot index (all pointer arithmetic in c_vector.c and
    c_deque.c is in multiples of value_type->size(), so slot indices are pointers divided by that
    size).  Every access outside the block is [UB]. *)
From Verif Require Import Base Spec.
From stdpp Require Import list.

(** A [c_ref_t value] argument: an object of the caller, or a pointer to slot [i] of the block of
    generation [g] of the same container (the container allocates block after block; the old one is
    freed, so only the current generation may be dereferenced). *)
Inductive arg (A : Type) := Val (a : A) | Own (g i : nat).
Global Arguments Val {A} a.
Global Arguments Own {A} g i.

Section buffer.
  Context {A : Type}.
  Notation block := (list (option A)).

  (** reading an element *)
  Definition get (b : block) (i : nat) : res A :=
    match b !! i with Some (Some x) => Ok x | _ => UB end.
  (** value_type->copy / create into a slot *)
  Definition put (b : block) (i : nat) (x : A) : res block :=
    if i <? length b then Ok (<[i := Some x]> b) else UB.
  (** memcpy/memmove of [n] slots from [src] of [b'] to [dst] of [b] (raw bytes: the slots need not be
      initialised).  memmove within one block is [mcpy b dst b src n]. *)
  Definition mcpy (b : block) (dst : nat) (b' : block) (src n : nat) : res block :=
    if (src + n <=? length b') && (dst + n <=? length b)
    then Ok (patch b dst (slice b' src (src + n))) else UB.
  (** dereferencing a value argument when the container's block is [b], generation [g] *)
  Definition arg_get (b : block) (g : nat) (v : arg A) : res A :=
    match v with
    | Val a => Ok a
    | Own g' i => if g' =? g then get b i else UB
    end.
  (** c_vector.c 473-486, c_deque.c 538-554 (__fill): [value = None] is the null pointer, for which the
      element is default-created.  The reference is dereferenced anew for each copy. *)
  Fixpoint fill (dflt : A) (g n : nat) (b : block) (pos : nat) (value : option (arg A)) : res block :=
    match n with
    | 0 => Ok b
    | S n' =>
      do x <- match value with Some v => arg_get b g v | None => Ok dflt end;
      do b' <- put b pos x;
      fill dflt g n' b' (S pos) value
    end.
  (** c_vector.c 465-471, c_deque.c 530-536 (__destroy) on the [n] slots from [pos]: the values whose
      destroy callback is called, in order. *)
  Fixpoint destroys (n : nat) (b : block) (pos : nat) : res (list A) :=
    match n with
    | 0 => Ok []
    | S n' => do x <- get b pos; do r <- destroys n' b (S pos); Ok (x :: r)
    end.
  (** a fresh block: malloc(n * size) *)
  Definition raw (n : nat) : block := replicate n None.
End buffer.
