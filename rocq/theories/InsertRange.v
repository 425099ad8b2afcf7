(** InsertRange.v — c_vector_insert_range and c_deque_insert_range (c_vector.c 736-753, c_deque.c 827-843).

    Both take [first] and [last] by value as c_iterator_t (c_vector.h 89, c_deque.h 85).  A c_iterator_t has the category, the type,
    the function table and the value type only (c_def.h 185-190); the position of an iterator is in the object which contains it
    (c_vector.h 42-45, c_list.h 43-46, c_tree.h 42-45), and is not passed.  A parameter is therefore [option cpos]: what the
    function table finds where it expects the position, [None] if there is no such field.

    The containers of the range are in [M] (IterWorld.v); the vector or deque the elements go to is another one.
    [oks k] is the outcome of malloc in the [k]-th insertion.  Not represented: iterators of different kinds
    (then the comparison does not read the positions, and dereference does). *)
From stdpp Require Import list gmap.
From Verif Require Import Base Spec Buffer Vector Deque OomSeq DList Slist Tree Iter IterWorld.
From stdpp Require Import list.

(** reading the position of an iterator object: c_vector.c 136, 144, 96; it is undefined behaviour if the object has none *)
Definition position_of (o : option cpos) : res cpos := match o with Some p => Ok p | None => UB end.
(** passing an iterator as a c_iterator_t: the position is left behind *)
Definition by_value (p : cpos) : option cpos := None.
(** passing it whole (what the declaration does not do) *)
Definition whole (p : cpos) : option cpos := Some p.

Section range.
  Context {A : Type} {CK : Checked} (dflt : A) (M : cmem A) (oks : nat -> bool).

  (** c_vector.c 743-750 *)
  Fixpoint vec_insert_range_loop (fuel k : nat) (v : vec A) (pos : nat) (first last : option cpos) : res (vec A * nat) :=
    match fuel with
    | 0 => NoFuel
    | S fuel =>
      do p <- position_of first;
      do q <- position_of last;
      do e <- c_eq p q;
      if e : bool then Ok (v, pos)
      else
        do a <- c_deref M p;
        do (v1, pos1) <- vec_insert_n_m dflt (oks k) v pos 1 (Val a);
        if pos1 =? fin v1 then Ok (v1, pos1)
        else
          do p' <- c_inc M p;
          vec_insert_range_loop fuel (S k) v1 (S pos1) (Some p') last
    end.
  (** c_vector.c 736-753; [pass] is how the arguments arrive *)
  Definition vec_insert_range (pass : cpos -> option cpos) (fuel : nat) (v : vec A) (pos : nat) (first last : cpos) : res (vec A * nat) :=
    if negb (pos <=? fin v) then Ok (v, fin v)
    else vec_insert_range_loop fuel 0 v pos (pass first) (pass last).

  (** c_deque.c 834-840 *)
  Fixpoint deq_insert_range_loop (fuel k : nat) (d : deq A) (pos : nat) (first last : option cpos) : res (deq A * nat) :=
    match fuel with
    | 0 => NoFuel
    | S fuel =>
      do p <- position_of first;
      do q <- position_of last;
      do e <- c_eq p q;
      if e : bool then Ok (d, pos)
      else
        do a <- c_deref M p;
        do (d1, pos1) <- deq_insert_n_m dflt (oks k) d pos 1 (Val a);
        if pos1 =? dfin d1 then Ok (d1, pos1)
        else
          do p' <- c_inc M p;
          deq_insert_range_loop fuel (S k) d1 (S pos1) (Some p') last
    end.
  (** c_deque.c 827-843 *)
  Definition deq_insert_range (pass : cpos -> option cpos) (fuel : nat) (d : deq A) (pos : nat) (first last : cpos) : res (deq A * nat) :=
    if negb (deq_valid d pos) then Ok (d, dfin d)
    else deq_insert_range_loop fuel 0 d pos (pass first) (pass last).
End range.
