(** AlgoHeap.v — model of /repo/algorithm/c_heap.c.

    Simplifications: null-argument guards and iterator-category assertions are not modelled; indices
    (ptrdiff_t) are natural numbers: every index the C code dereferences is non-negative (the parent
    of index 0, -1 in C, is computed only as a loop exit value). *)
From Verif Require Import Base.
From stdpp Require Import list.

(** c_heap.c 30-33; on indices > 0, the only ones for which the result is used. *)
Definition get_parent (i : nat) : nat := (i - 1) / 2.
(** c_heap.c 35-38 *)
Definition get_left (i : nat) : nat := i * 2 + 1.
(** c_heap.c 40-43 *)
Definition get_right (i : nat) : nat := (i + 1) * 2.

Section heap.
  Context {A : Type} (comp : A -> A -> bool).
  Implicit Types m : list A.

  (** c_heap.c 45-95 *)
  Fixpoint percolate_down (fuel : nat) m (first len hole : nat) : res (list A) :=
    match fuel with
    | 0 => NoFuel
    | S fuel' =>
      let left := get_left hole in
      do sw1 <- (if left <? len then
                   do h <- rd m (first + hole); do a <- rd m (first + left);
                   Ok (if comp h a then left else hole)
                 else Ok hole);
      let right := get_right hole in
      do sw2 <- (if right <? len then
                   do s <- rd m (first + sw1); do b <- rd m (first + right);
                   Ok (if comp s b then right else sw1)
                 else Ok sw1);
      if negb (sw2 =? hole) then
        do m' <- swp m (first + hole) (first + sw2);
        percolate_down fuel' m' first len sw2
      else Ok m
    end.

  (** c_heap.c 97-111, loop 105-108: holes [k-1], [k-2], ..., 0. *)
  Fixpoint heapify_loop m (first len k : nat) : res (list A) :=
    match k with
    | 0 => Ok m
    | S hole => do m' <- percolate_down (S (length m)) m first len hole; heapify_loop m' first len hole
    end.
  Definition heapify m (first last : nat) : res (list A) :=
    let len := last - first in heapify_loop m first len (S (get_parent (len - 1))).

  (** c_heap.c 299-314 *)
  Definition algo_make_heap_by m (first last : nat) : res (list A) :=
    if last - first <? 2 then Ok m else heapify m first last.

  (** c_heap.c 135-184, loop 156-175; [Some p] when left by break at parent index [p]. *)
  Fixpoint is_heap_until_loop (fuel : nat) m (first dist parent : nat) : res (option nat) :=
    match fuel with
    | 0 => NoFuel
    | S fuel' =>
      let left := get_left parent in
      let right := get_right parent in
      if left <? dist then
        do p <- rd m (first + parent); do a <- rd m (first + left);
        if comp p a then Ok (Some parent)
        else if right <? dist then
               do b <- rd m (first + right);
               if comp p b then Ok (Some parent) else is_heap_until_loop fuel' m first dist (S parent)
             else is_heap_until_loop fuel' m first dist (S parent)
      else Ok None
    end.
  Definition algo_is_heap_until_by m (first last : nat) : res nat :=
    do r <- is_heap_until_loop (S (length m)) m first (last - first) 0;
    Ok (match r with None => last | Some p => first + p end).
  (** c_heap.c 113-133 *)
  Definition algo_is_heap_by m (first last : nat) : res bool :=
    do u <- algo_is_heap_until_by m first last; Ok (u =? last).

  (** c_heap.c 186-227, loop 207-217; returns the memory and the final hole. *)
  Fixpoint push_heap_loop (fuel : nat) m (first hole : nat) (value : A) : res (list A * nat) :=
    match fuel with
    | 0 => NoFuel
    | S fuel' =>
      if 0 <? hole then
        let parent := get_parent hole in
        do p <- rd m (first + parent);
        if comp p value then do m' <- wr m (first + hole) p; push_heap_loop fuel' m' first parent value
        else Ok (m, hole)
      else Ok (m, hole)
    end.
  Definition algo_push_heap_by m (first last : nat) : res (list A) :=
    if last - first <? 2 then Ok m
    else do value <- rd m (last - 1);
         do (m', hole) <- push_heap_loop (S (length m)) m first (last - 1 - first) value;
         wr m' (first + hole) value.

  (** c_heap.c 229-297, loop 252-290 *)
  Fixpoint pop_heap_loop (fuel : nat) m (first last_index hole : nat) : res (list A) :=
    match fuel with
    | 0 => NoFuel
    | S fuel' =>
      let left := get_left hole in
      let right := get_right hole in
      if left <? last_index then
        do h <- rd m (first + hole); do a <- rd m (first + left);
        if right <? last_index then
          do b <- rd m (first + right);
          if comp a b then
            if comp h b then
              do m' <- swp m (first + hole) (first + right); pop_heap_loop fuel' m' first last_index right
            else Ok m
          else
            if comp h a then
              do m' <- swp m (first + hole) (first + left); pop_heap_loop fuel' m' first last_index left
            else Ok m
        else
          if comp h a then
            do m' <- swp m (first + hole) (first + left); pop_heap_loop fuel' m' first last_index left
          else Ok m
      else Ok m
    end.
  Definition algo_pop_heap_by m (first last : nat) : res (list A) :=
    if last - first <? 2 then Ok m
    else do m' <- swp m first (last - 1);
         pop_heap_loop (S (length m)) m' first (last - 1 - first) 0.

  (** c_heap.c 316-334, loop 328-331 *)
  Fixpoint sort_heap_loop (fuel : nat) m (first last : nat) : res (list A) :=
    match fuel with
    | 0 => NoFuel
    | S fuel' =>
      if first =? last then Ok m
      else do m' <- algo_pop_heap_by m first last; sort_heap_loop fuel' m' first (last - 1)
    end.
  Definition algo_sort_heap_by m (first last : nat) : res (list A) :=
    if last - first <? 2 then Ok m else sort_heap_loop (S (length m)) m first last.
End heap.
