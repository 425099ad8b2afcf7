(** AlgoSort.v — model of /repo/algorithm/c_sorting.c.

    Simplifications: null-argument guards and iterator-category assertions are not modelled; value
    temporaries (__c_allocate + copy ... destroy) are local values.  A [c_ref_t value] argument is
    modelled as what it is, a reference: either to a temporary or to a cell of the range itself
    ([vref]), because __unguarded_insertion_sort_by passes the latter. *)
From Verif Require Import Base AlgoNonMod AlgoMod AlgoHeap.
From stdpp Require Import list.

(** c_sorting.c 30 *)
Definition threshold : nat := 512.

(** c_sorting.c 32-38: number of halvings until n <= 1 (the loop runs at most log2 n < n times) *)
Fixpoint lg_loop (fuel n k : nat) : nat :=
  match fuel with
  | 0 => k
  | S fuel' => if 1 <? n then lg_loop fuel' (n / 2) (S k) else k
  end.
Definition lg (n : nat) : nat := lg_loop n n 0.

Section sort.
  Context {A : Type} (comp : A -> A -> bool).
  Implicit Types m : list A.

  (** c_sorting.c 40-73 *)
  Definition median_of_three (x y z : A) : A :=
    if comp x y then
      if comp y z then y else if comp x z then z else x
    else if comp x z then x
    else if comp y z then z
    else y.

  (** c_sorting.c 86-88: [while (comp( *first, pivot)) ++first] *)
  Fixpoint scan_up (fuel : nat) m (first : nat) (pivot : A) : res nat :=
    match fuel with
    | 0 => NoFuel
    | S fuel' => do x <- rd m first; if comp x pivot then scan_up fuel' m (S first) pivot else Ok first
    end.
  (** c_sorting.c 91-94: [--last; while (comp(pivot, *last)) --last] ; the argument is the position
      before the first decrement.  A decrement below the memory is UB. *)
  Fixpoint scan_down (fuel : nat) m (last : nat) (pivot : A) : res nat :=
    match fuel with
    | 0 => NoFuel
    | S fuel' =>
      match last with
      | 0 => UB
      | S last' => do x <- rd m last'; if comp pivot x then scan_down fuel' m last' pivot else Ok last'
      end
    end.
  (** c_sorting.c 75-108; returns the memory and [second_first] *)
  Fixpoint partition_by (fuel : nat) m (first last : nat) (pivot : A) : res (list A * nat) :=
    match fuel with
    | 0 => NoFuel
    | S fuel' =>
      do i <- scan_up (S (length m)) m first pivot;
      do j <- scan_down (S (length m)) m last pivot;
      if negb (i <? j) then Ok (m, i)
      else do m' <- swp m i j; partition_by fuel' m' (S i) j pivot
    end.

  (** c_sorting.c 367-405, loop 390-397 *)
  Fixpoint partial_sort_loop (fuel : nat) m (first middle i last : nat) : res (list A) :=
    match fuel with
    | 0 => NoFuel
    | S fuel' =>
      if i =? last then Ok m
      else do x <- rd m i; do y <- rd m first;
           if comp x y then
             do m1 <- algo_pop_heap_by comp m first middle;
             do m2 <- swp m1 (middle - 1) i;
             do m3 <- algo_push_heap_by comp m2 first middle;
             partial_sort_loop fuel' m3 first middle (S i) last
           else partial_sort_loop fuel' m first middle (S i) last
    end.
  Definition algo_partial_sort_by m (first middle last : nat) : res (list A) :=
    if first =? middle then Ok m
    else do m1 <- algo_make_heap_by comp m first middle;
         do m2 <- partial_sort_loop (S (length m)) m1 first middle middle last;
         algo_sort_heap_by comp m2 first middle.

  (** c_sorting.c 110-159.  The loop iterates on the left part and recurses on the right part, in both
      cases with depth_limit decremented: structural recursion on it. *)
  Fixpoint introspective_sort (depth_limit : nat) m (first last : nat) : res (list A) :=
    if threshold <? last - first then
      match depth_limit with
      | 0 => algo_partial_sort_by m first last last
      | S depth' =>
        let middle := first + (last - first) / 2 in
        do x <- rd m first; do y <- rd m middle; do z <- rd m (last - 1);
        let pivot := median_of_three x y z in
        do (m1, part) <- partition_by (S (length m)) m first last pivot;
        do m2 <- introspective_sort depth' m1 part last;
        introspective_sort depth' m2 first part
      end
    else Ok m.

  (** A [c_ref_t]: a temporary, or the cell at a position. *)
  Inductive vref := Tmp (v : A) | Cell (i : nat).
  Definition deref m (r : vref) : res A := match r with Tmp v => Ok v | Cell i => rd m i end.

  (** c_sorting.c 161-185; here [last] is __last and __next = __last - 1 throughout the loop. *)
  Fixpoint unguarded_linear (fuel : nat) m (last : nat) (value : vref) : res (list A) :=
    match fuel with
    | 0 => NoFuel
    | S fuel' =>
      match last with
      | 0 => UB
      | S next =>
        do v <- deref m value; do y <- rd m next;
        if comp v y then do m' <- wr m last y; unguarded_linear fuel' m' next value
        else wr m last v
      end
    end.
  (** c_sorting.c 187-222 *)
  Definition linear_sort m (first last : nat) : res (list A) :=
    do v <- rd m last; do x <- rd m first;
    if comp v x then
      do (md, _) <- algo_copy_backward m first last (S last); wr md.1 first v
    else unguarded_linear (S (length m)) m last (Tmp v).
  (** c_sorting.c 224-243, loop 235-238 *)
  Fixpoint insertion_loop (fuel : nat) m (first i last : nat) : res (list A) :=
    match fuel with
    | 0 => NoFuel
    | S fuel' =>
      if i =? last then Ok m else do m' <- linear_sort m first i; insertion_loop fuel' m' first (S i) last
    end.
  Definition insertion_sort m (first last : nat) : res (list A) :=
    if first =? last then Ok m else insertion_loop (S (length m)) m first (S first) last.
  (** c_sorting.c 245-263: note the reference [C_ITER_DEREF(__i)] to the cell being overwritten *)
  Fixpoint unguarded_insertion (fuel : nat) m (i last : nat) : res (list A) :=
    match fuel with
    | 0 => NoFuel
    | S fuel' =>
      if i =? last then Ok m
      else do m' <- unguarded_linear (S (length m)) m i (Cell i); unguarded_insertion fuel' m' (S i) last
    end.
  (** c_sorting.c 265-285 *)
  Definition final_insertion_sort m (first last : nat) : res (list A) :=
    if threshold <? last - first then
      do m1 <- insertion_sort m first (first + threshold);
      unguarded_insertion (S (length m)) m1 (first + threshold) last
    else insertion_sort m first last.
  (** c_sorting.c 348-365 *)
  Definition algo_sort_by m (first last : nat) : res (list A) :=
    if first =? last then Ok m
    else do m1 <- introspective_sort (lg (last - first) * 2) m first last;
         final_insertion_sort m1 first last.

  (** c_sorting.c 309-346, loop 331-338; [Some i] when left by break with __first = i *)
  Fixpoint sorted_until_loop (fuel : nat) m (i next last : nat) : res (option nat) :=
    match fuel with
    | 0 => NoFuel
    | S fuel' =>
      if next =? last then Ok None
      else do x <- rd m next; do y <- rd m i;
           if comp x y then Ok (Some i) else sorted_until_loop fuel' m (S i) (S next) last
    end.
  Definition algo_is_sorted_until_by m (first last : nat) : res nat :=
    if first =? last then Ok last
    else do r <- sorted_until_loop (S (length m)) m first (S first) last;
         Ok (match r with None => last | Some i => i end).
  (** c_sorting.c 287-307 *)
  Definition algo_is_sorted_by m (first last : nat) : res bool :=
    do u <- algo_is_sorted_until_by m first last; Ok (u =? last).

  (** c_sorting.c 407-468: the copying loop 438-443, returns (memory, __i, __d, n) *)
  Fixpoint psc_copy (fuel : nat) m (i last d d_last n : nat) : res (list A * nat * nat * nat) :=
    match fuel with
    | 0 => NoFuel
    | S fuel' =>
      if (i =? last) || (d =? d_last) then Ok (m, i, d, n)
      else do x <- rd m i; do m' <- wr m d x; psc_copy fuel' m' (S i) last (S d) d_last (S n)
    end.
  (** the selection loop c_sorting.c 448-455 *)
  Fixpoint psc_select (fuel : nat) m (d_first d i last : nat) : res (list A) :=
    match fuel with
    | 0 => NoFuel
    | S fuel' =>
      if i =? last then Ok m
      else do x <- rd m i; do y <- rd m d_first;
           if comp x y then
             do m1 <- algo_pop_heap_by comp m d_first d;
             do x' <- rd m1 i;
             do m2 <- wr m1 (d - 1) x';
             do m3 <- algo_push_heap_by comp m2 d_first d;
             psc_select fuel' m3 d_first d (S i) last
           else psc_select fuel' m d_first d (S i) last
    end.
  (** c_sorting.c 431-468: result (memory, d_upper, n) *)
  Definition algo_partial_sort_copy_by m (first last d_first d_last : nat) : res (list A * nat * nat) :=
    if (first =? last) || (d_first =? d_last) then Ok (m, d_first, 0)
    else do (mid, n) <- psc_copy (S (length m)) m first last d_first d_last 0;
         let '(m1, i, d) := mid in
         do m2 <- algo_make_heap_by comp m1 d_first d;
         do m3 <- psc_select (S (length m)) m2 d_first d i last;
         do m4 <- algo_sort_heap_by comp m3 d_first d;
         Ok (m4, d, n).
End sort.
