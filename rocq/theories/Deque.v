(** Deque.v — model of /repo/container/c_deque.c.

    Slot 0 of the block is [start_of_storage]; [dstart], [dfin] are [start], [finish]; [end_of_storage]
    is the length of the block.  [dgen], [ddead] and the simplifications are as in Vector.v. *)
From Verif Require Import Base Spec SpecSeq Buffer.
From stdpp Require Import list.

Section deque.
  Context {A : Type} (dflt : A).

  (** c_deque.c 35-41 *)
  Record deq := Deq { dbuf : list (option A); dstart : nat; dfin : nat; dgen : nat; ddead : list A }.

  (** c_deque.c 627-642 *)
  Definition deq_create : deq := Deq [] 0 0 0 [].
  (** c_deque.c 749-754, 744-747 *)
  Definition deq_size (d : deq) : nat := dfin d - dstart d.
  Definition deq_empty (d : deq) : bool := dstart d =? dfin d.
  (** c_deque.c 395-400 *)
  Definition deq_capacity (d : deq) : nat := length (dbuf d).
  (** c_deque.c 376-393 *)
  Definition available_start (d : deq) : nat := dstart d.
  Definition available_end (d : deq) : nat := length (dbuf d) - dfin d.
  Definition deq_available (d : deq) : nat := available_start d + available_end d.

  (** c_deque.c 696-700 (the reference, dereferenced), 702-705, 707-712 *)
  Definition deq_at (d : deq) (i : nat) : res A := get (dbuf d) (dstart d + i).
  Definition deq_front (d : deq) : res (option A) :=
    if deq_empty d then Ok None else do x <- get (dbuf d) (dstart d); Ok (Some x).
  Definition deq_back (d : deq) : res (option A) :=
    if deq_empty d then Ok None else do x <- get (dbuf d) (dfin d - 1); Ok (Some x).

  (** c_deque.c 598-622 *)
  Definition deq_realloc (d : deq) (n : nat) : res deq :=
    let size := deq_size d in
    let cap := deq_capacity d in
    let cap := if cap * 2 <? n + size then n + size else cap * 2 in
    let start := (cap - size) / 2 in
    do b <- mcpy (raw cap) start (dbuf d) (dstart d) (dfin d - dstart d);
    do ds <- destroys (dfin d - dstart d) (dbuf d) (dstart d);
    Ok (Deq b start (start + size) (S (dgen d)) (ddead d ++ ds)).

  (** c_deque.c 556-596; returns the deque and the new position.  [dstart - n] and the like are only
      computed when not negative (checked by the branch conditions). *)
  Definition insert_aux (d : deq) (pos n : nat) (value : option (arg A)) : res (deq * nat) :=
    if n <=? available_end d then
      do b <- mcpy (dbuf d) (pos + n) (dbuf d) pos (dfin d - pos);
      do b' <- fill dflt (dgen d) n b pos value;
      Ok (Deq b' (dstart d) (dfin d + n) (dgen d) (ddead d), pos)
    else if n <=? available_start d then
      do b <- mcpy (dbuf d) (dstart d - n) (dbuf d) (dstart d) (pos - dstart d);
      do b' <- fill dflt (dgen d) n b (pos - n) value;
      Ok (Deq b' (dstart d - n) (dfin d) (dgen d) (ddead d), pos - n)
    else
      let first_half := pos - dstart d in
      let second_half := dfin d - pos in
      do b <- mcpy (dbuf d) 0 (dbuf d) (dstart d) first_half;
      do b1 <- mcpy b (first_half + n) b pos second_half;
      do b2 <- fill dflt (dgen d) n b1 first_half value;
      Ok (Deq b2 0 (first_half + n + second_half) (dgen d) (ddead d), first_half).

  (** c_deque.c 791-801 *)
  Definition deq_clear (d : deq) : res deq :=
    if deq_empty d then Ok d
    else do ds <- destroys (dfin d - dstart d) (dbuf d) (dstart d);
         let s := length (dbuf d) / 2 in
         Ok (Deq (dbuf d) s s (dgen d) (ddead d ++ ds)).

  (** c_deque.c 761-786 *)
  Definition deq_shrink_to_fit (d : deq) : res deq :=
    if (length (dbuf d) =? dfin d) && (dstart d =? 0) then Ok d
    else if dfin d - dstart d =? 0 then Ok (Deq [] 0 0 (S (dgen d)) (ddead d))
    else let size := dfin d - dstart d in
         do b <- mcpy (raw size) 0 (dbuf d) (dstart d) size;
         do ds <- destroys size (dbuf d) (dstart d);
         Ok (Deq b 0 size (S (dgen d)) (ddead d ++ ds)).

  (** c_deque.c 61-71: is a slot index a valid position *)
  Definition deq_valid (d : deq) (pos : nat) : bool := (dstart d <=? pos) && (pos <=? dfin d).

  (** c_deque.c 808-825 *)
  Definition deq_insert_n (d : deq) (pos count : nat) (value : arg A) : res (deq * nat) :=
    if negb (deq_valid d pos) then Ok (d, dfin d)
    else if deq_available d <? count then
      let diff := pos - dstart d in
      do d1 <- deq_realloc d ((count - deq_available d) * 2);
      insert_aux d1 (dstart d1 + diff) count (Some value)
    else insert_aux d pos count (Some value).
  (** c_deque.c 803-806 *)
  Definition deq_insert (d : deq) (pos : nat) (value : arg A) : res (deq * nat) :=
    deq_insert_n d pos 1 value.

  (** c_deque.c 845-860 *)
  Definition deq_erase (d : deq) (pos : nat) : res (deq * nat) :=
    if negb (deq_valid d pos) || (pos =? dfin d) then Ok (d, dfin d)
    else
      do x <- get (dbuf d) pos;
      do b <- mcpy (dbuf d) pos (dbuf d) (S pos) (dfin d - S pos);
      Ok (Deq b (dstart d) (dfin d - 1) (dgen d) (ddead d ++ [x]), pos).

  (** c_deque.c 862-882 *)
  Definition deq_erase_range (d : deq) (first last : nat) : res (deq * nat) :=
    if negb (deq_valid d first) || negb (deq_valid d last) || (last <? first) then Ok (d, dfin d)
    else if first =? last then Ok (d, last)
    else
      do ds <- destroys (last - first) (dbuf d) first;
      do b <- mcpy (dbuf d) first (dbuf d) last (dfin d - last);
      Ok (Deq b (dstart d) (dfin d - (last - first)) (dgen d) (ddead d ++ ds), first).

  (** c_deque.c 884-895 *)
  Definition deq_push_back (d : deq) (value : arg A) : res deq :=
    do d1 <- (if dfin d =? length (dbuf d) then deq_realloc d 2 else Ok d);
    do x <- arg_get (dbuf d1) (dgen d1) value;
    do b <- put (dbuf d1) (dfin d1) x;
    Ok (Deq b (dstart d1) (S (dfin d1)) (dgen d1) (ddead d1)).
  (** c_deque.c 897-904 *)
  Definition deq_pop_back (d : deq) : res deq :=
    if deq_empty d then Ok d
    else do x <- get (dbuf d) (dfin d - 1);
         Ok (Deq (dbuf d) (dstart d) (dfin d - 1) (dgen d) (ddead d ++ [x])).
  (** c_deque.c 906-917; moving [start] below the storage is UB *)
  Definition deq_push_front (d : deq) (value : arg A) : res deq :=
    do d1 <- (if dstart d =? 0 then deq_realloc d 2 else Ok d);
    match dstart d1 with
    | 0 => UB
    | S s =>
      do x <- arg_get (dbuf d1) (dgen d1) value;
      do b <- put (dbuf d1) s x;
      Ok (Deq b s (dfin d1) (dgen d1) (ddead d1))
    end.
  (** c_deque.c 919-926 *)
  Definition deq_pop_front (d : deq) : res deq :=
    if deq_empty d then Ok d
    else do x <- get (dbuf d) (dstart d);
         Ok (Deq (dbuf d) (S (dstart d)) (dfin d) (dgen d) (ddead d ++ [x])).

  (** c_deque.c 933-954; 928-931 (c_deque_resize) is [value = None] *)
  Definition deq_resize_with_value (d : deq) (count : nat) (value : option (arg A)) : res deq :=
    if deq_size d <? count then
      let count := count - deq_size d in
      do d1 <- (if deq_available d <? count then deq_realloc d (count * 2) else Ok d);
      do (d2, _) <- insert_aux d1 (dfin d1) count value;
      Ok d2
    else
      let pos := dstart d + count in
      do ds <- destroys (dfin d - pos) (dbuf d) pos;
      Ok (Deq (dbuf d) (dstart d) pos (dgen d) (ddead d ++ ds)).
  Definition deq_resize (d : deq) (count : nat) : res deq := deq_resize_with_value d count None.
  (** c_deque.c 402-406 *)
  Definition deq_reserve (d : deq) (new_cap : nat) : res deq :=
    if deq_capacity d <? new_cap then deq_resize d new_cap else Ok d.

  (** c_deque.c 644-655 *)
  Definition deq_create_from (values : list A) : res (option deq) :=
    if length values =? 0 then Ok None
    else do d <- deq_reserve deq_create (length values);
         do b <- mcpy (dbuf d) (dstart d) (map Some values) 0 (length values);
         Ok (Some (Deq b (dstart d) (dfin d) (dgen d) (ddead d))).
  (** c_deque.c 657-668 *)
  Definition deq_copy (other : deq) : res deq :=
    do d <- deq_reserve deq_create (deq_capacity other);
    do b <- mcpy (dbuf d) (dstart d) (dbuf other) (dstart other) (deq_size other);
    Ok (Deq b (dstart d) (dfin d) (dgen d) (ddead d)).
  (** c_deque.c 670-682, for distinct deques *)
  Definition deq_assign (self other : deq) : res deq :=
    do d1 <- deq_clear self;
    do d2 <- deq_reserve d1 (deq_capacity other);
    do b <- mcpy (dbuf d2) (dstart d2) (dbuf other) (dstart other) (deq_size other);
    Ok (Deq b (dstart d2) (dfin d2) (dgen d2) (ddead d2)).
  (** c_deque.c 684-691: the values destroyed on the way *)
  Definition deq_destroy (d : deq) : res (list A) := do d' <- deq_clear d; Ok (ddead d').
  (** c_deque.c 956-963 *)
  Definition deq_swap (d other : deq) : deq * deq := (other, d).

  (** Walking the iterators begin..end (c_deque.c 717-721, 729-733, increment 103-109, dereference
      151-157) and the reverse ones rbegin..rend (723-727, 735-739, 204-210, 252-258). *)
  Fixpoint dwalk (n : nat) (b : list (option A)) (pos last : nat) : res (list A) :=
    match n with
    | 0 => NoFuel
    | S n' => if pos =? last then Ok []
              else do x <- get b pos; do r <- dwalk n' b (S pos) last; Ok (x :: r)
    end.
  Definition deq_traverse (d : deq) : res (list A) := dwalk (S (length (dbuf d))) (dbuf d) (dstart d) (dfin d).
  Fixpoint drwalk (n : nat) (b : list (option A)) (pos last : nat) : res (list A) :=
    match n with
    | 0 => NoFuel
    | S n' => if pos =? last then Ok []
              else match pos with
                   | 0 => UB
                   | S pos' => do x <- get b pos'; do r <- drwalk n' b pos' last; Ok (x :: r)
                   end
    end.
  Definition deq_rtraverse (d : deq) : res (list A) := drwalk (S (length (dbuf d))) (dbuf d) (dfin d) (dstart d).
End deque.
Global Arguments deq : clear implicits.

(** One operation of a history; a position is an offset from begin() (c_deque.c 803-882). *)
Definition deq_step {A} (dflt : A) (d : deq A) (o : deq_op A) : res (deq A) :=
  match o with
  | DPushBack a => deq_push_back d (Val a)
  | DPushFront a => deq_push_front d (Val a)
  | DPopBack => deq_pop_back d
  | DPopFront => deq_pop_front d
  | DInsert i a => do (d', _) <- deq_insert dflt d (dstart d + i) (Val a); Ok d'
  | DInsertN i n a => do (d', _) <- deq_insert_n dflt d (dstart d + i) n (Val a); Ok d'
  | DErase i => do (d', _) <- deq_erase d (dstart d + i); Ok d'
  | DEraseRange i j => do (d', _) <- deq_erase_range d (dstart d + i) (dstart d + j); Ok d'
  | DClear => deq_clear d
  | DResize n => deq_resize dflt d n
  | DResizeWith n a => deq_resize_with_value dflt d n (Some (Val a))
  | DShrinkToFit => deq_shrink_to_fit d
  end.
Fixpoint deq_run {A} (dflt : A) (d : deq A) (os : list (deq_op A)) : res (deq A) :=
  match os with [] => Ok d | o :: os' => do d' <- deq_step dflt d o; deq_run dflt d' os' end.
