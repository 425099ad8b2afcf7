(** Vector.v — model of /repo/container/c_vector.c.

    The vector's block starts at slot 0 ([vector->start]); [fin] is [finish]; [end_of_storage] is the
    length of the block.  [gen] counts the blocks allocated or released so far and so identifies the
    current one.  [dead] is a ghost log of the element values on which the element type's destroy
    callback was called.  A null [start] is the empty block.
    Simplifications: malloc does not fail; null-argument guards are not modelled; sizes are unbounded;
    iterators passed in are slot indices of the current block. *)
From Verif Require Import Base Spec SpecSeq Buffer.
From stdpp Require Import list.

Section vector.
  Context {A : Type} (dflt : A).

  (** c_vector.c 35-40 *)
  Record vec := Vec { buf : list (option A); fin : nat; gen : nat; dead : list A }.

  (** c_vector.c 514-528 *)
  Definition vec_create : vec := Vec [] 0 0 [].
  (** c_vector.c 652-657 *)
  Definition vec_size (v : vec) : nat := fin v.
  (** c_vector.c 670-675 *)
  Definition vec_capacity (v : vec) : nat := length (buf v).
  (** c_vector.c 647-650 *)
  Definition vec_empty (v : vec) : bool := fin v =? 0.
  (** c_vector.c 352-357 *)
  Definition vec_available (v : vec) : nat := length (buf v) - fin v.
  (** c_vector.c 593-597: the reference returned, dereferenced *)
  Definition vec_at (v : vec) (i : nat) : res A := get (buf v) i.
  (** c_vector.c 599-602 and 604-609; [None] is the null reference *)
  Definition vec_front (v : vec) : res (option A) :=
    if vec_empty v then Ok None else do x <- get (buf v) 0; Ok (Some x).
  Definition vec_back (v : vec) : res (option A) :=
    if vec_empty v then Ok None else do x <- get (buf v) (fin v - 1); Ok (Some x).

  (** Walking the iterators: c_vector_begin/end (c_vector.c 620-624, 632-636) with iter_increment (90-96) and
      iter_dereference (136-140). *)
  Fixpoint walk (n : nat) (b : list (option A)) (pos last : nat) : res (list A) :=
    match n with
    | 0 => NoFuel
    | S n' => if pos =? last then Ok []
              else do x <- get b pos; do r <- walk n' b (S pos) last; Ok (x :: r)
    end.
  Definition vec_traverse (v : vec) : res (list A) := walk (S (length (buf v))) (buf v) 0 (fin v).
  (** Walking the reverse iterators: c_vector_rbegin/rend (626-630, 638-642), the reverse increment
      and dereference ( *(pos - size)), c_vector.c 189-195, 235-241. *)
  Fixpoint rwalk (n : nat) (b : list (option A)) (pos last : nat) : res (list A) :=
    match n with
    | 0 => NoFuel
    | S n' => if pos =? last then Ok []
              else match pos with
                   | 0 => UB
                   | S pos' => do x <- get b pos'; do r <- rwalk n' b pos' last; Ok (x :: r)
                   end
    end.
  Definition vec_rtraverse (v : vec) : res (list A) := rwalk (S (length (buf v))) (buf v) (fin v) 0.

  (** c_vector.c 488-509 *)
  Definition vec_realloc (v : vec) (n : nat) : res vec :=
    let size := vec_size v in
    let cap := vec_capacity v in
    let cap := if cap * 2 <? n + size then n + size else cap * 2 in
    do b <- mcpy (raw cap) 0 (buf v) 0 (fin v);
    do ds <- destroys (fin v) (buf v) 0;
    Ok (Vec b size (S (gen v)) (dead v ++ ds)).

  (** c_vector.c 702-707 *)
  Definition vec_clear (v : vec) : res vec :=
    if vec_empty v then Ok v
    else do ds <- destroys (fin v) (buf v) 0; Ok (Vec (buf v) 0 (gen v) (dead v ++ ds)).

  (** c_vector.c 677-697 *)
  Definition vec_shrink_to_fit (v : vec) : res vec :=
    if length (buf v) =? fin v then Ok v
    else if fin v =? 0 then Ok (Vec [] 0 (S (gen v)) (dead v))
    else do b <- mcpy (raw (fin v)) 0 (buf v) 0 (fin v);
         do ds <- destroys (fin v) (buf v) 0;
         Ok (Vec b (fin v) (S (gen v)) (dead v ++ ds)).

  (** c_vector.c 714-734; returns the vector and the position of the iterator returned.
      (47-58, __is_valid_pos: a slot index is a valid position iff it is at most [finish].) *)
  Definition vec_insert_n (v : vec) (pos count : nat) (value : arg A) : res (vec * nat) :=
    if negb (pos <=? fin v) then Ok (v, fin v)
    else
      do v1 <- (if vec_available v <? count then vec_realloc v (count - vec_available v) else Ok v);
      do b <- mcpy (buf v1) (pos + count) (buf v1) pos (fin v1 - pos);
      do b' <- fill dflt (gen v1) count b pos (Some value);
      Ok (Vec b' (fin v1 + count) (gen v1) (dead v1), pos).
  (** c_vector.c 709-712 *)
  Definition vec_insert (v : vec) (pos : nat) (value : arg A) : res (vec * nat) :=
    vec_insert_n v pos 1 value.

  (** c_vector.c 755-768 *)
  Definition vec_erase (v : vec) (pos : nat) : res (vec * nat) :=
    if negb (pos <=? fin v) || (pos =? fin v) then Ok (v, fin v)
    else
      do x <- get (buf v) pos;
      do b <- mcpy (buf v) pos (buf v) (S pos) (fin v - S pos);
      Ok (Vec b (fin v - 1) (gen v) (dead v ++ [x]), pos).

  (** c_vector.c 770-788 *)
  Definition vec_erase_range (v : vec) (first last : nat) : res (vec * nat) :=
    if negb (first <=? fin v) || negb (last <=? fin v) || (last <? first) then Ok (v, fin v)
    else if first =? last then Ok (v, last)
    else
      do ds <- destroys (last - first) (buf v) first;
      do b <- mcpy (buf v) first (buf v) last (fin v - last);
      Ok (Vec b (fin v - (last - first)) (gen v) (dead v ++ ds), first).

  (** c_vector.c 790-801 *)
  Definition vec_push_back (v : vec) (value : arg A) : res vec :=
    do v1 <- (if fin v =? length (buf v) then vec_realloc v 1 else Ok v);
    do x <- arg_get (buf v1) (gen v1) value;
    do b <- put (buf v1) (fin v1) x;
    Ok (Vec b (S (fin v1)) (gen v1) (dead v1)).

  (** c_vector.c 803-809 *)
  Definition vec_pop_back (v : vec) : res vec :=
    if vec_empty v then Ok v
    else do x <- get (buf v) (fin v - 1);
         Ok (Vec (buf v) (fin v - 1) (gen v) (dead v ++ [x])).

  (** c_vector.c 816-836; 811-814 (c_vector_resize) is [value = None] *)
  Definition vec_resize_with_value (v : vec) (count : nat) (value : option (arg A)) : res vec :=
    if vec_size v <? count then
      let count := count - vec_size v in
      do v1 <- (if vec_available v <? count then vec_realloc v count else Ok v);
      do b <- fill dflt (gen v1) count (buf v1) (fin v1) value;
      Ok (Vec b (fin v1 + count) (gen v1) (dead v1))
    else
      do ds <- destroys (fin v - count) (buf v) count;
      Ok (Vec (buf v) count (gen v) (dead v ++ ds)).
  Definition vec_resize (v : vec) (count : nat) : res vec := vec_resize_with_value v count None.

  (** c_vector.c 664-668 *)
  Definition vec_reserve (v : vec) (new_cap : nat) : res vec :=
    if new_cap <=? vec_capacity v then Ok v else vec_resize v new_cap.

  (** c_vector.c 530-541; [None] is the null result *)
  Definition vec_create_from_array (values : list A) : res (option vec) :=
    if length values =? 0 then Ok None
    else do v <- vec_reserve vec_create (length values);
         do b <- mcpy (buf v) 0 (map Some values) 0 (length values);
         Ok (Some (Vec b (fin v) (gen v) (dead v))).
  (** c_vector.c 543-552 *)
  Definition vec_create_n (count : nat) (value : A) : res (option vec) :=
    if count =? 0 then Ok None
    else do v <- vec_resize_with_value vec_create count (Some (Val value)); Ok (Some v).
  (** c_vector.c 554-565 *)
  Definition vec_copy (other : vec) : res vec :=
    do v <- vec_reserve vec_create (vec_capacity other);
    do b <- mcpy (buf v) 0 (buf other) 0 (vec_size other);
    Ok (Vec b (fin v) (gen v) (dead v)).
  (** c_vector.c 567-579, for distinct vectors *)
  Definition vec_assign (self other : vec) : res vec :=
    do v1 <- vec_clear self;
    do v2 <- vec_reserve v1 (vec_capacity other);
    do b <- mcpy (buf v2) 0 (buf other) 0 (vec_size other);
    Ok (Vec b (fin v2) (gen v2) (dead v2)).
  (** c_vector.c 581-588: the values destroyed on the way *)
  Definition vec_destroy (v : vec) : res (list A) := do v' <- vec_clear v; Ok (dead v').
  (** c_vector.c 838-845 *)
  Definition vec_swap (v other : vec) : vec * vec := (other, v).
End vector.
Global Arguments vec : clear implicits.

(** One operation of a history (the position returned by insert/erase is dropped here). *)

Definition vec_step {A} (dflt : A) (v : vec A) (o : vec_op A) : res (vec A) :=
  match o with
  | VPushBack a => vec_push_back v (Val a)
  | VPopBack => vec_pop_back v
  | VInsert i a => do (v', _) <- vec_insert dflt v i (Val a); Ok v'
  | VErase i => do (v', _) <- vec_erase v i; Ok v'
  | VEraseRange i j => do (v', _) <- vec_erase_range v i j; Ok v'
  | VClear => vec_clear v
  | VResize n => vec_resize dflt v n
  | VResizeWith n a => vec_resize_with_value dflt v n (Some (Val a))
  | VShrinkToFit => vec_shrink_to_fit v
  end.
Fixpoint vec_run {A} (dflt : A) (v : vec A) (os : list (vec_op A)) : res (vec A) :=
  match os with [] => Ok v | o :: os' => do v' <- vec_step dflt v o; vec_run dflt v' os' end.
