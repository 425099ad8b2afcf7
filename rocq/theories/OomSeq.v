(** OomSeq.v — the vector and deque functions of c_vector.c and c_deque.c when malloc may fail.

    As Vector.v and Deque.v, but every call takes the outcomes of its calls of malloc: [ok] that of the (only) storage
    block it requests, [okv] that of the container object itself.  A function which does not reach malloc ignores
    them.  Functions not listed here never call malloc. *)
From Verif Require Import Base Spec SpecSeq Buffer Vector Deque.
From stdpp Require Import list.

Section vector.
  Context {A : Type} (dflt : A).
  Notation vec := (vec A).

  (** c_vector.c 488-509; [None] is the result -1 (line 499) *)
  Definition vec_realloc_m (ok : bool) (v : vec) (n : nat) : res (option vec) :=
    if ok then do v' <- vec_realloc v n; Ok (Some v') else Ok None.
  (** c_vector.c 677-697, failure at 689 *)
  Definition vec_shrink_to_fit_m (ok : bool) (v : vec) : res vec :=
    if length (buf v) =? fin v then Ok v
    else if fin v =? 0 then Ok (Vec [] 0 (S (gen v)) (dead v))
    else if negb ok then Ok v
    else do b <- mcpy (raw (fin v)) 0 (buf v) 0 (fin v);
         do ds <- destroys (fin v) (buf v) 0;
         Ok (Vec b (fin v) (S (gen v)) (dead v ++ ds)).
  (** c_vector.c 714-734, failure at 723-724: returns end() *)
  Definition vec_insert_n_m (ok : bool) (v : vec) (pos count : nat) (value : arg A) : res (vec * nat) :=
    if negb (pos <=? fin v) then Ok (v, fin v)
    else
      do r <- (if vec_available v <? count then vec_realloc_m ok v (count - vec_available v) else Ok (Some v));
      match r with
      | None => Ok (v, fin v)
      | Some v1 =>
        do b <- mcpy (buf v1) (pos + count) (buf v1) pos (fin v1 - pos);
        do b' <- fill dflt (gen v1) count b pos (Some value);
        Ok (Vec b' (fin v1 + count) (gen v1) (dead v1), pos)
      end.
  (** c_vector.c 790-801, failure at 795-796 *)
  Definition vec_push_back_m (ok : bool) (v : vec) (value : arg A) : res vec :=
    do r <- (if fin v =? length (buf v) then vec_realloc_m ok v 1 else Ok (Some v));
    match r with
    | None => Ok v
    | Some v1 =>
      do x <- arg_get (buf v1) (gen v1) value;
      do b <- put (buf v1) (fin v1) x;
      Ok (Vec b (S (fin v1)) (gen v1) (dead v1))
    end.
  (** c_vector.c 816-836, failure at 825-826 *)
  Definition vec_resize_with_value_m (ok : bool) (v : vec) (count : nat) (value : option (arg A)) : res vec :=
    if vec_size v <? count then
      let count := count - vec_size v in
      do r <- (if vec_available v <? count then vec_realloc_m ok v count else Ok (Some v));
      match r with
      | None => Ok v
      | Some v1 =>
        do b <- fill dflt (gen v1) count (buf v1) (fin v1) value;
        Ok (Vec b (fin v1 + count) (gen v1) (dead v1))
      end
    else
      do ds <- destroys (fin v - count) (buf v) count;
      Ok (Vec (buf v) count (gen v) (dead v ++ ds)).
  (** c_vector.c 664-668 *)
  Definition vec_reserve_m (ok : bool) (v : vec) (new_cap : nat) : res vec :=
    if new_cap <=? vec_capacity v then Ok v else vec_resize_with_value_m ok v new_cap None.
  (** c_vector.c 514-528; [None] is the null result *)
  Definition vec_create_m (okv : bool) : option vec := if okv then Some vec_create else None.
  (** c_vector.c 530-541; the outcome of the reserve is not checked *)
  Definition vec_create_from_array_m (okv ok : bool) (values : list A) : res (option vec) :=
    if length values =? 0 then Ok None
    else match vec_create_m okv with
         | None => Ok None
         | Some v0 =>
           do v <- vec_reserve_m ok v0 (length values);
           do b <- mcpy (buf v) 0 (map Some values) 0 (length values);
           Ok (Some (Vec b (fin v) (gen v) (dead v)))
         end.
  (** c_vector.c 543-552 *)
  Definition vec_create_n_m (okv ok : bool) (count : nat) (value : A) : res (option vec) :=
    if count =? 0 then Ok None
    else match vec_create_m okv with
         | None => Ok None
         | Some v0 => do v <- vec_resize_with_value_m ok v0 count (Some (Val value)); Ok (Some v)
         end.
  (** c_vector.c 554-565 *)
  Definition vec_copy_m (okv ok : bool) (other : vec) : res (option vec) :=
    match vec_create_m okv with
    | None => Ok None
    | Some v0 =>
      do v <- vec_reserve_m ok v0 (vec_capacity other);
      do b <- mcpy (buf v) 0 (buf other) 0 (vec_size other);
      Ok (Some (Vec b (fin v) (gen v) (dead v)))
    end.
  (** c_vector.c 567-579, for distinct vectors *)
  Definition vec_assign_m (ok : bool) (self other : vec) : res vec :=
    do v1 <- vec_clear self;
    do v2 <- vec_reserve_m ok v1 (vec_capacity other);
    do b <- mcpy (buf v2) 0 (buf other) 0 (vec_size other);
    Ok (Vec b (fin v2) (gen v2) (dead v2)).

  (** one operation of a history, as [vec_step] *)
  Definition vec_step_m (ok : bool) (v : vec) (o : vec_op A) : res vec :=
    match o with
    | VPushBack a => vec_push_back_m ok v (Val a)
    | VInsert i a => do (v', _) <- vec_insert_n_m ok v i 1 (Val a); Ok v'
    | VResize n => vec_resize_with_value_m ok v n None
    | VResizeWith n a => vec_resize_with_value_m ok v n (Some (Val a))
    | VShrinkToFit => vec_shrink_to_fit_m ok v
    | _ => vec_step dflt v o
    end.
  Fixpoint vec_run_m (v : vec) (os : list (bool * vec_op A)) : res vec :=
    match os with [] => Ok v | (ok, o) :: os' => do v' <- vec_step_m ok v o; vec_run_m v' os' end.
End vector.

Section deque.
  Context {A : Type} (dflt : A).
  Notation deq := (deq A).

  (** c_deque.c 598-622; [None] is the result -1 (line 609) *)
  Definition deq_realloc_m (ok : bool) (d : deq) (n : nat) : res (option deq) :=
    if ok then do d' <- deq_realloc d n; Ok (Some d') else Ok None.
  (** c_deque.c 761-786, failure at 776 *)
  Definition deq_shrink_to_fit_m (ok : bool) (d : deq) : res deq :=
    if (length (dbuf d) =? dfin d) && (dstart d =? 0) then Ok d
    else if dfin d - dstart d =? 0 then Ok (Deq [] 0 0 (S (dgen d)) (ddead d))
    else if negb ok then Ok d
    else let size := dfin d - dstart d in
         do b <- mcpy (raw size) 0 (dbuf d) (dstart d) size;
         do ds <- destroys size (dbuf d) (dstart d);
         Ok (Deq b 0 size (S (dgen d)) (ddead d ++ ds)).
  (** c_deque.c 808-825, failure at 817-818: returns end() *)
  Definition deq_insert_n_m (ok : bool) (d : deq) (pos count : nat) (value : arg A) : res (deq * nat) :=
    if negb (deq_valid d pos) then Ok (d, dfin d)
    else if deq_available d <? count then
      let diff := pos - dstart d in
      do r <- deq_realloc_m ok d ((count - deq_available d) * 2);
      match r with
      | None => Ok (d, dfin d)
      | Some d1 => insert_aux dflt d1 (dstart d1 + diff) count (Some value)
      end
    else insert_aux dflt d pos count (Some value).
  (** c_deque.c 884-895, failure at 889 *)
  Definition deq_push_back_m (ok : bool) (d : deq) (value : arg A) : res deq :=
    do r <- (if dfin d =? length (dbuf d) then deq_realloc_m ok d 2 else Ok (Some d));
    match r with
    | None => Ok d
    | Some d1 =>
      do x <- arg_get (dbuf d1) (dgen d1) value;
      do b <- put (dbuf d1) (dfin d1) x;
      Ok (Deq b (dstart d1) (S (dfin d1)) (dgen d1) (ddead d1))
    end.
  (** c_deque.c 906-917, failure at 911 *)
  Definition deq_push_front_m (ok : bool) (d : deq) (value : arg A) : res deq :=
    do r <- (if dstart d =? 0 then deq_realloc_m ok d 2 else Ok (Some d));
    match r with
    | None => Ok d
    | Some d1 =>
      match dstart d1 with
      | 0 => UB
      | S s =>
        do x <- arg_get (dbuf d1) (dgen d1) value;
        do b <- put (dbuf d1) s x;
        Ok (Deq b s (dfin d1) (dgen d1) (ddead d1))
      end
    end.
  (** c_deque.c 933-954, failure at 943 *)
  Definition deq_resize_with_value_m (ok : bool) (d : deq) (count : nat) (value : option (arg A)) : res deq :=
    if deq_size d <? count then
      let count := count - deq_size d in
      do r <- (if deq_available d <? count then deq_realloc_m ok d (count * 2) else Ok (Some d));
      match r with
      | None => Ok d
      | Some d1 => do (d2, _) <- insert_aux dflt d1 (dfin d1) count value; Ok d2
      end
    else
      let pos := dstart d + count in
      do ds <- destroys (dfin d - pos) (dbuf d) pos;
      Ok (Deq (dbuf d) (dstart d) pos (dgen d) (ddead d ++ ds)).
  (** c_deque.c 402-406 *)
  Definition deq_reserve_m (ok : bool) (d : deq) (new_cap : nat) : res deq :=
    if deq_capacity d <? new_cap then deq_resize_with_value_m ok d new_cap None else Ok d.
  (** c_deque.c 627-642 *)
  Definition deq_create_m (okv : bool) : option deq := if okv then Some deq_create else None.
  (** c_deque.c 644-655; the outcome of the reserve is not checked *)
  Definition deq_create_from_m (okv ok : bool) (values : list A) : res (option deq) :=
    if length values =? 0 then Ok None
    else match deq_create_m okv with
         | None => Ok None
         | Some d0 =>
           do d <- deq_reserve_m ok d0 (length values);
           do b <- mcpy (dbuf d) (dstart d) (map Some values) 0 (length values);
           Ok (Some (Deq b (dstart d) (dfin d) (dgen d) (ddead d)))
         end.
  (** c_deque.c 657-668 *)
  Definition deq_copy_m (okv ok : bool) (other : deq) : res (option deq) :=
    match deq_create_m okv with
    | None => Ok None
    | Some d0 =>
      do d <- deq_reserve_m ok d0 (deq_capacity other);
      do b <- mcpy (dbuf d) (dstart d) (dbuf other) (dstart other) (deq_size other);
      Ok (Some (Deq b (dstart d) (dfin d) (dgen d) (ddead d)))
    end.
  (** c_deque.c 670-682, for distinct deques *)
  Definition deq_assign_m (ok : bool) (self other : deq) : res deq :=
    do d1 <- deq_clear self;
    do d2 <- deq_reserve_m ok d1 (deq_capacity other);
    do b <- mcpy (dbuf d2) (dstart d2) (dbuf other) (dstart other) (deq_size other);
    Ok (Deq b (dstart d2) (dfin d2) (dgen d2) (ddead d2)).

  (** one operation of a history, as [deq_step] *)
  Definition deq_step_m (ok : bool) (d : deq) (o : deq_op A) : res deq :=
    match o with
    | DPushBack a => deq_push_back_m ok d (Val a)
    | DPushFront a => deq_push_front_m ok d (Val a)
    | DInsert i a => do (d', _) <- deq_insert_n_m ok d (dstart d + i) 1 (Val a); Ok d'
    | DInsertN i n a => do (d', _) <- deq_insert_n_m ok d (dstart d + i) n (Val a); Ok d'
    | DResize n => deq_resize_with_value_m ok d n None
    | DResizeWith n a => deq_resize_with_value_m ok d n (Some (Val a))
    | DShrinkToFit => deq_shrink_to_fit_m ok d
    | _ => deq_step dflt d o
    end.
  Fixpoint deq_run_m (d : deq) (os : list (bool * deq_op A)) : res deq :=
    match os with [] => Ok d | (ok, o) :: os' => do d' <- deq_step_m ok d o; deq_run_m d' os' end.
End deque.
