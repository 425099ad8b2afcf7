(** SizeT.v — the vector and deque functions of c_vector.c and c_deque.c that take an element count, with the
    arithmetic of size_t.

    [W] is the number of values of size_t (2^64), [sz] the size of an element.  [wrap] is reduction modulo [W].
    As Vector.v, Deque.v and OomSeq.v otherwise: [ok] is the outcome of malloc; a block of [n] bytes has [n / sz]
    slots ([end_of_storage - start] divided by the element size is how the code computes it, c_vector.c 670-675,
    c_deque.c 395-400).
    Arithmetic which cannot wrap is left as it is: differences of pointers into a block, and products with a count
    that was just compared with the available room. *)
From Verif Require Import Base Spec SpecSeq Buffer Vector Deque OomSeq.
From stdpp Require Import list.

Section size_t.
  Context {A : Type} (dflt : A) (W sz : nat).
  Definition wrap (n : nat) : nat := n mod W.

  (** c_vector.c 488-509: cap * 2, n + size and cap * value_size *)
  Definition vec_realloc_w (ok : bool) (v : vec A) (n : nat) : res (option (vec A)) :=
    let size := vec_size v in
    let cap := vec_capacity v in
    let cap := if wrap (cap * 2) <? wrap (n + size) then wrap (n + size) else wrap (cap * 2) in
    if negb ok then Ok None
    else
      do b <- mcpy (raw (wrap (cap * sz) / sz)) 0 (buf v) 0 (fin v);
      do ds <- destroys (fin v) (buf v) 0;
      Ok (Some (Vec b size (S (gen v)) (dead v ++ ds))).
  (** c_vector.c 714-734; the byte offset count * value_size of the memmove is rounded down to slots (if it wraps,
      the fill that follows leaves the block whatever the memmove did) *)
  Definition vec_insert_n_w (ok : bool) (v : vec A) (pos count : nat) (value : arg A) : res (vec A * nat) :=
    if negb (pos <=? fin v) then Ok (v, fin v)
    else
      do r <- (if vec_available v <? count then vec_realloc_w ok v (count - vec_available v) else Ok (Some v));
      match r with
      | None => Ok (v, fin v)
      | Some v1 =>
        do b <- mcpy (buf v1) (pos + wrap (count * sz) / sz) (buf v1) pos (fin v1 - pos);
        do b' <- fill dflt (gen v1) count b pos (Some value);
        Ok (Vec b' (fin v1 + count) (gen v1) (dead v1), pos)
      end.
  (** c_vector.c 790-801 *)
  Definition vec_push_back_w (ok : bool) (v : vec A) (value : arg A) : res (vec A) :=
    do r <- (if fin v =? length (buf v) then vec_realloc_w ok v 1 else Ok (Some v));
    match r with
    | None => Ok v
    | Some v1 =>
      do x <- arg_get (buf v1) (gen v1) value;
      do b <- put (buf v1) (fin v1) x;
      Ok (Vec b (S (fin v1)) (gen v1) (dead v1))
    end.
  (** c_vector.c 816-836 *)
  Definition vec_resize_with_value_w (ok : bool) (v : vec A) (count : nat) (value : option (arg A)) : res (vec A) :=
    if vec_size v <? count then
      let count := count - vec_size v in
      do r <- (if vec_available v <? count then vec_realloc_w ok v count else Ok (Some v));
      match r with
      | None => Ok v
      | Some v1 =>
        do b <- fill dflt (gen v1) count (buf v1) (fin v1) value;
        Ok (Vec b (fin v1 + count) (gen v1) (dead v1))
      end
    else
      do ds <- destroys (fin v - count) (buf v) count;
      Ok (Vec (buf v) count (gen v) (dead v ++ ds)).

  (** c_deque.c 598-622: cap * 2, n + size, cap * value_size, cap - size and (cap - size) / 2 * value_size *)
  Definition deq_realloc_w (ok : bool) (d : deq A) (n : nat) : res (option (deq A)) :=
    let size := deq_size d in
    let cap := deq_capacity d in
    let cap := if wrap (cap * 2) <? wrap (n + size) then wrap (n + size) else wrap (cap * 2) in
    if negb ok then Ok None
    else
      let start := wrap (wrap (cap + (W - size)) / 2 * sz) / sz in
      do b <- mcpy (raw (wrap (cap * sz) / sz)) start (dbuf d) (dstart d) (dfin d - dstart d);
      do ds <- destroys (dfin d - dstart d) (dbuf d) (dstart d);
      Ok (Some (Deq b start (start + size) (S (dgen d)) (ddead d ++ ds))).
  (** c_deque.c 556-596; in the last case the offset n * value_size is treated as in [vec_insert_n_w] *)
  Definition insert_aux_w (d : deq A) (pos n : nat) (value : option (arg A)) : res (deq A * nat) :=
    if n <=? available_end d then
      do b <- mcpy (dbuf d) (pos + n) (dbuf d) pos (dfin d - pos);
      do b' <- fill dflt (dgen d) n b pos value;
      Ok (Deq b' (dstart d) (dfin d + n) (dgen d) (ddead d), pos)
    else if n <=? available_start d then
      do b <- mcpy (dbuf d) (dstart d - n) (dbuf d) (dstart d) (pos - dstart d);
      do b' <- fill dflt (dgen d) n b (pos - n) value;
      Ok (Deq b' (dstart d - n) (dfin d) (dgen d) (ddead d), pos - n)
    else
      let first_half := pos - dstart d in
      let second_half := dfin d - pos in
      do b <- mcpy (dbuf d) 0 (dbuf d) (dstart d) first_half;
      do b1 <- mcpy b (first_half + wrap (n * sz) / sz) b pos second_half;
      do b2 <- fill dflt (dgen d) n b1 first_half value;
      Ok (Deq b2 0 (first_half + n + second_half) (dgen d) (ddead d), first_half).
  (** c_deque.c 808-825: (count - available) * 2 *)
  Definition deq_insert_n_w (ok : bool) (d : deq A) (pos count : nat) (value : arg A) : res (deq A * nat) :=
    if negb (deq_valid d pos) then Ok (d, dfin d)
    else if deq_available d <? count then
      let diff := pos - dstart d in
      do r <- deq_realloc_w ok d (wrap ((count - deq_available d) * 2));
      match r with
      | None => Ok (d, dfin d)
      | Some d1 => insert_aux_w d1 (dstart d1 + diff) count (Some value)
      end
    else insert_aux_w d pos count (Some value).
  (** c_deque.c 884-895, 906-917 *)
  Definition deq_push_back_w (ok : bool) (d : deq A) (value : arg A) : res (deq A) :=
    do r <- (if dfin d =? length (dbuf d) then deq_realloc_w ok d 2 else Ok (Some d));
    match r with
    | None => Ok d
    | Some d1 =>
      do x <- arg_get (dbuf d1) (dgen d1) value;
      do b <- put (dbuf d1) (dfin d1) x;
      Ok (Deq b (dstart d1) (S (dfin d1)) (dgen d1) (ddead d1))
    end.
  Definition deq_push_front_w (ok : bool) (d : deq A) (value : arg A) : res (deq A) :=
    do r <- (if dstart d =? 0 then deq_realloc_w ok d 2 else Ok (Some d));
    match r with
    | None => Ok d
    | Some d1 =>
      match dstart d1 with
      | 0 => UB
      | S s =>
        do x <- arg_get (dbuf d1) (dgen d1) value;
        do b <- put (dbuf d1) s x;
        Ok (Deq b s (dfin d1) (dgen d1) (ddead d1))
      end
    end.
  (** c_deque.c 933-954: count * 2 *)
  Definition deq_resize_with_value_w (ok : bool) (d : deq A) (count : nat) (value : option (arg A)) : res (deq A) :=
    if deq_size d <? count then
      let count := count - deq_size d in
      do r <- (if deq_available d <? count then deq_realloc_w ok d (wrap (count * 2)) else Ok (Some d));
      match r with
      | None => Ok d
      | Some d1 => do (d2, _) <- insert_aux_w d1 (dfin d1) count value; Ok d2
      end
    else
      let pos := dstart d + count in
      do ds <- destroys (dfin d - pos) (dbuf d) pos;
      Ok (Deq (dbuf d) (dstart d) pos (dgen d) (ddead d ++ ds)).

  (** one operation of a history, as [vec_step_m] and [deq_step_m] of OomSeq.v *)
  Definition vec_step_w (ok : bool) (v : vec A) (o : vec_op A) : res (vec A) :=
    match o with
    | VPushBack a => vec_push_back_w ok v (Val a)
    | VInsert i a => do (v', _) <- vec_insert_n_w ok v i 1 (Val a); Ok v'
    | VResize n => vec_resize_with_value_w ok v n None
    | VResizeWith n a => vec_resize_with_value_w ok v n (Some (Val a))
    | _ => vec_step_m dflt ok v o
    end.
  Fixpoint vec_run_w (v : vec A) (os : list (bool * vec_op A)) : res (vec A) :=
    match os with [] => Ok v | (ok, o) :: os' => do v' <- vec_step_w ok v o; vec_run_w v' os' end.
  Definition deq_step_w (ok : bool) (d : deq A) (o : deq_op A) : res (deq A) :=
    match o with
    | DPushBack a => deq_push_back_w ok d (Val a)
    | DPushFront a => deq_push_front_w ok d (Val a)
    | DInsert i a => do (d', _) <- deq_insert_n_w ok d (dstart d + i) 1 (Val a); Ok d'
    | DInsertN i n a => do (d', _) <- deq_insert_n_w ok d (dstart d + i) n (Val a); Ok d'
    | DResize n => deq_resize_with_value_w ok d n None
    | DResizeWith n a => deq_resize_with_value_w ok d n (Some (Val a))
    | _ => deq_step_m dflt ok d o
    end.
  Fixpoint deq_run_w (d : deq A) (os : list (bool * deq_op A)) : res (deq A) :=
    match os with [] => Ok d | (ok, o) :: os' => do d' <- deq_step_w ok d o; deq_run_w d' os' end.
End size_t.
