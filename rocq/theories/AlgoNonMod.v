(** AlgoNonMod.v — model of /repo/algorithm/c_non_modifying.c.

    Common simplifications: the null-argument guards at the top of each C function (returning
    false/0) are not modelled, arguments are present; the "out" iterators ([found], [mismatch1]...)
    are returned in the result; the shadow copies made by __C_ALGO_BEGIN_n/__C_ALGO_END_n
    (c_internal.h 141-205) are value copies of indices. *)
From Verif Require Import Base.
From stdpp Require Import list.

Section nonmod.
  Context {A : Type}.

  (** The loop [while (C_ITER_NE(i, last) && p(C_ITER_DEREF(i))) C_ITER_INC(i);]
      shared by c_non_modifying.c 42-44, 64-66, 86-88, 265-267, 291-293, 317-319; returns the final i. *)
  Fixpoint scan_while (fuel : nat) (p : A -> bool) (m : list A) (i last : nat) : res nat :=
    match fuel with
    | 0 => NoFuel
    | S fuel' =>
      if i =? last then Ok i
      else do x <- rd m i; if p x then scan_while fuel' p m (S i) last else Ok i
    end.

  (** c_non_modifying.c 30-50 *)
  Definition algo_all_of (m : list A) (first last : nat) (pred : A -> bool) : res bool :=
    do i <- scan_while (S (length m)) pred m first last; Ok (i =? last).
  (** c_non_modifying.c 52-72 *)
  Definition algo_any_of (m : list A) (first last : nat) (pred : A -> bool) : res bool :=
    do i <- scan_while (S (length m)) (fun x => negb (pred x)) m first last; Ok (negb (i =? last)).
  (** c_non_modifying.c 74-94 *)
  Definition algo_none_of (m : list A) (first last : nat) (pred : A -> bool) : res bool :=
    do i <- scan_while (S (length m)) (fun x => negb (pred x)) m first last; Ok (i =? last).

  (** c_non_modifying.c 96-117, the loop 109-113.  [op] receives a reference, so it may change the
      cell, and may have side effects on a caller state [St]. *)
  Fixpoint for_each_loop {St} (fuel : nat) (op : St -> A -> St * A)
      (m : list A) (st : St) (i last n : nat) : res (list A * St * nat) :=
    match fuel with
    | 0 => NoFuel
    | S fuel' =>
      if i =? last then Ok (m, st, n)
      else do x <- rd m i; let (st', x') := op st x in
           do m' <- wr m i x'; for_each_loop fuel' op m' st' (S i) last (S n)
    end.
  Definition algo_for_each {St} (m : list A) (first last : nat) (op : St -> A -> St * A) (st : St)
      : res (list A * St * nat) :=
    for_each_loop (S (length m)) op m st first last 0.

  (** c_non_modifying.c 119-138; returns memory, state and [reached]. *)
  Fixpoint algo_for_each_n {St} (m : list A) (first n : nat) (op : St -> A -> St * A) (st : St)
      : res (list A * St * nat) :=
    match n with
    | 0 => Ok (m, st, first)
    | S n' => do x <- rd m first; let (st', x') := op st x in
              do m' <- wr m first x'; algo_for_each_n m' (S first) n' op st'
    end.

  (** c_non_modifying.c 162-182 (loop 173-176); 140-160 (algo_count) is the instance
      [pred := fun x => equal x value]. *)
  Fixpoint count_loop (fuel : nat) (pred : A -> bool) (m : list A) (i last n : nat) : res nat :=
    match fuel with
    | 0 => NoFuel
    | S fuel' =>
      if i =? last then Ok n
      else do x <- rd m i; count_loop fuel' pred m (S i) last (if pred x then S n else n)
    end.
  Definition algo_count_if (m : list A) (first last : nat) (pred : A -> bool) : res nat :=
    count_loop (S (length m)) pred m first last 0.
  Definition algo_count (eqf : A -> A -> bool) (m : list A) (first last : nat) (value : A) : res nat :=
    count_loop (S (length m)) (fun x => eqf x value) m first last 0.

  (** the two-range loop at c_non_modifying.c 205-208 and 240-243 *)
  Fixpoint scan2 (fuel : nat) (pred : A -> A -> bool) (m : list A) (i last j : nat) : res (nat * nat) :=
    match fuel with
    | 0 => NoFuel
    | S fuel' =>
      if i =? last then Ok (i, j)
      else do x <- rd m i; do y <- rd m j;
           if pred x y then scan2 fuel' pred m (S i) last (S j) else Ok (i, j)
    end.
  (** c_non_modifying.c 184-223: (is_mismatch, mismatch1, mismatch2) *)
  Definition algo_mismatch_by (m : list A) (first1 last1 first2 : nat) (pred : A -> A -> bool)
      : res (bool * nat * nat) :=
    do (i, j) <- scan2 (S (length m)) pred m first1 last1 first2;
    Ok (negb (i =? last1), i, j).
  (** c_non_modifying.c 225-248 *)
  Definition algo_equal_by (m : list A) (first1 last1 first2 : nat) (pred : A -> A -> bool) : res bool :=
    do (i, j) <- scan2 (S (length m)) pred m first1 last1 first2; Ok (i =? last1).

  (** c_non_modifying.c 250-275 *)
  Definition algo_find_by (m : list A) (first last : nat) (value : A) (pred : A -> A -> bool)
      : res (bool * nat) :=
    do i <- scan_while (S (length m)) (fun x => negb (pred x value)) m first last;
    Ok (negb (i =? last), i).
  (** c_non_modifying.c 277-301 *)
  Definition algo_find_if (m : list A) (first last : nat) (pred : A -> bool) : res (bool * nat) :=
    do i <- scan_while (S (length m)) (fun x => negb (pred x)) m first last; Ok (negb (i =? last), i).
  (** c_non_modifying.c 303-327 *)
  Definition algo_find_if_not (m : list A) (first last : nat) (pred : A -> bool) : res (bool * nat) :=
    do i <- scan_while (S (length m)) pred m first last; Ok (negb (i =? last), i).

  (** c_non_modifying.c 350-356: does the inner loop over [s_first,s_last) find a match for x *)
  Fixpoint first_of_inner (fuel : nat) (pred : A -> A -> bool) (m : list A) (x : A) (s s_last : nat)
      : res bool :=
    match fuel with
    | 0 => NoFuel
    | S fuel' =>
      if s =? s_last then Ok false
      else do y <- rd m s; if pred x y then Ok true else first_of_inner fuel' pred m x (S s) s_last
    end.
  (** c_non_modifying.c 348-358.  (The inner loop dereferences [first] only when the search range is
      non-empty; the model reads it in each outer iteration, which is inside the range anyway.) *)
  Fixpoint first_of_loop (fuel : nat) (pred : A -> A -> bool) (m : list A) (i last s_first s_last : nat)
      : res (bool * nat) :=
    match fuel with
    | 0 => NoFuel
    | S fuel' =>
      if i =? last then Ok (false, i)
      else do x <- rd m i;
           do f <- first_of_inner (S (length m)) pred m x s_first s_last;
           if f then Ok (true, i) else first_of_loop fuel' pred m (S i) last s_first s_last
    end.
  (** c_non_modifying.c 329-364 *)
  Definition algo_find_first_of_by (m : list A) (first last s_first s_last : nat) (pred : A -> A -> bool)
      : res (bool * nat) :=
    first_of_loop (S (length m)) pred m first last s_first s_last.

  (** The "keep searching after the last hit" loop of c_non_modifying.c 388-392, 519-523, 614-618:
      [while (search(first, last, &first)) { is_found = true; found = first; ++first; }] *)
  Fixpoint last_loop (fuel : nat) (search : nat -> res (bool * nat)) (first : nat) (acc : bool * nat)
      : res (bool * nat) :=
    match fuel with
    | 0 => NoFuel
    | S fuel' =>
      do (b, i) <- search first;
      if b then last_loop fuel' search (S i) (true, i) else Ok acc
    end.
  (** c_non_modifying.c 366-400 *)
  Definition algo_find_last_of_by (m : list A) (first last s_first s_last : nat) (pred : A -> A -> bool)
      : res (bool * nat) :=
    last_loop (S (length m)) (fun f => algo_find_first_of_by m f last s_first s_last pred) first (false, last).

  (** c_non_modifying.c 425-428 *)
  Fixpoint adjacent_loop (fuel : nat) (pred : A -> A -> bool) (m : list A) (i next last : nat)
      : res (nat * nat) :=
    match fuel with
    | 0 => NoFuel
    | S fuel' =>
      if next =? last then Ok (i, next)
      else do x <- rd m i; do y <- rd m next;
           if negb (pred x y) then adjacent_loop fuel' pred m next (S next) last else Ok (i, next)
    end.
  (** c_non_modifying.c 402-441 *)
  Definition algo_adjacent_find_by (m : list A) (first last : nat) (pred : A -> A -> bool)
      : res (bool * nat) :=
    if first =? last then Ok (false, last)
    else do (i, next) <- adjacent_loop (S (length m)) pred m first (S first) last;
         if negb (next =? last) then Ok (true, i) else Ok (false, last).

  (** c_non_modifying.c 468-472: the inner matching loop; returns the final (i, s) *)
  Fixpoint match_loop (fuel : nat) (pred : A -> A -> bool) (m : list A) (i last s s_last : nat)
      : res (nat * nat) :=
    match fuel with
    | 0 => NoFuel
    | S fuel' =>
      if i =? last then Ok (i, s) else
      if s =? s_last then Ok (i, s) else
      do x <- rd m i; do y <- rd m s;
      if pred x y then match_loop fuel' pred m (S i) last (S s) s_last else Ok (i, s)
    end.
  (** c_non_modifying.c 467-482 *)
  Fixpoint search_loop (fuel : nat) (pred : A -> A -> bool) (m : list A) (first last s_first s_last : nat)
      : res (bool * nat) :=
    match fuel with
    | 0 => NoFuel
    | S fuel' =>
      if first =? last then Ok (false, first)
      else do (_, s) <- match_loop (S (length m)) pred m first last s_first s_last;
           if s =? s_last then Ok (true, first)
           else search_loop fuel' pred m (S first) last s_first s_last
    end.
  (** c_non_modifying.c 443-497 *)
  Definition algo_search_by (m : list A) (first last s_first s_last : nat) (pred : A -> A -> bool)
      : res (bool * nat) :=
    do (b, i) <- search_loop (S (length m)) pred m first last s_first s_last;
    Ok (b, if b then i else last).
  (** c_non_modifying.c 499-533 *)
  Definition algo_search_last_by (m : list A) (first last s_first s_last : nat) (pred : A -> A -> bool)
      : res (bool * nat) :=
    last_loop (S (length m)) (fun f => algo_search_by m f last s_first s_last pred) first (false, last).

  (** c_non_modifying.c 565-568: returns the final (i, n) *)
  Fixpoint run_loop (fuel : nat) (pred : A -> A -> bool) (m : list A) (value : A) (i last n : nat)
      : res (nat * nat) :=
    match fuel with
    | 0 => NoFuel
    | S fuel' =>
      if n =? 0 then Ok (i, n) else
      if i =? last then Ok (i, n) else
      do x <- rd m i;
      if pred x value then run_loop fuel' pred m value (S i) last (n - 1) else Ok (i, n)
    end.
  (** c_non_modifying.c 561-574: [i] is __i; the result carries __first *)
  Fixpoint search_n_loop (fuel : nat) (pred : A -> A -> bool) (m : list A) (value : A) (i last n : nat)
      : res (bool * nat) :=
    match fuel with
    | 0 => NoFuel
    | S fuel' =>
      do (b, f) <- algo_find_by m i last value pred;
      if b then
        do (i', n') <- run_loop (S (length m)) pred m value (S f) last (n - 1);
        if n' =? 0 then Ok (true, f) else search_n_loop fuel' pred m value i' last n
      else Ok (false, f)
    end.
  (** c_non_modifying.c 535-585 *)
  Definition algo_search_n_by (m : list A) (first last n : nat) (value : A) (pred : A -> A -> bool)
      : res (bool * nat) :=
    if n =? 0 then Ok (false, last)
    else do (b, f) <- search_n_loop (S (length m)) pred m value first last n;
         Ok (b, if b then f else last).
  (** c_non_modifying.c 587-624 *)
  Definition algo_search_last_n_by (m : list A) (first last n : nat) (value : A) (pred : A -> A -> bool)
      : res (bool * nat) :=
    if n =? 0 then Ok (false, last)
    else last_loop (S (length m)) (fun f => algo_search_n_by m f last n value pred) first (false, last).
End nonmod.
