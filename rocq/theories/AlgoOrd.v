(** AlgoOrd.v — model of /repo/algorithm/c_partitioning.c, c_bsearch.c, c_min_max.c and c_set_op.c.

    Simplifications common to the file: null-argument guards are not modelled; out iterators are
    returned; [value] arguments are passed by value; ptrdiff_t distances, which are non-negative
    here, are natural numbers. *)
From Verif Require Import Base AlgoNonMod AlgoMod.
From stdpp Require Import list.

Section partitioning.
  Context {A : Type}.
  Implicit Types m : list A.

  (** c_partitioning.c 31-60: the first loop (44-46) is [scan_while pred], the second (48-54) is
      [scan_while (not pred)], left by [break] exactly when it stops before [last]. *)
  Definition algo_is_partitioned m (first last : nat) (pred : A -> bool) : res bool :=
    if first =? last then Ok true
    else do i <- scan_while (S (length m)) pred m first last;
         do j <- scan_while (S (length m)) (fun x => negb (pred x)) m i last;
         Ok (j =? last).

  (** c_partitioning.c 62-94, loop 81-87; result (memory, __first) *)
  Fixpoint partition_loop (fuel : nat) (pred : A -> bool) m (i next last : nat) : res (list A * nat) :=
    match fuel with
    | 0 => NoFuel
    | S fuel' =>
      if next =? last then Ok (m, i)
      else do x <- rd m next;
           if pred x then do m' <- swp m i next; partition_loop fuel' pred m' (S i) (S next) last
           else partition_loop fuel' pred m i (S next) last
    end.
  Definition algo_partition m (first last : nat) (pred : A -> bool) : res (list A * nat) :=
    do (_, i) <- algo_find_if_not m first last pred;
    if i =? last then Ok (m, i) else partition_loop (S (length m)) pred m i (S i) last.

  (** c_partitioning.c 96-137, loop 118-129; result (memory, d_last_true, d_last_false, copied) *)
  Fixpoint partition_copy_loop (fuel : nat) (pred : A -> bool) m (i last dt df n : nat)
      : res (list A * nat * nat * nat) :=
    match fuel with
    | 0 => NoFuel
    | S fuel' =>
      if i =? last then Ok (m, dt, df, n)
      else do x <- rd m i;
           if pred x then do m' <- wr m dt x; partition_copy_loop fuel' pred m' (S i) last (S dt) df (S n)
           else do m' <- wr m df x; partition_copy_loop fuel' pred m' (S i) last dt (S df) (S n)
    end.
  Definition algo_partition_copy m (first last d_true d_false : nat) (pred : A -> bool) :=
    partition_copy_loop (S (length m)) pred m first last d_true d_false 0.

  (** c_partitioning.c 139-158 *)
  Definition algo_partition_point m (first last : nat) (pred : A -> bool) : res nat :=
    scan_while (S (length m)) pred m first last.
End partitioning.

Section bsearch.
  Context {A : Type} (comp : A -> A -> bool).
  Implicit Types m : list A.

  (** The halving loop of algo_lower_bound_by (c_bsearch.c 48-60, [go x := comp(x, value)]) and
      algo_upper_bound_by (87-99, [go x := !comp(value, x)]). *)
  Fixpoint bsearch_loop (fuel : nat) (go : A -> bool) m (first count : nat) : res nat :=
    match fuel with
    | 0 => NoFuel
    | S fuel' =>
      if count =? 0 then Ok first
      else let step := count / 2 in
           let it := first + step in
           do x <- rd m it;
           if go x then bsearch_loop fuel' go m (S it) (count - (step + 1))
           else bsearch_loop fuel' go m first step
    end.
  (** c_bsearch.c 30-67 *)
  Definition algo_lower_bound_by m (first last : nat) (value : A) : res nat :=
    bsearch_loop (S (length m)) (fun x => comp x value) m first (last - first).
  (** c_bsearch.c 69-106 *)
  Definition algo_upper_bound_by m (first last : nat) (value : A) : res nat :=
    bsearch_loop (S (length m)) (fun x => negb (comp value x)) m first (last - first).
  (** c_bsearch.c 108-127 *)
  Definition algo_binary_search_by m (first last : nat) (value : A) : res bool :=
    do i <- algo_lower_bound_by m first last value;
    if i =? last then Ok false else do x <- rd m i; Ok (negb (comp value x)).
  (** c_bsearch.c 129-146 *)
  Definition algo_equal_range_by m (first last : nat) (value : A) : res (nat * nat) :=
    do lo <- algo_lower_bound_by m first last value;
    do hi <- algo_upper_bound_by m first last value;
    Ok (lo, hi).
End bsearch.

Section minmax.
  Context {A : Type} (comp : A -> A -> bool).
  Implicit Types m : list A.

  (** c_min_max.c 30-43 (the result is a fresh copy of the chosen argument) *)
  Definition algo_max_by (x y : A) : A := if comp x y then y else x.
  (** c_min_max.c 45-58 *)
  Definition algo_min_by (x y : A) : A := if comp x y then x else y.

  (** c_min_max.c 60-89, loop 75-82 *)
  Fixpoint max_loop (fuel : nat) m (i last mx : nat) : res nat :=
    match fuel with
    | 0 => NoFuel
    | S fuel' =>
      if i =? last then Ok mx
      else if S i =? last then max_loop fuel' m (S i) last mx
           else do x <- rd m mx; do y <- rd m (S i);
                max_loop fuel' m (S i) last (if comp x y then S i else mx)
    end.
  Definition algo_max_element_by m (first last : nat) : res nat :=
    max_loop (S (length m)) m first last first.
  (** c_min_max.c 91-120, loop 106-113 *)
  Fixpoint min_loop (fuel : nat) m (i last mn : nat) : res nat :=
    match fuel with
    | 0 => NoFuel
    | S fuel' =>
      if i =? last then Ok mn
      else if S i =? last then min_loop fuel' m (S i) last mn
           else do y <- rd m (S i); do x <- rd m mn;
                min_loop fuel' m (S i) last (if comp y x then S i else mn)
    end.
  Definition algo_min_element_by m (first last : nat) : res nat :=
    min_loop (S (length m)) m first last first.
  (** c_min_max.c 122-161, loop 141-152 *)
  Fixpoint minmax_loop (fuel : nat) m (i last mn mx : nat) : res (nat * nat) :=
    match fuel with
    | 0 => NoFuel
    | S fuel' =>
      if i =? last then Ok (mn, mx)
      else if S i =? last then minmax_loop fuel' m (S i) last mn mx
           else do y <- rd m (S i); do x <- rd m mn; do z <- rd m mx;
                minmax_loop fuel' m (S i) last (if comp y x then S i else mn) (if comp z y then S i else mx)
    end.
  Definition algo_minmax_element_by m (first last : nat) : res (nat * nat) :=
    minmax_loop (S (length m)) m first last first first.

  (** c_min_max.c 163-174; the assertion at 170 is a precondition *)
  Definition algo_clamp_by (v lo hi : A) : A :=
    if comp v hi then algo_max_by v lo else algo_min_by v hi.

  (** c_min_max.c 176-212.  The loop (193-203) returns (i1, i2, ret); the trailing test is 205-207. *)
  Fixpoint lex_loop (fuel : nat) m (i1 last1 i2 last2 : nat) : res (nat * nat * bool) :=
    match fuel with
    | 0 => NoFuel
    | S fuel' =>
      if (i1 =? last1) || (i2 =? last2) then Ok (i1, i2, false)
      else do x <- rd m i1; do y <- rd m i2;
           if comp x y then Ok (i1, i2, true)
           else if comp y x then Ok (i1, i2, false)
           else lex_loop fuel' m (S i1) last1 (S i2) last2
    end.
  Definition algo_lexicographical_compare_by m (first1 last1 first2 last2 : nat) : res bool :=
    do (i12, ret) <- lex_loop (S (length m)) m first1 last1 first2 last2;
    Ok (if (i12.1 =? last1) && negb (i12.2 =? last2) then true else ret).
End minmax.

Section setop.
  Context {A : Type} (comp : A -> A -> bool).
  Implicit Types m : list A.

  (** What one iteration of a two-range loop of c_set_op.c does with the current elements:
      emit (assign to *d_first and advance it, ++n) one of them or none, then advance the first,
      the second or both ranges. *)
  Inductive finger := Emit1_Adv1 | Emit2_Adv2 | Emit1_AdvBoth | Skip1 | Skip2 | SkipBoth.

  (** The loops c_set_op.c 55-66 (merge), 136-147 (set_difference), 179-193 (set_intersection),
      223-239 (set_symmetric_difference), 273-292 (set_union): they differ only in the decision taken
      at each iteration.  Result (memory, i1, i2, d, n). *)
  Fixpoint zip_loop (fuel : nat) (step : A -> A -> finger) m (i1 last1 i2 last2 d n : nat)
      : res (list A * nat * nat * nat * nat) :=
    match fuel with
    | 0 => NoFuel
    | S fuel' =>
      if (i1 =? last1) || (i2 =? last2) then Ok (m, i1, i2, d, n)
      else do x <- rd m i1; do y <- rd m i2;
           match step x y with
           | Emit1_Adv1 => do m' <- wr m d x; zip_loop fuel' step m' (S i1) last1 i2 last2 (S d) (S n)
           | Emit2_Adv2 => do m' <- wr m d y; zip_loop fuel' step m' i1 last1 (S i2) last2 (S d) (S n)
           | Emit1_AdvBoth => do m' <- wr m d x; zip_loop fuel' step m' (S i1) last1 (S i2) last2 (S d) (S n)
           | Skip1 => zip_loop fuel' step m (S i1) last1 i2 last2 d n
           | Skip2 => zip_loop fuel' step m i1 last1 (S i2) last2 d n
           | SkipBoth => zip_loop fuel' step m (S i1) last1 (S i2) last2 d n
           end
    end.

  (** c_set_op.c 56-63 *)
  Definition merge_step (x y : A) : finger := if comp x y then Emit1_Adv1 else Emit2_Adv2.
  (** c_set_op.c 137-146 *)
  Definition difference_step (x y : A) : finger := if comp x y then Emit1_Adv1 else SkipBoth.
  (** c_set_op.c 180-192 *)
  Definition intersection_step (x y : A) : finger :=
    if comp x y then Skip1 else if comp y x then Skip2 else Emit1_AdvBoth.
  (** c_set_op.c 224-239 *)
  Definition symdiff_step (x y : A) : finger :=
    if comp x y then Emit1_Adv1 else if comp y x then Emit2_Adv2 else SkipBoth.
  (** c_set_op.c 274-292 *)
  Definition union_step (x y : A) : finger :=
    if comp x y then Emit1_Adv1 else if comp y x then Emit2_Adv2 else Emit1_AdvBoth.

  (** The trailing algo_copy of what is left of range 1 and/or range 2 (c_set_op.c 68-69, 149, 243-244,
      296-297).  Result (memory, d_last, n). *)
  Definition zip_then_copy (step : A -> A -> finger) (copy1 copy2 : bool)
      m (first1 last1 first2 last2 d_first : nat) : res (list A * nat * nat) :=
    do (mi12d, n) <- zip_loop (S (2 * length m)) step m first1 last1 first2 last2 d_first 0;
    let '(m1, i1, i2, d) := mi12d in
    do (m2d2, k2) <- (if copy1 then algo_copy m1 i1 last1 d else Ok (m1, d, 0));
    do (m3d3, k3) <- (if copy2 then algo_copy m2d2.1 i2 last2 m2d2.2 else Ok (m2d2.1, m2d2.2, 0));
    Ok (m3d3.1, m3d3.2, n + k2 + k3).

  (** c_set_op.c 31-73 *)
  Definition algo_merge_by := zip_then_copy merge_step true true.
  (** c_set_op.c 113-154 *)
  Definition algo_set_difference_by := zip_then_copy difference_step true false.
  (** c_set_op.c 156-198 *)
  Definition algo_set_intersection_by := zip_then_copy intersection_step false false.
  (** c_set_op.c 200-248 *)
  Definition algo_set_symmetric_difference_by := zip_then_copy symdiff_step true true.
  (** c_set_op.c 250-301 *)
  Definition algo_set_union_by := zip_then_copy union_step true true.

  (** c_set_op.c 75-111, loop 93-104; returns the final position in the second range. *)
  Fixpoint includes_loop (fuel : nat) m (i1 last1 i2 last2 : nat) : res nat :=
    match fuel with
    | 0 => NoFuel
    | S fuel' =>
      if (i1 =? last1) || (i2 =? last2) then Ok i2
      else do x <- rd m i1; do y <- rd m i2;
           if comp y x then Ok i2
           else if comp x y then includes_loop fuel' m (S i1) last1 i2 last2
           else includes_loop fuel' m (S i1) last1 (S i2) last2
    end.
  Definition algo_includes_by m (first1 last1 first2 last2 : nat) : res bool :=
    if first2 =? last2 then Ok true
    else do i2 <- includes_loop (S (length m)) m first1 last1 first2 last2;
         Ok (i2 =? last2).
End setop.
