(** AlgoMod.v — model of /repo/algorithm/c_modifying.c.

    Simplifications common to the file: null-argument guards are not modelled; out iterators are
    returned; value arguments ([c_ref_t value]) are passed by value, i.e. they do not alias a cell of
    the range; temporaries obtained with __c_allocate are local values. *)
From Verif Require Import Base AlgoNonMod.
From stdpp Require Import list.

Section modifying.
  Context {A : Type}.
  Implicit Types m : list A.

  (** The forward copying loop shared by algo_copy (c_modifying.c 73-78), algo_copy_if (104-111),
      algo_transform (217-224), algo_remove_copy (402-409), algo_remove_copy_if (434-441),
      algo_replace_copy (524-534) and algo_replace_copy_if (561-571): [emit x] is the value written
      for source element [x], or [None] when the element is skipped (d_first not advanced, counter
      not incremented).  Returns (memory, d_first, counter). *)
  Fixpoint emit_loop (fuel : nat) (emit : A -> option A) m (i last d n : nat) : res (list A * nat * nat) :=
    match fuel with
    | 0 => NoFuel
    | S fuel' =>
      if i =? last then Ok (m, d, n)
      else do x <- rd m i;
           match emit x with
           | Some y => do m' <- wr m d y; emit_loop fuel' emit m' (S i) last (S d) (S n)
           | None => emit_loop fuel' emit m (S i) last d n
           end
    end.
  (** c_modifying.c 57-85; result (memory, d_last, n_copied) *)
  Definition algo_copy m (first last d_first : nat) : res (list A * nat * nat) :=
    emit_loop (S (length m)) Some m first last d_first 0.
  (** c_modifying.c 87-118 *)
  Definition algo_copy_if m (first last d_first : nat) (pred : A -> bool) : res (list A * nat * nat) :=
    emit_loop (S (length m)) (fun x => if pred x then Some x else None) m first last d_first 0.
  (** c_modifying.c 197-232; result (memory, n_transformed); d_first is not reported. *)
  Definition algo_transform m (first last d_first : nat) (op : A -> A) : res (list A * nat) :=
    do (md, n) <- emit_loop (S (length m)) (fun x => Some (op x)) m first last d_first 0; Ok (md.1, n).
  (** c_modifying.c 385-416 *)
  Definition algo_remove_copy (eqf : A -> A -> bool) m (first last d_first : nat) (value : A) : res (list A * nat * nat) :=
    emit_loop (S (length m)) (fun x => if negb (eqf x value) then Some x else None) m first last d_first 0.
  (** c_modifying.c 418-448 *)
  Definition algo_remove_copy_if m (first last d_first : nat) (pred : A -> bool) : res (list A * nat * nat) :=
    emit_loop (S (length m)) (fun x => if negb (pred x) then Some x else None) m first last d_first 0.
  (** c_modifying.c 506-541 *)
  Definition algo_replace_copy (eqf : A -> A -> bool) m (first last d_first : nat) (old new : A) : res (list A * nat * nat) :=
    emit_loop (S (length m)) (fun x => Some (if eqf x old then new else x)) m first last d_first 0.
  (** c_modifying.c 543-578 *)
  Definition algo_replace_copy_if m (first last d_first : nat) (pred : A -> bool) (new : A) : res (list A * nat * nat) :=
    emit_loop (S (length m)) (fun x => Some (if pred x then new else x)) m first last d_first 0.

  (** c_modifying.c 120-149, loop 137-142.  A decrement below position 0 leaves the memory: UB. *)
  Fixpoint copy_backward_loop (fuel : nat) m (first last d n : nat) : res (list A * nat * nat) :=
    match fuel with
    | 0 => NoFuel
    | S fuel' =>
      if last =? first then Ok (m, d, n)
      else match last, d with
           | S last', S d' =>
             do x <- rd m last'; do m' <- wr m d' x; copy_backward_loop fuel' m' first last' d' (S n)
           | _, _ => UB
           end
    end.
  Definition algo_copy_backward m (first last d_last : nat) : res (list A * nat * nat) :=
    copy_backward_loop (S (length m)) m first last d_last 0.

  (** c_modifying.c 151-173 (loop 164-168) with [gen := value] and 234-266 (loop 252-258):
      assign successive generated values; the generator is a state transformer. *)
  Fixpoint gen_loop {St} (fuel : nat) (gen : St -> St * A) m (st : St) (i last n : nat)
      : res (list A * St * nat) :=
    match fuel with
    | 0 => NoFuel
    | S fuel' =>
      if i =? last then Ok (m, st, n)
      else let (st', v) := gen st in
           do m' <- wr m i v; gen_loop fuel' gen m' st' (S i) last (S n)
    end.
  Definition algo_generate {St} m (first last : nat) (gen : St -> St * A) (st : St) : res (list A * St * nat) :=
    gen_loop (S (length m)) gen m st first last 0.
  Definition algo_fill m (first last : nat) (value : A) : res (list A * nat) :=
    do (mu, n) <- gen_loop (S (length m)) (fun u : unit => (u, value)) m tt first last 0; Ok (mu.1, n).
  (** c_modifying.c 175-195 and 268-302 *)
  Fixpoint algo_generate_n {St} m (first n : nat) (gen : St -> St * A) (st : St) : res (list A * St * nat) :=
    match n with
    | 0 => Ok (m, st, first)
    | S n' => let (st', v) := gen st in
              do m' <- wr m first v; algo_generate_n m' (S first) n' gen st'
    end.
  Definition algo_fill_n m (first n : nat) (value : A) : res (list A * nat) :=
    do (mu, e) <- algo_generate_n m first n (fun u : unit => (u, value)) tt; Ok (mu.1, e).

  (** c_modifying.c 324-335 / 365-374 *)
  Fixpoint remove_loop (fuel : nat) (pred : A -> bool) m (first i last n : nat) : res (list A * nat * nat) :=
    match fuel with
    | 0 => NoFuel
    | S fuel' =>
      if i =? last then Ok (m, first, n)
      else do x <- rd m i;
           if negb (pred x) then do m' <- wr m first x; remove_loop fuel' pred m' (S first) (S i) last n
           else remove_loop fuel' pred m first (S i) last (S n)
    end.
  (** c_modifying.c 345-383; result (memory, new_last, n_removed) *)
  Definition algo_remove_if m (first last : nat) (pred : A -> bool) : res (list A * nat * nat) :=
    do (_, f) <- algo_find_if m first last pred;
    if f =? last then Ok (m, f, 0)
    else remove_loop (S (length m)) pred m f (S f) last 1.
  (** c_modifying.c 304-343; c_algo_find is algo_find_by with the element type's equality *)
  Definition algo_remove (eqf : A -> A -> bool) m (first last : nat) (value : A) : res (list A * nat * nat) :=
    do (_, f) <- algo_find_by m first last value eqf;
    if f =? last then Ok (m, f, 0)
    else remove_loop (S (length m)) (fun x => eqf x value) m f (S f) last 1.

  (** c_modifying.c 465-471 / 493-499 *)
  Fixpoint replace_loop (fuel : nat) (pred : A -> bool) (new : A) m (i last n : nat) : res (list A * nat) :=
    match fuel with
    | 0 => NoFuel
    | S fuel' =>
      if i =? last then Ok (m, n)
      else do x <- rd m i;
           if pred x then do m' <- wr m i new; replace_loop fuel' pred new m' (S i) last (S n)
           else replace_loop fuel' pred new m (S i) last n
    end.
  (** c_modifying.c 478-504 *)
  Definition algo_replace_if m (first last : nat) (pred : A -> bool) (new : A) : res (list A * nat) :=
    do (_, f) <- algo_find_if m first last pred; replace_loop (S (length m)) pred new m f last 0.
  (** c_modifying.c 450-476 *)
  Definition algo_replace (eqf : A -> A -> bool) m (first last : nat) (old new : A) : res (list A * nat) :=
    do (_, f) <- algo_find_by m first last old eqf; replace_loop (S (length m)) (fun x => eqf x old) new m f last 0.

  (** c_modifying.c 594-619 *)
  Fixpoint swap_range_loop (fuel : nat) m (i last j n : nat) : res (list A * nat) :=
    match fuel with
    | 0 => NoFuel
    | S fuel' =>
      if i =? last then Ok (m, n)
      else do m' <- swp m i j; swap_range_loop fuel' m' (S i) last (S j) (S n)
    end.
  Definition algo_swap_range m (first1 last1 first2 : nat) : res (list A * nat) :=
    swap_range_loop (S (length m)) m first1 last1 first2 0.

  (** c_modifying.c 633-659 *)
  Fixpoint reverse_loop (fuel : nat) m (first last n : nat) : res (list A * nat) :=
    match fuel with
    | 0 => NoFuel
    | S fuel' =>
      if first =? last then Ok (m, n)
      else match last with
           | 0 => UB
           | S last' =>
             if first =? last' then reverse_loop fuel' m first last' (S n)
             else do m' <- swp m first last'; reverse_loop fuel' m' (S first) last' (S (S n))
           end
    end.
  Definition algo_reverse m (first last : nat) : res (list A * nat) :=
    reverse_loop (S (length m)) m first last 0.

  (** c_modifying.c 661-689 *)
  Fixpoint reverse_copy_loop (fuel : nat) m (first last d n : nat) : res (list A * nat * nat) :=
    match fuel with
    | 0 => NoFuel
    | S fuel' =>
      if first =? last then Ok (m, d, n)
      else match last with
           | 0 => UB
           | S last' => do x <- rd m last'; do m' <- wr m d x; reverse_copy_loop fuel' m' first last' (S d) (S n)
           end
    end.
  Definition algo_reverse_copy m (first last d_first : nat) : res (list A * nat * nat) :=
    reverse_copy_loop (S (length m)) m first last d_first 0.

  (** c_modifying.c 721-726: do { ... } while (next != last); result (memory, first, n_first) *)
  Fixpoint rotate_loop1 (fuel : nat) m (first n_first next last : nat) : res (list A * nat * nat) :=
    match fuel with
    | 0 => NoFuel
    | S fuel' =>
      do m' <- swp m first next;
      let first' := S first in let next' := S next in
      let n_first' := if first' =? n_first then next' else n_first in
      if next' =? last then Ok (m', first', n_first')
      else rotate_loop1 fuel' m' first' n_first' next' last
    end.
  (** c_modifying.c 731-737 *)
  Fixpoint rotate_loop2 (fuel : nat) m (first n_first next last : nat) : res (list A) :=
    match fuel with
    | 0 => NoFuel
    | S fuel' =>
      if next =? last then Ok m
      else do m' <- swp m first next;
           let first' := S first in let next' := S next in
           let n_first' := if first' =? n_first then next' else n_first in
           let next'' := if next' =? last then n_first' else next' in
           rotate_loop2 fuel' m' first' n_first' next'' last
    end.
  (** c_modifying.c 691-742; result (memory, rotate_point) *)
  Definition algo_rotate m (first n_first last : nat) : res (list A * nat) :=
    if first =? n_first then Ok (m, last)
    else if n_first =? last then Ok (m, first)
    else do (mf, nf) <- rotate_loop1 (S (length m)) m first n_first n_first last;
         do m2 <- rotate_loop2 (S (length m)) mf.1 mf.2 nf nf last;
         Ok (m2, mf.2).
  (** c_modifying.c 744-769 *)
  Definition algo_rotate_copy m (first n_first last d_first : nat) : res (list A * nat * nat) :=
    do (md1, n1) <- algo_copy m n_first last d_first;
    do (md2, n2) <- algo_copy md1.1 first n_first md1.2;
    Ok (md2.1, md2.2, n1 + n2).

  (** c_modifying.c 777-802: for (i = n-1; i > 0; --i) swap(first+i, first + r(i+1)).
      [r] is the random source: [r i] is the value returned by the call made at loop index i. *)
  Fixpoint shuffle_loop m (first i : nat) (r : nat -> nat) : res (list A) :=
    match i with
    | 0 => Ok m
    | S i' => do m' <- swp m (first + i) (first + r i); shuffle_loop m' first i' r
    end.
  Definition algo_random_shuffle_by m (first last : nat) (r : nat -> nat) : res (list A) :=
    shuffle_loop m first (last - first - 1) r.

  (** c_modifying.c 827-834 *)
  Fixpoint unique_loop (fuel : nat) (pred : A -> A -> bool) m (first next last n : nat) : res (list A * nat * nat) :=
    match fuel with
    | 0 => NoFuel
    | S fuel' =>
      if next =? last then Ok (m, first, n)
      else do x <- rd m first; do y <- rd m next;
           if negb (pred x y) then
             do m' <- wr m (S first) y; unique_loop fuel' pred m' (S first) (S next) last (S n)
           else unique_loop fuel' pred m first (S next) last n
    end.
  (** c_modifying.c 804-844; result (memory, new_last, n_uniqued) *)
  Definition algo_unique_by m (first last : nat) (pred : A -> A -> bool) : res (list A * nat * nat) :=
    if first =? last then Ok (m, last, 0)
    else do (mf, n) <- unique_loop (S (length m)) pred m first (S first) last 1;
         Ok (mf.1, S mf.2, n).
  (** c_modifying.c 846-886: same loop (871-878) with source [first] and destination [d_first] *)
  Definition algo_unique_copy_by m (first last d_first : nat) (pred : A -> A -> bool) : res (list A * nat * nat) :=
    if first =? last then Ok (m, d_first, 0)
    else do x <- rd m first; do m0 <- wr m d_first x;
         do (md, n) <- unique_loop (S (length m)) pred m0 d_first (S first) last 1;
         Ok (md.1, S md.2, n).
End modifying.

(** c_modifying.c 31-55, the default random source of algo_random_shuffle (771-775):
    [seed] is the non-negative value of rand(); C division of non-negative longs truncates, and the
    double arithmetic (seed/2^20 is exact, the product is truncated) is modelled by exact rational
    arithmetic.  algo_uniform(n) = uniform(0, n). *)
Definition algo_uniform (n seed : Z) : Z :=
  let s := (2045 * seed + 1)%Z in
  let s := (s - (s / 1048576) * 1048576)%Z in
  (n * s / 1048576)%Z.
