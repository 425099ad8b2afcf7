(** IterMod.v — the functions of /repo/algorithm/c_modifying.c as iterator programs.

    As in IterNonMod.v the programs follow the C text statement by statement; the null-argument guards
    at the top of each function are not represented.  Value arguments ([c_ref_t value]) are values: they
    do not alias an element of the range.  Temporaries from __c_allocate are local values.
    The assertions about out parameters of this file, assert(d_last == 0 || *d_last == 0 ||
    C_ITER_AT_LEAST(d_last, ...)), apply C_ITER_AT_LEAST to the address of the variable instead of the
    iterator in it: they read memory that is no iterator.  They are left out. *)
From stdpp Require Import list gmap.
From Verif Require Import Base Iter IterNonMod.
From stdpp Require Import list.

Section modifying.
  Context {A : Type}.
  Local Notation prog := (prog A).

  (** C_ITER_DEREF_ASSIGN, c_def.h 312 *)
  Definition DerefAssign (d s : iid) : prog unit := x <~ Deref s;; Write d x.
  (** [while (C_ITER_NE(F, E)) body] with a counter *)
  Definition each_p (F E : iid) (body : nat -> prog nat) (n : nat) : prog nat := WhileV n (fun _ => Ne F E) body.
  (** [__C_ALGO_BEGIN_3(first, last, d_first) loop; copy_or_assign(d_last, __d_first); __C_ALGO_END_3] preceded by the
      category assertions, as in the copying functions *)
  Definition copying_p (first last d_first : iid) (d_last : out) (body : iid -> iid -> nat -> prog nat) : prog (nat * option iid) :=
    F <~ New first;; E <~ New last;; D <~ New d_first;;
    n <~ each_p F E (body F D) 0;;
    v <~ copy_or_assign d_last D;;
    Free F;;; Free E;;; Free D;;; Ret (n, v).
  Definition forward3 (x y z : iid) : prog unit := at_least x FORWARD;;; at_least y FORWARD;;; at_least z FORWARD.

  (** c_modifying.c 57-85 *)
  Definition copy_p (first last d_first : iid) (d_last : out) : prog (nat * option iid) :=
    forward3 first last d_first;;; is_mutable d_first;;;
    copying_p first last d_first d_last (fun F D n =>
      DerefAssign D F;;; Inc F;;; Inc D;;; Ret (S n)).
  (** c_modifying.c 87-118 *)
  Definition copy_if_p (first last d_first : iid) (d_last : out) (pred : A -> bool) : prog (nat * option iid) :=
    forward3 first last d_first;;; is_mutable d_first;;;
    copying_p first last d_first d_last (fun F D n =>
      x <~ Deref F;;
      n' <~ (if pred x then DerefAssign D F;;; Inc D;;; Ret (S n) else Ret n);;
      Inc F;;; Ret n').
  (** c_modifying.c 385-416 *)
  Definition remove_copy_p (eqf : A -> A -> bool) (first last d_first : iid) (value : A) (d_last : out) : prog (nat * option iid) :=
    forward3 first last d_first;;; is_mutable d_first;;;
    copying_p first last d_first d_last (fun F D n =>
      x <~ Deref F;;
      n' <~ (if negb (eqf x value) then DerefAssign D F;;; Inc D;;; Ret (S n) else Ret n);;
      Inc F;;; Ret n').
  (** c_modifying.c 418-448; no assertion about mutability *)
  Definition remove_copy_if_p (first last d_first : iid) (d_last : out) (pred : A -> bool) : prog (nat * option iid) :=
    forward3 first last d_first;;;
    copying_p first last d_first d_last (fun F D n =>
      x <~ Deref F;;
      n' <~ (if negb (pred x) then DerefAssign D F;;; Inc D;;; Ret (S n) else Ret n);;
      Inc F;;; Ret n').
  (** c_modifying.c 506-541 *)
  Definition replace_copy_p (eqf : A -> A -> bool) (first last d_first : iid) (old new : A) (d_last : out) : prog (nat * option iid) :=
    forward3 first last d_first;;; is_mutable d_first;;;
    copying_p first last d_first d_last (fun F D n =>
      x <~ Deref F;;
      (if eqf x old then Write D new else DerefAssign D F);;;
      Inc D;;; Inc F;;; Ret (S n)).
  (** c_modifying.c 543-578 *)
  Definition replace_copy_if_p (first last d_first : iid) (pred : A -> bool) (new : A) (d_last : out) : prog (nat * option iid) :=
    forward3 first last d_first;;; is_mutable d_first;;;
    copying_p first last d_first d_last (fun F D n =>
      x <~ Deref F;;
      (if pred x then Write D new else DerefAssign D F);;;
      Inc D;;; Inc F;;; Ret (S n)).
  (** c_modifying.c 197-232 *)
  Definition transform_p (first last d_first : iid) (op : A -> A) : prog nat :=
    forward3 first last d_first;;; is_mutable d_first;;;
    F <~ New first;; E <~ New last;; D <~ New d_first;;
    n <~ each_p F E (fun n => x <~ Deref F;; Write D (op x);;; Inc F;;; Inc D;;; Ret (S n)) 0;;
    Free F;;; Free E;;; Free D;;; Ret n.
  (** c_modifying.c 120-149 *)
  Definition copy_backward_p (first last d_last : iid) (d_last_copied : out) : prog (nat * option iid) :=
    at_least first BIDIRECTION;;; at_least last BIDIRECTION;;; at_least d_last BIDIRECTION;;; is_mutable d_last;;;
    F <~ New first;; E <~ New last;; D <~ New d_last;;
    n <~ WhileV 0 (fun _ => Ne E F) (fun n => Dec E;;; Dec D;;; DerefAssign D E;;; Ret (S n));;
    v <~ copy_or_assign d_last_copied D;;
    Free F;;; Free E;;; Free D;;; Ret (n, v).
  (** c_modifying.c 661-689 *)
  Definition reverse_copy_p (first last d_first : iid) (d_last : out) : prog (nat * option iid) :=
    at_least first BIDIRECTION;;; at_least last BIDIRECTION;;; at_least d_first FORWARD;;; is_mutable d_first;;;
    F <~ New first;; E <~ New last;; D <~ New d_first;;
    n <~ WhileV 0 (fun _ => Ne F E) (fun n => Dec E;;; DerefAssign D E;;; Inc D;;; Ret (S n));;
    v <~ copy_or_assign d_last D;;
    Free F;;; Free E;;; Free D;;; Ret (n, v).
  (** c_modifying.c 744-769 *)
  Definition rotate_copy_p (first n_first last d_first : iid) (d_last : out) : prog (nat * option iid) :=
    at_least first FORWARD;;; at_least n_first FORWARD;;; at_least last FORWARD;;; at_least d_first FORWARD;;;
    is_mutable d_first;;;
    F <~ New first;; N <~ New n_first;; E <~ New last;; D <~ New d_first;;
    r1 <~ copy_p N E D (Some (Some D));;
    r2 <~ copy_p F N D (Some (Some D));;
    v <~ copy_or_assign d_last D;;
    Free F;;; Free N;;; Free E;;; Free D;;; Ret (r1.1 + r2.1, v).
  (** c_modifying.c 846-886; the guard [!d_last -> return 0] of line 852 is represented: a null out parameter makes the
      call do nothing *)
  Definition unique_copy_by_p (first last d_first : iid) (d_last : out) (pred : A -> A -> bool) : prog (nat * option iid) :=
    match d_last with None => Ret (0, None) | Some _ =>
    forward3 first last d_first;;; is_mutable d_first;;;
    e <~ Eq first last;;
    if e then v <~ copy_or_assign d_last d_first;; Ret (0, v) else
    F <~ New first;; E <~ New last;; D <~ New d_first;;
    DerefAssign D F;;; Inc F;;;
    n <~ each_p F E (fun n =>
      x <~ Deref D;; y <~ Deref F;;
      n' <~ (if negb (pred x y) then Inc D;;; DerefAssign D F;;; Ret (S n) else Ret n);;
      Inc F;;; Ret n') 1;;
    Inc D;;;
    v <~ copy_or_assign d_last D;;
    Free F;;; Free E;;; Free D;;; Ret (n, v) end.

  (** ** in place *)
  (** c_modifying.c 151-173 *)
  Definition fill_p (first last : iid) (value : A) : prog nat :=
    at_least first FORWARD;;; at_least last FORWARD;;; is_mutable first;;;
    F <~ New first;; E <~ New last;;
    n <~ each_p F E (fun n => Write F value;;; Inc F;;; Ret (S n)) 0;;
    Free F;;; Free E;;; Ret n.
  (** c_modifying.c 175-195 *)
  Definition fill_n_p (first : iid) (n : nat) (value : A) (last : out) : prog (option iid) :=
    at_least first FORWARD;;; is_mutable first;;;
    F <~ New first;;
    WhileV n (fun n => Ret (negb (n =? 0))) (fun n => Write F value;;; Inc F;;; Ret (n - 1));;;
    v <~ copy_or_assign last F;;
    Free F;;; Ret v.
  (** c_modifying.c 234-266; the generator is a state transformer *)
  Definition generate_p {St} (first last : iid) (gen : St -> St * A) (st : St) : prog (St * nat) :=
    at_least first FORWARD;;; at_least last FORWARD;;; is_mutable first;;;
    F <~ New first;; E <~ New last;;
    r <~ WhileV (st, 0) (fun _ => Ne F E) (fun '(st, n) => Write F (gen st).2;;; Inc F;;; Ret ((gen st).1, S n));;
    Free F;;; Free E;;; Ret r.
  (** c_modifying.c 268-302 *)
  Definition generate_n_p {St} (first : iid) (n : nat) (gen : St -> St * A) (last : out) (st : St) : prog (St * option iid) :=
    at_least first FORWARD;;; is_mutable first;;;
    if n =? 0 then v <~ copy_or_assign last first;; Ret (st, v) else
    F <~ New first;;
    r <~ WhileV (n, st) (fun '(n, _) => Ret (negb (n =? 0)))
           (fun '(n, st) => Write F (gen st).2;;; Inc F;;; Ret (n - 1, (gen st).1));;
    v <~ copy_or_assign last F;;
    Free F;;; Ret (r.2, v).
  (** c_modifying.c 324-334 and 364-373: the loop after the first match *)
  Definition remove_loop_p (pred : A -> bool) (F i E : iid) (n : nat) : prog nat :=
    WhileV n (fun _ => Ne i E) (fun n =>
      x <~ Deref i;;
      n' <~ (if negb (pred x) then DerefAssign F i;;; Inc F;;; Ret n else Ret (S n));;
      Inc i;;; Ret n').
  (** c_modifying.c 304-343; c_algo_find is algo_find_by with the element type's equality (c_algorithm.h) *)
  Definition remove_p (eqf : A -> A -> bool) (first last : iid) (value : A) (new_last : out) : prog (nat * option iid) :=
    at_least first FORWARD;;; at_least last FORWARD;;; is_mutable first;;;
    F <~ New first;; E <~ New last;;
    find_by_p F E (Some (Some F)) value eqf;;;
    b <~ Ne F E;;
    n <~ (if b then i <~ new_and_move F 1;; n <~ remove_loop_p (fun x => eqf x value) F i E 1;; Free i;;; Ret n else Ret 0);;
    v <~ copy_or_assign new_last F;;
    Free F;;; Free E;;; Ret (n, v).
  (** c_modifying.c 345-383 *)
  Definition remove_if_p (first last : iid) (new_last : out) (pred : A -> bool) : prog (nat * option iid) :=
    at_least first FORWARD;;; at_least last FORWARD;;; is_mutable first;;;
    F <~ New first;; E <~ New last;;
    find_if_p F E (Some (Some F)) pred;;;
    b <~ Ne F E;;
    n <~ (if b then i <~ new_and_move F 1;; n <~ remove_loop_p pred F i E 1;; Free i;;; Ret n else Ret 0);;
    v <~ copy_or_assign new_last F;;
    Free F;;; Free E;;; Ret (n, v).
  (** c_modifying.c 465-471 and 493-499 *)
  Definition replace_loop_p (pred : A -> bool) (new : A) (F E : iid) : prog nat :=
    each_p F E (fun n =>
      x <~ Deref F;;
      n' <~ (if pred x then Write F new;;; Ret (S n) else Ret n);;
      Inc F;;; Ret n') 0.
  (** c_modifying.c 450-476 *)
  Definition replace_p (eqf : A -> A -> bool) (first last : iid) (old new : A) : prog nat :=
    at_least first FORWARD;;; at_least last FORWARD;;; is_mutable first;;;
    F <~ New first;; E <~ New last;;
    find_by_p F E (Some (Some F)) old eqf;;;
    n <~ replace_loop_p (fun x => eqf x old) new F E;;
    Free F;;; Free E;;; Ret n.
  (** c_modifying.c 478-504 *)
  Definition replace_if_p (first last : iid) (pred : A -> bool) (new : A) : prog nat :=
    at_least first FORWARD;;; at_least last FORWARD;;; is_mutable first;;;
    F <~ New first;; E <~ New last;;
    find_if_p F E (Some (Some F)) pred;;;
    n <~ replace_loop_p pred new F E;;
    Free F;;; Free E;;; Ret n.
  (** c_modifying.c 804-844 *)
  Definition unique_by_p (first last : iid) (new_last : out) (pred : A -> A -> bool) : prog (nat * option iid) :=
    at_least first FORWARD;;; at_least last FORWARD;;; is_mutable first;;;
    e <~ Eq first last;;
    if e then v <~ copy_or_assign new_last last;; Ret (0, v) else
    F <~ New first;; E <~ New last;;
    next <~ new_and_move F 1;;
    n <~ WhileV 1 (fun _ => Ne next E) (fun n =>
      x <~ Deref F;; y <~ Deref next;;
      n' <~ (if negb (pred x y) then Inc F;;; DerefAssign F next;;; Ret (S n) else Ret n);;
      Inc next;;; Ret n');;
    Inc F;;;
    v <~ copy_or_assign new_last F;;
    Free next;;; Free F;;; Free E;;; Ret (n, v).

  (** algo_swap applied to the elements under two iterators, c_modifying.c 580-592: tmp = *x; *x = *y; *y = tmp *)
  Definition swap_p (x y : iid) : prog unit :=
    tmp <~ Deref x;; DerefAssign x y;;; Write y tmp.
  (** c_modifying.c 621-631; the value types are the same *)
  Definition iter_swap_p (x y : iid) : prog unit :=
    at_least x FORWARD;;; at_least y FORWARD;;; is_mutable x;;; is_mutable y;;; swap_p x y.
  (** c_modifying.c 594-619 *)
  Definition swap_range_p (first1 last1 first2 : iid) : prog nat :=
    forward3 first1 last1 first2;;; is_mutable first1;;; is_mutable first2;;;
    F1 <~ New first1;; E1 <~ New last1;; F2 <~ New first2;;
    n <~ each_p F1 E1 (fun n => swap_p F1 F2;;; Inc F1;;; Inc F2;;; Ret (S n)) 0;;
    Free F1;;; Free E1;;; Free F2;;; Ret n.
  (** c_modifying.c 633-659 *)
  Definition reverse_p (first last : iid) : prog nat :=
    at_least first BIDIRECTION;;; at_least last BIDIRECTION;;; is_mutable first;;; is_mutable last;;;
    F <~ New first;; E <~ New last;;
    n <~ each_p F E (fun n =>
      Dec E;;;
      b <~ Ne F E;;
      n' <~ (if b then swap_p F E;;; Inc F;;; Ret (S n) else Ret n);;
      Ret (S n')) 0;;
    Free F;;; Free E;;; Ret n.
  (** c_modifying.c 722-725 and 732-735 *)
  Definition rotate_step_p (F N X : iid) : prog unit :=
    iter_swap_p F X;;; Inc F;;; Inc X;;;
    e <~ Eq F N;; (if e then Assign N X else Ret tt).
  (** c_modifying.c 691-742 *)
  Definition rotate_p (first n_first last : iid) (rotate_point : out) : prog (option iid) :=
    forward3 first n_first last;;; is_mutable first;;; is_mutable n_first;;;
    e1 <~ Eq first n_first;;
    if e1 then copy_or_assign rotate_point last else
    e2 <~ Eq n_first last;;
    if e2 then copy_or_assign rotate_point first else
    F <~ New first;; N <~ New n_first;; E <~ New last;;
    next <~ New N;;
    (* do { } while *)
    Loop tt (fun _ => rotate_step_p F N next;;; b <~ Ne next E;; Ret (if b then inl tt else inr tt));;;
    v <~ copy_or_assign rotate_point F;;
    Assign next N;;;
    While (Ne next E) (rotate_step_p F N next;;; e <~ Eq next E;; (if e then Assign next N else Ret tt));;;
    Free next;;; Free F;;; Free N;;; Free E;;; Ret v.
  (** __c_iter_copy_and_move, c_internal.h 90-95, on a local variable that may still be null *)
  Definition copy_and_move (v : option iid) (src : iid) (n : Z) : prog iid :=
    match v with None => new_and_move src n | Some i => assign_and_move i src n;;; Ret i end.
  (** __c_free of a local variable that may be null, c_internal.h 112-118 *)
  Definition free_opt (v : option iid) : prog unit := match v with Some i => Free i | None => Ret tt end.
  (** c_modifying.c 777-802; [r i] is the value returned by the call of the random function made at loop index [i] *)
  Definition random_shuffle_by_p (first last : iid) (r : nat -> nat) : prog unit :=
    exactly first RANDOM;;; exactly last RANDOM;;; is_mutable first;;;
    F <~ New first;; E <~ New last;;
    n <~ Dist F E;;
    xy <~ WhileV (Z.to_nat (n - 1), None, None) (fun '(i, _, _) => Ret (0 <? i))
            (fun '(i, x, y) =>
               x' <~ copy_and_move x F (Z.of_nat i);;
               y' <~ copy_and_move y F (Z.of_nat (r i));;
               iter_swap_p x' y';;; Ret (i - 1, Some x', Some y'));;
    free_opt xy.2;;; free_opt xy.1.2;;;
    Free F;;; Free E.
End modifying.
