(** IterNonMod.v — the functions of /repo/algorithm/c_non_modifying.c as iterator programs.

    The programs follow the C text statement by statement: assertions, shadow copies
    (__C_ALGO_BEGIN_n / __C_ALGO_END_n, c_internal.h 141-205), moves of the copies, stores through out
    parameters, frees.  Not represented: the null-argument guards at the top of each function (the
    arguments are present).  Predicates and functions passed by the caller are Gallina functions on
    values; [for_each]'s function may change the element and a caller state. *)
From stdpp Require Import list gmap.
From Verif Require Import Base Iter.
From stdpp Require Import list.

Section nonmod.
  Context {A : Type}.
  Local Notation prog := (prog A).

  (** [while (C_ITER_NE(F, E) && p(C_ITER_DEREF(F))) C_ITER_INC(F);] c_non_modifying.c 42-44 etc. *)
  Definition scan_p (p : A -> bool) (F E : iid) : prog unit :=
    While (pand (Ne F E) (x <~ Deref F;; Ret (p x))) (Inc F).

  (** c_non_modifying.c 30-50 *)
  Definition all_of_p (first last : iid) (pred : A -> bool) : prog bool :=
    at_least first INPUT;;; at_least last INPUT;;;
    F <~ New first;; E <~ New last;;
    scan_p pred F E;;;
    ret <~ Eq F E;;
    Free F;;; Free E;;; Ret ret.
  (** c_non_modifying.c 52-72 *)
  Definition any_of_p (first last : iid) (pred : A -> bool) : prog bool :=
    at_least first INPUT;;; at_least last INPUT;;;
    F <~ New first;; E <~ New last;;
    scan_p (fun x => negb (pred x)) F E;;;
    ret <~ Ne F E;;
    Free F;;; Free E;;; Ret ret.
  (** c_non_modifying.c 74-94 *)
  Definition none_of_p (first last : iid) (pred : A -> bool) : prog bool :=
    at_least first INPUT;;; at_least last INPUT;;;
    F <~ New first;; E <~ New last;;
    scan_p (fun x => negb (pred x)) F E;;;
    ret <~ Eq F E;;
    Free F;;; Free E;;; Ret ret.

  (** the effect of [op(C_ITER_DEREF(F))] on the element: [None] when the function leaves it alone *)
  Definition apply_p (F : iid) (y : option A) : prog unit :=
    match y with Some y => Write F y | None => Ret tt end.
  (** c_non_modifying.c 96-117; result: the caller state and n_oped *)
  Definition for_each_p {St} (first last : iid) (op : St -> A -> St * option A) (st : St) : prog (St * nat) :=
    at_least first INPUT;;; at_least last INPUT;;;
    F <~ New first;; E <~ New last;;
    r <~ WhileV (st, 0) (fun _ => Ne F E)
           (fun '(st, n) => x <~ Deref F;; apply_p F (op st x).2;;; Inc F;;; Ret ((op st x).1, S n));;
    Free F;;; Free E;;; Ret r.
  (** c_non_modifying.c 119-138 *)
  Definition for_each_n_p {St} (first : iid) (n : nat) (reached : out) (op : St -> A -> St * option A) (st : St)
      : prog (St * option iid) :=
    at_least first INPUT;;; out_at_least reached INPUT;;;
    F <~ New first;;
    r <~ WhileV (n, st) (fun '(n, _) => Ret (negb (n =? 0)))
           (fun '(n, st) => x <~ Deref F;; apply_p F (op st x).2;;; Inc F;;; Ret (n - 1, (op st x).1));;
    v <~ copy_or_assign reached F;;
    Free F;;; Ret (r.2, v).

  (** c_non_modifying.c 140-160; [eqf] is the element type's equality *)
  Definition count_p (eqf : A -> A -> bool) (first last : iid) (value : A) : prog nat :=
    at_least first INPUT;;; at_least last INPUT;;;
    F <~ New first;; E <~ New last;;
    n <~ WhileV 0 (fun _ => Ne F E)
           (fun n => x <~ Deref F;; Inc F;;; Ret (if eqf x value then S n else n));;
    Free F;;; Free E;;; Ret n.
  (** c_non_modifying.c 162-182 *)
  Definition count_if_p (first last : iid) (pred : A -> bool) : prog nat :=
    at_least first INPUT;;; at_least last INPUT;;;
    F <~ New first;; E <~ New last;;
    n <~ WhileV 0 (fun _ => Ne F E)
           (fun n => x <~ Deref F;; Inc F;;; Ret (if pred x then S n else n));;
    Free F;;; Free E;;; Ret n.

  (** the two-range loop, c_non_modifying.c 205-208 and 240-243 *)
  Definition scan2_p (pred : A -> A -> bool) (F E G : iid) : prog unit :=
    While (pand (Ne F E) (x <~ Deref F;; y <~ Deref G;; Ret (pred x y))) (Inc F;;; Inc G).
  (** c_non_modifying.c 184-223 *)
  Definition mismatch_by_p (first1 last1 first2 : iid) (mismatch1 mismatch2 : out) (pred : A -> A -> bool)
      : prog (bool * option iid * option iid) :=
    at_least first1 INPUT;;; at_least last1 INPUT;;; at_least first2 INPUT;;;
    out_at_least mismatch1 INPUT;;; out_at_least mismatch2 INPUT;;;
    F1 <~ New first1;; E1 <~ New last1;; F2 <~ New first2;;
    scan2_p pred F1 E1 F2;;;
    is_mismatch <~ Ne F1 E1;;
    m1 <~ New F1;; m2 <~ New F2;;
    v1 <~ copy_or_assign mismatch1 m1;;
    v2 <~ copy_or_assign mismatch2 m2;;
    Free m2;;; Free m1;;;
    Free F1;;; Free E1;;; Free F2;;; Ret (is_mismatch, v1, v2).
  (** c_non_modifying.c 225-248 *)
  Definition equal_by_p (first1 last1 first2 : iid) (pred : A -> A -> bool) : prog bool :=
    at_least first1 INPUT;;; at_least last1 INPUT;;; at_least first2 INPUT;;;
    F1 <~ New first1;; E1 <~ New last1;; F2 <~ New first2;;
    scan2_p pred F1 E1 F2;;;
    is_equal <~ Eq F1 E1;;
    Free F1;;; Free E1;;; Free F2;;; Ret is_equal.

  (** c_non_modifying.c 250-275 *)
  Definition find_by_p (first last : iid) (found : out) (value : A) (pred : A -> A -> bool) : prog (bool * option iid) :=
    at_least first INPUT;;; at_least last INPUT;;; out_at_least found INPUT;;;
    F <~ New first;; E <~ New last;;
    scan_p (fun x => negb (pred x value)) F E;;;
    is_found <~ Ne F E;;
    v <~ copy_or_assign found F;;
    Free F;;; Free E;;; Ret (is_found, v).
  (** c_non_modifying.c 277-301 *)
  Definition find_if_p (first last : iid) (found : out) (pred : A -> bool) : prog (bool * option iid) :=
    at_least first INPUT;;; at_least last INPUT;;; out_at_least found INPUT;;;
    F <~ New first;; E <~ New last;;
    scan_p (fun x => negb (pred x)) F E;;;
    is_found <~ Ne F E;;
    v <~ copy_or_assign found F;;
    Free F;;; Free E;;; Ret (is_found, v).
  (** c_non_modifying.c 303-327 *)
  Definition find_if_not_p (first last : iid) (found : out) (pred : A -> bool) : prog (bool * option iid) :=
    at_least first INPUT;;; at_least last INPUT;;; out_at_least found INPUT;;;
    F <~ New first;; E <~ New last;;
    scan_p pred F E;;;
    is_found <~ Ne F E;;
    v <~ copy_or_assign found F;;
    Free F;;; Free E;;; Ret (is_found, v).

  (** c_non_modifying.c 350-356: the inner loop; returns is_found *)
  Definition first_of_inner_p (pred : A -> A -> bool) (F SF SE : iid) : prog bool :=
    Loop tt (fun _ =>
      b <~ Ne SF SE;;
      if b then x <~ Deref F;; y <~ Deref SF;;
                if pred x y then Ret (inr true) else Inc SF;;; Ret (inl tt)
      else Ret (inr false)).
  (** c_non_modifying.c 329-364 *)
  Definition find_first_of_by_p (first last s_first s_last : iid) (found : out) (pred : A -> A -> bool)
      : prog (bool * option iid) :=
    at_least first INPUT;;; at_least last INPUT;;; at_least s_first FORWARD;;; at_least s_last FORWARD;;;
    out_at_least found INPUT;;;
    F <~ New first;; E <~ New last;; SF <~ New s_first;; SE <~ New s_last;;
    is_found <~ WhileV false (fun is_found => if is_found then Ret false else Ne F E)
      (fun _ => Assign SF s_first;;;
                b <~ first_of_inner_p pred F SF SE;;
                (if b then Ret tt else Inc F);;; Ret b);;
    v <~ copy_or_assign found F;;
    Free F;;; Free E;;; Free SF;;; Free SE;;; Ret (is_found, v).

  (** [while (search) { is_found = true; found = first; ++first; }] c_non_modifying.c 388-392, 519-523, 614-618 *)
  Definition last_p (search : prog (bool * option iid)) (F found : iid) : prog bool :=
    Loop false (fun is_found =>
      r <~ search;;
      if r.1 then Assign found F;;; Inc F;;; Ret (inl true) else Ret (inr is_found)).
  (** c_non_modifying.c 366-400 *)
  Definition find_last_of_by_p (first last s_first s_last : iid) (found : out) (pred : A -> A -> bool)
      : prog (bool * option iid) :=
    at_least first INPUT;;; at_least last INPUT;;; at_least s_first FORWARD;;; at_least s_last FORWARD;;;
    out_at_least found INPUT;;;
    F <~ New first;; E <~ New last;; SF <~ New s_first;; SE <~ New s_last;;
    fnd <~ New E;;
    is_found <~ last_p (find_first_of_by_p F E s_first s_last (Some (Some F)) pred) F fnd;;
    v <~ copy_or_assign found fnd;;
    Free fnd;;;
    Free F;;; Free E;;; Free SF;;; Free SE;;; Ret (is_found, v).

  (** c_non_modifying.c 402-441 *)
  Definition adjacent_find_by_p (first last : iid) (found : out) (pred : A -> A -> bool) : prog (bool * option iid) :=
    at_least first FORWARD;;; at_least last FORWARD;;; out_at_least found FORWARD;;;
    e <~ Eq first last;;
    if e then v <~ copy_or_assign found last;; Ret (false, v) else
    F <~ New first;; E <~ New last;;
    fnd <~ New E;;
    next <~ new_and_move F 1;;
    While (pand (Ne next E) (x <~ Deref F;; y <~ Deref next;; Ret (negb (pred x y))))
          (Assign F next;;; Inc next);;;
    is_found <~ Ne next E;;
    (if is_found then Assign fnd F else Ret tt);;;
    v <~ copy_or_assign found fnd;;
    Free next;;; Free fnd;;;
    Free F;;; Free E;;; Ret (is_found, v).

  (** c_non_modifying.c 468-472 *)
  Definition match_p (pred : A -> A -> bool) (i E s SE : iid) : prog unit :=
    While (pand (pand (Ne i E) (Ne s SE)) (x <~ Deref i;; y <~ Deref s;; Ret (pred x y)))
          (Inc i;;; Inc s).
  (** c_non_modifying.c 443-497 *)
  Definition search_by_p (first last s_first s_last : iid) (found : out) (pred : A -> A -> bool)
      : prog (bool * option iid) :=
    at_least first FORWARD;;; at_least last FORWARD;;; at_least s_first FORWARD;;; at_least s_last FORWARD;;;
    out_at_least found FORWARD;;;
    F <~ New first;; E <~ New last;; SF <~ New s_first;; SE <~ New s_last;;
    fnd <~ New E;; i <~ New F;; s <~ New SF;;
    is_found <~ Loop tt (fun _ =>
      b <~ Ne F E;;
      if b then
        match_p pred i E s SE;;;
        e <~ Eq s SE;;
        if e then Ret (inr true)
        else Inc F;;; Assign i F;;; Assign s SF;;; Ret (inl tt)
      else Ret (inr false));;
    (if is_found then Assign fnd F else Ret tt);;;
    v <~ copy_or_assign found fnd;;
    Free s;;; Free i;;; Free fnd;;;
    Free F;;; Free E;;; Free SF;;; Free SE;;; Ret (is_found, v).
  (** c_non_modifying.c 499-533 *)
  Definition search_last_by_p (first last s_first s_last : iid) (found : out) (pred : A -> A -> bool)
      : prog (bool * option iid) :=
    at_least first FORWARD;;; at_least last FORWARD;;; at_least s_first FORWARD;;; at_least s_last FORWARD;;;
    out_at_least found FORWARD;;;
    F <~ New first;; E <~ New last;; SF <~ New s_first;; SE <~ New s_last;;
    fnd <~ New E;;
    is_found <~ last_p (search_by_p F E SF SE (Some (Some F)) pred) F fnd;;
    v <~ copy_or_assign found fnd;;
    Free fnd;;;
    Free F;;; Free E;;; Free SF;;; Free SE;;; Ret (is_found, v).

  (** c_non_modifying.c 565-568; returns the final __n *)
  Definition run_p (pred : A -> A -> bool) (value : A) (i E : iid) (n : nat) : prog nat :=
    WhileV n (fun n => pand (pand (Ret (negb (n =? 0))) (Ne i E)) (x <~ Deref i;; Ret (pred x value)))
             (fun n => Inc i;;; Ret (n - 1)).
  (** c_non_modifying.c 535-585 *)
  Definition search_n_by_p (first last : iid) (n : nat) (value : A) (found : out) (pred : A -> A -> bool)
      : prog (bool * option iid) :=
    at_least first FORWARD;;; at_least last FORWARD;;; out_at_least found FORWARD;;;
    if n =? 0 then v <~ copy_or_assign found last;; Ret (false, v) else
    F <~ New first;; E <~ New last;;
    fnd <~ New E;; i <~ New F;;
    is_found <~ Loop tt (fun _ =>
      r <~ find_by_p i E (Some (Some F)) value pred;;
      if r.1 then
        Assign i F;;; Inc i;;;
        n' <~ run_p pred value i E (n - 1);;
        if n' =? 0 then Ret (inr true) else Ret (inl tt)
      else Ret (inr false));;
    (if is_found then Assign fnd F else Ret tt);;;
    v <~ copy_or_assign found fnd;;
    Free i;;; Free fnd;;;
    Free F;;; Free E;;; Ret (is_found, v).
  (** c_non_modifying.c 587-624 *)
  Definition search_last_n_by_p (first last : iid) (n : nat) (value : A) (found : out) (pred : A -> A -> bool)
      : prog (bool * option iid) :=
    at_least first FORWARD;;; at_least last FORWARD;;; out_at_least found FORWARD;;;
    if n =? 0 then v <~ copy_or_assign found last;; Ret (false, v) else
    F <~ New first;; E <~ New last;;
    fnd <~ New E;;
    is_found <~ last_p (search_n_by_p F E n value (Some (Some F)) pred) F fnd;;
    v <~ copy_or_assign found fnd;;
    Free fnd;;;
    Free F;;; Free E;;; Ret (is_found, v).
End nonmod.
