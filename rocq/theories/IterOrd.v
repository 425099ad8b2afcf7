(** IterOrd.v — the functions of /repo/algorithm/c_partitioning.c, c_bsearch.c, c_min_max.c (those that
    take iterators), c_set_op.c and the two tests of c_sorting.c (287-346) as iterator programs.

    As in IterNonMod.v the programs follow the C text statement by statement; the null-argument guards
    at the top of each function are not represented, except those on out parameters when a function has
    two of them.  Value arguments ([c_ref_t value]) are values: they do not alias an element. *)
From stdpp Require Import list gmap.
From Verif Require Import Base Iter IterNonMod IterMod.
From stdpp Require Import list.

Section partitioning.
  Context {A : Type}.
  Local Notation prog := (prog A).

  Definition forward2 (x y : iid) : prog unit := at_least x FORWARD;;; at_least y FORWARD.

  (** c_partitioning.c 31-60 *)
  Definition is_partitioned_p (first last : iid) (pred : A -> bool) : prog bool :=
    forward2 first last;;;
    e <~ Eq first last;;
    if e then Ret true else
    F <~ New first;; E <~ New last;;
    scan_p pred F E;;;
    r <~ Loop tt (fun _ =>
      b <~ Ne F E;;
      if b then x <~ Deref F;; if pred x then Ret (inr false) else Inc F;;; Ret (inl tt)
      else Ret (inr true));;
    Free F;;; Free E;;; Ret r.
  (** c_partitioning.c 62-94 *)
  Definition partition_p (first last : iid) (second_first : out) (pred : A -> bool) : prog (option iid) :=
    forward2 first last;;; out_at_least second_first FORWARD;;; is_mutable first;;;
    F <~ New first;; E <~ New last;;
    find_if_not_p F E (Some (Some F)) pred;;;
    b <~ Ne F E;;
    (if b then
       next <~ New F;; Inc next;;;
       While (Ne next E) (
         x <~ Deref next;;
         (if pred x then iter_swap_p F next;;; Inc F else Ret tt);;;
         Inc next);;;
       Free next
     else Ret tt);;;
    v <~ copy_or_assign second_first F;;
    Free F;;; Free E;;; Ret v.
  (** c_partitioning.c 96-137 *)
  Definition partition_copy_p (first last d_first_true d_first_false : iid) (d_last_true d_last_false : out)
      (pred : A -> bool) : prog (nat * option iid * option iid) :=
    forward2 first last;;; forward2 d_first_true d_first_false;;;
    out_at_least d_last_true FORWARD;;; out_at_least d_last_false FORWARD;;;
    is_mutable d_first_true;;; is_mutable d_first_false;;;
    F <~ New first;; E <~ New last;; T <~ New d_first_true;; U <~ New d_first_false;;
    n <~ each_p F E (fun n =>
      x <~ Deref F;;
      (if pred x then DerefAssign T F;;; Inc T else DerefAssign U F;;; Inc U);;;
      Inc F;;; Ret (S n)) 0;;
    v <~ copy_or_assign d_last_true T;;
    w <~ copy_or_assign d_last_false U;;
    Free F;;; Free E;;; Free T;;; Free U;;; Ret (n, v, w).
  (** c_partitioning.c 139-158 *)
  Definition partition_point_p (first last : iid) (first_last : out) (pred : A -> bool) : prog (option iid) :=
    forward2 first last;;; out_at_least first_last FORWARD;;;
    F <~ New first;; E <~ New last;;
    scan_p pred F E;;;
    v <~ copy_or_assign first_last F;;
    Free F;;; Free E;;; Ret v.
End partitioning.

Section bsearch.
  Context {A : Type} (comp : A -> A -> bool).
  Local Notation prog := (prog A).

  (** the loop c_bsearch.c 48-60 ([go x := comp(x, value)]) and 87-99 ([go x := !comp(value, x)]) *)
  Definition halving_p (go : A -> bool) (F it : iid) (count : Z) : prog Z :=
    WhileV count (fun count => Ret (0 <? count)%Z) (fun count =>
      Assign it F;;;
      let step := Z.quot count 2 in
      Adv it step;;;
      x <~ Deref it;;
      if go x then Inc it;;; Assign F it;;; Ret (count - (step + 1))%Z else Ret step).
  (** what algo_lower_bound_by and algo_upper_bound_by share *)
  Definition bound_p (go : A -> bool) (first last : iid) (bound : out) : prog (option iid) :=
    forward2 first last;;; out_at_least bound FORWARD;;;
    F <~ New first;; E <~ New last;;
    count <~ Dist F E;;
    it <~ New F;;
    halving_p go F it count;;;
    v <~ copy_or_assign bound F;;
    Free it;;; Free F;;; Free E;;; Ret v.
  (** c_bsearch.c 30-67 *)
  Definition lower_bound_by_p (first last : iid) (value : A) (bound : out) : prog (option iid) :=
    bound_p (fun x => comp x value) first last bound.
  (** c_bsearch.c 69-106 *)
  Definition upper_bound_by_p (first last : iid) (value : A) (bound : out) : prog (option iid) :=
    bound_p (fun x => negb (comp value x)) first last bound.
  (** c_bsearch.c 108-127 *)
  Definition binary_search_by_p (first last : iid) (value : A) : prog bool :=
    forward2 first last;;;
    F <~ New first;; E <~ New last;;
    lower_bound_by_p F E value (Some (Some F));;;
    r <~ pand (Ne F E) (x <~ Deref F;; Ret (negb (comp value x)));;
    Free F;;; Free E;;; Ret r.
  (** the variable behind an out parameter, untouched *)
  Definition untouched (o : out) : option iid := match o with Some v => v | None => None end.
  (** c_bsearch.c 129-146 *)
  Definition equal_range_by_p (first last : iid) (value : A) (lower_bound upper_bound : out) : prog (option iid * option iid) :=
    match lower_bound, upper_bound with
    | Some _, Some _ =>
        forward2 first last;;;
        F <~ New first;; E <~ New last;;
        v <~ lower_bound_by_p F E value lower_bound;;
        w <~ upper_bound_by_p F E value upper_bound;;
        Free F;;; Free E;;; Ret (v, w)
    | _, _ => Ret (untouched lower_bound, untouched upper_bound)
    end.
End bsearch.

Section minmax.
  Context {A : Type} (comp : A -> A -> bool).
  Local Notation prog := (prog A).

  (** the conditional assignments c_min_max.c 78-80 and 148-150, 109-111 and 144-146 *)
  Definition take_greater (X F : iid) : prog unit :=
    x <~ Deref X;; y <~ Deref F;; if comp x y then Assign X F else Ret tt.
  Definition take_smaller (X F : iid) : prog unit :=
    y <~ Deref F;; x <~ Deref X;; if comp y x then Assign X F else Ret tt.
  (** the loops c_min_max.c 75-82, 106-113 and 141-152 *)
  Definition rest_p (F E : iid) (take : prog unit) : prog unit :=
    While (Ne F E) (Inc F;;; b <~ Ne F E;; if b then take else Ret tt).
  (** c_min_max.c 60-89 *)
  Definition max_element_by_p (first last : iid) (max : out) : prog (option iid) :=
    forward2 first last;;; out_at_least max FORWARD;;;
    F <~ New first;; E <~ New last;; X <~ New F;;
    rest_p F E (take_greater X F);;;
    v <~ copy_or_assign max X;;
    Free X;;; Free F;;; Free E;;; Ret v.
  (** c_min_max.c 91-120 *)
  Definition min_element_by_p (first last : iid) (min : out) : prog (option iid) :=
    forward2 first last;;; out_at_least min FORWARD;;;
    F <~ New first;; E <~ New last;; X <~ New F;;
    rest_p F E (take_smaller X F);;;
    v <~ copy_or_assign min X;;
    Free X;;; Free F;;; Free E;;; Ret v.
  (** c_min_max.c 122-161 *)
  Definition minmax_element_by_p (first last : iid) (min max : out) : prog (option iid * option iid) :=
    match min, max with
    | Some _, Some _ =>
        forward2 first last;;; out_at_least min FORWARD;;; out_at_least max FORWARD;;;
        F <~ New first;; E <~ New last;; X <~ New F;; Y <~ New F;;
        rest_p F E (take_smaller X F;;; take_greater Y F);;;
        v <~ copy_or_assign min X;;
        w <~ copy_or_assign max Y;;
        Free Y;;; Free X;;; Free F;;; Free E;;; Ret (v, w)
    | _, _ => Ret (untouched min, untouched max)
    end.
  (** c_min_max.c 176-212 *)
  Definition lexicographical_compare_by_p (first1 last1 first2 last2 : iid) : prog bool :=
    forward2 first1 last1;;; forward2 first2 last2;;;
    F1 <~ New first1;; E1 <~ New last1;; F2 <~ New first2;; E2 <~ New last2;;
    ret <~ Loop tt (fun _ =>
      b <~ pand (Ne F1 E1) (Ne F2 E2);;
      if b then
        x <~ Deref F1;; y <~ Deref F2;;
        if comp x y then Ret (inr true) else
        y' <~ Deref F2;; x' <~ Deref F1;;
        if comp y' x' then Ret (inr false) else
        Inc F1;;; Inc F2;;; Ret (inl tt)
      else Ret (inr false));;
    t <~ pand (Eq F1 E1) (Ne F2 E2);;
    Free F1;;; Free E1;;; Free F2;;; Free E2;;;
    Ret (if t then true else ret).
End minmax.

Section setop.
  Context {A : Type} (comp : A -> A -> bool).
  Local Notation prog := (prog A).

  (** comp applied to what two iterators point to *)
  Definition CompAt (X Y : iid) : prog bool := x <~ Deref X;; y <~ Deref Y;; Ret (comp x y).
  (** assign to *d_first and advance it *)
  Definition emit_p (D X : iid) : prog unit := DerefAssign D X;;; Inc D.
  Definition both_p (F1 F2 : iid) : prog unit := Inc F1;;; Inc F2.

  (** one turn of c_set_op.c 53-62 *)
  Definition merge_body (F1 F2 D : iid) (n : nat) : prog nat :=
    b <~ CompAt F1 F2;;
    (if b then DerefAssign D F1;;; Inc F1 else DerefAssign D F2;;; Inc F2);;;
    Inc D;;; Ret (S n).
  (** c_set_op.c 135-144 *)
  Definition difference_body (F1 F2 D : iid) (n : nat) : prog nat :=
    b <~ CompAt F1 F2;;
    if b then DerefAssign D F1;;; Inc F1;;; Inc D;;; Ret (S n) else both_p F1 F2;;; Ret n.
  (** c_set_op.c 178-190 *)
  Definition intersection_body (F1 F2 D : iid) (n : nat) : prog nat :=
    b <~ CompAt F1 F2;;
    if b then Inc F1;;; Ret n else
    c <~ CompAt F2 F1;;
    if c then Inc F2;;; Ret n else emit_p D F1;;; both_p F1 F2;;; Ret (S n).
  (** c_set_op.c 222-237 *)
  Definition symdiff_body (F1 F2 D : iid) (n : nat) : prog nat :=
    b <~ CompAt F1 F2;;
    if b then emit_p D F1;;; Inc F1;;; Ret (S n) else
    c <~ CompAt F2 F1;;
    if c then emit_p D F2;;; Inc F2;;; Ret (S n) else both_p F1 F2;;; Ret n.
  (** c_set_op.c 272-290 *)
  Definition union_body (F1 F2 D : iid) (n : nat) : prog nat :=
    b <~ CompAt F1 F2;;
    if b then emit_p D F1;;; Inc F1;;; Ret (S n) else
    c <~ CompAt F2 F1;;
    if c then emit_p D F2;;; Inc F2;;; Ret (S n) else emit_p D F1;;; both_p F1 F2;;; Ret (S n).

  (** The frame shared by merge, difference, intersection, symmetric difference and union: assertions,
      __C_ALGO_BEGIN_5, the loop over both ranges, the trailing calls of algo_copy, the out parameter,
      __C_ALGO_END_5 (c_set_op.c 40-72, 122-153, 165-197, 209-247, 259-300). *)
  Definition two_range_p (body : iid -> iid -> iid -> nat -> prog nat) (copy1 copy2 : bool)
      (first1 last1 first2 last2 d_first : iid) (d_last : out) : prog (nat * option iid) :=
    forward2 first1 last1;;; forward2 first2 last2;;; at_least d_first FORWARD;;;
    out_at_least d_last FORWARD;;; is_mutable d_first;;;
    F1 <~ New first1;; E1 <~ New last1;; F2 <~ New first2;; E2 <~ New last2;; D <~ New d_first;;
    n <~ WhileV 0 (fun _ => pand (Ne F1 E1) (Ne F2 E2)) (body F1 F2 D);;
    n1 <~ (if copy1 then r <~ copy_p F1 E1 D (Some (Some D));; Ret (n + r.1) else Ret n);;
    n2 <~ (if copy2 then r <~ copy_p F2 E2 D (Some (Some D));; Ret (n1 + r.1) else Ret n1);;
    v <~ copy_or_assign d_last D;;
    Free F1;;; Free E1;;; Free F2;;; Free E2;;; Free D;;; Ret (n2, v).
  (** c_set_op.c 31-73 *)
  Definition merge_by_p := two_range_p merge_body true true.
  (** c_set_op.c 113-154 *)
  Definition set_difference_by_p := two_range_p difference_body true false.
  (** c_set_op.c 156-198 *)
  Definition set_intersection_by_p := two_range_p intersection_body false false.
  (** c_set_op.c 200-248 *)
  Definition set_symmetric_difference_by_p := two_range_p symdiff_body true true.
  (** c_set_op.c 250-301 *)
  Definition set_union_by_p := two_range_p union_body true true.

  (** c_set_op.c 75-111 *)
  Definition includes_by_p (first1 last1 first2 last2 : iid) : prog bool :=
    forward2 first1 last1;;; forward2 first2 last2;;;
    e <~ Eq first2 last2;;
    if e then Ret true else
    F1 <~ New first1;; E1 <~ New last1;; F2 <~ New first2;; E2 <~ New last2;;
    Loop tt (fun _ =>
      b <~ pand (Ne F1 E1) (Ne F2 E2);;
      if b then
        c <~ CompAt F2 F1;;
        if c then Ret (inr tt) else
        d <~ CompAt F1 F2;;
        (if d then Inc F1 else both_p F1 F2);;; Ret (inl tt)
      else Ret (inr tt));;;
    r <~ Ne F2 E2;;
    Free F1;;; Free E1;;; Free F2;;; Free E2;;;
    Ret (negb r).
End setop.

Section sorted.
  Context {A : Type} (comp : A -> A -> bool).
  Local Notation prog := (prog A).

  (** c_sorting.c 309-346 *)
  Definition is_sorted_until_by_p (first last : iid) (until : out) : prog (option iid) :=
    forward2 first last;;; out_at_least until FORWARD;;;
    e <~ Eq first last;;
    if e then copy_or_assign until last else
    F <~ New first;; E <~ New last;;
    next <~ New F;; Inc next;;;
    sorted <~ Loop tt (fun _ =>
      b <~ Ne next E;;
      if b then
        x <~ Deref next;; y <~ Deref F;;
        if comp x y then Ret (inr false) else Inc F;;; Inc next;;; Ret (inl tt)
      else Ret (inr true));;
    v <~ copy_or_assign until (if sorted then E else F);;
    Free next;;; Free F;;; Free E;;; Ret v.
  (** c_sorting.c 287-307.  [&__until] is the address of a null variable. *)
  Definition is_sorted_by_p (first last : iid) : prog bool :=
    forward2 first last;;;
    F <~ New first;; E <~ New last;;
    u <~ is_sorted_until_by_p F E (Some None);;
    match u with
    | Some U => r <~ Eq U E;; Free U;;; Free F;;; Free E;;; Ret r
    | None => Fail      (* dereferencing a null pointer *)
    end.
End sorted.
