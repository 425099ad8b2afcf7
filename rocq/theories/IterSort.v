(** IterSort.v — the sorting functions of /repo/algorithm/c_sorting.c as iterator programs
    (algo_is_sorted_by and algo_is_sorted_until_by are in IterOrd.v).

    As in IterHeap.v the programs follow the C text statement by statement; the null-argument guards at
    the top of each function are not represented.  Value temporaries (__c_allocate, copy, ..., destroy)
    are local values, except that a [c_ref_t] argument that points into the range is modelled as such. *)
From stdpp Require Import list gmap.
From Verif Require Import Base Iter IterNonMod IterMod IterHeap AlgoSort.
From stdpp Require Import list.

Section sort.
  Context {A : Type} (comp : A -> A -> bool).
  Local Notation prog := (prog A).

  (** c_sorting.c 367-405 *)
  Definition partial_sort_by_p (first middle last : iid) : prog unit :=
    exactly first RANDOM;;; exactly middle RANDOM;;; exactly last RANDOM;;; is_mutable first;;; is_mutable middle;;;
    e <~ Eq first middle;;
    if (e : bool) then Ret tt else
    F <~ New first;; X <~ New middle;; E <~ New last;;
    i <~ New X;;
    p <~ copy_and_move None X (-1)%Z;;
    make_heap_by_p comp F X;;;
    While (Ne i E) (
      x <~ Deref i;; y <~ Deref F;;
      (if comp x y then pop_heap_by_p comp F X;;; iter_swap_p p i;;; push_heap_by_p comp F X else Ret tt);;;
      Inc i);;;
    sort_heap_by_p comp F X;;;
    Free i;;; Free p;;;
    Free F;;; Free X;;; Free E.

  (** c_sorting.c 84-105: one round of the loop of __partition_by; true = left by break *)
  Definition partition_round_p (F E : iid) (pivot : A) : prog bool :=
    While (x <~ Deref F;; Ret (comp x pivot)) (Inc F);;;
    Dec E;;;
    While (x <~ Deref E;; Ret (comp pivot x)) (Dec E);;;
    l <~ Less F E;;
    if negb l then Ret true else iter_swap_p F E;;; Inc F;;; Ret false.
  (** c_sorting.c 75-108 *)
  Definition partition_by_p (first last : iid) (second_first : out) (pivot : A) : prog (option iid) :=
    F <~ New first;; E <~ New last;;
    Loop tt (fun _ => b <~ partition_round_p F E pivot;; Ret (if (b : bool) then inr tt else inl tt));;;
    v <~ copy_or_assign second_first F;;
    Free F;;; Free E;;; Ret v.

  (** c_sorting.c 125-153: the loop of __introspective_sort_by, on the variables __first, __last, __middle, __last_prev.
      Both the next round and the recursive call have depth_limit decremented, hence the structural recursion; the recursive
      call of line 146 is inlined (it makes its own shadows and starts with null variables). *)
  Fixpoint introsort_loop_p (depth_limit : nat) (F E : iid) (mid prev : option iid) : prog (option iid * option iid) :=
    d <~ Dist F E;;
    if (Z.of_nat threshold <? d)%Z then
      match depth_limit with
      | 0 => partial_sort_by_p F E E;;; Ret (mid, prev)
      | S depth' =>
        d <~ Dist F E;;
        mid' <~ copy_and_move mid F (Z.quot d 2);;
        prev' <~ copy_and_move prev E (-1)%Z;;
        x <~ Deref F;; y <~ Deref mid';; z <~ Deref prev';;
        let pivot := median_of_three comp x y z in
        part <~ partition_by_p F E (Some None) pivot;;
        match part with
        | None => Fail
        | Some part =>
          F' <~ New part;; E' <~ New E;;
          v <~ introsort_loop_p depth' F' E' None None;;
          free_opt v.2;;; free_opt v.1;;;
          Free F';;; Free E';;;
          Assign E part;;;
          Free part;;;
          introsort_loop_p depth' F E (Some mid') (Some prev')
        end
      end
    else Ret (mid, prev).
  (** c_sorting.c 110-159 *)
  Definition introsort_p (first last : iid) (depth_limit : nat) : prog unit :=
    F <~ New first;; E <~ New last;;
    v <~ introsort_loop_p depth_limit F E None None;;
    free_opt v.2;;; free_opt v.1;;;
    Free F;;; Free E.

  (** a [c_ref_t]: a temporary, or the element under an iterator object *)
  Definition val_p (v : A + iid) : prog A := match v with inl x => Ret x | inr i => Deref i end.
  (** c_sorting.c 161-185 *)
  Definition unguarded_linear_p (last : iid) (value : A + iid) : prog unit :=
    E <~ New last;;
    n <~ copy_and_move None E (-1)%Z;;
    While (v <~ val_p value;; y <~ Deref n;; Ret (comp v y)) (DerefAssign E n;;; Assign E n;;; Dec n);;;
    v <~ val_p value;; Write E v;;;
    Free n;;;
    Free E.
  (** c_sorting.c 187-222 *)
  Definition linear_sort_p (first last : iid) : prog unit :=
    F <~ New first;; E <~ New last;;
    v <~ Deref E;; x <~ Deref F;;
    (if comp v x then
       n <~ copy_and_move None E 1%Z;;
       copy_backward_p F E n None;;;
       Write F v;;;
       Free n
     else unguarded_linear_p E (inl v));;;
    Free F;;; Free E.
  (** c_sorting.c 224-243 *)
  Definition insertion_sort_p (first last : iid) : prog unit :=
    e <~ Eq first last;;
    if (e : bool) then Ret tt else
    F <~ New first;; E <~ New last;;
    i <~ copy_and_move None F 1%Z;;
    While (Ne i E) (linear_sort_p F i;;; Inc i);;;
    Free i;;;
    Free F;;; Free E.
  (** c_sorting.c 245-263 *)
  Definition unguarded_insertion_p (first last : iid) : prog unit :=
    F <~ New first;; E <~ New last;;
    i <~ New F;;
    While (Ne i E) (unguarded_linear_p i (inr i);;; Inc i);;;
    Free i;;;
    Free F;;; Free E.
  (** c_sorting.c 265-285 *)
  Definition final_insertion_p (first last : iid) : prog unit :=
    F <~ New first;; E <~ New last;;
    d <~ Dist F E;;
    (if (Z.of_nat threshold <? d)%Z then
       p <~ copy_and_move None F (Z.of_nat threshold);;
       insertion_sort_p F p;;;
       unguarded_insertion_p p E;;;
       Free p
     else insertion_sort_p F E);;;
    Free F;;; Free E.
  (** c_sorting.c 348-365 *)
  Definition sort_by_p (first last : iid) : prog unit :=
    exactly first RANDOM;;; exactly last RANDOM;;; is_mutable first;;;
    e <~ Eq first last;;
    if (e : bool) then Ret tt else
    F <~ New first;; E <~ New last;;
    d <~ Dist F E;;
    introsort_p F E (lg (Z.to_nat d) * 2);;;
    final_insertion_p F E;;;
    Free F;;; Free E.

  (** c_sorting.c 407-468 *)
  Definition partial_sort_copy_by_p (first last d_first d_last : iid) (d_upper : out) : prog (nat * option iid) :=
    at_least first FORWARD;;; at_least last FORWARD;;; exactly d_first RANDOM;;; exactly d_last RANDOM;;; out_exactly d_upper RANDOM;;;
    is_mutable d_first;;;
    e <~ (b <~ Eq first last;; if (b : bool) then Ret true else Eq d_first d_last);;
    if (e : bool) then (v <~ copy_or_assign d_upper d_first;; Ret (0, v)) else
    F <~ New first;; E <~ New last;; DF <~ New d_first;; DE <~ New d_last;;
    i <~ New F;; d <~ New DF;;
    n <~ WhileV 0 (fun _ => b <~ Ne i E;; if (b : bool) then Ne d DE else Ret false)
      (fun n => DerefAssign d i;;; Inc d;;; Inc i;;; Ret (S n));;
    p <~ copy_and_move None d (-1)%Z;;
    make_heap_by_p comp DF d;;;
    While (Ne i E) (
      x <~ Deref i;; y <~ Deref DF;;
      (if comp x y then pop_heap_by_p comp DF d;;; DerefAssign p i;;; push_heap_by_p comp DF d else Ret tt);;;
      Inc i);;;
    sort_heap_by_p comp DF d;;;
    v <~ copy_or_assign d_upper d;;
    Free p;;; Free d;;; Free i;;;
    Free F;;; Free E;;; Free DF;;; Free DE;;; Ret (n, v).
End sort.
