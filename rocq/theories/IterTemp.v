(** IterTemp.v — the functions of /repo/algorithm that make temporary elements, with the temporaries.

    In IterMod.v, IterHeap.v, IterSort.v and IterOrd.v a temporary element is a local value.  Here it is what it is in
    the C code: storage from malloc (__c_allocate, c_internal.h 207-216) in which an element is constructed (create,
    copy of c_type_info_t, c_def.h 93-124), assigned, read, destroyed, and which is freed (__c_deallocate,
    c_internal.h 218-227).  A program of the type [tprog] is run in a world of iterators together with a [temps]: the
    storage at hand, each either raw or holding an element, and the number of elements that have been lost, that is,
    overwritten or freed without having been destroyed.  Reading, assigning or destroying raw storage is undefined
    behaviour.  That malloc fails is not modelled here.  The functions of /repo/algorithm that are not in this file make
    no temporary elements. *)
From stdpp Require Import list gmap.
From Verif Require Import Base Iter IterNonMod IterMod IterOrd IterHeap IterSort AlgoSort.
From stdpp Require Import list.

Definition tid := positive.
Record temps (A : Type) := Temps { t_obj : gmap tid (option A); t_lost : nat }.
Global Arguments Temps {A} _ _.
Global Arguments t_obj {A} _.
Global Arguments t_lost {A} _.

(** programs with temporaries: the programs of Iter.v and the operations on elements that c_type_info_t has, c_def.h 93-124 *)
Inductive tprog (A : Type) : Type -> Type :=
| TLift {R : Type} (p : prog A R) : tprog A R
| TBind {X R : Type} (p : tprog A X) (k : X -> tprog A R) : tprog A R
| TLoop {X R : Type} (x : X) (body : X -> tprog A (X + R)) : tprog A R
| TMalloc : tprog A tid                       (* __c_allocate, c_internal.h 207-216; malloc, c_heap.c 204 *)
| TFree (t : tid) : tprog A unit              (* __c_deallocate, c_internal.h 218-227; __c_free, c_internal.h 113-119 *)
| TCopy (t : tid) (v : A) : tprog A unit      (* value_type->copy(t, v), create(t), gen(t): construct *)
| TAssign (t : tid) (v : A) : tprog A unit    (* value_type->assign(t, v) *)
| TRead (t : tid) : tprog A A                 (* the element in t, as an argument of comp, assign, op *)
| TZero (t : tid) : tprog A unit              (* memset(t, 0, size) *)
| TDestroy (t : tid) : tprog A unit.          (* value_type->destroy(t) *)
Global Arguments TLift {A R} p%prog_scope.
Global Arguments TBind {A X R} p k.
Global Arguments TLoop {A X R} x body.
Global Arguments TMalloc {A}.
Global Arguments TFree {A} t.
Global Arguments TCopy {A} t v.
Global Arguments TAssign {A} t v.
Global Arguments TRead {A} t.
Global Arguments TZero {A} t.
Global Arguments TDestroy {A} t.
Coercion TLift : prog >-> tprog.

Declare Scope tprog_scope.
Delimit Scope tprog_scope with tprog.
Notation "x <~ p ;; k" := (TBind p (fun x => k))
  (at level 100, p at next level, k at level 200, right associativity) : tprog_scope.
Notation "' pat <~ p ;; k" := (TBind p (fun x => match x with pat => k end))
  (at level 100, pat pattern, p at next level, k at level 200, right associativity) : tprog_scope.
Notation "p ;;; k" := (TBind p (fun _ => k))
  (at level 100, k at level 200, right associativity) : tprog_scope.

Section run.
  Context {A : Type} (W : world A).
  Definition tstate : Type := istate W * temps A.
  (** an element is lost if there is one: nothing in the C code keeps count of it *)
  Definition losing (o : option A) (n : nat) : nat := match o with Some _ => S n | None => n end.
  Definition storage (g : temps A) (t : tid) : res (option A) := match t_obj g !! t with Some o => Ok o | None => UB end.
  Definition element (g : temps A) (t : tid) : res A := do o <- storage g t; match o with Some v => Ok v | None => UB end.

  Fixpoint trun (fuel : nat) {R : Type} (p : tprog A R) (st : tstate) : res (R * tstate) :=
    match p in tprog _ R0 return res (R0 * tstate) with
    | TLift p => do (r, s) <- run W fuel p st.1; Ok (r, (s, st.2))
    | TBind p k => do (x, st') <- trun fuel p st; trun fuel (k x) st'
    | TLoop x body =>
        (fix loop (n : nat) x st :=
           match n with
           | 0 => NoFuel
           | S n' => do (y, st') <- trun fuel (body x) st;
                     match y with inl x' => loop n' x' st' | inr r => Ok (r, st') end
           end) fuel x st
    | TMalloc => let t := fresh (dom (t_obj st.2)) in Ok (t, (st.1, Temps (<[t := None]> (t_obj st.2)) (t_lost st.2)))
    | TFree t => do o <- storage st.2 t; Ok (tt, (st.1, Temps (delete t (t_obj st.2)) (losing o (t_lost st.2))))
    | TCopy t v => do o <- storage st.2 t; Ok (tt, (st.1, Temps (<[t := Some v]> (t_obj st.2)) (losing o (t_lost st.2))))
    | TAssign t v => do _ <- element st.2 t; Ok (tt, (st.1, Temps (<[t := Some v]> (t_obj st.2)) (t_lost st.2)))
    | TRead t => do v <- element st.2 t; Ok (v, st)
    | TZero t => do o <- storage st.2 t; Ok (tt, (st.1, Temps (<[t := None]> (t_obj st.2)) (losing o (t_lost st.2))))
    | TDestroy t => do _ <- element st.2 t; Ok (tt, (st.1, Temps (<[t := None]> (t_obj st.2)) (t_lost st.2)))
    end.
  (** [texec p st r st']: started in [st], [p] returns [r] in [st'] *)
  Definition texec {R : Type} (p : tprog A R) (st : tstate) (r : R) (st' : tstate) : Prop :=
    exists fuel, trun fuel p st = Ok (r, st').
End run.

Open Scope tprog_scope.
Section idioms.
  Context {A : Type}.
  (** the loops of /repo/algorithm, as [While], [WhileV] of Iter.v and [each_p] of IterMod.v *)
  Definition TWhile (cond : tprog A bool) (body : tprog A unit) : tprog A unit :=
    TLoop tt (fun _ => b <~ cond;; if b then body ;;; Ret (inl tt) else Ret (inr tt)).
  Definition TWhileV {X} (x : X) (cond : X -> tprog A bool) (body : X -> tprog A X) : tprog A X :=
    TLoop x (fun x => b <~ cond x;; if b then y <~ body x;; Ret (inl y) else Ret (inr x)).
  Definition each_t (F E : iid) (body : nat -> tprog A nat) (n : nat) : tprog A nat := TWhileV n (fun _ => Ne F E) body.
End idioms.

(** ** c_modifying.c *)
Section modifying.
  Context {A : Type}.
  Local Notation tprog := (tprog A).

  (** c_modifying.c 580-592, on the elements under two iterators *)
  Definition swap_t (x y : iid) : tprog unit :=
    tmp <~ TMalloc;;
    v <~ Deref x;; TCopy tmp v;;;
    DerefAssign x y;;;
    v <~ TRead tmp;; Write y v;;;
    TDestroy tmp;;; TFree tmp.
  (** c_modifying.c 621-631 *)
  Definition iter_swap_t (x y : iid) : tprog unit :=
    at_least x FORWARD;;; at_least y FORWARD;;; is_mutable x;;; is_mutable y;;; swap_t x y.
  (** c_modifying.c 594-619 *)
  Definition swap_range_t (first1 last1 first2 : iid) : tprog nat :=
    forward3 first1 last1 first2;;; is_mutable first1;;; is_mutable first2;;;
    F1 <~ New first1;; E1 <~ New last1;; F2 <~ New first2;;
    n <~ each_t F1 E1 (fun n => swap_t F1 F2;;; Inc F1;;; Inc F2;;; Ret (S n)) 0;;
    Free F1;;; Free E1;;; Free F2;;; Ret n.
  (** c_modifying.c 633-659 *)
  Definition reverse_t (first last : iid) : tprog nat :=
    at_least first BIDIRECTION;;; at_least last BIDIRECTION;;; is_mutable first;;; is_mutable last;;;
    F <~ New first;; E <~ New last;;
    n <~ each_t F E (fun n =>
      Dec E;;;
      b <~ Ne F E;;
      n' <~ (if (b : bool) then swap_t F E;;; Inc F;;; Ret (S n) else Ret n);;
      Ret (S n')) 0;;
    Free F;;; Free E;;; Ret n.
  (** c_modifying.c 722-725 and 732-735 *)
  Definition rotate_step_t (F N X : iid) : tprog unit :=
    iter_swap_t F X;;; Inc F;;; Inc X;;;
    e <~ Eq F N;; (if (e : bool) then Assign N X else Ret tt).
  (** c_modifying.c 691-742 *)
  Definition rotate_t (first n_first last : iid) (rotate_point : out) : tprog (option iid) :=
    forward3 first n_first last;;; is_mutable first;;; is_mutable n_first;;;
    e1 <~ Eq first n_first;;
    if (e1 : bool) then copy_or_assign rotate_point last else
    e2 <~ Eq n_first last;;
    if (e2 : bool) then copy_or_assign rotate_point first else
    F <~ New first;; N <~ New n_first;; E <~ New last;;
    next <~ New N;;
    TLoop tt (fun _ => rotate_step_t F N next;;; b <~ Ne next E;; Ret (if (b : bool) then inl tt else inr tt));;;
    v <~ copy_or_assign rotate_point F;;
    Assign next N;;;
    TWhile (Ne next E) (rotate_step_t F N next;;; e <~ Eq next E;; (if (e : bool) then Assign next N else Ret tt));;;
    Free next;;; Free F;;; Free N;;; Free E;;; Ret v.
  (** c_modifying.c 777-802 *)
  Definition random_shuffle_by_t (first last : iid) (r : nat -> nat) : tprog unit :=
    exactly first RANDOM;;; exactly last RANDOM;;; is_mutable first;;;
    F <~ New first;; E <~ New last;;
    n <~ Dist F E;;
    xy <~ TWhileV (Z.to_nat (n - 1), None, None) (fun '(i, _, _) => Ret (0 <? i))
            (fun '(i, x, y) =>
               x' <~ copy_and_move x F (Z.of_nat i);;
               y' <~ copy_and_move y F (Z.of_nat (r i));;
               iter_swap_t x' y';;; Ret (i - 1, Some x', Some y'));;
    free_opt xy.2;;; free_opt xy.1.2;;;
    Free F;;; Free E.

  (** c_modifying.c 197-232; [dflt] is the element that create constructs *)
  Definition transform_t (dflt : A) (first last d_first : iid) (op : A -> A) : tprog nat :=
    forward3 first last d_first;;; is_mutable d_first;;;
    F <~ New first;; E <~ New last;; D <~ New d_first;;
    t <~ TMalloc;; TCopy t dflt;;;
    n <~ each_t F E (fun n =>
      x <~ Deref F;; TAssign t x;;;
      x <~ TRead t;; TAssign t (op x);;;
      x <~ TRead t;; Write D x;;;
      Inc F;;; Inc D;;; Ret (S n)) 0;;
    TDestroy t;;; TFree t;;;
    Free F;;; Free E;;; Free D;;; Ret n.
  (** c_modifying.c 234-266 *)
  Definition generate_t {St} (first last : iid) (gen : St -> St * A) (st : St) : tprog (St * nat) :=
    at_least first FORWARD;;; at_least last FORWARD;;; is_mutable first;;;
    F <~ New first;; E <~ New last;;
    t <~ TMalloc;;
    r <~ TWhileV (st, 0) (fun _ => Ne F E) (fun '(st, n) =>
      TZero t;;; TCopy t (gen st).2;;;
      x <~ TRead t;; Write F x;;; Inc F;;; Ret ((gen st).1, S n));;
    TDestroy t;;; TFree t;;;
    Free F;;; Free E;;; Ret r.
  (** c_modifying.c 268-302 *)
  Definition generate_n_t {St} (first : iid) (n : nat) (gen : St -> St * A) (last : out) (st : St) : tprog (St * option iid) :=
    at_least first FORWARD;;; is_mutable first;;;
    if n =? 0 then v <~ copy_or_assign last first;; Ret (st, v) else
    F <~ New first;;
    t <~ TMalloc;;
    r <~ TWhileV (n, st) (fun '(n, _) => Ret (negb (n =? 0))) (fun '(n, st) =>
      TZero t;;; TCopy t (gen st).2;;;
      x <~ TRead t;; Write F x;;; Inc F;;; Ret (n - 1, (gen st).1));;
    v <~ copy_or_assign last F;;
    TDestroy t;;; TFree t;;;
    Free F;;; Ret (r.2, v).

  (** c_partitioning.c 62-94 *)
  Definition partition_t (first last : iid) (second_first : out) (pred : A -> bool) : tprog (option iid) :=
    forward2 first last;;; out_at_least second_first FORWARD;;; is_mutable first;;;
    F <~ New first;; E <~ New last;;
    find_if_not_p F E (Some (Some F)) pred;;;
    b <~ Ne F E;;
    (if (b : bool) then
       next <~ New F;; Inc next;;;
       TWhile (Ne next E) (
         x <~ Deref next;;
         (if pred x then iter_swap_t F next;;; Inc F else Ret tt);;;
         Inc next);;;
       Free next
     else Ret tt);;;
    v <~ copy_or_assign second_first F;;
    Free F;;; Free E;;; Ret v.

  (** c_min_max.c 30-43, 45-58: the caller gets the object [r] *)
  Definition max_by_t (comp : A -> A -> bool) (x y : A) : tprog tid :=
    r <~ TMalloc;; TCopy r (if comp x y then y else x);;; Ret r.
  Definition min_by_t (comp : A -> A -> bool) (x y : A) : tprog tid :=
    r <~ TMalloc;; TCopy r (if comp x y then x else y);;; Ret r.
End modifying.

(** ** c_heap.c *)
Section heap.
  Context {A : Type} (comp : A -> A -> bool).
  Local Notation tprog := (tprog A).

  (** c_heap.c 62-86 *)
  Definition percolate_step_t (F : iid) (len : Z) (hole : Z) (v : vars4) : tprog ((Z * vars4) + vars4) :=
    let '(h, s, l, r) := v in
    h' <~ copy_and_move h F hole;;
    s' <~ copy_and_move s F hole;;
    l' <~ copy_and_move l F (get_left_z hole);;
    swap <~ (if (get_left_z hole <? len)%Z then
               x <~ Deref h';; y <~ Deref l';;
               if comp x y then s'' <~ copy_and_move (Some s') F (get_left_z hole);; Ret (get_left_z hole)
               else Ret hole
             else Ret hole);;
    r' <~ copy_and_move r F (get_right_z hole);;
    swap' <~ (if (get_right_z hole <? len)%Z then
                x <~ Deref s';; y <~ Deref r';;
                if comp x y then s'' <~ copy_and_move (Some s') F (get_right_z hole);; Ret (get_right_z hole)
                else Ret swap
              else Ret swap);;
    if (swap' =? hole)%Z then Ret (inr (Some h', Some s', Some l', Some r'))
    else iter_swap_t h' s';;; Ret (inl (swap', (Some h', Some s', Some l', Some r'))).
  (** c_heap.c 45-95 *)
  Definition percolate_down_t (first : iid) (len hole : Z) : tprog unit :=
    F <~ New first;;
    v <~ TLoop (hole, (None, None, None, None)) (fun '(hole, v) => percolate_step_t F len hole v);;
    let '(h, s, l, r) := v in
    free_opt h;;; free_opt s;;; free_opt l;;; free_opt r;;;
    Free F.
  (** c_heap.c 97-111 *)
  Definition heapify_t (first last : iid) : tprog unit :=
    F <~ New first;; E <~ New last;;
    len <~ Dist F E;;
    TWhileV (get_parent_z (len - 1)) (fun hole => Ret (0 <=? hole)%Z)
      (fun hole => percolate_down_t F len hole;;; Ret (hole - 1)%Z);;;
    Free F;;; Free E.
  (** c_heap.c 299-314 *)
  Definition make_heap_by_t (first last : iid) : tprog unit :=
    random2 first last;;;
    d <~ Dist first last;;
    if (d <? 2)%Z then Ret tt else
    F <~ New first;; E <~ New last;;
    heapify_t F E;;;
    Free F;;; Free E.

  (** c_heap.c 207-217; [t] is __value *)
  Definition push_heap_step_t (F : iid) (t : tid) (hole parent : Z) (v : option iid * option iid)
      : tprog ((Z * Z * (option iid * option iid)) + (Z * (option iid * option iid))) :=
    let '(p, h) := v in
    if (0 <? hole)%Z then
      p' <~ copy_and_move p F parent;;
      h' <~ copy_and_move h F hole;;
      x <~ Deref p';; value <~ TRead t;;
      if comp x value then DerefAssign h' p';;; Ret (inl (parent, get_parent_z parent, (Some p', Some h')))
      else Ret (inr (hole, (Some p', Some h')))
    else Ret (inr (hole, (p, h))).
  (** c_heap.c 186-227; the storage of __value is freed with the element in it *)
  Definition push_heap_by_t (first last : iid) : tprog unit :=
    random2 first last;;;
    d <~ Dist first last;;
    if (d <? 2)%Z then Ret tt else
    F <~ New first;; E <~ New last;;
    Dec E;;;
    hole <~ Dist F E;;
    t <~ TMalloc;;
    value <~ Deref E;; TCopy t value;;;
    r <~ TLoop (hole, get_parent_z hole, (None, None)) (fun '(hole, parent, v) => push_heap_step_t F t hole parent v);;
    let '(hole, (p, h)) := r in
    h' <~ copy_and_move h F hole;;
    value <~ TRead t;; Write h' value;;;
    TFree t;;;
    Free h';;; free_opt p;;;
    Free F;;; Free E.

  (** c_heap.c 252-290 *)
  Definition pop_heap_step_t (F : iid) (last_index hole : Z) (v : vars3) : tprog ((Z * vars3) + vars3) :=
    let '(h, l, r) := v in
    if (get_left_z hole <? last_index)%Z then
      h' <~ copy_and_move h F hole;;
      l' <~ copy_and_move l F (get_left_z hole);;
      if (get_right_z hole <? last_index)%Z then
        r' <~ copy_and_move r F (get_right_z hole);;
        x <~ Deref l';; y <~ Deref r';;
        if comp x y then
          x <~ Deref h';; y <~ Deref r';;
          if comp x y then iter_swap_t h' r';;; Ret (inl (get_right_z hole, (Some h', Some l', Some r')))
          else Ret (inr (Some h', Some l', Some r'))
        else
          x <~ Deref h';; y <~ Deref l';;
          if comp x y then iter_swap_t h' l';;; Ret (inl (get_left_z hole, (Some h', Some l', Some r')))
          else Ret (inr (Some h', Some l', Some r'))
      else
        x <~ Deref h';; y <~ Deref l';;
        if comp x y then iter_swap_t h' l';;; Ret (inl (get_left_z hole, (Some h', Some l', r)))
        else Ret (inr (Some h', Some l', r))
    else Ret (inr (h, l, r)).
  (** c_heap.c 229-297 *)
  Definition pop_heap_by_t (first last : iid) : tprog unit :=
    random2 first last;;;
    d <~ Dist first last;;
    if (d <? 2)%Z then Ret tt else
    F <~ New first;; E <~ New last;;
    Dec E;;;
    iter_swap_t F E;;;
    last_index <~ Dist F E;;
    v <~ TLoop (0%Z, (None, None, None)) (fun '(hole, v) => pop_heap_step_t F last_index hole v);;
    let '(h, l, r) := v in
    free_opt r;;; free_opt l;;; free_opt h;;;
    Free F;;; Free E.
  (** c_heap.c 316-334 *)
  Definition sort_heap_by_t (first last : iid) : tprog unit :=
    random2 first last;;;
    d <~ Dist first last;;
    if (d <? 2)%Z then Ret tt else
    F <~ New first;; E <~ New last;;
    TWhile (Ne F E) (pop_heap_by_t F E;;; Dec E);;;
    Free F;;; Free E.
End heap.

(** ** c_sorting.c *)
Section sort.
  Context {A : Type} (comp : A -> A -> bool).
  Local Notation tprog := (tprog A).

  (** c_sorting.c 367-405 *)
  Definition partial_sort_by_t (first middle last : iid) : tprog unit :=
    exactly first RANDOM;;; exactly middle RANDOM;;; exactly last RANDOM;;; is_mutable first;;; is_mutable middle;;;
    e <~ Eq first middle;;
    if (e : bool) then Ret tt else
    F <~ New first;; X <~ New middle;; E <~ New last;;
    i <~ New X;;
    p <~ copy_and_move None X (-1)%Z;;
    make_heap_by_t comp F X;;;
    TWhile (Ne i E) (
      x <~ Deref i;; y <~ Deref F;;
      (if comp x y then pop_heap_by_t comp F X;;; iter_swap_t p i;;; push_heap_by_t comp F X else Ret tt);;;
      Inc i);;;
    sort_heap_by_t comp F X;;;
    Free i;;; Free p;;;
    Free F;;; Free X;;; Free E.
  (** c_sorting.c 40-73: the pivot is an element in new storage *)
  Definition median_of_three_t (x y z : iid) : tprog tid :=
    r <~ TMalloc;;
    a <~ Deref x;; b <~ Deref y;; c <~ Deref z;;
    TCopy r (if comp a b then if comp b c then b else if comp a c then c else a
             else if comp a c then a else if comp b c then c else b);;;
    Ret r.
  (** c_sorting.c 84-105 *)
  Definition partition_round_t (F E : iid) (pivot : tid) : tprog bool :=
    TWhile (x <~ Deref F;; v <~ TRead pivot;; Ret (comp x v)) (Inc F);;;
    Dec E;;;
    TWhile (v <~ TRead pivot;; x <~ Deref E;; Ret (comp v x)) (Dec E);;;
    l <~ Less F E;;
    if negb l then Ret true else iter_swap_t F E;;; Inc F;;; Ret false.
  (** c_sorting.c 75-108 *)
  Definition partition_by_t (first last : iid) (second_first : out) (pivot : tid) : tprog (option iid) :=
    F <~ New first;; E <~ New last;;
    TLoop tt (fun _ => b <~ partition_round_t F E pivot;; Ret (if (b : bool) then inr tt else inl tt));;;
    v <~ copy_or_assign second_first F;;
    Free F;;; Free E;;; Ret v.
  (** c_sorting.c 125-153, structured as [introsort_loop_p] *)
  Fixpoint introsort_loop_t (depth_limit : nat) (F E : iid) (mid prev : option iid) : tprog (option iid * option iid) :=
    d <~ Dist F E;;
    if (Z.of_nat threshold <? d)%Z then
      match depth_limit with
      | 0 => partial_sort_by_t F E E;;; Ret (mid, prev)
      | S depth' =>
        d <~ Dist F E;;
        mid' <~ copy_and_move mid F (Z.quot d 2);;
        prev' <~ copy_and_move prev E (-1)%Z;;
        pivot <~ median_of_three_t F mid' prev';;
        part <~ partition_by_t F E (Some None) pivot;;
        match part with
        | None => Fail
        | Some part =>
          F' <~ New part;; E' <~ New E;;
          v <~ introsort_loop_t depth' F' E' None None;;
          free_opt v.2;;; free_opt v.1;;;
          Free F';;; Free E';;;
          Assign E part;;;
          TDestroy pivot;;; TFree pivot;;;
          Free part;;;
          introsort_loop_t depth' F E (Some mid') (Some prev')
        end
      end
    else Ret (mid, prev).
  (** c_sorting.c 110-159 *)
  Definition introsort_t (first last : iid) (depth_limit : nat) : tprog unit :=
    F <~ New first;; E <~ New last;;
    v <~ introsort_loop_t depth_limit F E None None;;
    free_opt v.2;;; free_opt v.1;;;
    Free F;;; Free E.
  (** a [c_ref_t]: a temporary, or the element under an iterator object *)
  Definition val_t (v : tid + iid) : tprog A := match v with inl t => TRead t | inr i => Deref i end.
  (** c_sorting.c 161-185 *)
  Definition unguarded_linear_t (last : iid) (value : tid + iid) : tprog unit :=
    E <~ New last;;
    n <~ copy_and_move None E (-1)%Z;;
    TWhile (v <~ val_t value;; y <~ Deref n;; Ret (comp v y)) (DerefAssign E n;;; Assign E n;;; Dec n);;;
    v <~ val_t value;; Write E v;;;
    Free n;;;
    Free E.
  (** c_sorting.c 187-222 *)
  Definition linear_sort_t (first last : iid) : tprog unit :=
    F <~ New first;; E <~ New last;;
    t <~ TMalloc;;
    v <~ Deref E;; TCopy t v;;;
    v <~ TRead t;; x <~ Deref F;;
    (if comp v x then
       n <~ copy_and_move None E 1%Z;;
       copy_backward_p F E n None;;;
       v <~ TRead t;; Write F v;;;
       Free n
     else unguarded_linear_t E (inl t));;;
    TDestroy t;;; TFree t;;;
    Free F;;; Free E.
  (** c_sorting.c 224-243 *)
  Definition insertion_sort_t (first last : iid) : tprog unit :=
    e <~ Eq first last;;
    if (e : bool) then Ret tt else
    F <~ New first;; E <~ New last;;
    i <~ copy_and_move None F 1%Z;;
    TWhile (Ne i E) (linear_sort_t F i;;; Inc i);;;
    Free i;;;
    Free F;;; Free E.
  (** c_sorting.c 245-263 *)
  Definition unguarded_insertion_t (first last : iid) : tprog unit :=
    F <~ New first;; E <~ New last;;
    i <~ New F;;
    TWhile (Ne i E) (unguarded_linear_t i (inr i);;; Inc i);;;
    Free i;;;
    Free F;;; Free E.
  (** c_sorting.c 265-285 *)
  Definition final_insertion_t (first last : iid) : tprog unit :=
    F <~ New first;; E <~ New last;;
    d <~ Dist F E;;
    (if (Z.of_nat threshold <? d)%Z then
       p <~ copy_and_move None F (Z.of_nat threshold);;
       insertion_sort_t F p;;;
       unguarded_insertion_t p E;;;
       Free p
     else insertion_sort_t F E);;;
    Free F;;; Free E.
  (** c_sorting.c 348-365 *)
  Definition sort_by_t (first last : iid) : tprog unit :=
    exactly first RANDOM;;; exactly last RANDOM;;; is_mutable first;;;
    e <~ Eq first last;;
    if (e : bool) then Ret tt else
    F <~ New first;; E <~ New last;;
    d <~ Dist F E;;
    introsort_t F E (lg (Z.to_nat d) * 2);;;
    final_insertion_t F E;;;
    Free F;;; Free E.
  (** c_sorting.c 407-468 *)
  Definition partial_sort_copy_by_t (first last d_first d_last : iid) (d_upper : out) : tprog (nat * option iid) :=
    at_least first FORWARD;;; at_least last FORWARD;;; exactly d_first RANDOM;;; exactly d_last RANDOM;;; out_exactly d_upper RANDOM;;;
    is_mutable d_first;;;
    e <~ (b <~ Eq first last;; if (b : bool) then Ret true else Eq d_first d_last);;
    if (e : bool) then (v <~ copy_or_assign d_upper d_first;; Ret (0, v)) else
    F <~ New first;; E <~ New last;; DF <~ New d_first;; DE <~ New d_last;;
    i <~ New F;; d <~ New DF;;
    n <~ TWhileV 0 (fun _ => b <~ Ne i E;; if (b : bool) then Ne d DE else Ret false)
      (fun n => DerefAssign d i;;; Inc d;;; Inc i;;; Ret (S n));;
    p <~ copy_and_move None d (-1)%Z;;
    make_heap_by_t comp DF d;;;
    TWhile (Ne i E) (
      x <~ Deref i;; y <~ Deref DF;;
      (if comp x y then pop_heap_by_t comp DF d;;; DerefAssign p i;;; push_heap_by_t comp DF d else Ret tt);;;
      Inc i);;;
    sort_heap_by_t comp DF d;;;
    v <~ copy_or_assign d_upper d;;
    Free p;;; Free d;;; Free i;;;
    Free F;;; Free E;;; Free DF;;; Free DE;;; Ret (n, v).
End sort.
