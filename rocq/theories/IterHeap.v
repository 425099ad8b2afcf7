(** IterHeap.v — the functions of /repo/algorithm/c_heap.c as iterator programs.

    As in IterNonMod.v and IterMod.v the programs follow the C text statement by statement; the
    null-argument guards at the top of each function are not represented, except that of the out
    parameter of algo_is_heap_until_by.  Indices ([ptrdiff_t]) are unbounded integers.  The value copy
    that algo_push_heap_by takes from malloc is a local value.  Local iterator variables that start as
    null pointers are options. *)
From stdpp Require Import list gmap.
From Verif Require Import Base Iter IterNonMod IterMod.
From stdpp Require Import list.

(** c_heap.c 30-33, 35-38, 40-43: shifts of signed integers *)
Definition get_parent_z (i : Z) : Z := Z.shiftr (i - 1) 1.
Definition get_left_z (i : Z) : Z := (Z.shiftl i 1 + 1)%Z.
Definition get_right_z (i : Z) : Z := Z.shiftl (i + 1) 1.

Section heap.
  Context {A : Type} (comp : A -> A -> bool).
  Local Notation prog := (prog A).

  (** the variables __hole, __swap, __left, __right of __percolate_down *)
  Definition vars4 : Type := option iid * option iid * option iid * option iid.
  (** c_heap.c 62-86: one round of the loop; returns the next hole, or leaves the loop *)
  Definition percolate_step_p (F : iid) (len : Z) (hole : Z) (v : vars4) : prog ((Z * vars4) + vars4) :=
    let '(h, s, l, r) := v in
    h' <~ copy_and_move h F hole;;
    s' <~ copy_and_move s F hole;;
    l' <~ copy_and_move l F (get_left_z hole);;
    swap <~ (if (get_left_z hole <? len)%Z then
               x <~ Deref h';; y <~ Deref l';;
               if comp x y then s'' <~ copy_and_move (Some s') F (get_left_z hole);; Ret (get_left_z hole)
               else Ret hole
             else Ret hole);;
    r' <~ copy_and_move r F (get_right_z hole);;
    swap' <~ (if (get_right_z hole <? len)%Z then
                x <~ Deref s';; y <~ Deref r';;
                if comp x y then s'' <~ copy_and_move (Some s') F (get_right_z hole);; Ret (get_right_z hole)
                else Ret swap
              else Ret swap);;
    if (swap' =? hole)%Z then Ret (inr (Some h', Some s', Some l', Some r'))
    else iter_swap_p h' s';;; Ret (inl (swap', (Some h', Some s', Some l', Some r'))).
  (** c_heap.c 45-95 *)
  Definition percolate_down_p (first : iid) (len hole : Z) : prog unit :=
    F <~ New first;;
    v <~ Loop (hole, (None, None, None, None)) (fun '(hole, v) => percolate_step_p F len hole v);;
    let '(h, s, l, r) := v in
    free_opt h;;; free_opt s;;; free_opt l;;; free_opt r;;;
    Free F.
  (** c_heap.c 97-111 *)
  Definition heapify_p (first last : iid) : prog unit :=
    F <~ New first;; E <~ New last;;
    len <~ Dist F E;;
    WhileV (get_parent_z (len - 1)) (fun hole => Ret (0 <=? hole)%Z)
      (fun hole => percolate_down_p F len hole;;; Ret (hole - 1)%Z);;;
    Free F;;; Free E.
  Definition random2 (first last : iid) : prog unit := exactly first RANDOM;;; exactly last RANDOM.
  (** c_heap.c 299-314 *)
  Definition make_heap_by_p (first last : iid) : prog unit :=
    random2 first last;;;
    d <~ Dist first last;;
    if (d <? 2)%Z then Ret tt else
    F <~ New first;; E <~ New last;;
    heapify_p F E;;;
    Free F;;; Free E.

  (** the variables __parent, __left, __right of algo_is_heap_until_by *)
  Definition vars3 : Type := option iid * option iid * option iid.
  (** assert( *v == 0 || C_ITER_EXACT( *v, c)) *)
  Definition out_exactly (o : out) (c : nat) : prog unit := match o with Some (Some i) => exactly i c | _ => Ret tt end.
  (** c_heap.c 156-175: one round; [inr (false, _)] is the break *)
  Definition heap_until_step_p (F : iid) (dist parent : Z) (v : vars3) : prog ((Z * vars3) + (bool * vars3)) :=
    let '(p, l, r) := v in
    if (get_left_z parent <? dist)%Z then
      p' <~ copy_and_move p F parent;;
      l' <~ copy_and_move l F (get_left_z parent);;
      x <~ Deref p';; y <~ Deref l';;
      if comp x y then Ret (inr (false, (Some p', Some l', r))) else
      r' <~ copy_and_move r F (get_right_z parent);;
      b <~ (if (get_right_z parent <? dist)%Z then x <~ Deref p';; y <~ Deref r';; Ret (comp x y) else Ret false);;
      if b then Ret (inr (false, (Some p', Some l', Some r')))
      else Ret (inl ((parent + 1)%Z, (Some p', Some l', Some r')))
    else Ret (inr (true, (p, l, r))).
  (** c_heap.c 135-184; the guard [!until -> return] of line 140 is represented *)
  Definition is_heap_until_by_p (first last : iid) (until : out) : prog (option iid) :=
    match until with None => Ret None | Some _ =>
    random2 first last;;; out_exactly until RANDOM;;;
    F <~ New first;; E <~ New last;;
    dist <~ Dist F E;;
    bv <~ Loop (0%Z, (None, None, None)) (fun '(parent, v) => heap_until_step_p F dist parent v);;
    let '(b, (p, l, r)) := bv in
    v <~ (if b then copy_or_assign until E else match p with Some p => copy_or_assign until p | None => Fail end);;
    free_opt r;;; free_opt l;;; free_opt p;;;
    Free F;;; Free E;;; Ret v end.
  (** c_heap.c 113-133 *)
  Definition is_heap_by_p (first last : iid) : prog bool :=
    random2 first last;;;
    F <~ New first;; E <~ New last;;
    u <~ is_heap_until_by_p F E (Some None);;
    match u with None => Fail | Some u =>
    b <~ Eq u E;;
    Free u;;; Free F;;; Free E;;; Ret b end.

  (** c_heap.c 207-217: one round of the loop of algo_push_heap_by; the variables are __parent and __hole *)
  Definition push_heap_step_p (F : iid) (value : A) (hole parent : Z) (v : option iid * option iid)
      : prog ((Z * Z * (option iid * option iid)) + (Z * (option iid * option iid))) :=
    let '(p, h) := v in
    if (0 <? hole)%Z then
      p' <~ copy_and_move p F parent;;
      h' <~ copy_and_move h F hole;;
      x <~ Deref p';;
      if comp x value then DerefAssign h' p';;; Ret (inl (parent, get_parent_z parent, (Some p', Some h')))
      else Ret (inr (hole, (Some p', Some h')))
    else Ret (inr (hole, (p, h))).
  (** c_heap.c 186-227 *)
  Definition push_heap_by_p (first last : iid) : prog unit :=
    random2 first last;;;
    d <~ Dist first last;;
    if (d <? 2)%Z then Ret tt else
    F <~ New first;; E <~ New last;;
    Dec E;;;
    hole <~ Dist F E;;
    value <~ Deref E;;
    r <~ Loop (hole, get_parent_z hole, (None, None)) (fun '(hole, parent, v) => push_heap_step_p F value hole parent v);;
    let '(hole, (p, h)) := r in
    h' <~ copy_and_move h F hole;;
    Write h' value;;;
    Free h';;; free_opt p;;;
    Free F;;; Free E.

  (** c_heap.c 252-290: one round of the loop of algo_pop_heap_by; the variables are __hole, __left, __right *)
  Definition pop_heap_step_p (F : iid) (last_index hole : Z) (v : vars3) : prog ((Z * vars3) + vars3) :=
    let '(h, l, r) := v in
    if (get_left_z hole <? last_index)%Z then
      h' <~ copy_and_move h F hole;;
      l' <~ copy_and_move l F (get_left_z hole);;
      if (get_right_z hole <? last_index)%Z then
        r' <~ copy_and_move r F (get_right_z hole);;
        x <~ Deref l';; y <~ Deref r';;
        if comp x y then
          x <~ Deref h';; y <~ Deref r';;
          if comp x y then iter_swap_p h' r';;; Ret (inl (get_right_z hole, (Some h', Some l', Some r')))
          else Ret (inr (Some h', Some l', Some r'))
        else
          x <~ Deref h';; y <~ Deref l';;
          if comp x y then iter_swap_p h' l';;; Ret (inl (get_left_z hole, (Some h', Some l', Some r')))
          else Ret (inr (Some h', Some l', Some r'))
      else
        x <~ Deref h';; y <~ Deref l';;
        if comp x y then iter_swap_p h' l';;; Ret (inl (get_left_z hole, (Some h', Some l', r)))
        else Ret (inr (Some h', Some l', r))
    else Ret (inr (h, l, r)).
  (** c_heap.c 229-297 *)
  Definition pop_heap_by_p (first last : iid) : prog unit :=
    random2 first last;;;
    d <~ Dist first last;;
    if (d <? 2)%Z then Ret tt else
    F <~ New first;; E <~ New last;;
    Dec E;;;
    iter_swap_p F E;;;
    last_index <~ Dist F E;;
    v <~ Loop (0%Z, (None, None, None)) (fun '(hole, v) => pop_heap_step_p F last_index hole v);;
    let '(h, l, r) := v in
    free_opt r;;; free_opt l;;; free_opt h;;;
    Free F;;; Free E.
  (** c_heap.c 316-334 *)
  Definition sort_heap_by_p (first last : iid) : prog unit :=
    random2 first last;;;
    d <~ Dist first last;;
    if (d <? 2)%Z then Ret tt else
    F <~ New first;; E <~ New last;;
    While (Ne F E) (pop_heap_by_p F E;;; Dec E);;;
    Free F;;; Free E.
End heap.
