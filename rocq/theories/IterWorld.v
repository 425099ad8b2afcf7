(** IterWorld.v — the iterators of all containers as one iterator world (see Iter.v).

    The memory holds any number of doubly linked lists (model DList.v), forward lists (Slist.v),
    vectors (Vector.v), deques (Deque.v) and red-black trees (Tree.v; sets and maps are trees).  An
    iterator object holds a position; the constructor of the position stands for the fields
    iterator_type, iterator_category and iterator_ops, which only differ between these kinds.
    Simplifications: an iterator into a vector or deque is the number of the container and a slot of
    its block (the byte addresses are in RandomIter.v); value_type is not represented. *)
From stdpp Require Import list gmap.
From Verif Require Import Base Iter Buffer Vector Deque DList Slist Tree.
From stdpp Require Import list.

(** the containers in memory *)
Record cmem (A : Type) := CMem {
  m_list : heap A; m_slist : sheap A; m_vec : list (vec A); m_deq : list (deq A); m_tree : theap A }.
Global Arguments CMem {A} _ _ _ _ _.
Global Arguments m_list {A} _.
Global Arguments m_slist {A} _.
Global Arguments m_vec {A} _.
Global Arguments m_deq {A} _.
Global Arguments m_tree {A} _.

(** Content of an iterator object: c_list.h, c_forward_list.h, c_vector.h, c_deque.h, c_tree.h (the
    c_*_iterator_t structures).  [r] says that it is a reverse iterator.
    [PBlk false r v i]: slot [i] of vector number [v]; [PBlk true r d i]: of deque number [d].  A slot is an
    integer: a pointer may be moved out of the block. *)
Inductive cpos :=
| PList (r : bool) (x : positive)
| PSlist (x : positive)
| PBlk (deque : bool) (r : bool) (v : nat) (i : Z)
| PTree (r : bool) (x : option positive).

(** iterator_type, c_def.h 49-70 *)
Definition ckind (p : cpos) : nat :=
  match p with
  | PSlist _ => 0
  | PList r _ => if r then 2 else 1
  | PBlk false r _ _ => if r then 4 else 3
  | PBlk true r _ _ => if r then 6 else 5
  | PTree r _ => if r then 8 else 7
  end.
(** iterator_category: c_forward_list.c 156, c_list.c 310, 343, c_vector.c 293, 324, c_deque.c 311, 342, c_tree.c 917, 950 *)
Definition ccat (p : cpos) : nat :=
  match p with PSlist _ => FORWARD | PList _ _ => BIDIRECTION | PBlk _ _ _ _ => RANDOM | PTree _ _ => BIDIRECTION end.

(** Moving a slot pointer out of the block it belongs to (further than one past its last slot) is undefined
    in C even if the pointer is never used.  [checked = true]: so it is in the model.  [checked = false]: the
    model allows it, as a machine with a flat address space does, and only reading and writing outside the
    block are undefined.  Theorems that do not mention it hold for both. *)
Class Checked := checked : bool.

Section world.
  Context {A : Type} {CK : Checked}.
  Implicit Types M : cmem A.

  (** the block of a vector or deque *)
  Definition block M (deque : bool) (v : nat) : res (list (option A)) :=
    if deque then match m_deq M !! v with Some d => Ok (dbuf d) | None => UB end
    else match m_vec M !! v with Some x => Ok (buf x) | None => UB end.
  Definition set_block M (deque : bool) (v : nat) (b : list (option A)) : cmem A :=
    if deque then CMem (m_list M) (m_slist M) (m_vec M)
      (alter (fun d => Deq b (dstart d) (dfin d) (dgen d) (ddead d)) v (m_deq M)) (m_tree M)
    else CMem (m_list M) (m_slist M)
      (alter (fun x => Vec b (fin x) (gen x) (Vector.dead x)) v (m_vec M)) (m_deq M) (m_tree M).

  (** assign: c_list.c 71-77, 183-189, c_forward_list.c 59-65, c_vector.c 82-88, 181-187, c_deque.c 95-101, 196-202,
      c_tree.c 643-649, 782-788: nothing happens when the kinds differ *)
  Definition c_assign (dst src : cpos) : res cpos := Ok (if ckind dst =? ckind src then src else dst).
  (** moving a slot pointer by [n] slots, c_vector.c 161-165 etc.; moving it by 0 leaves it where it is *)
  Definition slot_add M (d : bool) (v : nat) (i n : Z) : res Z :=
    if (n =? 0)%Z then Ok i else
    if checked then
      do b <- block M d v;
      if ((0 <=? i + n) && (i + n <=? Z.of_nat (length b)))%Z then Ok (i + n)%Z else UB
    else Ok (i + n)%Z.
  (** increment: c_list.c 79-85, 191-197, c_forward_list.c 67-73, c_vector.c 90-96, 189-195, c_deque.c 103-109, 204-210,
      c_tree.c 651-671, 790-798 *)
  Definition c_inc M (p : cpos) : res cpos :=
    match p with
    | PList false x => do y <- next (m_list M) x; Ok (PList false y)
    | PList true x => do y <- prev (m_list M) x; Ok (PList true y)
    | PSlist x => do y <- snext (m_slist M) x; Ok (PSlist y)
    | PBlk d false v i => do j <- slot_add M d v i 1; Ok (PBlk d false v j)
    | PBlk d true v i => do j <- slot_add M d v i (-1); Ok (PBlk d true v j)
    | PTree false x => do y <- increment (mem (m_tree M)) x; Ok (PTree false y)
    | PTree true x => do y <- decrement (mem (m_tree M)) x; Ok (PTree true y)
    end.
  (** decrement: c_list.c 87-93, 199-205, c_vector.c 98-104, 197-203, c_deque.c 111-117, 212-218, c_tree.c 673-694, 800-808;
      none for forward lists (c_forward_list.c 138) *)
  Definition c_dec M (p : cpos) : res cpos :=
    match p with
    | PList false x => do y <- prev (m_list M) x; Ok (PList false y)
    | PList true x => do y <- next (m_list M) x; Ok (PList true y)
    | PSlist x => UB
    | PBlk d false v i => do j <- slot_add M d v i (-1); Ok (PBlk d false v j)
    | PBlk d true v i => do j <- slot_add M d v i 1; Ok (PBlk d true v j)
    | PTree false x => do y <- decrement (mem (m_tree M)) x; Ok (PTree false y)
    | PTree true x => do y <- increment (mem (m_tree M)) x; Ok (PTree true y)
    end.
  (** advance: c_list.c 147-158, 258-270, c_forward_list.c 110-117, c_vector.c 161-165, 260-264, c_deque.c 176-180, 277-281,
      c_tree.c 747-757, 867-877 *)
  Definition c_adv M (p : cpos) (n : Z) : res cpos :=
    match p with
    | PList false x => do y <- iter_advance (m_list M) x n; Ok (PList false y)
    | PList true x => do y <- reverse_iter_advance (m_list M) x n; Ok (PList true y)
    | PSlist x => do y <- siter_advance (m_slist M) x n; Ok (PSlist y)
    | PBlk d false v i => do j <- slot_add M d v i n; Ok (PBlk d false v j)
    | PBlk d true v i => do j <- slot_add M d v i (- n); Ok (PBlk d true v j)
    | PTree false x => do y <- tree_advance (mem (m_tree M)) x n; Ok (PTree false y)
    | PTree true x => do y <- tree_reverse_advance (mem (m_tree M)) x n; Ok (PTree true y)
    end.
  (** distance: c_list.c 160-172, 272-285, c_forward_list.c 119-132, c_vector.c 167-171, 266-270, c_deque.c 182-186, 283-287,
      c_tree.c 759-772, 879-892; 0 when the kinds differ.  A distance from a later to an earlier slot is
      computed with unsigned arithmetic (RandomIter.v), its value is left open here. *)
  Definition c_dist M (p q : cpos) : res Z :=
    match p, q with
    | PList false x, PList false y => do n <- distance (fuel_of (m_list M)) (m_list M) x y; Ok (Z.of_nat n)
    | PList true x, PList true y => do n <- reverse_distance (fuel_of (m_list M)) (m_list M) x y; Ok (Z.of_nat n)
    | PSlist x, PSlist y => do n <- sdistance (sfuel (m_slist M)) (m_slist M) x y; Ok (Z.of_nat n)
    | PBlk d r v i, PBlk d' r' v' j =>
        if bool_decide (d = d' /\ r = r') then
          if v =? v' then
            if r then (if j <=? i then Ok (i - j) else UB)%Z
            else (if i <=? j then Ok (j - i) else UB)%Z
          else UB
        else Ok 0%Z
    | PTree false x, PTree false y => do n <- tree_distance (mem (m_tree M)) x y; Ok (Z.of_nat n)
    | PTree true x, PTree true y => do n <- tree_reverse_distance (mem (m_tree M)) x y; Ok (Z.of_nat n)
    | _, _ => Ok 0%Z
    end.
  (** equal: c_list.c 135-139, 247-251, c_forward_list.c 99-103, c_vector.c 144-148, 243-247, c_deque.c 159-163, 260-264,
      c_tree.c 736-740, 856-860; false when the kinds differ.  Comparing slots of different containers is left open. *)
  Definition c_eq (p q : cpos) : res bool :=
    match p, q with
    | PList r x, PList r' y => Ok (bool_decide (r = r' /\ x = y))
    | PSlist x, PSlist y => Ok (bool_decide (x = y))
    | PBlk d r v i, PBlk d' r' v' j =>
        if bool_decide (d = d' /\ r = r') then if v =? v' then Ok (i =? j)%Z else UB else Ok false
    | PTree r x, PTree r' y => Ok (bool_decide (r = r' /\ x = y))
    | _, _ => Ok false
    end.
  (** less: c_vector.c 155-159, 254-258, c_deque.c 170-174, 271-275; only random access iterators have it *)
  Definition c_less (p q : cpos) : res bool :=
    match p, q with
    | PBlk d r v i, PBlk d' r' v' j =>
        if bool_decide (d = d' /\ r = r') then if v =? v' then Ok (if r then j <? i else i <? j)%Z else UB else Ok false
    | PBlk _ _ _ _, _ => Ok false
    | _, _ => UB
    end.
  (** reading a slot *)
  Definition get_slot M (d : bool) (v : nat) (i : Z) : res A :=
    do b <- block M d v; if (0 <=? i)%Z then Buffer.get b (Z.to_nat i) else UB.
  (** dereference: c_list.c 127-133, 239-245, c_forward_list.c 91-97, c_vector.c 136-142, 235-241, c_deque.c 151-157, 252-258,
      c_tree.c 728-734, 846-854 *)
  Definition c_deref M (p : cpos) : res A :=
    match p with
    | PList false x => value (m_list M) x
    | PList true x => reverse_iter_dereference (m_list M) x
    | PSlist x => svalue (m_slist M) x
    | PBlk d false v i => get_slot M d v i
    | PBlk d true v i => get_slot M d v (i - 1)
    | PTree false x => valof (mem (m_tree M)) x
    | PTree true x => tree_reverse_deref (mem (m_tree M)) x
    end.
  (** overwriting the value of a node of a list, of a forward list, of a slot *)
  Definition set_value (h : heap A) (x : positive) (a : A) : res (heap A) :=
    do _ <- value h x; Ok (Heap (nx h) (pv h) (<[x := Some a]> (vl h)) (DList.dead h)).
  Definition set_svalue (h : sheap A) (x : positive) (a : A) : res (sheap A) :=
    do _ <- svalue h x; Ok (SHeap (snx h) (<[x := Some a]> (svl h)) (sdead h)).
  Definition set_slot M (d : bool) (v : nat) (i : Z) (a : A) : res (cmem A) :=
    do b <- block M d v; do _ <- get_slot M d v i; Ok (set_block M d v (<[Z.to_nat i := Some a]> b)).
  (** value_type->assign(dereference(it), value), c_def.h 311.  Elements of trees are not modified
      through iterators (their iterator types are not mutable, c_def.h 59-69). *)
  Definition c_write M (p : cpos) (a : A) : res (cmem A) :=
    match p with
    | PList false x => do h <- set_value (m_list M) x a; Ok (CMem h (m_slist M) (m_vec M) (m_deq M) (m_tree M))
    | PList true x => do y <- prev (m_list M) x; do h <- set_value (m_list M) y a;
                      Ok (CMem h (m_slist M) (m_vec M) (m_deq M) (m_tree M))
    | PSlist x => do h <- set_svalue (m_slist M) x a; Ok (CMem (m_list M) h (m_vec M) (m_deq M) (m_tree M))
    | PBlk d false v i => set_slot M d v i a
    | PBlk d true v i => set_slot M d v (i - 1) a
    | PTree _ _ => UB
    end.

  Definition cworld : world A :=
    World A (cmem A) cpos (fun p => Ok (ccat p)) (fun p => Ok (ckind p <? 7)) c_assign c_inc c_dec c_adv c_dist
      c_eq c_less c_deref c_write.
End world.
Global Arguments cworld A {CK}.
