(** Slist.v — pointer-level model of /repo/container/c_forward_list.c.

    The heap has one finite map per field of struct __c_slist_node (c_forward_list.c 32-35): [snx] and [svl].
    A null [next] field is an absent entry of [snx]; following it, or a pointer to a location that is not an
    allocated node, is [UB] (the only null links are those of end nodes, and the code never reads one: the
    null tests of lines 213 and 216 are not modelled).  [svl] maps the before-begin and end nodes to [None]
    (their value pointer is null); the separately malloc'ed value object of a node is identified with the
    node's entry.  [sdead] is a ghost log of the values on which destroy was called.  A list object is the pair
    of its [ancient] and [node] fields.  malloc is an arbitrary function [alloc] returning an unused location
    (the theorems quantify over it); it does not fail.  Null-argument guards and the same-type check of merge
    and splice are not modelled.  Loops run on fuel exceeding twice the number of nodes. *)
From Verif Require Import Base Spec SpecSeq DList.
From stdpp Require Import list gmap.

Record sheap (A : Type) := SHeap { snx : gmap loc loc; svl : gmap loc (option A); sdead : list A }.
Global Arguments SHeap {A}.
Global Arguments snx {A}.
Global Arguments svl {A}.
Global Arguments sdead {A}.
(** c_forward_list.c 38-42: (ancient, node) *)
Notation sobj := (loc * loc)%type.

Section slist.
  Context {A : Type} (dflt : A) (alloc : sheap A -> loc).
  Implicit Types h : sheap A.

  (** c_forward_list.c 32-35: reading and writing the fields of a node *)
  Definition snext h (x : loc) : res loc := match snx h !! x with Some y => Ok y | None => UB end.
  Definition svalue h (x : loc) : res A := match svl h !! x with Some (Some a) => Ok a | _ => UB end.
  Definition set_snext h (x y : loc) : res (sheap A) :=
    match svl h !! x with Some _ => Ok (SHeap (<[x := y]> (snx h)) (svl h) (sdead h)) | None => UB end.
  Definition sderef h (v : lref A) : res A := match v with LVal a => Ok a | LNode x => svalue h x end.
  Definition sfuel h : nat := S (2 * size (svl h)).

  (** c_forward_list.c 244-272: first the end node, then the before-begin node, which is linked to it *)
  Definition c_slist_create h : sheap A * sobj :=
    let e := alloc h in
    let h1 := SHeap (snx h) (<[e := None]> (svl h)) (sdead h) in
    let a := alloc h1 in
    (SHeap (<[a := e]> (snx h1)) (<[a := None]> (svl h1)) (sdead h1), (a, e)).
  (** c_forward_list.c 184-207; [None] is the null reference, for which a default value is created; the link is null *)
  Definition s_create_node h (v : option (lref A)) : res (sheap A * loc) :=
    do a <- match v with Some v => sderef h v | None => Ok dflt end;
    let x := alloc h in
    Ok (SHeap (snx h) (<[x := Some a]> (svl h)) (sdead h), x).
  (** destroy of the value and free of the node, c_forward_list.c 219-221 *)
  Definition s_free_node h (x : loc) : res (sheap A) :=
    do a <- svalue h x;
    Ok (SHeap (delete x (snx h)) (delete x (svl h)) (sdead h ++ [a])).
  (** c_forward_list.c 209-224 *)
  Definition pop_node_after h (l : sobj) (node : loc) : res (sheap A * loc) :=
    if decide (node = l.2) then Ok (h, l.2)
    else
      do pos <- snext h node;
      if decide (pos = l.2 \/ pos = l.1) then Ok (h, l.2)
      else
        do n <- snext h pos; do h <- set_snext h node n;
        do h <- s_free_node h pos;
        do r <- snext h node; Ok (h, r).
  (** c_forward_list.c 230-233 *)
  Fixpoint find_prev (fuel : nat) h (x last : loc) : res loc :=
    match fuel with
    | 0 => NoFuel
    | S f => do n <- snext h x; if decide (n = last) then Ok x else find_prev f h n last
    end.
  (** c_forward_list.c 226-239: move (first, last) after pos *)
  Definition stransfer h (pos first last : loc) : res (sheap A) :=
    if decide (pos = first) then Ok h
    else if decide (first = last) then Ok h
    else
      do f <- snext h first;
      if decide (f = last) then Ok h
      else
        do lp <- find_prev (sfuel h) h f last;
        do pn <- snext h pos; do h <- set_snext h lp pn;
        do f <- snext h first; do h <- set_snext h pos f;
        set_snext h first last.

  (** c_forward_list.c 172-176, 364-367 *)
  Definition c_slist_empty h (l : sobj) : res bool := do b <- snext h l.1; Ok (bool_decide (b = l.2)).
  (** c_forward_list.c 335-338; [None] is the null reference *)
  Definition c_slist_front h (l : sobj) : res (option A) :=
    do e <- c_slist_empty h l; if (e : bool) then Ok None else do b <- snext h l.1; do a <- svalue h b; Ok (Some a).
  (** ** iterators (an iterator is the node it points to): c_forward_list.c 67-73, 110-117; a negative [n] moves nothing *)
  Fixpoint snexts h (x : loc) (n : nat) : res loc :=
    match n with 0 => Ok x | S n' => do y <- snext h x; snexts h y n' end.
  Definition siter_advance h (x : loc) (n : Z) : res loc := snexts h x (Z.to_nat n).
  (** c_forward_list.c 119-132 *)
  Fixpoint sdistance (fuel : nat) h (first last : loc) : res nat :=
    match fuel with
    | 0 => NoFuel
    | S f => if decide (first = last) then Ok 0
             else do n <- snext h first; do k <- sdistance f h n last; Ok (S k)
    end.
  (** iterating from begin() (c_forward_list.c 349-353) to end() (355-359) with ++ and dereference (91-97); each element is
      reported with the node its iterator points to *)
  Fixpoint swalk (fuel : nat) h (x last : loc) : res (list (loc * A)) :=
    match fuel with
    | 0 => NoFuel
    | S f => if decide (x = last) then Ok []
             else do a <- svalue h x; do n <- snext h x; do r <- swalk f h n last; Ok ((x, a) :: r)
    end.
  Definition c_slist_walk h (l : sobj) : res (list (loc * A)) := do b <- snext h l.1; swalk (sfuel h) h b l.2.
  Definition c_slist_traverse h (l : sobj) : res (list A) := do w <- c_slist_walk h l; Ok (map snd w).

  (** the loop of c_forward_list.c 384-386 ([node] is the before-begin node, [next] the node just after it) and of 466-468 *)
  Fixpoint spop_until (fuel : nat) h (l : sobj) (prev x : loc) : res (sheap A) :=
    match fuel with
    | 0 => NoFuel
    | S f => if decide (x = l.2) then Ok h
             else do (h, n) <- pop_node_after h l prev; spop_until f h l prev n
    end.
  (** c_forward_list.c 377-387 *)
  Definition c_slist_clear h (l : sobj) : res (sheap A) :=
    do e <- c_slist_empty h l;
    if (e : bool) then Ok h else do b <- snext h l.1; spop_until (sfuel h) h l l.1 b.
  (** c_forward_list.c 389-402; returns the position of the new element *)
  Definition c_slist_insert_after h (pos : loc) (v : lref A) : res (sheap A * loc) :=
    do (h, x) <- s_create_node h (Some v);
    do n <- snext h pos; do h <- set_snext h x n;
    do h <- set_snext h pos x;
    Ok (h, x).
  (** c_forward_list.c 404-410 *)
  Definition c_slist_erase_after h (l : sobj) (pos : loc) : res (sheap A * loc) := pop_node_after h l pos.
  (** c_forward_list.c 412-421 *)
  Fixpoint serase_loop (fuel : nat) h (l : sobj) (first pos last : loc) : res (sheap A * loc) :=
    match fuel with
    | 0 => NoFuel
    | S f => if decide (pos = last) then Ok (h, last)
             else do (h, p) <- c_slist_erase_after h l first; serase_loop f h l first p last
    end.
  Definition c_slist_erase_after_range h (l : sobj) (first last : loc) : res (sheap A * loc) :=
    do p <- snext h first; serase_loop (sfuel h) h l first p last.
  (** c_forward_list.c 423-432 *)
  Definition c_slist_push_front h (l : sobj) (v : lref A) : res (sheap A) :=
    do (h, x) <- s_create_node h (Some v);
    do n <- snext h l.1; do h <- set_snext h x n;
    set_snext h l.1 x.
  (** c_forward_list.c 434-437 *)
  Definition c_slist_pop_front h (l : sobj) : res (sheap A) :=
    do e <- c_slist_empty h l;
    if (e : bool) then Ok h else do (h, _) <- pop_node_after h l l.1; Ok h.
  (** c_forward_list.c 448-454: (count, prev, node) *)
  Fixpoint sskip (count : nat) h (l : sobj) (prev x : loc) : res (nat * loc * loc) :=
    if decide (x = l.2) then Ok (count, prev, x)
    else match count with
         | 0 => Ok (0, prev, x)
         | S c => do n <- snext h x; sskip c h l x n
         end.
  (** c_forward_list.c 457-464 *)
  Fixpoint sappend_n (n : nat) h (l : sobj) (prev : loc) (v : option (lref A)) : res (sheap A) :=
    match n with
    | 0 => Ok h
    | S n' => do (h, x) <- s_create_node h v;
              do h <- set_snext h prev x; do h <- set_snext h x l.2; sappend_n n' h l x v
    end.
  (** c_forward_list.c 444-470; 439-442 (c_slist_resize) is [v = None] *)
  Definition c_slist_resize_with_value h (l : sobj) (count : nat) (v : option (lref A)) : res (sheap A) :=
    do b <- snext h l.1;
    do (c, prev, x) <- sskip count h l l.1 b;
    match c with
    | 0 => spop_until (sfuel h) h l prev x
    | _ => sappend_n c h l prev v
    end.
  Definition c_slist_resize h (l : sobj) (count : nat) : res (sheap A) := c_slist_resize_with_value h l count None.

  (** c_forward_list.c 274-289 *)
  Fixpoint sinsert_all h (pos : loc) (vs : list A) : res (sheap A) :=
    match vs with [] => Ok h | a :: vs' => do (h, p) <- c_slist_insert_after h pos (LVal a); sinsert_all h p vs' end.
  Definition c_slist_create_from h (values : list A) : res (sheap A * option sobj) :=
    match values with
    | [] => Ok (h, None)
    | _ => let (h, s) := c_slist_create h in do h <- sinsert_all h s.1 values; Ok (h, Some s)
    end.
  (** the loops c_forward_list.c 299-301 and 314-316 *)
  Fixpoint scopy_loop (fuel : nat) h (pos : loc) (other : sobj) (x : loc) : res (sheap A) :=
    match fuel with
    | 0 => NoFuel
    | S f => if decide (x = other.2) then Ok h
             else do (h, p) <- c_slist_insert_after h pos (LNode x); do n <- snext h x; scopy_loop f h p other n
    end.
  (** c_forward_list.c 291-304 *)
  Definition c_slist_copy h (other : sobj) : res (sheap A * sobj) :=
    let (h, s) := c_slist_create h in
    do b <- snext h other.1; do h <- scopy_loop (sfuel h) h s.1 other b; Ok (h, s).
  (** c_forward_list.c 306-320 *)
  Definition c_slist_assign h (self other : sobj) : res (sheap A) :=
    if decide (self = other) then Ok h
    else do h <- c_slist_clear h self;
         do b <- snext h other.1; scopy_loop (sfuel h) h self.1 other b.
  (** c_forward_list.c 322-330: the before-begin and end nodes are freed (they have no value to destroy) *)
  Definition c_slist_destroy h (l : sobj) : res (sheap A) :=
    do h <- c_slist_clear h l;
    Ok (SHeap (delete l.2 (delete l.1 (snx h))) (delete l.2 (delete l.1 (svl h))) (sdead h)).
  (** c_forward_list.c 472-479 *)
  Definition c_slist_swap (l other : sobj) : sobj * sobj := (other, l).

  (** c_forward_list.c 491-511 *)
  Section merge.
    Context (comp : A -> A -> bool).
    Fixpoint smerge_loop (fuel : nat) h (node last onode olast : loc) : res (sheap A * loc) :=
      match fuel with
      | 0 => NoFuel
      | S f =>
        do n <- snext h node;
        if decide (n = last) then Ok (h, node)
        else
          do on <- snext h onode;
          if decide (on = olast) then Ok (h, node)
          else do b <- svalue h on; do a <- svalue h n;
               if comp b a then
                 do on2 <- snext h on;
                 do h <- stransfer h node onode on2;
                 smerge_loop f h node last onode olast
               else smerge_loop f h n last onode olast
      end.
    Definition c_slist_merge_by h (l other : sobj) : res (sheap A) :=
      do e <- c_slist_empty h other;
      if (e : bool) then Ok h
      else
        do (h, node) <- smerge_loop (sfuel h) h l.1 l.2 other.1 other.2;
        do on <- snext h other.1;
        if decide (on = other.2) then Ok h else stransfer h node other.1 other.2.
  End merge.

  (** c_forward_list.c 513-518, 520-525, 527-532 *)
  Definition c_slist_splice_after h (pos : loc) (other : sobj) : res (sheap A) :=
    do e <- c_slist_empty h other;
    if (e : bool) then Ok h else stransfer h pos other.1 other.2.
  Definition c_slist_splice_after_from h (pos : loc) (other : sobj) (from : loc) : res (sheap A) :=
    do e <- c_slist_empty h other; if (e : bool) then Ok h else stransfer h pos from other.2.
  Definition c_slist_splice_after_range h (pos : loc) (other : sobj) (first last : loc) : res (sheap A) :=
    do e <- c_slist_empty h other; if (e : bool) then Ok h else stransfer h pos first last.

  (** c_forward_list.c 534-550 and 552-568; the condition may dereference [value] again on every node *)
  Fixpoint sremove_loop (cond : sheap A -> A -> res bool) (fuel : nat) h (l : sobj) (prev x : loc) : res (sheap A) :=
    match fuel with
    | 0 => NoFuel
    | S f => if decide (x = l.2 \/ prev = l.2) then Ok h
             else do a <- svalue h x; do c <- cond h a;
                  if (c : bool) then do (h, n) <- pop_node_after h l prev; sremove_loop cond f h l prev n
                  else do p <- snext h prev; do n <- snext h p; sremove_loop cond f h l p n
    end.
  Definition c_slist_remove (eqb : A -> A -> bool) h (l : sobj) (v : lref A) : res (sheap A) :=
    do e <- c_slist_empty h l;
    if (e : bool) then Ok h
    else do b <- snext h l.1; sremove_loop (fun h a => do x <- sderef h v; Ok (eqb a x)) (sfuel h) h l l.1 b.
  Definition c_slist_remove_if (p : A -> bool) h (l : sobj) : res (sheap A) :=
    do e <- c_slist_empty h l;
    if (e : bool) then Ok h else do b <- snext h l.1; sremove_loop (fun _ a => Ok (p a)) (sfuel h) h l l.1 b.

  (** c_forward_list.c 578, 615, 637: empty, or a single element *)
  Definition short h (l : sobj) : res bool :=
    do e <- c_slist_empty h l;
    if (e : bool) then Ok true else do b <- snext h l.1; do n <- snext h b; Ok (bool_decide (n = l.2)).
  (** c_forward_list.c 613-627 *)
  Fixpoint sreverse_loop (fuel : nat) h (l : sobj) (node last : loc) : res (sheap A) :=
    match fuel with
    | 0 => NoFuel
    | S f => if decide (node = l.2) then Ok h
             else do n <- snext h node;
                  do h <- set_snext h l.1 node; do h <- set_snext h node last; sreverse_loop f h l n node
    end.
  Definition c_slist_reverse h (l : sobj) : res (sheap A) :=
    do e <- short h l;
    if (e : bool) then Ok h else do b <- snext h l.1; sreverse_loop (sfuel h) h l b l.2.

  (** c_forward_list.c 635-649 *)
  Fixpoint sunique_inner (pred : A -> A -> bool) (fuel : nat) h (l : sobj) (x y : loc) : res (sheap A) :=
    match fuel with
    | 0 => NoFuel
    | S f => if decide (y = l.2) then Ok h
             else do a <- svalue h x; do b <- svalue h y;
                  if pred a b then do (h, n) <- pop_node_after h l x; sunique_inner pred f h l x n else Ok h
    end.
  Fixpoint sunique_loop (pred : A -> A -> bool) (fuel : nat) h (l : sobj) (x : loc) : res (sheap A) :=
    match fuel with
    | 0 => NoFuel
    | S f => if decide (x = l.2) then Ok h
             else do y <- snext h x;
                  if decide (y = l.2) then Ok h
                  else do h <- sunique_inner pred (sfuel h) h l x y;
                       do n <- snext h x; sunique_loop pred f h l n
    end.
  Definition c_slist_unique_if (pred : A -> A -> bool) h (l : sobj) : res (sheap A) :=
    do e <- short h l;
    if (e : bool) then Ok h else do b <- snext h l.1; sunique_loop pred (sfuel h) h l b.

  (** ** c_forward_list.c 576-611 *)
  Section sort.
    Context (comp : A -> A -> bool).
    (** c_forward_list.c 576-611: reading / writing an element of the local array [counter]; out of bounds is UB *)
    Definition sget (cs : list sobj) (i : nat) : res sobj := match cs !! i with Some c => Ok c | None => UB end.
    Definition sset (cs : list sobj) (i : nat) (c : sobj) : res (list sobj) :=
      match cs !! i with Some _ => Ok (<[i := c]> cs) | None => UB end.
    (** c_forward_list.c 583-587: creating the 64 counters *)
    Fixpoint screate_counters (n : nat) h : sheap A * list sobj :=
      match n with
      | 0 => (h, [])
      | S n' => let (h, c) := c_slist_create h in let (h, cs) := screate_counters n' h in (h, c :: cs)
      end.
    (** c_forward_list.c 593-596 *)
    Fixpoint scarry_loop (fuel : nat) h (carry : sobj) (cs : list sobj) (i fill : nat)
      : res (sheap A * sobj * list sobj * nat) :=
      match fuel with
      | 0 => NoFuel
      | S f =>
        if i <? fill then
          do c <- sget cs i; do e <- c_slist_empty h c;
          if (e : bool) then Ok (h, carry, cs, i)
          else do h <- c_slist_merge_by comp h c carry;
               do cs <- sset cs i carry;
               scarry_loop f h c cs (S i) fill
        else Ok (h, carry, cs, i)
      end.
    (** c_forward_list.c 590-599 *)
    Fixpoint ssort_loop (fuel : nat) h (l carry : sobj) (cs : list sobj) (fill : nat)
      : res (sheap A * sobj * list sobj * nat) :=
      match fuel with
      | 0 => NoFuel
      | S f =>
        do e <- c_slist_empty h l;
        if (e : bool) then Ok (h, carry, cs, fill)
        else
          do b <- snext h l.1; do b2 <- snext h b;
          do h <- stransfer h carry.1 l.1 b2;
          do (h, carry, cs, i) <- scarry_loop (S fill) h carry cs 0 fill;
          do c <- sget cs i; do cs <- sset cs i carry;
          ssort_loop f h l c cs (if i =? fill then S fill else fill)
      end.
    (** c_forward_list.c 601-603 *)
    Fixpoint smerge_up (n i : nat) h (cs : list sobj) : res (sheap A) :=
      match n with
      | 0 => Ok h
      | S n' => do c <- sget cs i; do c' <- sget cs (i - 1);
                do h <- c_slist_merge_by comp h c c'; smerge_up n' (S i) h cs
      end.
    Fixpoint sdestroy_all h (cs : list sobj) : res (sheap A) :=
      match cs with [] => Ok h | c :: cs' => do h <- c_slist_destroy h c; sdestroy_all h cs' end.
    (** c_forward_list.c 576-611; returns the heap and the nodes now owned by the list object (604 swaps them with a counter's) *)
    Definition c_slist_sort_by h (l : sobj) : res (sheap A * sobj) :=
      do e <- short h l;
      if (e : bool) then Ok (h, l)
      else
        let (h, carry) := c_slist_create h in
        let (h, cs) := screate_counters 64 h in
        do (h, carry, cs, fill) <- ssort_loop (sfuel h) h l carry cs 0;
        do h <- smerge_up (fill - 1) 1 h cs;
        do c <- sget cs (fill - 1); do cs <- sset cs (fill - 1) l;
        do h <- sdestroy_all h cs;
        do h <- c_slist_destroy h carry;
        Ok (h, c).
  End sort.
End slist.
