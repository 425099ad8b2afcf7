(** DList.v — pointer-level model of /repo/container/c_list.c.

    The heap has one finite map per field of struct __c_list_node (c_list.c 32-36): [nx], [pv], [vl];
    following a pointer that is not an allocated node is [UB].  [vl] maps the sentinel to [None] (its
    value pointer is null); the separately malloc'ed value object of a node is identified with the node's
    entry.  [dead] is a ghost log of the values on which destroy was called.  A list object is its [node]
    field, the location of the sentinel.  malloc is an arbitrary function [alloc] returning an unused
    location (the theorems quantify over it); it does not fail.  Null-argument guards and the same-type
    check of merge and splice are not modelled.  Loops run on fuel exceeding the number of nodes. *)
From Verif Require Import Base Spec SpecSeq.
From stdpp Require Import list gmap.

Definition loc := positive.
(** a [c_ref_t value] argument: the caller's own object, or a reference to the value of a list node *)
Inductive lref (A : Type) := LVal (a : A) | LNode (x : loc).
Global Arguments LVal {A} a.
Global Arguments LNode {A} x.

Record heap (A : Type) := Heap { nx : gmap loc loc; pv : gmap loc loc; vl : gmap loc (option A); dead : list A }.
Global Arguments Heap {A}.
Global Arguments nx {A}.
Global Arguments pv {A}.
Global Arguments vl {A}.
Global Arguments dead {A}.

Section list.
  Context {A : Type} (dflt : A) (alloc : heap A -> loc).
  Implicit Types h : heap A.

  (** c_list.c 32-36: reading and writing the fields of a node *)
  Definition next h (x : loc) : res loc := match nx h !! x with Some y => Ok y | None => UB end.
  Definition prev h (x : loc) : res loc := match pv h !! x with Some y => Ok y | None => UB end.
  Definition value h (x : loc) : res A := match vl h !! x with Some (Some a) => Ok a | _ => UB end.
  Definition set_next h (x y : loc) : res (heap A) :=
    match nx h !! x with Some _ => Ok (Heap (<[x := y]> (nx h)) (pv h) (vl h) (dead h)) | None => UB end.
  Definition set_prev h (x y : loc) : res (heap A) :=
    match pv h !! x with Some _ => Ok (Heap (nx h) (<[x := y]> (pv h)) (vl h) (dead h)) | None => UB end.
  Definition deref h (v : lref A) : res A := match v with LVal a => Ok a | LNode x => value h x end.
  Definition fuel_of h : nat := S (2 * size (vl h)).

  (** c_list.c 550-570: the links of the new sentinel point to itself *)
  Definition c_list_create h : heap A * loc :=
    let s := alloc h in
    (Heap (<[s := s]> (nx h)) (<[s := s]> (pv h)) (<[s := None]> (vl h)) (dead h), s).
  (** c_list.c 365-389; [None] is the null reference, for which a default value is created.  The links,
      set to null here, are given self-references (they are overwritten before being read). *)
  Definition create_node h (v : option (lref A)) : res (heap A * loc) :=
    do a <- match v with Some v => deref h v | None => Ok dflt end;
    let x := alloc h in
    Ok (Heap (<[x := x]> (nx h)) (<[x := x]> (pv h)) (<[x := Some a]> (vl h)) (dead h), x).
  (** free of a node, after destroy of its value (c_list.c 402-405) *)
  Definition free_node h (x : loc) : res (heap A) :=
    do a <- value h x;
    Ok (Heap (delete x (nx h)) (delete x (pv h)) (delete x (vl h)) (dead h ++ [a])).
  (** c_list.c 391-408 *)
  Definition pop_node h (l node : loc) : res (heap A * loc) :=
    if decide (node = l) then Ok (h, node)
    else
      do n <- next h node;
      do p <- prev h node;
      do h <- set_prev h n p;
      do h <- set_next h p n;
      do h <- free_node h node;
      Ok (h, n).
  (** c_list.c 411-423: move [first, last) in front of pos *)
  Definition transfer h (pos first last : loc) : res (heap A) :=
    if decide (pos = last) then Ok h
    else if decide (first = last) then Ok h
    else
      do pp <- prev h pos; do h <- set_next h pp first;
      do fp <- prev h first; do h <- set_next h fp last;
      do lp <- prev h last; do h <- set_next h lp pos;
      do tmp <- prev h pos;
      do lp <- prev h last; do h <- set_prev h pos lp;
      do fp <- prev h first; do h <- set_prev h last fp;
      set_prev h first tmp.

  (** c_list.c 669-672, 353-363 *)
  Definition c_list_empty h (l : loc) : res bool := do b <- next h l; Ok (bool_decide (b = l)).
  (** c_list.c 160-172 (iter_distance) *)
  Fixpoint distance (fuel : nat) h (first last : loc) : res nat :=
    match fuel with
    | 0 => NoFuel
    | S f => if decide (first = last) then Ok 0
             else do n <- next h first; do k <- distance f h n last; Ok (S k)
    end.
  (** c_list.c 272-285 (reverse_iter_distance) *)
  Fixpoint reverse_distance (fuel : nat) h (first last : loc) : res nat :=
    match fuel with
    | 0 => NoFuel
    | S f => if decide (first = last) then Ok 0
             else do n <- prev h first; do k <- reverse_distance f h n last; Ok (S k)
    end.
  (** c_list.c 674-680 *)
  Definition c_list_size h (l : loc) : res nat := do b <- next h l; distance (fuel_of h) h b l.
  (** c_list.c 629-637; [None] is the null reference *)
  Definition c_list_front h (l : loc) : res (option A) :=
    do e <- c_list_empty h l; if e then Ok None else do b <- next h l; do a <- value h b; Ok (Some a).
  Definition c_list_back h (l : loc) : res (option A) :=
    do e <- c_list_empty h l; if e then Ok None else do b <- prev h l; do a <- value h b; Ok (Some a).
  (** iterating from begin() (c_list.c 642-646) to end() (654-658) with ++ (79-85) and dereference (127-133);
      each element is reported with the node its iterator points to *)
  Fixpoint walk (fuel : nat) h (x last : loc) : res (list (loc * A)) :=
    match fuel with
    | 0 => NoFuel
    | S f => if decide (x = last) then Ok []
             else do a <- value h x; do n <- next h x; do r <- walk f h n last; Ok ((x, a) :: r)
    end.
  Definition c_list_walk h (l : loc) : res (list (loc * A)) := do b <- next h l; walk (fuel_of h) h b l.
  Definition c_list_traverse h (l : loc) : res (list A) := do w <- c_list_walk h l; Ok (map snd w).
  (** iterating from rbegin() (c_list.c 648-652) to rend() (660-664): reverse ++ (191-197), dereference of the
      predecessor (239-245) *)
  Fixpoint rwalk (fuel : nat) h (x last : loc) : res (list A) :=
    match fuel with
    | 0 => NoFuel
    | S f => if decide (x = last) then Ok []
             else do p <- prev h x; do a <- value h p; do r <- rwalk f h p last; Ok (a :: r)
    end.
  Definition c_list_rtraverse h (l : loc) : res (list A) := do b <- next h l; rwalk (fuel_of h) h l b.

  (** ** iterators (an iterator is the node it points to).  ++ (c_list.c 79-85, 95-109) and -- (87-93, 111-125) follow
      [next] and [prev]; reverse iterators (191-197, 199-205) the other way round *)
  Fixpoint nexts h (x : loc) (n : nat) : res loc :=
    match n with 0 => Ok x | S n' => do y <- next h x; nexts h y n' end.
  Fixpoint prevs h (x : loc) (n : nat) : res loc :=
    match n with 0 => Ok x | S n' => do y <- prev h x; prevs h y n' end.
  (** c_list.c 147-158 *)
  Definition iter_advance h (x : loc) (n : Z) : res loc :=
    if (0 <? n)%Z then nexts h x (Z.to_nat n) else prevs h x (Z.to_nat (- n)).
  (** c_list.c 258-270 *)
  Definition reverse_iter_advance h (x : loc) (n : Z) : res loc :=
    if (0 <? n)%Z then prevs h x (Z.to_nat n) else nexts h x (Z.to_nat (- n)).
  (** c_list.c 239-245 *)
  Definition reverse_iter_dereference h (x : loc) : res A := do p <- prev h x; value h p.
  (** popping nodes until [last]: the loop of c_list_clear (c_list.c 694-698) and c_list_resize (797-799) *)
  Fixpoint pop_until (fuel : nat) h (l x last : loc) : res (heap A) :=
    match fuel with
    | 0 => NoFuel
    | S f => if decide (x = last) then Ok h
             else do (h, n) <- pop_node h l x; pop_until f h l n last
    end.
  (** c_list.c 690-699 *)
  Definition c_list_clear h (l : loc) : res (heap A) :=
    do e <- c_list_empty h l;
    if e then Ok h else do b <- next h l; pop_until (fuel_of h) h l b l.
  (** linking a fresh node in front of [pos]: c_list.c 708-711, 741-744, 788-791 *)
  Definition link_before h (x pos : loc) : res (heap A) :=
    do h <- set_next h x pos;
    do p <- prev h pos; do h <- set_prev h x p;
    do p <- prev h pos; do h <- set_next h p x;
    set_prev h pos x.
  (** c_list.c 701-714; returns the position of the new element *)
  Definition c_list_insert h (pos : loc) (v : lref A) : res (heap A * loc) :=
    do (h, x) <- create_node h (Some v);
    do h <- link_before h x pos;
    Ok (h, x).
  (** c_list.c 716-722 *)
  Definition c_list_erase h (l pos : loc) : res (heap A * loc) := pop_node h l pos.
  (** c_list.c 724-732 *)
  Fixpoint erase_loop (fuel : nat) h (l pos last : loc) : res (heap A * loc) :=
    match fuel with
    | 0 => NoFuel
    | S f => if decide (pos = last) then Ok (h, pos)
             else do (h, p) <- c_list_erase h l pos; erase_loop f h l p last
    end.
  Definition c_list_erase_range h (l first last : loc) : res (heap A * loc) := erase_loop (fuel_of h) h l first last.
  (** c_list.c 734-745 *)
  Definition c_list_push_back h (l : loc) (v : lref A) : res (heap A) :=
    do (h, x) <- create_node h (Some v); link_before h x l.
  (** c_list.c 747-751 *)
  Definition c_list_pop_back h (l : loc) : res (heap A) :=
    do e <- c_list_empty h l;
    if e then Ok h else do p <- prev h l; do (h, _) <- pop_node h l p; Ok h.
  (** c_list.c 753-764 *)
  Definition c_list_push_front h (l : loc) (v : lref A) : res (heap A) :=
    do (h, x) <- create_node h (Some v);
    do n <- next h l; do h <- set_next h x n;
    do h <- set_prev h x l;
    do n <- next h l; do h <- set_prev h n x;
    set_next h l x.
  (** c_list.c 766-769 *)
  Definition c_list_pop_front h (l : loc) : res (heap A) :=
    do e <- c_list_empty h l;
    if e then Ok h else do n <- next h l; do (h, _) <- pop_node h l n; Ok h.
  (** c_list.c 776-802; 771-774 (c_list_resize) is [v = None] *)
  Fixpoint skip (count : nat) h (l x : loc) : res (nat * loc) :=
    if decide (x = l) then Ok (count, x)
    else match count with
         | 0 => Ok (0, x)
         | S c => do n <- next h x; skip c h l n
         end.
  Fixpoint append_n (n : nat) h (l : loc) (v : option (lref A)) : res (heap A) :=
    match n with
    | 0 => Ok h
    | S n' => do (h, x) <- create_node h v; do h <- link_before h x l; append_n n' h l v
    end.
  Definition c_list_resize_with_value h (l : loc) (count : nat) (v : option (lref A)) : res (heap A) :=
    do b <- next h l;
    do (c, x) <- skip count h l b;
    match c with
    | 0 => pop_until (fuel_of h) h l x l
    | _ => append_n c h l v
    end.
  Definition c_list_resize h (l : loc) (count : nat) : res (heap A) := c_list_resize_with_value h l count None.

  (** c_list.c 572-586 *)
  Fixpoint push_all h (l : loc) (vs : list A) : res (heap A) :=
    match vs with [] => Ok h | a :: vs' => do h <- c_list_push_back h l (LVal a); push_all h l vs' end.
  Definition c_list_create_from h (values : list A) : res (heap A * option loc) :=
    match values with
    | [] => Ok (h, None)
    | _ => let (h, s) := c_list_create h in do h <- push_all h s values; Ok (h, Some s)
    end.
  (** the loop of c_list_copy (c_list.c 595-597) and c_list_assign (609-611) *)
  Fixpoint copy_loop (fuel : nat) h (l other x : loc) : res (heap A) :=
    match fuel with
    | 0 => NoFuel
    | S f => if decide (x = other) then Ok h
             else do h <- c_list_push_back h l (LNode x); do n <- next h x; copy_loop f h l other n
    end.
  (** c_list.c 588-600 *)
  Definition c_list_copy h (other : loc) : res (heap A * loc) :=
    let (h, s) := c_list_create h in
    do b <- next h other; do h <- copy_loop (fuel_of h) h s other b; Ok (h, s).
  (** c_list.c 602-615 *)
  Definition c_list_assign h (self other : loc) : res (heap A) :=
    if decide (self = other) then Ok h
    else do h <- c_list_clear h self;
         do b <- next h other; copy_loop (fuel_of h) h self other b.
  (** c_list.c 617-624: the sentinel is freed (it has no value to destroy) *)
  Definition c_list_destroy h (l : loc) : res (heap A) :=
    do h <- c_list_clear h l;
    Ok (Heap (delete l (nx h)) (delete l (pv h)) (delete l (vl h)) (dead h)).
  (** c_list.c 804-810: list objects exchange their sentinels *)
  Definition c_list_swap (l other : loc) : loc * loc := (other, l).

  (** c_list.c 821-843 *)
  Section merge.
    Context (comp : A -> A -> bool).
    Fixpoint merge_loop (fuel : nat) h (node last onode olast : loc) : res (heap A * loc) :=
      match fuel with
      | 0 => NoFuel
      | S f =>
        if decide (node = last) then Ok (h, onode)
        else if decide (onode = olast) then Ok (h, onode)
        else do b <- value h onode; do a <- value h node;
             if comp b a then
               do onext <- next h onode;
               do h <- transfer h node onode onext;
               merge_loop f h node last onext olast
             else do n <- next h node; merge_loop f h n last onode olast
      end.
    Definition c_list_merge_by h (l other : loc) : res (heap A) :=
      do e <- c_list_empty h other;
      if e then Ok h
      else do node <- next h l; do onode <- next h other;
           do (h, onode) <- merge_loop (fuel_of h) h node l onode other;
           if decide (onode = other) then Ok h else transfer h l onode other.
  End merge.

  (** c_list.c 845-850, 852-857, 859-864 *)
  Definition c_list_splice h (pos other : loc) : res (heap A) :=
    do e <- c_list_empty h other;
    if e then Ok h else do b <- next h other; transfer h pos b other.
  Definition c_list_splice_from h (pos other from : loc) : res (heap A) :=
    do e <- c_list_empty h other; if e then Ok h else transfer h pos from other.
  Definition c_list_splice_range h (pos other first last : loc) : res (heap A) :=
    do e <- c_list_empty h other; if e then Ok h else transfer h pos first last.

  (** c_list.c 866-880 and 882-896; the condition may dereference [value] again on every node *)
  Fixpoint remove_loop (cond : heap A -> A -> res bool) (fuel : nat) h (l x last : loc) : res (heap A) :=
    match fuel with
    | 0 => NoFuel
    | S f => if decide (x = last) then Ok h
             else do a <- value h x; do c <- cond h a;
                  if (c : bool) then do (h, n) <- pop_node h l x; remove_loop cond f h l n last
                  else do n <- next h x; remove_loop cond f h l n last
    end.
  Definition c_list_remove (eqb : A -> A -> bool) h (l : loc) (v : lref A) : res (heap A) :=
    do e <- c_list_empty h l;
    if e then Ok h
    else do b <- next h l; remove_loop (fun h a => do x <- deref h v; Ok (eqb a x)) (fuel_of h) h l b l.
  Definition c_list_remove_if (p : A -> bool) h (l : loc) : res (heap A) :=
    do e <- c_list_empty h l;
    if e then Ok h else do b <- next h l; remove_loop (fun _ a => Ok (p a)) (fuel_of h) h l b l.

  (** c_list.c 941-957 *)
  Fixpoint reverse_loop (fuel : nat) h (l x : loc) : res (heap A) :=
    match fuel with
    | 0 => NoFuel
    | S f => if decide (x = l) then Ok h
             else do y <- next h x; do p <- prev h x;
                  do h <- set_next h x p; do h <- set_prev h x y; reverse_loop f h l y
    end.
  Definition c_list_reverse h (l : loc) : res (heap A) :=
    do e <- c_list_empty h l;
    if e then Ok h
    else do n <- c_list_size h l;
         if n =? 1 then Ok h
         else do b <- next h l; do h <- reverse_loop (fuel_of h) h l b;
              do y <- next h l; do p <- prev h l; do h <- set_next h l p; set_prev h l y.

  (** c_list.c 965-978 *)
  Fixpoint unique_inner (pred : A -> A -> bool) (fuel : nat) h (l x y : loc) : res (heap A) :=
    match fuel with
    | 0 => NoFuel
    | S f => if decide (y = l) then Ok h
             else do a <- value h x; do b <- value h y;
                  if pred a b then do (h, n) <- pop_node h l y; unique_inner pred f h l x n else Ok h
    end.
  Fixpoint unique_loop (pred : A -> A -> bool) (fuel : nat) h (l x : loc) : res (heap A) :=
    match fuel with
    | 0 => NoFuel
    | S f => if decide (x = l) then Ok h
             else do y <- next h x;
                  if decide (y = l) then Ok h
                  else do h <- unique_inner pred (fuel_of h) h l x y;
                       do n <- next h x; unique_loop pred f h l n
    end.
  Definition c_list_unique_if (pred : A -> A -> bool) h (l : loc) : res (heap A) :=
    do e <- c_list_empty h l;
    if e then Ok h
    else do n <- c_list_size h l;
         if n =? 1 then Ok h else do b <- next h l; unique_loop pred (fuel_of h) h l b.

  (** ** c_list.c 905-939 *)
  Section sort.
    Context (comp : A -> A -> bool).
    (** c_list.c 905-939: reading / writing an element of the local array [counter]; out of bounds is UB *)
    Definition cget (cs : list loc) (i : nat) : res loc := match cs !! i with Some c => Ok c | None => UB end.
    Definition cset (cs : list loc) (i : nat) (c : loc) : res (list loc) :=
      match cs !! i with Some _ => Ok (<[i := c]> cs) | None => UB end.
    (** c_list.c 911-915: creating the 64 counters *)
    Fixpoint create_counters (n : nat) h : heap A * list loc :=
      match n with
      | 0 => (h, [])
      | S n' => let (h, c) := c_list_create h in let (h, cs) := create_counters n' h in (h, c :: cs)
      end.
    (** c_list.c 921-924 *)
    Fixpoint carry_loop (fuel : nat) h (carry : loc) (cs : list loc) (i fill : nat)
      : res (heap A * loc * list loc * nat) :=
      match fuel with
      | 0 => NoFuel
      | S f =>
        if i <? fill then
          do c <- cget cs i; do e <- c_list_empty h c;
          if (e : bool) then Ok (h, carry, cs, i)
          else do h <- c_list_merge_by comp h c carry;
               do cs <- cset cs i carry;
               carry_loop f h c cs (S i) fill
        else Ok (h, carry, cs, i)
      end.
    (** c_list.c 918-927 *)
    Fixpoint sort_loop (fuel : nat) h (l carry : loc) (cs : list loc) (fill : nat)
      : res (heap A * loc * list loc * nat) :=
      match fuel with
      | 0 => NoFuel
      | S f =>
        do e <- c_list_empty h l;
        if (e : bool) then Ok (h, carry, cs, fill)
        else
          do cb <- next h carry; do b <- next h l; do b2 <- next h b;
          do h <- transfer h cb b b2;
          do (h, carry, cs, i) <- carry_loop (S fill) h carry cs 0 fill;
          do c <- cget cs i; do cs <- cset cs i carry;
          sort_loop f h l c cs (if i =? fill then S fill else fill)
      end.
    (** c_list.c 929-930 *)
    Fixpoint merge_up (n i : nat) h (cs : list loc) : res (heap A) :=
      match n with
      | 0 => Ok h
      | S n' => do c <- cget cs i; do c' <- cget cs (i - 1);
                do h <- c_list_merge_by comp h c c'; merge_up n' (S i) h cs
      end.
    Fixpoint destroy_all h (cs : list loc) : res (heap A) :=
      match cs with [] => Ok h | c :: cs' => do h <- c_list_destroy h c; destroy_all h cs' end.
    (** c_list.c 905-939; returns the heap and the sentinel now owned by the list object (931 swaps it with a counter's) *)
    Definition c_list_sort_by h (l : loc) : res (heap A * loc) :=
      do e <- c_list_empty h l;
      if (e : bool) then Ok (h, l)
      else
        do n <- c_list_size h l;
        if n =? 1 then Ok (h, l)
        else
          let (h, carry) := c_list_create h in
          let (h, cs) := create_counters 64 h in
          do (h, carry, cs, fill) <- sort_loop (fuel_of h) h l carry cs 0;
          do h <- merge_up (fill - 1) 1 h cs;
          do c <- cget cs (fill - 1); do cs <- cset cs (fill - 1) l;
          do h <- destroy_all h cs;
          do h <- c_list_destroy h carry;
          Ok (h, c).
  End sort.
End list.
