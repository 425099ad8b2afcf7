(** Tree.v — pointer-level model of /repo/container/c_tree.c.

    The memory is a finite map from locations to the records of struct __c_tree_node (c_tree.c 34-40); a
    pointer is an [option loc], [None] being null; following a null pointer or a pointer to a location that is
    not allocated is [UB].  The separately malloc'ed value object of a node is identified with the field
    [nval] (the header's value pointer is null: [None]).  [dead] is a ghost log of the values on which destroy
    was called.  A tree object (struct __c_tree, 42-50) has the header, the node count, the comparison and the
    key function; type descriptors are not modelled.  malloc is an arbitrary function [alloc] returning an
    unused location (the theorems quantify over it); it does not fail.  Null-argument guards and assertions
    on arguments are not modelled.  Iterators are the node they point to.  Loops and recursions run on fuel
    exceeding twice the number of nodes. *)
From Verif Require Import Base DList.
From stdpp Require Import list gmap.

Notation ptr := (option loc).
(** c_tree.c 52-53 *)
Notation RED := false (only parsing).
Notation BLACK := true (only parsing).

Record tnode (V : Type) := TNode { ncol : bool; npar : ptr; nleft : ptr; nright : ptr; nval : option V }.
Global Arguments TNode {V}.
Global Arguments ncol {V}.
Global Arguments npar {V}.
Global Arguments nleft {V}.
Global Arguments nright {V}.
Global Arguments nval {V}.
Record theap (V : Type) := THeap { mem : gmap loc (tnode V); tdead : list V }.
Global Arguments THeap {V}.
Global Arguments mem {V}.
Global Arguments tdead {V}.
Record tobj (K V : Type) := TObj { hdr : loc; cnt : nat; kcomp : K -> K -> bool; kov : V -> K }.
Global Arguments TObj {K V}.
Global Arguments hdr {K V}.
Global Arguments cnt {K V}.
Global Arguments kcomp {K V}.
Global Arguments kov {K V}.

(** a [c_ref_t] argument: the caller's own object, or a reference to the value (or key) of a tree node *)
Inductive vref (V : Type) := RVal (v : V) | RNode (x : loc).
Global Arguments RVal {V} v.
Global Arguments RNode {V} x.
Inductive kref (K : Type) := KVal (k : K) | KNode (x : loc).
Global Arguments KVal {K} k.
Global Arguments KNode {K} x.

Section mem.
  Context {V : Type}.
  Notation M := (gmap loc (tnode V)).
  Implicit Types m : M.

  (** c_tree.c 34-40: reading and writing the fields of a node, as in 100-113 and 132-140 *)
  Definition get m (p : ptr) : res (tnode V) :=
    match p with Some x => match m !! x with Some n => Ok n | None => UB end | None => UB end.
  Definition put m (p : ptr) (n : tnode V) : M := match p with Some x => <[x := n]> m | None => m end.
  Definition parent m (p : ptr) : res ptr := do n <- get m p; Ok (npar n).
  Definition left m (p : ptr) : res ptr := do n <- get m p; Ok (nleft n).
  Definition right m (p : ptr) : res ptr := do n <- get m p; Ok (nright n).
  Definition color m (p : ptr) : res bool := do n <- get m p; Ok (ncol n).
  Definition valof m (p : ptr) : res V := do n <- get m p; match nval n with Some v => Ok v | None => UB end.
  Definition set_parent m (p q : ptr) : res M :=
    do n <- get m p; Ok (put m p (TNode (ncol n) q (nleft n) (nright n) (nval n))).
  Definition set_left m (p q : ptr) : res M :=
    do n <- get m p; Ok (put m p (TNode (ncol n) (npar n) q (nright n) (nval n))).
  Definition set_right m (p q : ptr) : res M :=
    do n <- get m p; Ok (put m p (TNode (ncol n) (npar n) (nleft n) q (nval n))).
  Definition set_color m (p : ptr) (c : bool) : res M :=
    do n <- get m p; Ok (put m p (TNode c (npar n) (nleft n) (nright n) (nval n))).
  Definition tfuel m : nat := 2 * size m + 3.

  (** c_tree.c 58-62 *)
  Definition is_header m (p : ptr) : res bool :=
    match p with
    | None => Ok false
    | Some _ => do q <- parent m p; do g <- parent m q;
        if decide (g = p) then do c <- color m p; Ok (negb c) else Ok false
    end.
  (** c_tree.c 70-73, 75-78 *)
  Definition is_left m (p : ptr) : res bool :=
    match p with None => Ok false | Some _ => do q <- parent m p; do l <- left m q; Ok (bool_decide (l = p)) end.
  Definition is_right m (p : ptr) : res bool :=
    match p with None => Ok false | Some _ => do q <- parent m p; do r <- right m q; Ok (bool_decide (r = p)) end.
  (** c_tree.c 80-83, 85-88: a null pointer counts as black *)
  Definition is_black m (p : ptr) : res bool := match p with None => Ok true | Some _ => color m p end.
  Definition is_red m (p : ptr) : res bool := match p with None => Ok false | Some _ => do c <- color m p; Ok (negb c) end.
  (** c_tree.c 90-93, 95-98 *)
  Definition has_left m (p : ptr) : res bool :=
    match p with None => Ok false | Some _ => do l <- left m p; Ok (bool_decide (l <> None)) end.
  Definition has_right m (p : ptr) : res bool :=
    match p with None => Ok false | Some _ => do r <- right m p; Ok (bool_decide (r <> None)) end.
  (** c_tree.c 115-118, 120-124 *)
  Definition grand_parent m (p : ptr) : res ptr := do q <- parent m p; parent m q.
  Definition uncle m (p : ptr) : res ptr :=
    do q <- parent m p; do il <- is_left m q; do g <- grand_parent m p; if il then right m g else left m g.
  (** c_tree.c 177-186, 188-197 *)
  Fixpoint min_loop (fuel : nat) m (p : ptr) : res ptr :=
    match fuel with
    | 0 => NoFuel
    | S f => do l <- left m p; match l with Some _ => min_loop f m l | None => Ok p end
    end.
  Definition minimum m (p : ptr) : res ptr := match p with None => Ok None | Some _ => min_loop (tfuel m) m p end.
  Fixpoint max_loop (fuel : nat) m (p : ptr) : res ptr :=
    match fuel with
    | 0 => NoFuel
    | S f => do r <- right m p; match r with Some _ => max_loop f m r | None => Ok p end
    end.
  Definition maximum m (p : ptr) : res ptr := match p with None => Ok None | Some _ => max_loop (tfuel m) m p end.

  (** c_tree.c 210-218 and 237-245: make x's parent point to y instead *)
  Definition replace_child m (x y root : ptr) : res M :=
    if decide (x = root) then do p <- parent m x; set_parent m p y
    else
      do il <- is_left m x;
      if il then do p <- parent m x; set_left m p y
      else
        do ir <- is_right m x;
        if ir then do p <- parent m x; set_right m p y else Ok m.
  (** c_tree.c 199-224 *)
  Definition rotate_right m (x root : ptr) : res M :=
    match x with
    | None => Ok m
    | Some _ =>
      do y <- left m x;
      match y with
      | None => Ok m
      | Some _ =>
        do b <- right m y; do m <- set_left m x b;
        do b <- right m y;
        do m <- match b with Some _ => set_parent m b x | None => Ok m end;
        do m <- replace_child m x y root;
        do p <- parent m x; do m <- set_parent m y p;
        do m <- set_right m y x;
        set_parent m x y
      end
    end.
  (** c_tree.c 226-251 *)
  Definition rotate_left m (x root : ptr) : res M :=
    match x with
    | None => Ok m
    | Some _ =>
      do y <- right m x;
      match y with
      | None => Ok m
      | Some _ =>
        do b <- left m y; do m <- set_right m x b;
        do b <- left m y;
        do m <- match b with Some _ => set_parent m b x | None => Ok m end;
        do m <- replace_child m x y root;
        do p <- parent m x; do m <- set_parent m y p;
        do m <- set_left m y x;
        set_parent m x y
      end
    end.

  (** c_tree.c 329-373; [h] is the header: __root(tree) is its parent field (147-150) *)
  Definition root_of m (h : loc) : res ptr := parent m (Some h).
  Fixpoint insert_loop (fuel : nat) m (h : loc) (node : ptr) : res M :=
    match fuel with
    | 0 => NoFuel
    | S f =>
      do r <- root_of m h;
      if decide (r = node) then Ok m
      else
        do p <- parent m node; do pr <- is_red m p;
        if negb pr then Ok m
        else
          do pl <- is_left m p;
          if pl then
            do u <- uncle m node; do ur <- is_red m u;
            if ur then
              do p <- parent m node; do m <- set_color m p BLACK;
              do u <- uncle m node; do m <- set_color m u BLACK;
              do g <- grand_parent m node; do m <- set_color m g RED;
              do g <- grand_parent m node; insert_loop f m h g
            else
              do ir <- is_right m node;
              do (m, node) <-
                (if ir then do p <- parent m node; do r <- root_of m h; do m <- rotate_left m p r; Ok (m, p)
                 else Ok (m, node));
              do p <- parent m node; do m <- set_color m p BLACK;
              do g <- grand_parent m node; do m <- set_color m g RED;
              do g <- grand_parent m node; do r <- root_of m h; do m <- rotate_right m g r;
              insert_loop f m h node
          else
            do u <- uncle m node; do ur <- is_red m u;
            if ur then
              do p <- parent m node; do m <- set_color m p BLACK;
              do u <- uncle m node; do m <- set_color m u BLACK;
              do g <- grand_parent m node; do m <- set_color m g RED;
              do g <- grand_parent m node; insert_loop f m h g
            else
              do il <- is_left m node;
              do (m, node) <-
                (if il then do p <- parent m node; do r <- root_of m h; do m <- rotate_right m p r; Ok (m, p)
                 else Ok (m, node));
              do p <- parent m node; do m <- set_color m p BLACK;
              do g <- grand_parent m node; do m <- set_color m g RED;
              do g <- grand_parent m node; do r <- root_of m h; do m <- rotate_left m g r;
              insert_loop f m h node
    end.
  Definition rebalance_insert m (h : loc) (node : ptr) : res M :=
    do m <- insert_loop (tfuel m) m h node;
    do r <- root_of m h; set_color m r BLACK.

  (** the loop of c_tree.c 468-552; [rn] is replace_node, [rp] replace_parent, [rs] replace_sibling; a failing
      assertion (469-472) is [UB] *)
  (** c_tree.c 486-487, 528-529: !__has_left(rs) || __is_black(__left(rs)) and its mirror image *)
  Definition left_black m (rs : ptr) : res bool :=
    do hl <- has_left m rs; if negb hl then Ok true else do l <- left m rs; is_black m l.
  Definition right_black m (rs : ptr) : res bool :=
    do hr <- has_right m rs; if negb hr then Ok true else do r <- right m rs; is_black m r.
  Fixpoint erase_loop (fuel : nat) m (h : loc) (rn rp : ptr) : res (M * ptr) :=
    match fuel with
    | 0 => NoFuel
    | S f =>
      do r <- root_of m h;
      if decide (rn = r) then Ok (m, rn)
      else
        do nb <- is_black m rn;
        if negb nb then Ok (m, rn)
        else
          do ok <- match rn with
                   | Some _ => do p <- parent m rn; do l <- left m rp; do r <- right m rp;
                       Ok (bool_decide (p = rp) && (bool_decide (l = rn) || bool_decide (r = rn)))
                   | None => Ok true
                   end;
          if negb ok then UB
          else
          do l <- left m rp;
          if decide (rn = l) then
            do rs <- right m rp; do sr <- is_red m rs;
            do (m, rs) <-
              (if sr then
                 do m <- set_color m rs BLACK; do m <- set_color m rp RED;
                 do r <- root_of m h; do m <- rotate_left m rp r;
                 do rs <- right m rp; Ok (m, rs)
               else Ok (m, rs));
            do lb <- left_black m rs; do rb <- (if lb then right_black m rs else Ok false);
            if rb then
              do m <- set_color m rs RED;
              do rp' <- parent m rp; erase_loop f m h rp rp'
            else
              do rb <- right_black m rs;
              do (m, rs) <-
                (if rb then
                   do hl <- has_left m rs;
                   do m <- (if hl then do l <- left m rs; set_color m l BLACK else Ok m);
                   do m <- set_color m rs RED;
                   do r <- root_of m h; do m <- rotate_right m rs r;
                   do rs <- right m rp; Ok (m, rs)
                 else Ok (m, rs));
              do c <- color m rp; do m <- set_color m rs c;
              do m <- set_color m rp BLACK;
              do hr <- has_right m rs;
              do m <- (if hr then do x <- right m rs; set_color m x BLACK else Ok m);
              do r <- root_of m h; do m <- rotate_left m rp r;
              Ok (m, rn)
          else
            do rs <- left m rp; do sr <- is_red m rs;
            do (m, rs) <-
              (if sr then
                 do m <- set_color m rs BLACK; do m <- set_color m rp RED;
                 do r <- root_of m h; do m <- rotate_right m rp r;
                 do rs <- left m rp; Ok (m, rs)
               else Ok (m, rs));
            do lb <- left_black m rs; do rb <- (if lb then right_black m rs else Ok false);
            if rb then
              do m <- set_color m rs RED;
              do rp' <- parent m rp; erase_loop f m h rp rp'
            else
              do lb <- left_black m rs;
              do (m, rs) <-
                (if lb then
                   do hr <- has_right m rs;
                   do m <- (if hr then do x <- right m rs; set_color m x BLACK else Ok m);
                   do m <- set_color m rs RED;
                   do r <- root_of m h; do m <- rotate_left m rs r;
                   do rs <- left m rp; Ok (m, rs)
                 else Ok (m, rs));
              do c <- color m rp; do m <- set_color m rs c;
              do m <- set_color m rp BLACK;
              do hl <- has_left m rs;
              do m <- (if hl then do x <- left m rs; set_color m x BLACK else Ok m);
              do r <- root_of m h; do m <- rotate_right m rp r;
              Ok (m, rn)
    end.
  (** c_tree.c 401-408 and 429-436: make node's parent (or the header) point to [q] instead of [node] *)
  Definition relink m (h : loc) (node q : ptr) : res M :=
    do r <- root_of m h;
    if decide (r = node) then set_parent m (Some h) q
    else
      do il <- is_left m node; do p <- parent m node;
      if il then set_left m p q else set_right m p q.
  (** c_tree.c 400-426: erase_node == node *)
  Definition unlink_one m (h : loc) (node rn : ptr) : res (M * ptr) :=
    do m <- relink m h node rn;
    do lm <- left m (Some h);
    do m <- (if decide (lm = node) then
               do q <- match rn with Some _ => minimum m rn | None => parent m node end; set_left m (Some h) q
             else Ok m);
    do rm <- right m (Some h);
    do m <- (if decide (rm = node) then
               do q <- match rn with Some _ => maximum m rn | None => parent m node end; set_right m (Some h) q
             else Ok m);
    do m <- match rn with Some _ => do p <- parent m node; set_parent m rn p | None => Ok m end;
    do rp <- parent m node;
    Ok (m, rp).
  (** c_tree.c 428-464: erase_node [en] is node's successor *)
  Definition unlink_two m (h : loc) (node en rn : ptr) : res (M * ptr) :=
    do m <- relink m h node en;
    do l <- left m node; do m <- set_left m en l;
    do l <- left m node; do m <- set_parent m l en;
    do r <- right m node;
    do (m, rp) <-
      (if decide (en <> r) then
         do r <- right m node; do m <- set_right m en r;
         do r <- right m node; do m <- set_parent m r en;
         do p <- parent m en; do m <- set_left m p rn;
         do m <- match rn with Some _ => do p <- parent m en; set_parent m rn p | None => Ok m end;
         do rp <- parent m en; Ok (m, rp)
       else Ok (m, en));
    do c <- color m en; do c' <- color m node; do m <- set_color m en c'; do m <- set_color m node c;
    do p <- parent m node; do m <- set_parent m en p;
    Ok (m, rp).
  (** c_tree.c 375-560; returns the node to destroy, which is always [node] *)
  Definition rebalance_erase m (h : loc) (node : ptr) : res (M * ptr) :=
    do hl <- has_left m node;
    do (en, rn) <-
      (if negb hl then do rn <- right m node; Ok (node, rn)
       else
         do hr <- has_right m node;
         if negb hr then do rn <- left m node; Ok (node, rn)
         else do r <- right m node; do en <- minimum m r; do rn <- right m en; Ok (en, rn));
    do (m, rp) <- (if decide (en = node) then unlink_one m h node rn else unlink_two m h node en rn);
    do b <- is_black m node;
    if b then
      do (m, rn) <- erase_loop (tfuel m) m h rn rp;
      do m <- match rn with Some _ => set_color m rn BLACK | None => Ok m end;
      Ok (m, node)
    else Ok (m, node).

  (** ** iterators.  c_tree.c 651-671: ++ *)
  Fixpoint climb_right (fuel : nat) m (node par : ptr) : res (ptr * ptr) :=
    match fuel with
    | 0 => NoFuel
    | S f => do r <- right m par;
        if decide (r = node) then do g <- parent m par; climb_right f m par g else Ok (node, par)
    end.
  Definition increment m (node : ptr) : res ptr :=
    do r <- right m node;
    match r with
    | Some _ => minimum m r
    | None =>
      do p <- parent m node;
      do (x, p) <- climb_right (tfuel m) m node p;
      do r <- right m x;
      if decide (p <> r) then Ok p else Ok x
    end.
  (** c_tree.c 673-694: -- *)
  Fixpoint climb_left (fuel : nat) m (node par : ptr) : res (ptr * ptr) :=
    match fuel with
    | 0 => NoFuel
    | S f => do l <- left m par;
        if decide (l = node) then do g <- parent m par; climb_left f m par g else Ok (node, par)
    end.
  Definition decrement m (node : ptr) : res ptr :=
    do ih <- is_header m node;
    if ih then right m node
    else
      do l <- left m node;
      match l with
      | Some _ => maximum m l
      | None =>
        do p <- parent m node;
        do (x, p) <- climb_left (tfuel m) m node p;
        Ok p
      end.
  Fixpoint increments m (x : ptr) (n : nat) : res ptr :=
    match n with 0 => Ok x | S n' => do y <- increment m x; increments m y n' end.
  Fixpoint decrements m (x : ptr) (n : nat) : res ptr :=
    match n with 0 => Ok x | S n' => do y <- decrement m x; decrements m y n' end.
  (** c_tree.c 747-757; and the reverse iterators' (867-877), which move the other way (790-808) *)
  Definition tree_advance m (x : ptr) (n : Z) : res ptr :=
    if (0 <? n)%Z then increments m x (Z.to_nat n) else decrements m x (Z.to_nat (- n)).
  Definition tree_reverse_advance m (x : ptr) (n : Z) : res ptr :=
    if (0 <? n)%Z then decrements m x (Z.to_nat n) else increments m x (Z.to_nat (- n)).
  (** c_tree.c 759-772; 879-892 *)
  Fixpoint distance_loop (fuel : nat) m (x last : ptr) : res nat :=
    match fuel with
    | 0 => NoFuel
    | S f => if decide (x = last) then Ok 0
             else do y <- increment m x; do n <- distance_loop f m y last; Ok (S n)
    end.
  Definition tree_distance m (first last : ptr) : res nat := distance_loop (tfuel m) m first last.
  Fixpoint reverse_distance_loop (fuel : nat) m (x last : ptr) : res nat :=
    match fuel with
    | 0 => NoFuel
    | S f => if decide (x = last) then Ok 0
             else do y <- decrement m x; do n <- reverse_distance_loop f m y last; Ok (S n)
    end.
  Definition tree_reverse_distance m (first last : ptr) : res nat := reverse_distance_loop (tfuel m) m first last.
  (** c_tree.c 847-854 *)
  Definition tree_reverse_deref m (x : ptr) : res V := do y <- decrement m x; valof m y.
  (** iterating from [x] to [last] with ++ and dereference (c_tree.c 728-734); each element is reported with the node
      its iterator points to *)
  Fixpoint walk_loop (fuel : nat) m (x last : ptr) : res (list (ptr * V)) :=
    match fuel with
    | 0 => NoFuel
    | S f => if decide (x = last) then Ok []
             else do v <- valof m x; do y <- increment m x; do r <- walk_loop f m y last; Ok ((x, v) :: r)
    end.
  Fixpoint rwalk_loop (fuel : nat) m (x last : ptr) : res (list V) :=
    match fuel with
    | 0 => NoFuel
    | S f => if decide (x = last) then Ok []
             else do v <- tree_reverse_deref m x; do y <- decrement m x; do r <- rwalk_loop f m y last; Ok (v :: r)
    end.
  (** c_tree.c 603-619 *)
  Fixpoint black_count_loop (fuel : nat) m (n : nat) (node top : ptr) : res nat :=
    match fuel with
    | 0 => NoFuel
    | S f => do b <- is_black m node;
        let n := if b then S n else n in
        if decide (node = top) then Ok n
        else do p <- parent m node; black_count_loop f m n p top
    end.
  Definition black_count m (bottom top : ptr) : res nat := black_count_loop (tfuel m) m 0 bottom top.
End mem.

Section tree.
  Context {K V : Type} (alloc : gmap loc (tnode V) -> loc).
  Notation M := (gmap loc (tnode V)).
  Implicit Types (m : M) (h : theap V) (t : tobj K V).

  Definition vderef m (v : vref V) : res V := match v with RVal v => Ok v | RNode x => valof m (Some x) end.
  Definition kderef t m (k : kref K) : res K :=
    match k with KVal k => Ok k | KNode x => do v <- valof m (Some x); Ok (kov t v) end.
  (** key_of_value(node->value), as at c_tree.c 1062, 1064 *)
  Definition nkey t m (p : ptr) : res K := do v <- valof m p; Ok (kov t v).
  Definition vkey t m (v : vref V) : res K := do v <- vderef m v; Ok (kov t v).

  (** c_tree.c 960-993; the parent, left and right links of the new header *)
  Definition c_tree_create h (comp : K -> K -> bool) (key : V -> K) : theap V * tobj K V :=
    let x := alloc (mem h) in
    (THeap (<[x := TNode RED None (Some x) (Some x) None]> (mem h)) (tdead h), TObj x 0 comp key).
  (** c_tree.c 253-287, for a non-null [value] (the only use, in 562-601) *)
  Definition create_node m (v : vref V) : res (M * loc) :=
    do a <- vderef m v;
    let x := alloc m in Ok (<[x := TNode RED None None None (Some a)]> m, x).
  (** c_tree.c 289-297 *)
  Definition destroy_node h (p : ptr) : res (theap V) :=
    match p with
    | None => UB
    | Some x => do v <- valof (mem h) p; Ok (THeap (delete x (mem h)) (tdead h ++ [v]))
    end.
  (** c_tree.c 299-307: the recursion on the right child, then the loop going to the left child *)
  Fixpoint erase_all (fuel : nat) h (node : ptr) : res (theap V) :=
    match fuel with
    | 0 => NoFuel
    | S f =>
      match node with
      | None => Ok h
      | Some _ =>
        do r <- right (mem h) node; do h <- erase_all f h r;
        do l <- left (mem h) node;
        do h <- destroy_node h node;
        erase_all f h l
      end
    end.
  (** c_tree.c 309-327 *)
  Fixpoint count_loop (fuel : nat) t m (node : ptr) (key : kref K) : res nat :=
    match fuel with
    | 0 => NoFuel
    | S f =>
      match node with
      | None => Ok 0
      | Some _ =>
        do k <- kderef t m key; do nk <- nkey t m node;
        if kcomp t k nk then do l <- left m node; count_loop f t m l key
        else if negb (kcomp t nk k) then
          do l <- left m node; do a <- count_loop f t m l key;
          do r <- right m node; do b <- count_loop f t m r key;
          Ok (S (a + b))
        else do r <- right m node; count_loop f t m r key
      end
    end.
  (** c_tree.c 562-601; [hint] is only tested for being null *)
  Definition insert_node t h (hint par : ptr) (v : vref V) : res (theap V * tobj K V * ptr) :=
    do (m, x) <- create_node (mem h) v;
    let hd := Some (hdr t) in
    do go_left <-
      (if decide (par = hd) then Ok true
       else if decide (hint <> None) then Ok true
       else do k <- vkey t m v; do pk <- nkey t m par; Ok (kcomp t k pk));
    do m <-
      (if go_left : bool then
         do m <- set_left m par (Some x);
         if decide (par = hd) then do m <- set_parent m hd (Some x); set_right m hd (Some x)
         else do lm <- left m hd; if decide (par = lm) then set_left m hd (Some x) else Ok m
       else
         do m <- set_right m par (Some x);
         do rm <- right m hd; if decide (par = rm) then set_right m hd (Some x) else Ok m);
    do m <- set_parent m (Some x) par;
    do m <- rebalance_insert m (hdr t) (Some x);
    Ok (THeap m (tdead h), TObj (hdr t) (S (cnt t)) (kcomp t) (kov t), Some x).

  (** c_tree.c 1001-1023: begin/rend and end/rbegin *)
  Definition c_tree_begin t h : res ptr := left (mem h) (Some (hdr t)).
  Definition c_tree_end t : ptr := Some (hdr t).
  Definition c_tree_rbegin t : ptr := Some (hdr t).
  Definition c_tree_rend t h : res ptr := left (mem h) (Some (hdr t)).
  (** iteration over the whole tree, forwards (c_tree.c 1001-1011) and backwards (1013-1023) *)
  Definition c_tree_walk t h : res (list (ptr * V)) :=
    do b <- c_tree_begin t h; walk_loop (tfuel (mem h)) (mem h) b (c_tree_end t).
  Definition c_tree_rtraverse t h : res (list V) :=
    do e <- c_tree_rend t h; rwalk_loop (tfuel (mem h)) (mem h) (c_tree_rbegin t) e.
  (** c_tree.c 1025-1033 *)
  Definition c_tree_empty t : bool := cnt t =? 0.
  Definition c_tree_size t : nat := cnt t.
  (** c_tree.c 1040-1050 *)
  Definition c_tree_clear t h : res (theap V * tobj K V) :=
    do r <- root_of (mem h) (hdr t);
    do h <- erase_all (tfuel (mem h)) h r;
    let hd := Some (hdr t) in
    do m <- set_parent (mem h) hd None;
    do m <- set_left m hd hd;
    do m <- set_right m hd hd;
    Ok (THeap m (tdead h), TObj (hdr t) 0 (kcomp t) (kov t)).
  (** c_tree.c 995-999: the header node is not freed *)
  Definition c_tree_destroy t h : res (theap V) := do (h, _) <- c_tree_clear t h; Ok h.

  (** c_tree.c 1063-1067: the last node on the search path and the last comparison *)
  Fixpoint descend (fuel : nat) t m (y x : ptr) (comp : bool) (v : vref V) : res (ptr * bool) :=
    match fuel with
    | 0 => NoFuel
    | S f =>
      match x with
      | None => Ok (y, comp)
      | Some _ =>
        do k <- vkey t m v; do nk <- nkey t m x;
        let comp := kcomp t k nk in
        do x' <- (if comp then left m x else right m x);
        descend f t m x x' comp v
      end
    end.
  (** c_tree.c 1052-1083 *)
  Definition c_tree_insert_unique_value t h (v : vref V) : res (theap V * tobj K V * ptr) :=
    let m := mem h in
    do r <- root_of m (hdr t);
    do (y, comp) <- descend (tfuel m) t m (Some (hdr t)) r true v;
    do lm <- left m (Some (hdr t));
    if andb comp (bool_decide (y = lm)) then insert_node t h None y v
    else
      do z <- (if comp then decrement m y else Ok y);
      do zk <- nkey t m z; do k <- vkey t m v;
      if kcomp t zk k then insert_node t h None y v else Ok (h, t, z).
  (** c_tree.c 1085-1122 *)
  Definition c_tree_insert_unique t h (hint : ptr) (v : vref V) : res (theap V * tobj K V * ptr) :=
    let m := mem h in
    do lm <- left m (Some (hdr t));
    if decide (hint = lm) then
      do b <- (if 0 <? cnt t then do k <- vkey t m v; do hk <- nkey t m hint; Ok (kcomp t k hk) else Ok false);
      if b : bool then insert_node t h hint hint v else c_tree_insert_unique_value t h v
    else if decide (hint = Some (hdr t)) then
      do rm <- right m (Some (hdr t));
      do rk <- nkey t m rm; do k <- vkey t m v;
      if kcomp t rk k then insert_node t h None rm v else c_tree_insert_unique_value t h v
    else
      do before <- decrement m hint;
      do bk <- nkey t m before; do k <- vkey t m v;
      do b <- (if kcomp t bk k then do hk <- nkey t m hint; Ok (kcomp t k hk) else Ok false);
      if b : bool then
        do hr <- has_right m before;
        if negb hr then insert_node t h None before v else insert_node t h hint hint v
      else c_tree_insert_unique_value t h v.
  (** c_tree.c 1153-1169 *)
  Definition c_tree_insert_equal_value t h (v : vref V) : res (theap V * tobj K V * ptr) :=
    let m := mem h in
    do r <- root_of m (hdr t);
    do (y, _) <- descend (tfuel m) t m (Some (hdr t)) r true v;
    insert_node t h None y v.
  (** c_tree.c 1171-1208 *)
  Definition c_tree_insert_equal t h (hint : ptr) (v : vref V) : res (theap V * tobj K V * ptr) :=
    let m := mem h in
    do lm <- left m (Some (hdr t));
    if decide (hint = lm) then
      do b <- (if 0 <? cnt t then do hk <- nkey t m hint; do k <- vkey t m v; Ok (negb (kcomp t hk k)) else Ok false);
      if b : bool then insert_node t h hint hint v else c_tree_insert_equal_value t h v
    else if decide (hint = Some (hdr t)) then
      do k <- vkey t m v; do rm <- right m (Some (hdr t)); do rk <- nkey t m rm;
      if negb (kcomp t k rk) then
        insert_node t h None rm v
      else c_tree_insert_equal_value t h v
    else
      do before <- decrement m hint;
      do k <- vkey t m v; do bk <- nkey t m before;
      do b <- (if negb (kcomp t k bk) then do hk <- nkey t m hint; Ok (negb (kcomp t hk k)) else Ok false);
      if b : bool then
        do hr <- has_right m before;
        if negb hr then insert_node t h None before v else insert_node t h hint hint v
      else c_tree_insert_equal_value t h v.
  (** c_tree.c 1124-1140, 1210-1226: the values of a range outside the tree *)
  Fixpoint c_tree_insert_unique_range t h (vs : list V) : res (theap V * tobj K V) :=
    match vs with
    | [] => Ok (h, t)
    | v :: vs => do (h', t', _) <- c_tree_insert_unique_value t h (RVal v); c_tree_insert_unique_range t' h' vs
    end.
  Fixpoint c_tree_insert_equal_range t h (vs : list V) : res (theap V * tobj K V) :=
    match vs with
    | [] => Ok (h, t)
    | v :: vs => do (h', t', _) <- c_tree_insert_equal_value t h (RVal v); c_tree_insert_equal_range t' h' vs
    end.
  (** c_tree.c 1142-1151 and 1228-1237: the array [vs] outside the tree; [i] is the index of [value] in it.  A pointer beyond
      its end cannot be read ([UB]).  Neither array pointer is null *)
  Fixpoint insert_unique_from_loop (fuel : nat) t h (vs : list V) (i : nat) : res (theap V * tobj K V) :=
    match fuel with
    | 0 => NoFuel
    | S f => if i =? length vs then Ok (h, t)
             else match vs !! i with
                  | Some v => do (h', t', _) <- c_tree_insert_unique_value t h (RVal v); insert_unique_from_loop f t' h' vs (S i)
                  | None => UB
                  end
    end.
  Definition c_tree_insert_unique_from t h (vs : list V) : res (theap V * tobj K V) := insert_unique_from_loop (S (length vs)) t h vs 0.
  Fixpoint insert_equal_from_loop (fuel : nat) t h (vs : list V) (i : nat) : res (theap V * tobj K V) :=
    match fuel with
    | 0 => NoFuel
    | S f => if i =? length vs then Ok (h, t)
             else match vs !! i with
                  | Some v => do (h', t', _) <- c_tree_insert_equal_value t h (RVal v); insert_equal_from_loop f t' h' vs (S i)
                  | None => UB
                  end
    end.
  Definition c_tree_insert_equal_from t h (vs : list V) : res (theap V * tobj K V) := insert_equal_from_loop (S (length vs)) t h vs 0.

  (** c_tree.c 1239-1252 *)
  Definition c_tree_erase t h (pos : ptr) : res (theap V * tobj K V * ptr) :=
    do next <- increment (mem h) pos;
    do (m, en) <- rebalance_erase (mem h) (hdr t) pos;
    do h <- destroy_node (THeap m (tdead h)) en;
    Ok (h, TObj (hdr t) (cnt t - 1) (kcomp t) (kov t), next).
  (** c_tree.c 1266-1278 *)
  Fixpoint erase_range_loop (fuel : nat) t h (first last : ptr) : res (theap V * tobj K V) :=
    match fuel with
    | 0 => NoFuel
    | S f => if decide (first = last) then Ok (h, t)
             else do (h, t, first) <- c_tree_erase t h first; erase_range_loop f t h first last
    end.
  Definition c_tree_erase_range t h (first last : ptr) : res (theap V * tobj K V) :=
    do lm <- left (mem h) (Some (hdr t));
    if decide (first = lm /\ last = Some (hdr t)) then c_tree_clear t h
    else erase_range_loop (tfuel (mem h)) t h first last.
  (** c_tree.c 1291-1297: the two struct objects are exchanged *)
  Definition c_tree_swap t t' : tobj K V * tobj K V := (t', t).

  (** c_tree.c 1299-1320 *)
  Fixpoint find_loop (fuel : nat) t m (node : ptr) (key : kref K) : res ptr :=
    match fuel with
    | 0 => NoFuel
    | S f =>
      match node with
      | None => Ok (c_tree_end t)
      | Some _ =>
        do k <- kderef t m key; do nk <- nkey t m node;
        if kcomp t k nk then do l <- left m node; find_loop f t m l key
        else if negb (kcomp t nk k) then Ok node
        else do r <- right m node; find_loop f t m r key
      end
    end.
  Definition c_tree_find t h (key : kref K) : res ptr :=
    if c_tree_empty t then Ok (c_tree_end t)
    else do r <- root_of (mem h) (hdr t); find_loop (tfuel (mem h)) t (mem h) r key.
  (** c_tree.c 1322-1327 *)
  Definition c_tree_count t h (key : kref K) : res nat :=
    if c_tree_empty t then Ok 0
    else do r <- root_of (mem h) (hdr t); count_loop (tfuel (mem h)) t (mem h) r key.
  (** c_tree.c 1329-1351 *)
  Fixpoint lower_loop (fuel : nat) t m (y x : ptr) (key : kref K) : res ptr :=
    match fuel with
    | 0 => NoFuel
    | S f =>
      match x with
      | None => Ok y
      | Some _ =>
        do nk <- nkey t m x; do k <- kderef t m key;
        if negb (kcomp t nk k) then do l <- left m x; lower_loop f t m x l key
        else do r <- right m x; lower_loop f t m y r key
      end
    end.
  Definition c_tree_lower_bound t h (key : kref K) : res ptr :=
    do r <- root_of (mem h) (hdr t); lower_loop (tfuel (mem h)) t (mem h) (Some (hdr t)) r key.
  (** c_tree.c 1353-1375 *)
  Fixpoint upper_loop (fuel : nat) t m (y x : ptr) (key : kref K) : res ptr :=
    match fuel with
    | 0 => NoFuel
    | S f =>
      match x with
      | None => Ok y
      | Some _ =>
        do k <- kderef t m key; do nk <- nkey t m x;
        if kcomp t k nk then do l <- left m x; upper_loop f t m x l key
        else do r <- right m x; upper_loop f t m y r key
      end
    end.
  Definition c_tree_upper_bound t h (key : kref K) : res ptr :=
    do r <- root_of (mem h) (hdr t); upper_loop (tfuel (mem h)) t (mem h) (Some (hdr t)) r key.
  (** c_tree.c 1377-1401: the [node] fields of the two output iterators (their other fields are left as they are) *)
  Definition c_tree_equal_range t h (key : kref K) : res (ptr * ptr) :=
    do l <- c_tree_lower_bound t h key; do u <- c_tree_upper_bound t h key; Ok (l, u).
  (** c_tree.c 1254-1264 *)
  Definition c_tree_erase_key t h (key : kref K) : res (theap V * tobj K V * nat) :=
    do l <- c_tree_lower_bound t h key;
    do u <- c_tree_upper_bound t h key;
    do n <- tree_distance (mem h) l u;
    do (h, t) <- c_tree_erase_range t h l u;
    Ok (h, t, n).
  (** c_tree.c 1280-1289: [ks] is the array of keys, an object of [ksize] bytes each; [vsize] is value_type->size().
      The loop runs while the byte offset [off] differs from [length ks * ksize]; reading at an offset that is
      not the start of one of the keys is [UB] *)
  Fixpoint erase_from_loop (fuel : nat) t h (ks : list K) (ksize vsize off : nat) : res (theap V * tobj K V) :=
    match fuel with
    | 0 => NoFuel
    | S f =>
      if off =? length ks * ksize then Ok (h, t)
      else
        match ks !! (off / ksize) with
        | Some k => if off mod ksize =? 0 then
            do (h, t, _) <- c_tree_erase_key t h (KVal k); erase_from_loop f t h ks ksize vsize (off + vsize)
          else UB
        | None => UB
        end
    end.
  Definition c_tree_erase_from t h (ks : list K) (ksize vsize : nat) : res (theap V * tobj K V) :=
    erase_from_loop (S (S (length ks * ksize))) t h ks ksize vsize 0.

  (** c_tree.c 1403-1448 *)
  Fixpoint verify_loop (fuel : nat) t m (black_num : nat) (root first last : ptr) : res bool :=
    match fuel with
    | 0 => NoFuel
    | S f =>
      if decide (first = last) then Ok true
      else
        do l <- left m first; do r <- right m first;
        do fr <- is_red m first;
        do bad <-
          (if fr : bool then
             do a <- match l with Some _ => do b <- is_black m l; Ok (negb b) | None => Ok false end;
             if a : bool then Ok true
             else match r with Some _ => do b <- is_black m r; Ok (negb b) | None => Ok false end
           else Ok false);
        if bad : bool then Ok false
        else
          do bad <- match l with
                    | Some _ => do k <- nkey t m first; do lk <- nkey t m l; Ok (kcomp t k lk)
                    | None => Ok false end;
          if bad : bool then Ok false
          else
            do bad <- match r with
                      | Some _ => do rk <- nkey t m r; do k <- nkey t m first; Ok (kcomp t rk k)
                      | None => Ok false end;
            if bad : bool then Ok false
            else
              do bad <- match l, r with
                        | None, None => do n <- black_count m first root; Ok (negb (n =? black_num))
                        | _, _ => Ok false end;
              if bad : bool then Ok false
              else do next <- increment m first; verify_loop f t m black_num root next last
    end.
  Definition c_tree_rb_verify t h : res bool :=
    let m := mem h in let hd := Some (hdr t) in
    do lm <- left m hd; do rm <- right m hd; do rt <- parent m hd; do c <- color m hd;
    if orb (cnt t =? 0) (bool_decide (lm = hd)) then
      Ok ((cnt t =? 0) && bool_decide (lm = hd) && bool_decide (rm = hd) && bool_decide (rt = None) && negb c)
    else
      do bad <-
        (if c then Ok true
         else do rb <- is_black m rt; if negb rb then Ok true
         else do rp <- parent m rt; Ok (bool_decide (rp <> hd)));
      if bad : bool then Ok false
      else
        do bn <- black_count m lm rt;
        do ok <- verify_loop (tfuel m) t m bn rt lm hd;
        if ok : bool then
          do mn <- minimum m rt; do mx <- maximum m rt;
          Ok (bool_decide (lm = mn) && bool_decide (rm = mx))
        else Ok false.
End tree.
