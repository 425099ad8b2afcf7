(** TreeRange.v — inserting a range given by iterators of a tree: the tree itself or another one (the ranges of Tree.v are outside
    every tree). *)
From Verif Require Import Base DList Tree.
From stdpp Require Import list gmap.

Section range.
  Context {K V : Type} (alloc : gmap loc (tnode V) -> loc).
  (** c_tree.c 1124-1140 (c_tree_insert_unique_range: [unique]) and 1210-1226 (c_tree_insert_equal_range), reached from
      c_set_insert_range, c_multiset_insert_range (c_set.c 92-97, 219-224), c_map_insert_range and c_multimap_insert_range
      (c_map.c 98-103, 225-230).  [x] and [last] are the nodes of the two iterators; [back] when they are reverse iterators: these
      read the element before their node and move backwards (c_tree.c 790-798, 847-854).  The element is passed by reference ([RNode]) and
      the iterator moves in the tree as it is after the insertion.  The while loop is given [fuel] rounds *)
  Fixpoint insert_range_loop (unique back : bool) (fuel : nat) (t : tobj K V) (h : theap V) (x last : ptr) : res (theap V * tobj K V) :=
    match fuel with
    | 0 => NoFuel
    | S f =>
      if decide (x = last) then Ok (h, t)
      else
        do p <- (if back then decrement (mem h) x else Ok x);
        match p with
        | None => UB
        | Some y =>
          do (h', t', _) <- (if unique then c_tree_insert_unique_value alloc t h (RNode y) else c_tree_insert_equal_value alloc t h (RNode y));
          do x' <- (if back then decrement (mem h') x else increment (mem h') x);
          insert_range_loop unique back f t' h' x' last
        end
    end.
End range.
