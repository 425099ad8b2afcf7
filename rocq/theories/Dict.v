(** Dict.v — model of /repo/container/c_set.c and c_map.c: sets, multisets, maps and multimaps.  Every function is a
    one-line call of c_tree.c (model: Tree.v).  A set's element is its own key; a map's element is a pair, its key the
    first component (what storing pairs involves is in Pair.v).  Generated; the record [dict_api] collects the
    functions of one container kind. *)
From Verif Require Import Base Spec SpecDict DList Tree.
From stdpp Require Import list gmap.

Section sets.
  Context {K : Type} (alloc : gmap loc (tnode K) -> loc).
  (** c_set.c 32-35 *)
  Definition c_set_create (h : theap K) (comp : K -> K -> bool) : theap K * tobj K K := c_tree_create alloc h comp id.
  (** c_set.c 37-40 *)
  Definition c_set_destroy (t : tobj K K) (h : theap K) : res (theap K) := c_tree_destroy t h.
  (** c_set.c 42-45 *)
  Definition c_set_begin (t : tobj K K) (h : theap K) : res ptr := c_tree_begin t h.
  (** c_set.c 47-50 *)
  Definition c_set_rbegin (t : tobj K K) : ptr := c_tree_rbegin t.
  (** c_set.c 52-55 *)
  Definition c_set_end (t : tobj K K) : ptr := c_tree_end t.
  (** c_set.c 57-60 *)
  Definition c_set_rend (t : tobj K K) (h : theap K) : res ptr := c_tree_rend t h.
  (** c_set.c 62-65 *)
  Definition c_set_empty (t : tobj K K) : bool := c_tree_empty t.
  (** c_set.c 67-70 *)
  Definition c_set_size (t : tobj K K) : nat := c_tree_size t.
  (** c_set.c 77-80 *)
  Definition c_set_clear (t : tobj K K) (h : theap K) : res (theap K * tobj K K) := c_tree_clear t h.
  (** c_set.c 82-85 *)
  Definition c_set_insert_value (t : tobj K K) (h : theap K) (v : vref K) : res (theap K * tobj K K * ptr) := c_tree_insert_unique_value alloc t h v.
  (** c_set.c 87-90 *)
  Definition c_set_insert (t : tobj K K) (h : theap K) (hint : ptr) (v : vref K) : res (theap K * tobj K K * ptr) := c_tree_insert_unique alloc t h hint v.
  (** c_set.c 92-97 *)
  Definition c_set_insert_range (t : tobj K K) (h : theap K) (vs : list K) : res (theap K * tobj K K) := c_tree_insert_unique_range alloc t h vs.
  (** c_set.c 99-102 *)
  Definition c_set_insert_from (t : tobj K K) (h : theap K) (vs : list K) : res (theap K * tobj K K) := c_tree_insert_unique_from alloc t h vs.
  (** c_set.c 104-107 *)
  Definition c_set_erase (t : tobj K K) (h : theap K) (pos : ptr) : res (theap K * tobj K K * ptr) := c_tree_erase t h pos.
  (** c_set.c 109-112 *)
  Definition c_set_erase_key (t : tobj K K) (h : theap K) (k : kref K) : res (theap K * tobj K K * nat) := c_tree_erase_key t h k.
  (** c_set.c 114-117 *)
  Definition c_set_erase_range (t : tobj K K) (h : theap K) (first last : ptr) : res (theap K * tobj K K) := c_tree_erase_range t h first last.
  (** c_set.c 119-122 *)
  Definition c_set_erase_from (t : tobj K K) (h : theap K) (ks : list K) (ksize vsize : nat) : res (theap K * tobj K K) := c_tree_erase_from t h ks ksize vsize.
  (** c_set.c 124-127 *)
  Definition c_set_swap (t t' : tobj K K) : tobj K K * tobj K K := c_tree_swap t t'.
  (** c_set.c 129-132 *)
  Definition c_set_find (t : tobj K K) (h : theap K) (k : kref K) : res ptr := c_tree_find t h k.
  (** c_set.c 134-137 *)
  Definition c_set_count (t : tobj K K) (h : theap K) (k : kref K) : res nat := c_tree_count t h k.
  (** c_set.c 139-142 *)
  Definition c_set_lower_bound (t : tobj K K) (h : theap K) (k : kref K) : res ptr := c_tree_lower_bound t h k.
  (** c_set.c 144-147 *)
  Definition c_set_upper_bound (t : tobj K K) (h : theap K) (k : kref K) : res ptr := c_tree_upper_bound t h k.
  (** c_set.c 149-154 *)
  Definition c_set_equal_range (t : tobj K K) (h : theap K) (k : kref K) : res (ptr * ptr) := c_tree_equal_range t h k.
  (** c_set.c 157-160 *)
  Definition c_multiset_create (h : theap K) (comp : K -> K -> bool) : theap K * tobj K K := c_tree_create alloc h comp id.
  (** c_set.c 162-165 *)
  Definition c_multiset_destroy (t : tobj K K) (h : theap K) : res (theap K) := c_tree_destroy t h.
  (** c_set.c 167-170 *)
  Definition c_multiset_begin (t : tobj K K) (h : theap K) : res ptr := c_tree_begin t h.
  (** c_set.c 172-175 *)
  Definition c_multiset_rbegin (t : tobj K K) : ptr := c_tree_rbegin t.
  (** c_set.c 177-180 *)
  Definition c_multiset_end (t : tobj K K) : ptr := c_tree_end t.
  (** c_set.c 182-185 *)
  Definition c_multiset_rend (t : tobj K K) (h : theap K) : res ptr := c_tree_rend t h.
  (** c_set.c 187-190 *)
  Definition c_multiset_empty (t : tobj K K) : bool := c_tree_empty t.
  (** c_set.c 192-195 *)
  Definition c_multiset_size (t : tobj K K) : nat := c_tree_size t.
  (** c_set.c 202-205 *)
  Definition c_multiset_clear (t : tobj K K) (h : theap K) : res (theap K * tobj K K) := c_tree_clear t h.
  (** c_set.c 207-210 *)
  Definition c_multiset_insert_value (t : tobj K K) (h : theap K) (v : vref K) : res (theap K * tobj K K * ptr) := c_tree_insert_equal_value alloc t h v.
  (** c_set.c 212-217 *)
  Definition c_multiset_insert (t : tobj K K) (h : theap K) (hint : ptr) (v : vref K) : res (theap K * tobj K K * ptr) := c_tree_insert_equal alloc t h hint v.
  (** c_set.c 219-224 *)
  Definition c_multiset_insert_range (t : tobj K K) (h : theap K) (vs : list K) : res (theap K * tobj K K) := c_tree_insert_equal_range alloc t h vs.
  (** c_set.c 226-229 *)
  Definition c_multiset_insert_from (t : tobj K K) (h : theap K) (vs : list K) : res (theap K * tobj K K) := c_tree_insert_equal_from alloc t h vs.
  (** c_set.c 231-234 *)
  Definition c_multiset_erase (t : tobj K K) (h : theap K) (pos : ptr) : res (theap K * tobj K K * ptr) := c_tree_erase t h pos.
  (** c_set.c 236-239 *)
  Definition c_multiset_erase_key (t : tobj K K) (h : theap K) (k : kref K) : res (theap K * tobj K K * nat) := c_tree_erase_key t h k.
  (** c_set.c 241-246 *)
  Definition c_multiset_erase_range (t : tobj K K) (h : theap K) (first last : ptr) : res (theap K * tobj K K) := c_tree_erase_range t h first last.
  (** c_set.c 248-251 *)
  Definition c_multiset_erase_from (t : tobj K K) (h : theap K) (ks : list K) (ksize vsize : nat) : res (theap K * tobj K K) := c_tree_erase_from t h ks ksize vsize.
  (** c_set.c 253-256 *)
  Definition c_multiset_swap (t t' : tobj K K) : tobj K K * tobj K K := c_tree_swap t t'.
  (** c_set.c 258-261 *)
  Definition c_multiset_find (t : tobj K K) (h : theap K) (k : kref K) : res ptr := c_tree_find t h k.
  (** c_set.c 263-266 *)
  Definition c_multiset_count (t : tobj K K) (h : theap K) (k : kref K) : res nat := c_tree_count t h k.
  (** c_set.c 268-271 *)
  Definition c_multiset_lower_bound (t : tobj K K) (h : theap K) (k : kref K) : res ptr := c_tree_lower_bound t h k.
  (** c_set.c 273-276 *)
  Definition c_multiset_upper_bound (t : tobj K K) (h : theap K) (k : kref K) : res ptr := c_tree_upper_bound t h k.
  (** c_set.c 278-283 *)
  Definition c_multiset_equal_range (t : tobj K K) (h : theap K) (k : kref K) : res (ptr * ptr) := c_tree_equal_range t h k.
End sets.
Section maps.
  Context {K T : Type} (alloc : gmap loc (tnode (K * T)) -> loc).
  (** c_map.c 31-34, include/c_internal.h 102-105 *)
  Definition key_of_pair (p : K * T) : K := fst p.
  (** c_map.c 37-41 *)
  Definition c_map_create (h : theap (K * T)) (comp : K -> K -> bool) : theap (K * T) * tobj K (K * T) := c_tree_create alloc h comp key_of_pair.
  (** c_map.c 43-46 *)
  Definition c_map_destroy (t : tobj K (K * T)) (h : theap (K * T)) : res (theap (K * T)) := c_tree_destroy t h.
  (** c_map.c 48-51 *)
  Definition c_map_begin (t : tobj K (K * T)) (h : theap (K * T)) : res ptr := c_tree_begin t h.
  (** c_map.c 53-56 *)
  Definition c_map_rbegin (t : tobj K (K * T)) : ptr := c_tree_rbegin t.
  (** c_map.c 58-61 *)
  Definition c_map_end (t : tobj K (K * T)) : ptr := c_tree_end t.
  (** c_map.c 63-66 *)
  Definition c_map_rend (t : tobj K (K * T)) (h : theap (K * T)) : res ptr := c_tree_rend t h.
  (** c_map.c 68-71 *)
  Definition c_map_empty (t : tobj K (K * T)) : bool := c_tree_empty t.
  (** c_map.c 73-76 *)
  Definition c_map_size (t : tobj K (K * T)) : nat := c_tree_size t.
  (** c_map.c 83-86 *)
  Definition c_map_clear (t : tobj K (K * T)) (h : theap (K * T)) : res (theap (K * T) * tobj K (K * T)) := c_tree_clear t h.
  (** c_map.c 88-91 *)
  Definition c_map_insert_value (t : tobj K (K * T)) (h : theap (K * T)) (v : vref (K * T)) : res (theap (K * T) * tobj K (K * T) * ptr) := c_tree_insert_unique_value alloc t h v.
  (** c_map.c 93-96 *)
  Definition c_map_insert (t : tobj K (K * T)) (h : theap (K * T)) (hint : ptr) (v : vref (K * T)) : res (theap (K * T) * tobj K (K * T) * ptr) := c_tree_insert_unique alloc t h hint v.
  (** c_map.c 98-103 *)
  Definition c_map_insert_range (t : tobj K (K * T)) (h : theap (K * T)) (vs : list (K * T)) : res (theap (K * T) * tobj K (K * T)) := c_tree_insert_unique_range alloc t h vs.
  (** c_map.c 105-108 *)
  Definition c_map_insert_from (t : tobj K (K * T)) (h : theap (K * T)) (vs : list (K * T)) : res (theap (K * T) * tobj K (K * T)) := c_tree_insert_unique_from alloc t h vs.
  (** c_map.c 110-113 *)
  Definition c_map_erase (t : tobj K (K * T)) (h : theap (K * T)) (pos : ptr) : res (theap (K * T) * tobj K (K * T) * ptr) := c_tree_erase t h pos.
  (** c_map.c 115-118 *)
  Definition c_map_erase_key (t : tobj K (K * T)) (h : theap (K * T)) (k : kref K) : res (theap (K * T) * tobj K (K * T) * nat) := c_tree_erase_key t h k.
  (** c_map.c 120-123 *)
  Definition c_map_erase_range (t : tobj K (K * T)) (h : theap (K * T)) (first last : ptr) : res (theap (K * T) * tobj K (K * T)) := c_tree_erase_range t h first last.
  (** c_map.c 125-128 *)
  Definition c_map_erase_from (t : tobj K (K * T)) (h : theap (K * T)) (ks : list K) (ksize vsize : nat) : res (theap (K * T) * tobj K (K * T)) := c_tree_erase_from t h ks ksize vsize.
  (** c_map.c 130-133 *)
  Definition c_map_swap (t t' : tobj K (K * T)) : tobj K (K * T) * tobj K (K * T) := c_tree_swap t t'.
  (** c_map.c 135-138 *)
  Definition c_map_find (t : tobj K (K * T)) (h : theap (K * T)) (k : kref K) : res ptr := c_tree_find t h k.
  (** c_map.c 140-143 *)
  Definition c_map_count (t : tobj K (K * T)) (h : theap (K * T)) (k : kref K) : res nat := c_tree_count t h k.
  (** c_map.c 145-148 *)
  Definition c_map_lower_bound (t : tobj K (K * T)) (h : theap (K * T)) (k : kref K) : res ptr := c_tree_lower_bound t h k.
  (** c_map.c 150-153 *)
  Definition c_map_upper_bound (t : tobj K (K * T)) (h : theap (K * T)) (k : kref K) : res ptr := c_tree_upper_bound t h k.
  (** c_map.c 155-160 *)
  Definition c_map_equal_range (t : tobj K (K * T)) (h : theap (K * T)) (k : kref K) : res (ptr * ptr) := c_tree_equal_range t h k.
  (** c_map.c 163-166 *)
  Definition c_multimap_create (h : theap (K * T)) (comp : K -> K -> bool) : theap (K * T) * tobj K (K * T) := c_tree_create alloc h comp key_of_pair.
  (** c_map.c 168-171 *)
  Definition c_multimap_destroy (t : tobj K (K * T)) (h : theap (K * T)) : res (theap (K * T)) := c_tree_destroy t h.
  (** c_map.c 173-176 *)
  Definition c_multimap_begin (t : tobj K (K * T)) (h : theap (K * T)) : res ptr := c_tree_begin t h.
  (** c_map.c 178-181 *)
  Definition c_multimap_rbegin (t : tobj K (K * T)) : ptr := c_tree_rbegin t.
  (** c_map.c 183-186 *)
  Definition c_multimap_end (t : tobj K (K * T)) : ptr := c_tree_end t.
  (** c_map.c 188-191 *)
  Definition c_multimap_rend (t : tobj K (K * T)) (h : theap (K * T)) : res ptr := c_tree_rend t h.
  (** c_map.c 193-196 *)
  Definition c_multimap_empty (t : tobj K (K * T)) : bool := c_tree_empty t.
  (** c_map.c 198-201 *)
  Definition c_multimap_size (t : tobj K (K * T)) : nat := c_tree_size t.
  (** c_map.c 208-211 *)
  Definition c_multimap_clear (t : tobj K (K * T)) (h : theap (K * T)) : res (theap (K * T) * tobj K (K * T)) := c_tree_clear t h.
  (** c_map.c 213-216 *)
  Definition c_multimap_insert_value (t : tobj K (K * T)) (h : theap (K * T)) (v : vref (K * T)) : res (theap (K * T) * tobj K (K * T) * ptr) := c_tree_insert_equal_value alloc t h v.
  (** c_map.c 218-223 *)
  Definition c_multimap_insert (t : tobj K (K * T)) (h : theap (K * T)) (hint : ptr) (v : vref (K * T)) : res (theap (K * T) * tobj K (K * T) * ptr) := c_tree_insert_equal alloc t h hint v.
  (** c_map.c 225-230 *)
  Definition c_multimap_insert_range (t : tobj K (K * T)) (h : theap (K * T)) (vs : list (K * T)) : res (theap (K * T) * tobj K (K * T)) := c_tree_insert_equal_range alloc t h vs.
  (** c_map.c 232-235 *)
  Definition c_multimap_insert_from (t : tobj K (K * T)) (h : theap (K * T)) (vs : list (K * T)) : res (theap (K * T) * tobj K (K * T)) := c_tree_insert_equal_from alloc t h vs.
  (** c_map.c 237-240 *)
  Definition c_multimap_erase (t : tobj K (K * T)) (h : theap (K * T)) (pos : ptr) : res (theap (K * T) * tobj K (K * T) * ptr) := c_tree_erase t h pos.
  (** c_map.c 242-245 *)
  Definition c_multimap_erase_key (t : tobj K (K * T)) (h : theap (K * T)) (k : kref K) : res (theap (K * T) * tobj K (K * T) * nat) := c_tree_erase_key t h k.
  (** c_map.c 247-252 *)
  Definition c_multimap_erase_range (t : tobj K (K * T)) (h : theap (K * T)) (first last : ptr) : res (theap (K * T) * tobj K (K * T)) := c_tree_erase_range t h first last.
  (** c_map.c 254-257 *)
  Definition c_multimap_erase_from (t : tobj K (K * T)) (h : theap (K * T)) (ks : list K) (ksize vsize : nat) : res (theap (K * T) * tobj K (K * T)) := c_tree_erase_from t h ks ksize vsize.
  (** c_map.c 259-262 *)
  Definition c_multimap_swap (t t' : tobj K (K * T)) : tobj K (K * T) * tobj K (K * T) := c_tree_swap t t'.
  (** c_map.c 264-267 *)
  Definition c_multimap_find (t : tobj K (K * T)) (h : theap (K * T)) (k : kref K) : res ptr := c_tree_find t h k.
  (** c_map.c 269-272 *)
  Definition c_multimap_count (t : tobj K (K * T)) (h : theap (K * T)) (k : kref K) : res nat := c_tree_count t h k.
  (** c_map.c 274-277 *)
  Definition c_multimap_lower_bound (t : tobj K (K * T)) (h : theap (K * T)) (k : kref K) : res ptr := c_tree_lower_bound t h k.
  (** c_map.c 279-282 *)
  Definition c_multimap_upper_bound (t : tobj K (K * T)) (h : theap (K * T)) (k : kref K) : res ptr := c_tree_upper_bound t h k.
  (** c_map.c 284-289 *)
  Definition c_multimap_equal_range (t : tobj K (K * T)) (h : theap (K * T)) (k : kref K) : res (ptr * ptr) := c_tree_equal_range t h k.
End maps.

(** the functions of one kind of container *)
Record dict_api (K V : Type) := Api {
  a_create : theap V -> (K -> K -> bool) -> theap V * tobj K V;
  a_destroy : tobj K V -> theap V -> res (theap V);
  a_begin : tobj K V -> theap V -> res ptr; a_end : tobj K V -> ptr;
  a_empty : tobj K V -> bool; a_size : tobj K V -> nat;
  a_clear : tobj K V -> theap V -> res (theap V * tobj K V);
  a_insert_value : tobj K V -> theap V -> vref V -> res (theap V * tobj K V * ptr);
  a_insert : tobj K V -> theap V -> ptr -> vref V -> res (theap V * tobj K V * ptr);
  a_insert_range : tobj K V -> theap V -> list V -> res (theap V * tobj K V);
  a_erase : tobj K V -> theap V -> ptr -> res (theap V * tobj K V * ptr);
  a_erase_key : tobj K V -> theap V -> kref K -> res (theap V * tobj K V * nat);
  a_swap : tobj K V -> tobj K V -> tobj K V * tobj K V;
  a_find : tobj K V -> theap V -> kref K -> res ptr;
  a_count : tobj K V -> theap V -> kref K -> res nat;
  a_lower_bound : tobj K V -> theap V -> kref K -> res ptr;
  a_upper_bound : tobj K V -> theap V -> kref K -> res ptr;
  a_equal_range : tobj K V -> theap V -> kref K -> res (ptr * ptr);
  a_rbegin : tobj K V -> ptr; a_rend : tobj K V -> theap V -> res ptr;
  a_insert_from : tobj K V -> theap V -> list V -> res (theap V * tobj K V);
  a_erase_range : tobj K V -> theap V -> ptr -> ptr -> res (theap V * tobj K V);
  a_erase_from : tobj K V -> theap V -> list K -> nat -> nat -> res (theap V * tobj K V) }.
Global Arguments Api {K V}.
Global Arguments a_create {K V}.
Global Arguments a_destroy {K V}.
Global Arguments a_begin {K V}.
Global Arguments a_end {K V}.
Global Arguments a_empty {K V}.
Global Arguments a_size {K V}.
Global Arguments a_clear {K V}.
Global Arguments a_insert_value {K V}.
Global Arguments a_insert {K V}.
Global Arguments a_insert_range {K V}.
Global Arguments a_erase {K V}.
Global Arguments a_erase_key {K V}.
Global Arguments a_swap {K V}.
Global Arguments a_find {K V}.
Global Arguments a_count {K V}.
Global Arguments a_lower_bound {K V}.
Global Arguments a_upper_bound {K V}.
Global Arguments a_equal_range {K V}.
Global Arguments a_rbegin {K V}.
Global Arguments a_rend {K V}.
Global Arguments a_insert_from {K V}.
Global Arguments a_erase_range {K V}.
Global Arguments a_erase_from {K V}.
Definition set_api {K} (alloc : gmap loc (tnode K) -> loc) : dict_api K K :=
  Api (c_set_create alloc) c_set_destroy c_set_begin c_set_end c_set_empty c_set_size c_set_clear (c_set_insert_value alloc) (c_set_insert alloc) (c_set_insert_range alloc) c_set_erase c_set_erase_key c_set_swap c_set_find c_set_count c_set_lower_bound
    c_set_upper_bound c_set_equal_range c_set_rbegin c_set_rend (c_set_insert_from alloc) c_set_erase_range c_set_erase_from.
Definition multiset_api {K} (alloc : gmap loc (tnode K) -> loc) : dict_api K K :=
  Api (c_multiset_create alloc) c_multiset_destroy c_multiset_begin c_multiset_end c_multiset_empty c_multiset_size c_multiset_clear (c_multiset_insert_value alloc) (c_multiset_insert alloc) (c_multiset_insert_range alloc) c_multiset_erase c_multiset_erase_key c_multiset_swap c_multiset_find c_multiset_count c_multiset_lower_bound
    c_multiset_upper_bound c_multiset_equal_range c_multiset_rbegin c_multiset_rend (c_multiset_insert_from alloc) c_multiset_erase_range c_multiset_erase_from.
Definition map_api {K T} (alloc : gmap loc (tnode (K * T)) -> loc) : dict_api K (K * T) :=
  Api (c_map_create alloc) c_map_destroy c_map_begin c_map_end c_map_empty c_map_size c_map_clear (c_map_insert_value alloc) (c_map_insert alloc) (c_map_insert_range alloc) c_map_erase c_map_erase_key c_map_swap c_map_find c_map_count c_map_lower_bound
    c_map_upper_bound c_map_equal_range c_map_rbegin c_map_rend (c_map_insert_from alloc) c_map_erase_range c_map_erase_from.
Definition multimap_api {K T} (alloc : gmap loc (tnode (K * T)) -> loc) : dict_api K (K * T) :=
  Api (c_multimap_create alloc) c_multimap_destroy c_multimap_begin c_multimap_end c_multimap_empty c_multimap_size c_multimap_clear (c_multimap_insert_value alloc) (c_multimap_insert alloc) (c_multimap_insert_range alloc) c_multimap_erase c_multimap_erase_key c_multimap_swap c_multimap_find c_multimap_count c_multimap_lower_bound
    c_multimap_upper_bound c_multimap_equal_range c_multimap_rbegin c_multimap_rend (c_multimap_insert_from alloc) c_multimap_erase_range c_multimap_erase_from.

(** ** A client with any number of containers of one kind *)
Section run.
  Context {K V : Type} (api : dict_api K V).
  Implicit Types (h : theap V) (t : tobj K V) (env : list (tobj K V)).
  Definition dhandle env (i : nat) : res (tobj K V) := match env !! i with Some t => Ok t | None => UB end.
  Definition don env (i : nat) (f : tobj K V -> res (theap V * tobj K V)) : res (theap V * list (tobj K V)) :=
    do t <- dhandle env i; do (h', t') <- f t; Ok (h', <[i := t']> env).
  Definition dop_run (st : theap V * list (tobj K V)) (o : dop K V) : res (theap V * list (tobj K V)) :=
    let (h, env) := st in
    match o with
    | DCreate comp => let (h', t) := a_create api h comp in Ok (h', env ++ [t])
    | DDestroy i => do t <- dhandle env i; do h' <- a_destroy api t h; Ok (h', delete i env)
    | DSwap i j => do t <- dhandle env i; do t' <- dhandle env j;
        let (a, b) := a_swap api t t' in Ok (h, <[j := b]> (<[i := a]> env))
    | DClear i => don env i (fun t => a_clear api t h)
    | DInsert i v => don env i (fun t => do (h', t', _) <- a_insert_value api t h (RVal v); Ok (h', t'))
    | DInsertHint i k v => don env i (fun t => do p <- a_lower_bound api t h (KVal k);
        do (h', t', _) <- a_insert api t h p (RVal v); Ok (h', t'))
    | DInsertAll i vs => don env i (fun t => a_insert_range api t h vs)
    | DEraseKey i k => don env i (fun t => do (h', t', _) <- a_erase_key api t h (KVal k); Ok (h', t'))
    | DEraseFound i k => don env i (fun t => do p <- a_find api t h (KVal k);
        if decide (p = a_end api t) then Ok (h, t) else do (h', t', _) <- a_erase api t h p; Ok (h', t'))
    | DInsertFrom i vs => don env i (fun t => a_insert_from api t h vs)
    | DEraseEqual i k => don env i (fun t => do (p, q) <- a_equal_range api t h (KVal k); a_erase_range api t h p q)
    | DEraseBetween i k k' => don env i (fun t => do p <- a_lower_bound api t h (KVal k); do q <- a_lower_bound api t h (KVal k');
        a_erase_range api t h p q)
    | DEraseAbove i k => don env i (fun t => do p <- a_upper_bound api t h (KVal k); a_erase_range api t h p (a_end api t))
    | DEraseFrom i ks sz => don env i (fun t => a_erase_from api t h ks (S sz) (S sz))
    end.
  Fixpoint dhist_run (st : theap V * list (tobj K V)) (os : list (dop K V)) : res (theap V * list (tobj K V)) :=
    match os with [] => Ok st | o :: os' => do st' <- dop_run st o; dhist_run st' os' end.
  (** from one position to another with ++ *)
  Definition a_between t h (p q : ptr) : res (list V) := do ps <- walk_loop (tfuel (mem h)) (mem h) p q; Ok ps.*2.
  (** rbegin() to rend() with ++: the elements in reverse order *)
  Definition a_rwalk t h : res (list V) := do e <- a_rend api t h; rwalk_loop (tfuel (mem h)) (mem h) (a_rbegin api t) e.
  (** begin() to end() with ++: the elements in order *)
  Definition a_walk t h : res (list (ptr * V)) :=
    do b <- a_begin api t h; walk_loop (tfuel (mem h)) (mem h) b (a_end api t).

  (** Maps and multimaps allocate a pair for every element; c_pair_copy asserts that the component pointers of the
      block malloc returned are null (c_pair.c 70-71).  [clean n]: they are in the [n]-th such block. *)
  Context (clean : nat -> bool).
  Definition total env : nat := sum_list (map cnt env).
  (** the containers only grow by insertions: the number of pairs an operation allocates *)
  Definition pairs_made (o : dop K V) env env' : nat :=
    match o with DInsert _ _ | DInsertHint _ _ _ | DInsertAll _ _ | DInsertFrom _ _ => total env' - total env | _ => 0 end.
  Definition mop_run (st : nat * (theap V * list (tobj K V))) (o : dop K V) : res (nat * (theap V * list (tobj K V))) :=
    do st' <- dop_run st.2 o;
    let n := pairs_made o st.2.2 st'.2 in
    if forallb clean (seq st.1 n) then Ok (st.1 + n, st') else UB.
  Fixpoint mhist_run (st : nat * (theap V * list (tobj K V))) (os : list (dop K V)) : res (nat * (theap V * list (tobj K V))) :=
    match os with [] => Ok st | o :: os' => do st' <- mop_run st o; mhist_run st' os' end.
End run.

(** ** What a client observes *)
Section obs.
  Context {K V : Type} (api : dict_api K V) (key : V -> K).
  (** the observers of the container [t] show the abstract container [d]: iteration is sorted by key and lists, for
      each key, exactly its elements; count, find, size, empty and the result of erase_key agree *)
  Definition dict_sees (h : theap V) (t : tobj K V) (d : dict K V) : Prop :=
    (exists ps, a_walk api t h = Ok ps /\ sorted (d_comp d) (key <$> ps.*2) /\
       (forall k, List.filter (fun w => equivb (d_comp d) k (key w)) ps.*2 = d_at d k) /\
       a_size api t = length ps /\ a_empty api t = (length ps =? 0)) /\
    (forall k, a_count api t h (KVal k) = Ok (length (d_at d k))) /\
    (forall k, match d_at d k with
               | [] => a_find api t h (KVal k) = Ok (a_end api t)
               | l => exists p w, a_find api t h (KVal k) = Ok p /\ p <> a_end api t /\ valof (mem h) p = Ok w /\ w ∈ l
               end) /\
    (forall k, exists h' t', a_erase_key api t h (KVal k) = Ok (h', t', length (d_at d k))).
  (** ... and so do reverse iteration and the bounds: for every key [k], the positions lower_bound(k) and upper_bound(k),
      which equal_range(k) returns too, cut the sequence of elements into those with a smaller key, those with an
      equivalent key and those with a greater key *)
  Definition dict_bounds (h : theap V) (t : tobj K V) (d : dict K V) : Prop :=
    exists l, (do ps <- a_walk api t h; Ok ps.*2) = Ok l /\ a_rwalk api t h = Ok (rev l) /\
    forall k, exists b p q below above, a_begin api t h = Ok b /\
      a_lower_bound api t h (KVal k) = Ok p /\ a_upper_bound api t h (KVal k) = Ok q /\ a_equal_range api t h (KVal k) = Ok (p, q) /\
      a_between t h b p = Ok below /\ a_between t h p q = Ok (d_at d k) /\ a_between t h q (a_end api t) = Ok above /\
      l = below ++ d_at d k ++ above /\
      (forall w, w ∈ below -> d_comp d (key w) k = true) /\ (forall w, w ∈ above -> d_comp d k (key w) = true).
End obs.
