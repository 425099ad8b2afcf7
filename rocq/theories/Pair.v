(** Pair.v — model of /repo/container/c_pair.c.  A pair is a block of four words: the two component types and the
    two pointers to separately allocated components (include/c_def.h, c_pair_t, 226-231).  The build does not define NDEBUG:
    a failed assert aborts and is modelled as [UB]. *)
From Verif Require Import Base Spec SpecPair DList.
From stdpp Require Import list gmap.
Local Notation ptr := (option loc).

(** c_type_info_t (include/c_def.h): the operations c_pair.c calls.  [ti_copy]/[ti_assign] copy the value (simplified:
    a component type's own copy and assign are faithful); [ti_new] is the value its create function stores;
    allocate/deallocate are malloc/free (include/c_internal.h 207-227). *)
Record tinfo (A : Type) := TInfo { ti_new : A; ti_less : A -> A -> bool; ti_equal : A -> A -> bool }.
Global Arguments TInfo {A}.
Global Arguments ti_new {A}.
Global Arguments ti_less {A}.
Global Arguments ti_equal {A}.
Record pblock (A : Type) := PBlock { p_type1 : option (tinfo A); p_type2 : option (tinfo A); p_first : ptr; p_second : ptr }.
Global Arguments PBlock {A}.
Global Arguments p_type1 {A}.
Global Arguments p_type2 {A}.
Global Arguments p_first {A}.
Global Arguments p_second {A}.

Section pair.
  (** the components' memory: a live cell is raw ([None]) or holds a value.  [alloc] is malloc, which may fail. *)
  Context {A : Type} (alloc : gmap loc (option A) -> option loc).
  Notation cells := (gmap loc (option A)).
  Implicit Types (m : cells) (p : ptr) (b : pblock A).
  Definition assert_ (c : bool) : res unit := if c then Ok () else UB.
  Definition nonnull {B} (p : option B) : res B := match p with Some x => Ok x | None => UB end.
  Definition is_null {B} (p : option B) : bool := match p with Some _ => false | None => true end.
  (** malloc (c_internal.h 207-216) *)
  Definition pc_allocate m : cells * ptr := match alloc m with Some x => (<[x := None]> m, Some x) | None => (m, None) end.
  (** free through __c_deallocate and __c_free (c_internal.h 113-119, 218-227): null is ignored; only the
      parameter is set to null, not the caller's pointer *)
  Definition pc_deallocate m p : res cells :=
    match p with None => Ok m | Some x => match m !! x with Some _ => Ok (delete x m) | None => UB end end.
  (** a component type's own functions, called on a component *)
  Definition pc_read m p : res A := do x <- nonnull p; match m !! x with Some (Some v) => Ok v | _ => UB end.
  Definition pc_create (t : tinfo A) m p : res cells :=
    do x <- nonnull p; match m !! x with Some _ => Ok (<[x := Some (ti_new t)]> m) | None => UB end.
  Definition pc_copy m p (q : ptr) : res cells :=
    do v <- pc_read m q; do x <- nonnull p; match m !! x with Some _ => Ok (<[x := Some v]> m) | None => UB end.
  Definition pc_destroy m p : res cells :=
    do x <- nonnull p; match m !! x with Some (Some _) => Ok (<[x := None]> m) | _ => UB end.
  Definition pc_assign m p (q : ptr) : res cells :=
    do v <- pc_read m q; do x <- nonnull p; match m !! x with Some (Some _) => Ok (<[x := Some v]> m) | _ => UB end.

  (** c_pair_create, c_pair.c 40-60 *)
  Definition c_pair_create m b : res (cells * pblock A) :=
    do _ <- assert_ (is_null (p_first b)); do _ <- assert_ (is_null (p_second b));
    do t1 <- nonnull (p_type1 b); do t2 <- nonnull (p_type2 b);
    let (m1, p1) := pc_allocate m in let (m2, p2) := pc_allocate m1 in
    let b' := PBlock (p_type1 b) (p_type2 b) p1 p2 in
    if is_null p1 || is_null p2 then
      do m3 <- pc_deallocate m2 p1; do m4 <- pc_deallocate m3 p2; Ok (m4, b')
    else
      do m3 <- pc_create t1 m2 p1; do m4 <- pc_create t2 m3 p2; Ok (m4, b').
  (** c_pair_copy, c_pair.c 62-86: [dst] is the block as malloc returned it *)
  Definition c_pair_copy m (dst src : pblock A) : res (cells * pblock A) :=
    let t1 := p_type1 src in let t2 := p_type2 src in
    do _ <- assert_ (is_null (p_first dst)); do _ <- assert_ (is_null (p_second dst));
    do _ <- nonnull t1; do _ <- nonnull t2;
    let (m1, p1) := pc_allocate m in let (m2, p2) := pc_allocate m1 in
    let b' := PBlock t1 t2 p1 p2 in
    if is_null p1 || is_null p2 then
      do m3 <- pc_deallocate m2 p1; do m4 <- pc_deallocate m3 p2; Ok (m4, b')
    else
      do m3 <- pc_copy m2 p1 (p_first src); do m4 <- pc_copy m3 p2 (p_second src); Ok (m4, b').
  (** c_pair_destroy, c_pair.c 88-99: the block's fields keep their values *)
  Definition c_pair_destroy m b : res (cells * pblock A) :=
    do _ <- nonnull (p_type1 b); do m1 <- pc_destroy m (p_first b); do m2 <- pc_deallocate m1 (p_first b);
    do _ <- nonnull (p_type2 b); do m3 <- pc_destroy m2 (p_second b); do m4 <- pc_deallocate m3 (p_second b);
    Ok (m4, b).
  (** c_pair_assign, c_pair.c 101-111 *)
  Definition c_pair_assign m (dst src : pblock A) : res cells :=
    do _ <- nonnull (p_type1 dst); do m1 <- pc_assign m (p_first dst) (p_first src);
    do _ <- nonnull (p_type2 dst); pc_assign m1 (p_second dst) (p_second src).
  (** c_pair_less, c_pair.c 113-121: && and || evaluate left to right and stop early *)
  Definition c_pair_less m (x y : pblock A) : res bool :=
    do t1 <- nonnull (p_type1 x); do t2 <- nonnull (p_type2 x);
    do x1 <- pc_read m (p_first x); do y1 <- pc_read m (p_first y);
    if ti_less t1 x1 y1 then Ok true else
    if negb (ti_less t1 y1 x1) then
      do x2 <- pc_read m (p_second x); do y2 <- pc_read m (p_second y); Ok (ti_less t2 x2 y2)
    else Ok false.
  (** c_pair_equal, c_pair.c 123-130 *)
  Definition c_pair_equal m (x y : pblock A) : res bool :=
    do t1 <- nonnull (p_type1 x); do t2 <- nonnull (p_type2 x);
    do x1 <- pc_read m (p_first x); do y1 <- pc_read m (p_first y);
    if ti_equal t1 x1 y1 then
      do x2 <- pc_read m (p_second x); do y2 <- pc_read m (p_second y); Ok (ti_equal t2 x2 y2)
    else Ok false.
  (** c_make_pair, c_pair.c 147-156: refers to the caller's objects *)
  Definition c_make_pair (t1 t2 : tinfo A) (x y : ptr) : pblock A := PBlock (Some t1) (Some t2) x y.

  (** ** A client with any number of pairs of one component type pair.  Literals are the client's own two variables,
      wrapped by c_make_pair; blocks passed to create and copy are zeroed. *)
  Context (t1 t2 : tinfo A).
  Definition zeroed : pblock A := PBlock None None None None.
  Definition phandle (env : list (pblock A)) (i : nat) : res (pblock A) := nonnull (env !! i).
  (** two local variables holding [v1] and [v2] for the duration of [f] *)
  Definition with_locals {B} m (v1 v2 : A) (f : cells -> pblock A -> res (cells * B)) : res (cells * B) :=
    let x := fresh (dom m) in let y := fresh ({[x]} ∪ dom m) in
    do (m', r) <- f (<[y := Some v2]> (<[x := Some v1]> m)) (c_make_pair t1 t2 (Some x) (Some y));
    Ok (delete x (delete y m'), r).
  Definition set_cell m p (v : A) : res cells :=
    do x <- nonnull p; match m !! x with Some (Some _) => Ok (<[x := Some v]> m) | _ => UB end.
  Definition pop_run (st : cells * list (pblock A)) (o : pair_op A) : res (cells * list (pblock A)) :=
    let (m, env) := st in
    match o with
    | PCreate => do (m', b) <- c_pair_create m (PBlock (Some t1) (Some t2) None None); Ok (m', env ++ [b])
    | PCopy i => do s <- phandle env i; do (m', b) <- c_pair_copy m zeroed s; Ok (m', env ++ [b])
    | PCopyOf v1 v2 => do (m', b) <- with_locals m v1 v2 (fun m s => c_pair_copy m zeroed s); Ok (m', env ++ [b])
    | PAssign i j => do d <- phandle env i; do s <- phandle env j; do m' <- c_pair_assign m d s; Ok (m', env)
    | PAssignOf i v1 v2 => do d <- phandle env i;
        do (m', _) <- with_locals m v1 v2 (fun m s => do m' <- c_pair_assign m d s; Ok (m', ())); Ok (m', env)
    | PSetFirst i v => do b <- phandle env i; do m' <- set_cell m (p_first b) v; Ok (m', env)
    | PSetSecond i v => do b <- phandle env i; do m' <- set_cell m (p_second b) v; Ok (m', env)
    | PDestroy i => do b <- phandle env i; do (m', _) <- c_pair_destroy m b; Ok (m', delete i env)
    end.
  Fixpoint phist_run (st : cells * list (pblock A)) (os : list (pair_op A)) : res (cells * list (pblock A)) :=
    match os with [] => Ok st | o :: os' => do st' <- pop_run st o; phist_run st' os' end.

  (** what a client reads through a pair *)
  Definition pair_vals m b : res (A * A) := do v1 <- pc_read m (p_first b); do v2 <- pc_read m (p_second b); Ok (v1, v2).
End pair.

(** malloc returns memory not in use, if any *)
Definition palloc_fresh {A} (alloc : gmap loc (option A) -> option loc) : Prop := forall m x, alloc m = Some x -> m !! x = None.
Definition palloc_total {A} (alloc : gmap loc (option A) -> option loc) : Prop := forall m, alloc m <> None.
