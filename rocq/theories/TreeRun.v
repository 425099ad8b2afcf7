(** TreeRun.v — a client of c_tree.c holding any number of tree objects: each step calls one function.
    Positions are obtained as begin() advanced by an index; a value or key argument may be a reference into an
    element of a tree. *)
From Verif Require Import Base Spec SpecSeq SpecListOps SpecTreeOps DList Tree.
From stdpp Require Import list gmap.

Section run.
  Context {K V : Type} (alloc : gmap loc (tnode V) -> loc).
  Implicit Types (h : theap V) (t : tobj K V) (env : list (tobj K V)).
  (** c_tree_begin (1001-1005) then iter_advance (747-757) *)
  Definition tposition h t (k : nat) : res ptr := do b <- c_tree_begin t h; tree_advance (mem h) b (Z.of_nat k).
  Definition thandle env (i : nat) : res (tobj K V) := match env !! i with Some t => Ok t | None => UB end.
  Definition telem h env (j k : nat) : res loc :=
    do t <- thandle env j; do p <- tposition h t k; match p with Some x => Ok x | None => UB end.
  Definition targ_ref h env (v : larg V) : res (vref V) :=
    match v with AVal a => Ok (RVal a) | AElem j k => do x <- telem h env j k; Ok (RNode x) end.
  Definition karg_ref h env (k : karg K) : res (kref K) :=
    match k with AKey k => Ok (KVal k) | AKeyOf j k => do x <- telem h env j k; Ok (KNode x) end.
  Definition ton h env (i : nat) (f : tobj K V -> res (theap V * tobj K V)) : res (theap V * list (tobj K V)) :=
    do t <- thandle env i; do (h', t') <- f t; Ok (h', <[i := t']> env).
  Definition top_run (st : theap V * list (tobj K V)) (o : tree_op K V) : res (theap V * list (tobj K V)) :=
    let (h, env) := st in
    match o with
    | TCreate comp key => let (h', t) := c_tree_create alloc h comp key in Ok (h', env ++ [t])
    | TDestroy i => do t <- thandle env i; do h' <- c_tree_destroy t h; Ok (h', delete i env)
    | TSwap i j => do t <- thandle env i; do t' <- thandle env j;
        let (a, b) := c_tree_swap t t' in Ok (h, <[j := b]> (<[i := a]> env))
    | TClear i => ton h env i (fun t => c_tree_clear t h)
    | TInsertUnique i v => ton h env i (fun t => do r <- targ_ref h env v;
        do (h', t', _) <- c_tree_insert_unique_value alloc t h r; Ok (h', t'))
    | TInsertEqual i v => ton h env i (fun t => do r <- targ_ref h env v;
        do (h', t', _) <- c_tree_insert_equal_value alloc t h r; Ok (h', t'))
    | TInsertUniqueAt i k v => ton h env i (fun t => do p <- tposition h t k; do r <- targ_ref h env v;
        do (h', t', _) <- c_tree_insert_unique alloc t h p r; Ok (h', t'))
    | TInsertEqualAt i k v => ton h env i (fun t => do p <- tposition h t k; do r <- targ_ref h env v;
        do (h', t', _) <- c_tree_insert_equal alloc t h p r; Ok (h', t'))
    | TInsertUniqueAll i vs => ton h env i (fun t => c_tree_insert_unique_range alloc t h vs)
    | TInsertEqualAll i vs => ton h env i (fun t => c_tree_insert_equal_range alloc t h vs)
    | TErase i k => ton h env i (fun t => do p <- tposition h t k; do (h', t', _) <- c_tree_erase t h p; Ok (h', t'))
    | TEraseRange i k m => ton h env i (fun t => do p <- tposition h t k; do q <- tposition h t m; c_tree_erase_range t h p q)
    | TEraseKey i k => ton h env i (fun t => do r <- karg_ref h env k;
        do (h', t', _) <- c_tree_erase_key t h r; Ok (h', t'))
    end.
  Fixpoint thist_run (st : theap V * list (tobj K V)) (os : list (tree_op K V)) : res (theap V * list (tobj K V)) :=
    match os with [] => Ok st | o :: os' => do st' <- top_run st o; thist_run st' os' end.
  (** nothing is allocated *)
  Definition theap0 : theap V := THeap ∅ [].
End run.
