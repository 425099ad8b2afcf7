(** DListRun.v — a client of c_list.c holding any number of list objects: each step calls one function.
    A list object is its [node] field (the sentinel's location), so the client's state is the heap and the
    sentinels of its lists.  Positions are obtained as begin() advanced by an index, and a value argument may
    be a reference obtained by dereferencing such a position. *)
From Verif Require Import Base Spec SpecSeq SpecListOps DList.
From stdpp Require Import list gmap.

Section run.
  Context {A : Type} (dflt : A) (alloc : heap A -> loc).
  Implicit Types h : heap A.
  (** c_list_begin (642-646) then iter_advance *)
  Definition position h (l : loc) (k : nat) : res loc := do b <- next h l; iter_advance h b (Z.of_nat k).
  Definition handle (env : list loc) (i : nat) : res loc := match env !! i with Some l => Ok l | None => UB end.
  Definition arg_ref h (env : list loc) (v : larg A) : res (lref A) :=
    match v with
    | AVal a => Ok (LVal a)
    | AElem j k => do l <- handle env j; do x <- position h l k; Ok (LNode x)
    end.
  Definition on1 h (env : list loc) (i : nat) (f : loc -> res (heap A)) : res (heap A * list loc) :=
    do l <- handle env i; do h' <- f l; Ok (h', env).
  Definition lop_run (st : heap A * list loc) (o : lop A) : res (heap A * list loc) :=
    let (h, env) := st in
    match o with
    | LCreate => let (h', s) := c_list_create alloc h in Ok (h', env ++ [s])
    | LCreateFrom vs => do (h', s) <- c_list_create_from dflt alloc h vs;
        match s with Some s => Ok (h', env ++ [s]) | None => UB end
    | LCopy i => do l <- handle env i; do (h', s) <- c_list_copy dflt alloc h l; Ok (h', env ++ [s])
    | LAssign i j => on1 h env i (fun l => do l' <- handle env j; c_list_assign dflt alloc h l l')
    | LDestroy i => do l <- handle env i; do h' <- c_list_destroy h l; Ok (h', delete i env)
    | LSwap i j => do l <- handle env i; do l' <- handle env j;
        let (a, b) := c_list_swap l l' in Ok (h, <[j := b]> (<[i := a]> env))
    | LPushBack i v => on1 h env i (fun l => do r <- arg_ref h env v; c_list_push_back dflt alloc h l r)
    | LPushFront i v => on1 h env i (fun l => do r <- arg_ref h env v; c_list_push_front dflt alloc h l r)
    | LPopBack i => on1 h env i (fun l => c_list_pop_back h l)
    | LPopFront i => on1 h env i (fun l => c_list_pop_front h l)
    | LInsert i k v => on1 h env i (fun l => do p <- position h l k; do r <- arg_ref h env v;
        do (h', _) <- c_list_insert dflt alloc h p r; Ok h')
    | LErase i k => on1 h env i (fun l => do p <- position h l k; do (h', _) <- c_list_erase h l p; Ok h')
    | LEraseRange i k m => on1 h env i (fun l => do p <- position h l k; do q <- position h l m;
        do (h', _) <- c_list_erase_range h l p q; Ok h')
    | LClear i => on1 h env i (fun l => c_list_clear h l)
    | LResize i n => on1 h env i (fun l => c_list_resize dflt alloc h l n)
    | LResizeWith i n v => on1 h env i (fun l => do r <- arg_ref h env v;
        c_list_resize_with_value dflt alloc h l n (Some r))
    | LSplice i k j => on1 h env i (fun l => do l' <- handle env j; do p <- position h l k; c_list_splice h p l')
    | LSpliceFrom i k j m => on1 h env i (fun l => do l' <- handle env j; do p <- position h l k;
        do q <- position h l' m; c_list_splice_from h p l' q)
    | LSpliceRange i k j m n => on1 h env i (fun l => do l' <- handle env j; do p <- position h l k;
        do q <- position h l' m; do r <- position h l' n; c_list_splice_range h p l' q r)
    | LMerge i j comp => on1 h env i (fun l => do l' <- handle env j; c_list_merge_by comp h l l')
    | LSort i comp => do l <- handle env i; do (h', l') <- c_list_sort_by alloc comp h l; Ok (h', <[i := l']> env)
    | LReverse i => on1 h env i (fun l => c_list_reverse h l)
    | LRemove i eqb v => on1 h env i (fun l => do r <- arg_ref h env v; c_list_remove eqb h l r)
    | LRemoveIf i p => on1 h env i (fun l => c_list_remove_if p h l)
    | LUnique i pred => on1 h env i (fun l => c_list_unique_if pred h l)
    end.
  Fixpoint lhist_run (st : heap A * list loc) (os : list (lop A)) : res (heap A * list loc) :=
    match os with [] => Ok st | o :: os' => do st' <- lop_run st o; lhist_run st' os' end.
  (** nothing is allocated *)
  Definition heap0 : heap A := Heap ∅ ∅ ∅ [].
End run.
