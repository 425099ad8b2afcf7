(** SlistRun.v — a client of c_forward_list.c holding any number of forward list objects: each step calls one
    function.  The client's state is the heap and its list objects.  Positions are obtained as before_begin()
    advanced by an index ([S k] is the element with index [k], or end()), and a value argument may be a reference
    obtained by dereferencing such a position. *)
From Verif Require Import Base Spec SpecSeq SpecListOps SpecSlistOps DList Slist.
From stdpp Require Import list gmap.

Section run.
  Context {A : Type} (dflt : A) (alloc : sheap A -> loc).
  Implicit Types h : sheap A.
  (** c_slist_before_begin (c_forward_list.c 343-347) then iter_advance (110-117) *)
  Definition sposition h (l : sobj) (k : nat) : res loc := siter_advance h l.1 (Z.of_nat k).
  Definition shandle (env : list sobj) (i : nat) : res sobj := match env !! i with Some l => Ok l | None => UB end.
  Definition sarg_ref h (env : list sobj) (v : larg A) : res (lref A) :=
    match v with
    | AVal a => Ok (LVal a)
    | AElem j k => do l <- shandle env j; do x <- sposition h l (S k); Ok (LNode x)
    end.
  Definition son1 h (env : list sobj) (i : nat) (f : sobj -> res (sheap A)) : res (sheap A * list sobj) :=
    do l <- shandle env i; do h' <- f l; Ok (h', env).
  Definition fop_run (st : sheap A * list sobj) (o : fop A) : res (sheap A * list sobj) :=
    let (h, env) := st in
    match o with
    | FCreate => let (h', s) := c_slist_create alloc h in Ok (h', env ++ [s])
    | FCreateFrom vs => do (h', s) <- c_slist_create_from dflt alloc h vs;
        match s with Some s => Ok (h', env ++ [s]) | None => UB end
    | FCopy i => do l <- shandle env i; do (h', s) <- c_slist_copy dflt alloc h l; Ok (h', env ++ [s])
    | FAssign i j => son1 h env i (fun l => do l' <- shandle env j; c_slist_assign dflt alloc h l l')
    | FDestroy i => do l <- shandle env i; do h' <- c_slist_destroy h l; Ok (h', delete i env)
    | FSwap i j => do l <- shandle env i; do l' <- shandle env j;
        let (a, b) := c_slist_swap l l' in Ok (h, <[j := b]> (<[i := a]> env))
    | FPushFront i v => son1 h env i (fun l => do r <- sarg_ref h env v; c_slist_push_front dflt alloc h l r)
    | FPopFront i => son1 h env i (fun l => c_slist_pop_front h l)
    | FInsertAfter i k v => son1 h env i (fun l => do p <- sposition h l k; do r <- sarg_ref h env v;
        do (h', _) <- c_slist_insert_after dflt alloc h p r; Ok h')
    | FEraseAfter i k => son1 h env i (fun l => do p <- sposition h l k; do (h', _) <- c_slist_erase_after h l p; Ok h')
    | FEraseAfterRange i k m => son1 h env i (fun l => do p <- sposition h l k; do q <- sposition h l (S m);
        do (h', _) <- c_slist_erase_after_range h l p q; Ok h')
    | FClear i => son1 h env i (fun l => c_slist_clear h l)
    | FResize i n => son1 h env i (fun l => c_slist_resize dflt alloc h l n)
    | FResizeWith i n v => son1 h env i (fun l => do r <- sarg_ref h env v;
        c_slist_resize_with_value dflt alloc h l n (Some r))
    | FSplice i k j => son1 h env i (fun l => do l' <- shandle env j; do p <- sposition h l k; c_slist_splice_after h p l')
    | FSpliceFrom i k j m => son1 h env i (fun l => do l' <- shandle env j; do p <- sposition h l k;
        do q <- sposition h l' m; c_slist_splice_after_from h p l' q)
    | FSpliceRange i k j m n => son1 h env i (fun l => do l' <- shandle env j; do p <- sposition h l k;
        do q <- sposition h l' m; do r <- sposition h l' (S n); c_slist_splice_after_range h p l' q r)
    | FMerge i j comp => son1 h env i (fun l => do l' <- shandle env j; c_slist_merge_by comp h l l')
    | FSort i comp => do l <- shandle env i; do (h', l') <- c_slist_sort_by alloc comp h l; Ok (h', <[i := l']> env)
    | FReverse i => son1 h env i (fun l => c_slist_reverse h l)
    | FRemove i eqb v => son1 h env i (fun l => do r <- sarg_ref h env v; c_slist_remove eqb h l r)
    | FRemoveIf i p => son1 h env i (fun l => c_slist_remove_if p h l)
    | FUnique i pred => son1 h env i (fun l => c_slist_unique_if pred h l)
    end.
  Fixpoint fhist_run (st : sheap A * list sobj) (os : list (fop A)) : res (sheap A * list sobj) :=
    match os with [] => Ok st | o :: os' => do st' <- fop_run st o; fhist_run st' os' end.
  (** nothing is allocated *)
  Definition sheap0 : sheap A := SHeap ∅ ∅ [].
End run.
