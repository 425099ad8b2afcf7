(** SlistOom.v — the functions of c_forward_list.c when malloc may fail.

    As Slist.v, with the outcomes of the calls of malloc to come (see DListOom.v).  Functions not listed here never call
    malloc. *)
From Verif Require Import Base Spec SpecSeq SpecListOps SpecSlistOps DList DListOom Slist SlistRun.
From stdpp Require Import list gmap.

(** c_forward_list.c 249-264: three calls of malloc, each only if those before succeeded (and what they gave is freed if
    one fails) *)
Definition outcome3 (orc : list bool) : bool * list bool :=
  let (b, orc) := outcome2 orc in if b then outcome orc else (false, orc).

Section slist.
  Context {A : Type} (dflt : A) (alloc : sheap A -> loc).
  Implicit Types h : sheap A.
  Notation orc := (list bool).

  (** c_forward_list.c 244-272; [None] is the null result *)
  Definition screate_m (r : orc) h : orc * sheap A * option sobj :=
    let (ok, r) := outcome3 r in
    if ok then let (h, s) := c_slist_create alloc h in (r, h, Some s) else (r, h, None).
  (** c_forward_list.c 184-207; [None] is the null result *)
  Definition screate_node_m (r : orc) h (v : option (lref A)) : res (orc * sheap A * option loc) :=
    let (ok, r) := outcome2 r in
    if ok then do (h, x) <- s_create_node dflt alloc h v; Ok (r, h, Some x) else Ok (r, h, None).
  (** c_forward_list.c 389-402: returns [pos] when there is no node (396) *)
  Definition insert_after_m (r : orc) h (pos : loc) (v : lref A) : res (orc * sheap A * loc) :=
    do (r, h, x) <- screate_node_m r h (Some v);
    match x with
    | None => Ok (r, h, pos)
    | Some x => do n <- snext h pos; do h <- set_snext h x n; do h <- set_snext h pos x; Ok (r, h, x)
    end.
  (** c_forward_list.c 423-432 *)
  Definition spush_front_m (r : orc) h (l : sobj) (v : lref A) : res (orc * sheap A) :=
    do (r, h, x) <- screate_node_m r h (Some v);
    match x with
    | None => Ok (r, h)
    | Some x => do n <- snext h l.1; do h <- set_snext h x n; do h <- set_snext h l.1 x; Ok (r, h)
    end.
  (** c_forward_list.c 457-464: the call returns when there is no node (459) *)
  Fixpoint sappend_n_m (r : orc) (n : nat) h (l : sobj) (prev : loc) (v : option (lref A)) : res (orc * sheap A) :=
    match n with
    | 0 => Ok (r, h)
    | S n' => do (r, h, x) <- screate_node_m r h v;
              match x with
              | None => Ok (r, h)
              | Some x => do h <- set_snext h prev x; do h <- set_snext h x l.2; sappend_n_m r n' h l x v
              end
    end.
  (** c_forward_list.c 444-470 *)
  Definition sresize_with_value_m (r : orc) h (l : sobj) (count : nat) (v : option (lref A)) : res (orc * sheap A) :=
    do b <- snext h l.1;
    do (c, prev, x) <- sskip count h l l.1 b;
    match c with
    | 0 => do h <- spop_until (sfuel h) h l prev x; Ok (r, h)
    | _ => sappend_n_m r c h l prev v
    end.
  (** c_forward_list.c 274-289 *)
  Fixpoint sinsert_all_m (r : orc) h (pos : loc) (vs : list A) : res (orc * sheap A) :=
    match vs with [] => Ok (r, h) | a :: vs' => do (r, h, p) <- insert_after_m r h pos (LVal a); sinsert_all_m r h p vs' end.
  Definition screate_from_m (r : orc) h (values : list A) : res (orc * sheap A * option sobj) :=
    match values with
    | [] => Ok (r, h, None)
    | _ => let '(r, h, s) := screate_m r h in
           match s with
           | None => Ok (r, h, None)
           | Some s => do (r, h) <- sinsert_all_m r h s.1 values; Ok (r, h, Some s)
           end
    end.
  (** the loops c_forward_list.c 299-301 and 314-316 *)
  Fixpoint scopy_loop_m (fuel : nat) (r : orc) h (pos : loc) (other : sobj) (x : loc) : res (orc * sheap A) :=
    match fuel with
    | 0 => NoFuel
    | S f => if decide (x = other.2) then Ok (r, h)
             else do (r, h, p) <- insert_after_m r h pos (LNode x); do n <- snext h x; scopy_loop_m f r h p other n
    end.
  (** c_forward_list.c 291-304 *)
  Definition scopy_m (r : orc) h (other : sobj) : res (orc * sheap A * option sobj) :=
    let '(r, h, s) := screate_m r h in
    match s with
    | None => Ok (r, h, None)
    | Some s => do b <- snext h other.1; do (r, h) <- scopy_loop_m (sfuel h) r h s.1 other b; Ok (r, h, Some s)
    end.
  (** c_forward_list.c 306-320 *)
  Definition sassign_m (r : orc) h (self other : sobj) : res (orc * sheap A) :=
    if decide (self = other) then Ok (r, h)
    else do h <- c_slist_clear h self;
         do b <- snext h other.1; scopy_loop_m (sfuel h) r h self.1 other b.
  (** c_forward_list.c 583-587: creating the 64 counters; whether all were created *)
  Fixpoint screate_counters_m (r : orc) (n : nat) h : orc * sheap A * list sobj * bool :=
    match n with
    | 0 => (r, h, [], true)
    | S n' => let '(r, h, c) := screate_m r h in
              match c with
              | None => (r, h, [], false)
              | Some c => let '(r, h, cs, ok) := screate_counters_m r n' h in (r, h, c :: cs, ok)
              end
    end.
  (** c_forward_list.c 576-611 *)
  Definition ssort_by_m (comp : A -> A -> bool) (r : orc) h (l : sobj) : res (orc * sheap A * sobj) :=
    do e <- short h l;
    if (e : bool) then Ok (r, h, l)
    else
      let '(r, h, carry) := screate_m r h in
      match carry with
      | None => Ok (r, h, l)
      | Some carry =>
        let '(r, h, cs, ok) := screate_counters_m r 64 h in
        if negb ok then do h <- sdestroy_all h cs; do h <- c_slist_destroy h carry; Ok (r, h, l)
        else
          do (h, carry, cs, fill) <- ssort_loop comp (sfuel h) h l carry cs 0;
          do h <- smerge_up comp (fill - 1) 1 h cs;
          do c <- sget cs (fill - 1); do cs <- sset cs (fill - 1) l;
          do h <- sdestroy_all h cs;
          do h <- c_slist_destroy h carry;
          Ok (r, h, c)
      end.

  (** ** a client, as in SlistRun.v; it keeps the lists that were created *)
  Definition snew_handle (env : list sobj) (s : option sobj) : list sobj := match s with Some s => env ++ [s] | None => env end.
  Definition son1_m (env : list sobj) (i : nat) (f : sobj -> res (orc * sheap A)) : res (orc * sheap A * list sobj) :=
    do l <- shandle env i; do (r, h) <- f l; Ok (r, h, env).
  Definition fop_run_m (st : orc * sheap A * list sobj) (o : fop A) : res (orc * sheap A * list sobj) :=
    let '(r, h, env) := st in
    match o with
    | FCreate => let '(r, h, s) := screate_m r h in Ok (r, h, snew_handle env s)
    | FCreateFrom vs => do (r, h, s) <- screate_from_m r h vs; Ok (r, h, snew_handle env s)
    | FCopy i => do l <- shandle env i; do (r, h, s) <- scopy_m r h l; Ok (r, h, snew_handle env s)
    | FAssign i j => son1_m env i (fun l => do l' <- shandle env j; sassign_m r h l l')
    | FPushFront i v => son1_m env i (fun l => do a <- sarg_ref h env v; spush_front_m r h l a)
    | FInsertAfter i k v => son1_m env i (fun l => do p <- sposition h l k; do a <- sarg_ref h env v;
        do (r, h, _) <- insert_after_m r h p a; Ok (r, h))
    | FResize i n => son1_m env i (fun l => sresize_with_value_m r h l n None)
    | FResizeWith i n v => son1_m env i (fun l => do a <- sarg_ref h env v; sresize_with_value_m r h l n (Some a))
    | FSort i comp => do l <- shandle env i; do (r, h, l') <- ssort_by_m comp r h l; Ok (r, h, <[i := l']> env)
    | _ => do (h, env) <- fop_run dflt alloc (h, env) o; Ok (r, h, env)
    end.
  Fixpoint fhist_run_m (st : orc * sheap A * list sobj) (os : list (fop A)) : res (orc * sheap A * list sobj) :=
    match os with [] => Ok st | o :: os' => do st' <- fop_run_m st o; fhist_run_m st' os' end.
End slist.
