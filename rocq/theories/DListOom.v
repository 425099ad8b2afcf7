(** DListOom.v — the functions of c_list.c when malloc may fail.

    As DList.v, with the outcomes of the calls of malloc to come ([orc], consumed in order; when it is exhausted malloc
    succeeds).  Functions not listed here never call malloc. *)
From Verif Require Import Base Spec SpecSeq SpecListOps DList DListRun.
From stdpp Require Import list gmap.

(** the outcome of one call of malloc *)
Definition outcome (orc : list bool) : bool * list bool := match orc with [] => (true, []) | b :: r => (b, r) end.
(** two calls, the second only if the first succeeds (and what the first gave is freed if the second fails):
    c_list.c 369-380 (__create_node), 555-562 (c_list_create) *)
Definition outcome2 (orc : list bool) : bool * list bool :=
  let (b, orc) := outcome orc in if b then outcome orc else (false, orc).

Section list.
  Context {A : Type} (dflt : A) (alloc : heap A -> loc).
  Implicit Types h : heap A.
  Notation orc := (list bool).

  (** c_list.c 550-570; [None] is the null result *)
  Definition create_m (r : orc) h : orc * heap A * option loc :=
    let (ok, r) := outcome2 r in
    if ok then let (h, s) := c_list_create alloc h in (r, h, Some s) else (r, h, None).
  (** c_list.c 365-389; [None] is the null result *)
  Definition create_node_m (r : orc) h (v : option (lref A)) : res (orc * heap A * option loc) :=
    let (ok, r) := outcome2 r in
    if ok then do (h, x) <- create_node dflt alloc h v; Ok (r, h, Some x) else Ok (r, h, None).
  (** c_list.c 701-714: returns [pos] when there is no node (706) *)
  Definition insert_m (r : orc) h (pos : loc) (v : lref A) : res (orc * heap A * loc) :=
    do (r, h, x) <- create_node_m r h (Some v);
    match x with None => Ok (r, h, pos) | Some x => do h <- link_before h x pos; Ok (r, h, x) end.
  (** c_list.c 734-745 *)
  Definition push_back_m (r : orc) h (l : loc) (v : lref A) : res (orc * heap A) :=
    do (r, h, x) <- create_node_m r h (Some v);
    match x with None => Ok (r, h) | Some x => do h <- link_before h x l; Ok (r, h) end.
  (** c_list.c 753-764 *)
  Definition push_front_m (r : orc) h (l : loc) (v : lref A) : res (orc * heap A) :=
    do (r, h, x) <- create_node_m r h (Some v);
    match x with
    | None => Ok (r, h)
    | Some x =>
      do n <- next h l; do h <- set_next h x n;
      do h <- set_prev h x l;
      do n <- next h l; do h <- set_prev h n x;
      do h <- set_next h l x; Ok (r, h)
    end.
  (** c_list.c 784-792: the call returns when there is no node (786) *)
  Fixpoint append_n_m (r : orc) (n : nat) h (l : loc) (v : option (lref A)) : res (orc * heap A) :=
    match n with
    | 0 => Ok (r, h)
    | S n' => do (r, h, x) <- create_node_m r h v;
              match x with None => Ok (r, h) | Some x => do h <- link_before h x l; append_n_m r n' h l v end
    end.
  (** c_list.c 776-802 *)
  Definition resize_with_value_m (r : orc) h (l : loc) (count : nat) (v : option (lref A)) : res (orc * heap A) :=
    do b <- next h l;
    do (c, x) <- skip count h l b;
    match c with
    | 0 => do h <- pop_until (fuel_of h) h l x l; Ok (r, h)
    | _ => append_n_m r c h l v
    end.
  (** c_list.c 572-586 *)
  Fixpoint push_all_m (r : orc) h (l : loc) (vs : list A) : res (orc * heap A) :=
    match vs with [] => Ok (r, h) | a :: vs' => do (r, h) <- push_back_m r h l (LVal a); push_all_m r h l vs' end.
  Definition create_from_m (r : orc) h (values : list A) : res (orc * heap A * option loc) :=
    match values with
    | [] => Ok (r, h, None)
    | _ => let '(r, h, s) := create_m r h in
           match s with
           | None => Ok (r, h, None)
           | Some s => do (r, h) <- push_all_m r h s values; Ok (r, h, Some s)
           end
    end.
  (** the loop of c_list_copy (c_list.c 595-597) and c_list_assign (609-611) *)
  Fixpoint copy_loop_m (fuel : nat) (r : orc) h (l other x : loc) : res (orc * heap A) :=
    match fuel with
    | 0 => NoFuel
    | S f => if decide (x = other) then Ok (r, h)
             else do (r, h) <- push_back_m r h l (LNode x); do n <- next h x; copy_loop_m f r h l other n
    end.
  (** c_list.c 588-600 *)
  Definition copy_m (r : orc) h (other : loc) : res (orc * heap A * option loc) :=
    let '(r, h, s) := create_m r h in
    match s with
    | None => Ok (r, h, None)
    | Some s => do b <- next h other; do (r, h) <- copy_loop_m (fuel_of h) r h s other b; Ok (r, h, Some s)
    end.
  (** c_list.c 602-615 *)
  Definition assign_m (r : orc) h (self other : loc) : res (orc * heap A) :=
    if decide (self = other) then Ok (r, h)
    else do h <- c_list_clear h self;
         do b <- next h other; copy_loop_m (fuel_of h) r h self other b.
  (** c_list.c 911-915: creating the 64 counters; whether all were created *)
  Fixpoint create_counters_m (r : orc) (n : nat) h : orc * heap A * list loc * bool :=
    match n with
    | 0 => (r, h, [], true)
    | S n' => let '(r, h, c) := create_m r h in
              match c with
              | None => (r, h, [], false)
              | Some c => let '(r, h, cs, ok) := create_counters_m r n' h in (r, h, c :: cs, ok)
              end
    end.
  (** c_list.c 905-939 *)
  Definition sort_by_m (comp : A -> A -> bool) (r : orc) h (l : loc) : res (orc * heap A * loc) :=
    do e <- c_list_empty h l;
    if (e : bool) then Ok (r, h, l)
    else
      do n <- c_list_size h l;
      if n =? 1 then Ok (r, h, l)
      else
        let '(r, h, carry) := create_m r h in
        match carry with
        | None => Ok (r, h, l)
        | Some carry =>
          let '(r, h, cs, ok) := create_counters_m r 64 h in
          if negb ok then do h <- destroy_all h cs; do h <- c_list_destroy h carry; Ok (r, h, l)
          else
            do (h, carry, cs, fill) <- sort_loop comp (fuel_of h) h l carry cs 0;
            do h <- merge_up comp (fill - 1) 1 h cs;
            do c <- cget cs (fill - 1); do cs <- cset cs (fill - 1) l;
            do h <- destroy_all h cs;
            do h <- c_list_destroy h carry;
            Ok (r, h, c)
        end.

  (** ** a client, as in DListRun.v; it keeps the lists that were created *)
  Definition new_handle (env : list loc) (s : option loc) : list loc := match s with Some s => env ++ [s] | None => env end.
  Definition on1_m (env : list loc) (i : nat) (f : loc -> res (orc * heap A)) : res (orc * heap A * list loc) :=
    do l <- handle env i; do (r, h) <- f l; Ok (r, h, env).
  Definition lop_run_m (st : orc * heap A * list loc) (o : lop A) : res (orc * heap A * list loc) :=
    let '(r, h, env) := st in
    match o with
    | LCreate => let '(r, h, s) := create_m r h in Ok (r, h, new_handle env s)
    | LCreateFrom vs => do (r, h, s) <- create_from_m r h vs; Ok (r, h, new_handle env s)
    | LCopy i => do l <- handle env i; do (r, h, s) <- copy_m r h l; Ok (r, h, new_handle env s)
    | LAssign i j => on1_m env i (fun l => do l' <- handle env j; assign_m r h l l')
    | LPushBack i v => on1_m env i (fun l => do a <- arg_ref h env v; push_back_m r h l a)
    | LPushFront i v => on1_m env i (fun l => do a <- arg_ref h env v; push_front_m r h l a)
    | LInsert i k v => on1_m env i (fun l => do p <- position h l k; do a <- arg_ref h env v;
        do (r, h, _) <- insert_m r h p a; Ok (r, h))
    | LResize i n => on1_m env i (fun l => resize_with_value_m r h l n None)
    | LResizeWith i n v => on1_m env i (fun l => do a <- arg_ref h env v; resize_with_value_m r h l n (Some a))
    | LSort i comp => do l <- handle env i; do (r, h, l') <- sort_by_m comp r h l; Ok (r, h, <[i := l']> env)
    | _ => do (h, env) <- lop_run dflt alloc (h, env) o; Ok (r, h, env)
    end.
  Fixpoint lhist_run_m (st : orc * heap A * list loc) (os : list (lop A)) : res (orc * heap A * list loc) :=
    match os with [] => Ok st | o :: os' => do st' <- lop_run_m st o; lhist_run_m st' os' end.
End list.
