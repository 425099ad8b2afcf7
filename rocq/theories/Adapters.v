(** Adapters.v — model of /repo/container/c_stack.c, c_queue.c, c_priority_queue.c and of the backend tables
    they call through (c_vector.c 359-463, 850-880; c_deque.c 408-528, 968-998; c_list.c 425-545, 983-1013).

    A backend is the operation table its [interface.ops] points to, named by its kind, and the container its
    [impl] points to.  Calling an operation of one kind on an [impl] of another is a type confusion: [UB]; so
    is calling through one of the null entries of the vector's table, and so is a failed assertion.  An adapter
    object is its backend (the priority queue also has its comparator).  Lists live in the heap of DList.v,
    vectors and deques carry their block.  The simplifications of Vector.v, Deque.v and DList.v apply;
    max_size (the constant -1) is not modelled. *)
From stdpp Require Import list gmap.
From Verif Require Import Base Spec SpecSeq SpecAdapters Buffer AlgoHeap Vector Deque DList.

(** a backend's [impl] pointer (c_vector.c 42-45, c_deque.c 43-46, c_list.c 44-47) *)
Inductive impl (A : Type) := IVec (v : vec A) | IDeq (d : deq A) | IList (s : loc).
Global Arguments IVec {A} v.
Global Arguments IDeq {A} d.
Global Arguments IList {A} s.
(** c_def.h 192-222 *)
Record backend (A : Type) := Backend { bops : bkind; bimpl : impl A }.
Global Arguments Backend {A}.
Global Arguments bops {A}.
Global Arguments bimpl {A}.
(** a [c_ref_t value] argument: an object the call does not move, a slot of the block of the container called
    (block generation and slot), or the value of a list node *)
Inductive bref (A : Type) := RVal (a : A) | ROwn (g i : nat) | RNode (x : loc).
Global Arguments RVal {A} a.
Global Arguments ROwn {A} g i.
Global Arguments RNode {A} x.

Section adapters.
  Context {A : Type} (dflt : A) (alloc : heap A -> loc).
  Implicit Types h : heap A.
  Implicit Types b : backend A.

  (** ** backends *)
  (** c_vector_create_backend (c_vector.c 850-880), c_deque_create_backend (c_deque.c 968-998),
      c_list_create_backend (c_list.c 983-1013) *)
  Definition create_backend h (k : bkind) : heap A * backend A :=
    match k with
    | KVector => (h, Backend KVector (IVec vec_create))
    | KDeque => (h, Backend KDeque (IDeq deq_create))
    | KList => let (h, s) := c_list_create alloc h in (h, Backend KList (IList s))
    end.
  (** backend_destroy: c_vector.c 359-366, c_deque.c 408-415, c_list.c 425-432 *)
  Definition be_destroy h b : res (heap A) :=
    match bops b, bimpl b with
    | KVector, IVec v => do _ <- vec_destroy v; Ok h
    | KDeque, IDeq d => do _ <- deq_destroy d; Ok h
    | KList, IList s => c_list_destroy h s
    | _, _ => UB
    end.
  (** backend_front: c_vector.c 368-374, c_deque.c 417-423, c_list.c 434-440; the reference, dereferenced,
      [None] being the null reference *)
  Definition be_front h b : res (option A) :=
    match bops b, bimpl b with
    | KVector, IVec v => vec_front v
    | KDeque, IDeq d => deq_front d
    | KList, IList s => c_list_front h s
    | _, _ => UB
    end.
  (** backend_back: c_vector.c 376-382, c_deque.c 425-431, c_list.c 442-448 *)
  Definition be_back h b : res (option A) :=
    match bops b, bimpl b with
    | KVector, IVec v => vec_back v
    | KDeque, IDeq d => deq_back d
    | KList, IList s => c_list_back h s
    | _, _ => UB
    end.
  (** backend_empty: c_vector.c 416-422, c_deque.c 465-471, c_list.c 482-488 *)
  Definition be_empty h b : res bool :=
    match bops b, bimpl b with
    | KVector, IVec v => Ok (vec_empty v)
    | KDeque, IDeq d => Ok (deq_empty d)
    | KList, IList s => c_list_empty h s
    | _, _ => UB
    end.
  (** backend_size: c_vector.c 424-430, c_deque.c 473-479, c_list.c 490-496 *)
  Definition be_size h b : res nat :=
    match bops b, bimpl b with
    | KVector, IVec v => Ok (vec_size v)
    | KDeque, IDeq d => Ok (deq_size d)
    | KList, IList s => c_list_size h s
    | _, _ => UB
    end.
  (** the reference as the argument of the container's function *)
  Definition block_arg h (r : bref A) : res (arg A) :=
    match r with
    | RVal a => Ok (Val a)
    | ROwn g i => Ok (Own g i)
    | RNode x => do a <- value h x; Ok (Val a)
    end.
  Definition list_arg (r : bref A) : res (lref A) :=
    match r with
    | RVal a => Ok (LVal a)
    | ROwn _ _ => UB
    | RNode x => Ok (LNode x)
    end.
  (** backend_push_back: c_vector.c 437-443, c_deque.c 486-492, c_list.c 503-509 *)
  Definition be_push_back h b (r : bref A) : res (heap A * backend A) :=
    match bops b, bimpl b with
    | KVector, IVec v => do x <- block_arg h r; do v' <- vec_push_back v x; Ok (h, Backend KVector (IVec v'))
    | KDeque, IDeq d => do x <- block_arg h r; do d' <- deq_push_back d x; Ok (h, Backend KDeque (IDeq d'))
    | KList, IList s => do x <- list_arg r; do h' <- c_list_push_back dflt alloc h s x; Ok (h', b)
    | _, _ => UB
    end.
  (** backend_pop_back: c_vector.c 445-451, c_deque.c 494-500, c_list.c 511-517 *)
  Definition be_pop_back h b : res (heap A * backend A) :=
    match bops b, bimpl b with
    | KVector, IVec v => do v' <- vec_pop_back v; Ok (h, Backend KVector (IVec v'))
    | KDeque, IDeq d => do d' <- deq_pop_back d; Ok (h, Backend KDeque (IDeq d'))
    | KList, IList s => do h' <- c_list_pop_back h s; Ok (h', b)
    | _, _ => UB
    end.
  (** backend_pop_front: c_deque.c 510-516, c_list.c 527-533; the vector's table has a null pointer here
      (c_vector.c 864) *)
  Definition be_pop_front h b : res (heap A * backend A) :=
    match bops b, bimpl b with
    | KDeque, IDeq d => do d' <- deq_pop_front d; Ok (h, Backend KDeque (IDeq d'))
    | KList, IList s => do h' <- c_list_pop_front h s; Ok (h', b)
    | _, _ => UB
    end.
  (** backend_swap: c_vector.c 453-463, c_deque.c 518-528, c_list.c 535-545.  The table of the first backend is
      used; it exchanges the two [impl]s' contents as objects of its own kind, then the interfaces. *)
  Definition be_swap (b other : backend A) : res (backend A * backend A) :=
    match bops b, bimpl b, bimpl other with
    | KVector, IVec v, IVec w => let (v', w') := vec_swap v w in
        Ok (Backend (bops other) (IVec v'), Backend KVector (IVec w'))
    | KDeque, IDeq d, IDeq e => let (d', e') := deq_swap d e in
        Ok (Backend (bops other) (IDeq d'), Backend KDeque (IDeq e'))
    | KList, IList s, IList t => let (s', t') := c_list_swap s t in
        Ok (Backend (bops other) (IList s'), Backend KList (IList t'))
    | _, _, _ => UB
    end.

  (** ** stack *)
  (** c_stack.c 37-52 *)
  Definition c_stack_create h (k : bkind) : heap A * backend A := create_backend h k.
  (** c_stack.c 54-59 *)
  Definition c_stack_destroy h (s : backend A) : res (heap A) := be_destroy h s.
  (** c_stack.c 64-68 *)
  Definition c_stack_top h (s : backend A) : res (option A) := be_back h s.
  (** c_stack.c 73-77 *)
  Definition c_stack_empty h (s : backend A) : res bool := be_empty h s.
  (** c_stack.c 88-92; [None] is the null reference *)
  Definition c_stack_push h (s : backend A) (r : option (bref A)) : res (heap A * backend A) :=
    match r with None => Ok (h, s) | Some r => be_push_back h s r end.
  (** c_stack.c 94-98 *)
  Definition c_stack_pop h (s : backend A) : res (heap A * backend A) := be_pop_back h s.
  (** c_stack.c 100-104 *)
  Definition c_stack_swap (s other : backend A) : res (backend A * backend A) := be_swap s other.

  (** ** queue *)
  (** c_queue.c 37-52 *)
  Definition c_queue_create h (k : bkind) : heap A * backend A := create_backend h k.
  (** c_queue.c 54-59 *)
  Definition c_queue_destroy h (q : backend A) : res (heap A) := be_destroy h q.
  (** c_queue.c 64-68, 70-74 *)
  Definition c_queue_front h (q : backend A) : res (option A) := be_front h q.
  Definition c_queue_back h (q : backend A) : res (option A) := be_back h q.
  (** c_queue.c 79-83, 85-89 *)
  Definition c_queue_empty h (q : backend A) : res bool := be_empty h q.
  Definition c_queue_size h (q : backend A) : res nat := be_size h q.
  (** c_queue.c 94-98; [None] is the null reference *)
  Definition c_queue_push h (q : backend A) (r : option (bref A)) : res (heap A * backend A) :=
    match r with None => Ok (h, q) | Some r => be_push_back h q r end.
  (** c_queue.c 100-104 *)
  Definition c_queue_pop h (q : backend A) : res (heap A * backend A) := be_pop_front h q.
  (** c_queue.c 106-110 *)
  Definition c_queue_swap (q other : backend A) : res (backend A * backend A) := be_swap q other.

  (** ** priority queue *)
  (** c_priority_queue.c 31-34 *)
  Record pqueue := PQueue { pqb : backend A; pqcomp : A -> A -> bool }.
  (** reading all the slots of a block from [first] to [last]: the memory seen by the heap algorithms through
      the iterators [first, last) *)
  Fixpoint slots (n : nat) (bl : list (option A)) (pos : nat) : res (list A) :=
    match n with 0 => Ok [] | S n' => do x <- get bl pos; do r <- slots n' bl (S pos); Ok (x :: r) end.
  (** running an algorithm of c_algorithm.h on backend_begin/backend_end (c_vector.c 384-414,
      c_deque.c 433-463, c_list.c 450-480); the assertions on the iterator category (c_heap.c 191-192,
      234-235) fail for a list's bidirectional iterators *)
  Definition be_algo b (f : list A -> nat -> nat -> res (list A)) : res (backend A) :=
    match bops b, bimpl b with
    | KVector, IVec v =>
        do m <- slots (fin v) (buf v) 0; do m' <- f m 0 (length m);
        do bl <- mcpy (buf v) 0 (map Some m') 0 (length m');
        Ok (Backend KVector (IVec (Vec bl (fin v) (gen v) (Vector.dead v))))
    | KDeque, IDeq d =>
        do m <- slots (dfin d - dstart d) (dbuf d) (dstart d); do m' <- f m 0 (length m);
        do bl <- mcpy (dbuf d) (dstart d) (map Some m') 0 (length m');
        Ok (Backend KDeque (IDeq (Deq bl (dstart d) (dfin d) (dgen d) (ddead d))))
    | _, _ => UB
    end.
  (** c_priority_queue.c 39-56 ([comp] is the comparator given, or the type's less) *)
  Definition c_pq_create h (k : bkind) (comp : A -> A -> bool) : heap A * pqueue :=
    let (h, b) := create_backend h k in (h, PQueue b comp).
  (** c_priority_queue.c 58-63 *)
  Definition c_pq_destroy h (q : pqueue) : res (heap A) := be_destroy h (pqb q).
  (** c_priority_queue.c 68-72 *)
  Definition c_pq_top h (q : pqueue) : res (option A) := be_front h (pqb q).
  (** c_priority_queue.c 77-81, 83-87 *)
  Definition c_pq_empty h (q : pqueue) : res bool := be_empty h (pqb q).
  Definition c_pq_size h (q : pqueue) : res nat := be_size h (pqb q).
  (** c_priority_queue.c 92-106; [None] is the null reference *)
  Definition c_pq_push h (q : pqueue) (r : option (bref A)) : res (heap A * pqueue) :=
    match r with
    | None => Ok (h, q)
    | Some r =>
        do (h, b) <- be_push_back h (pqb q) r;
        do b <- be_algo b (algo_push_heap_by (pqcomp q));
        Ok (h, PQueue b (pqcomp q))
    end.
  (** c_priority_queue.c 108-122 *)
  Definition c_pq_pop h (q : pqueue) : res (heap A * pqueue) :=
    do b <- be_algo (pqb q) (algo_pop_heap_by (pqcomp q));
    do (h, b) <- be_pop_back h b;
    Ok (h, PQueue b (pqcomp q)).
  (** c_priority_queue.c 124-128: the comparators stay *)
  Definition c_pq_swap (q other : pqueue) : res (pqueue * pqueue) :=
    do (b, b') <- be_swap (pqb q) (pqb other);
    Ok (PQueue b (pqcomp q), PQueue b' (pqcomp other)).

  (** ** clients *)
  Definition nth_res {B} (env : list B) (i : nat) : res B := match env !! i with Some x => Ok x | None => UB end.
  (** the references returned by front() and back() of a backend, [None] being null: slot 0 resp. finish - 1
      of a vector (c_vector.c 599-609), start resp. finish - 1 of a deque (c_deque.c 702-712), the first resp. last node of a
      list (c_list.c 629-637) *)
  Definition front_ref h b : res (option (bref A)) :=
    match bops b, bimpl b with
    | KVector, IVec v => Ok (if vec_empty v then None else Some (ROwn (gen v) 0))
    | KDeque, IDeq d => Ok (if deq_empty d then None else Some (ROwn (dgen d) (dstart d)))
    | KList, IList s => do e <- c_list_empty h s; if (e : bool) then Ok None else do x <- next h s; Ok (Some (RNode x))
    | _, _ => UB
    end.
  Definition back_ref h b : res (option (bref A)) :=
    match bops b, bimpl b with
    | KVector, IVec v => Ok (if vec_empty v then None else Some (ROwn (gen v) (fin v - 1)))
    | KDeque, IDeq d => Ok (if deq_empty d then None else Some (ROwn (dgen d) (dfin d - 1)))
    | KList, IList s => do e <- c_list_empty h s; if (e : bool) then Ok None else do x <- prev h s; Ok (Some (RNode x))
    | _, _ => UB
    end.
  (** the reference [r] into the container [b], passed to a function of another container, which does not
      touch [b] *)
  Definition foreign h b (r : option (bref A)) : res (option (bref A)) :=
    match r with
    | Some (ROwn g i) =>
        do a <- match bimpl b with
                | IVec v => arg_get (buf v) (gen v) (Own g i)
                | IDeq d => arg_get (dbuf d) (dgen d) (Own g i)
                | IList _ => UB
                end;
        Ok (Some (RVal a))
    | r => Ok r
    end.
  (** the argument of a push into adapter [i] *)
  Definition resolve h (env : list (backend A)) (i : nat) (v : barg A) : res (option (bref A)) :=
    match v with
    | BVal a => Ok (Some (RVal a))
    | BFront j => do b <- nth_res env j; do r <- front_ref h b; if decide (i = j) then Ok r else foreign h b r
    | BBack j => do b <- nth_res env j; do r <- back_ref h b; if decide (i = j) then Ok r else foreign h b r
    end.

  (** a client holding any number of stacks *)
  Definition sop_run (st : heap A * list (backend A)) (o : aop A) : res (heap A * list (backend A)) :=
    let (h, env) := st in
    match o with
    | ACreate k => let (h', s) := c_stack_create h k in Ok (h', env ++ [s])
    | APush i v => do s <- nth_res env i; do r <- resolve h env i v;
        do (h', s') <- c_stack_push h s r; Ok (h', <[i := s']> env)
    | APop i => do s <- nth_res env i; do (h', s') <- c_stack_pop h s; Ok (h', <[i := s']> env)
    | ASwap i j => do s <- nth_res env i; do t <- nth_res env j;
        do (s', t') <- c_stack_swap s t; Ok (h, <[j := t']> (<[i := s']> env))
    | ADestroy i => do s <- nth_res env i; do h' <- c_stack_destroy h s; Ok (h', delete i env)
    end.
  Fixpoint shist_run (st : heap A * list (backend A)) (os : list (aop A)) : res (heap A * list (backend A)) :=
    match os with [] => Ok st | o :: os' => do st' <- sop_run st o; shist_run st' os' end.
  (** a client holding any number of queues *)
  Definition qop_run (st : heap A * list (backend A)) (o : aop A) : res (heap A * list (backend A)) :=
    let (h, env) := st in
    match o with
    | ACreate k => let (h', q) := c_queue_create h k in Ok (h', env ++ [q])
    | APush i v => do q <- nth_res env i; do r <- resolve h env i v;
        do (h', q') <- c_queue_push h q r; Ok (h', <[i := q']> env)
    | APop i => do q <- nth_res env i; do (h', q') <- c_queue_pop h q; Ok (h', <[i := q']> env)
    | ASwap i j => do q <- nth_res env i; do t <- nth_res env j;
        do (q', t') <- c_queue_swap q t; Ok (h, <[j := t']> (<[i := q']> env))
    | ADestroy i => do q <- nth_res env i; do h' <- c_queue_destroy h q; Ok (h', delete i env)
    end.
  Fixpoint qhist_run (st : heap A * list (backend A)) (os : list (aop A)) : res (heap A * list (backend A)) :=
    match os with [] => Ok st | o :: os' => do st' <- qop_run st o; qhist_run st' os' end.
  (** a client holding any number of priority queues *)
  Definition pop_run (st : heap A * list pqueue) (o : pop A) : res (heap A * list pqueue) :=
    let (h, env) := st in
    match o with
    | PCreate k comp => let (h', q) := c_pq_create h k comp in Ok (h', env ++ [q])
    | PPush i v => do q <- nth_res env i; do r <- resolve h (map pqb env) i v;
        do (h', q') <- c_pq_push h q r; Ok (h', <[i := q']> env)
    | PPop i => do q <- nth_res env i; do (h', q') <- c_pq_pop h q; Ok (h', <[i := q']> env)
    | PSwap i j => do q <- nth_res env i; do t <- nth_res env j;
        do (q', t') <- c_pq_swap q t; Ok (h, <[j := t']> (<[i := q']> env))
    | PDestroy i => do q <- nth_res env i; do h' <- c_pq_destroy h q; Ok (h', delete i env)
    end.
  Fixpoint phist_run (st : heap A * list pqueue) (os : list (pop A)) : res (heap A * list pqueue) :=
    match os with [] => Ok st | o :: os' => do st' <- pop_run st o; phist_run st' os' end.
End adapters.
Global Arguments pqueue : clear implicits.
