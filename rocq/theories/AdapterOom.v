(** AdapterOom.v — c_stack.c, c_queue.c, c_priority_queue.c and the backends they create and push through, when malloc may
    fail.

    As Adapters.v, with the outcomes of the calls of malloc to come ([r], consumed in order; when it is exhausted malloc
    succeeds) and the number [n] of fixed-size objects on the heap: the adapter, its backend and the container object it points
    to, each one call of malloc (a vector's or deque's block belongs to the container object, a list's nodes are in the heap of
    DList.v).  Functions not listed here never call malloc.  Simplification: the allocations inside the heap algorithms
    themselves (copies of iterators and a temporary element, c_heap.c 194-206, 237-262) succeed; when one fails a null pointer
    is dereferenced. *)
From stdpp Require Import list gmap.
From Verif Require Import Base Spec SpecSeq SpecAdapters Buffer AlgoHeap Vector Deque DList DListOom OomSeq Adapters.

Section oom.
  Context {A : Type} (dflt : A) (alloc : heap A -> loc).
  Implicit Types h : heap A.
  Implicit Types b : backend A.
  Notation orc := (list bool).

  (** releasing [k] of the [n] objects *)
  Definition frees (k n : nat) : res nat := if k <=? n then Ok (n - k) else UB.

  (** the container object of a new backend: c_vector_create (c_vector.c 514-528), c_deque_create (c_deque.c 627-642),
      c_list_create (c_list.c 550-570) *)
  Definition create_impl_m (r : orc) (n : nat) h (k : bkind) : orc * nat * heap A * option (impl A) :=
    match k with
    | KVector => let (ok, r) := outcome r in
                 match vec_create_m ok with Some v => (r, S n, h, Some (IVec v)) | None => (r, n, h, None) end
    | KDeque => let (ok, r) := outcome r in
                match deq_create_m ok with Some d => (r, S n, h, Some (IDeq d)) | None => (r, n, h, None) end
    | KList => let '(r, h, s) := create_m alloc r h in
               match s with Some s => (r, S n, h, Some (IList s)) | None => (r, n, h, None) end
    end.
  (** c_vector_create_backend (c_vector.c 868-877), c_deque_create_backend (c_deque.c 986-995), c_list_create_backend
      (c_list.c 1001-1010); [None] is the null result *)
  Definition create_backend_m (r : orc) (n : nat) h (k : bkind) : res (orc * nat * heap A * option (backend A)) :=
    let (ok, r) := outcome r in
    if negb ok then Ok (r, n, h, None)
    else
      let '(r, n, h, i) := create_impl_m r (S n) h k in
      match i with
      | None => do n <- frees 1 n; Ok (r, n, h, None)
      | Some i => Ok (r, n, h, Some (Backend k i))
      end.
  (** c_stack_create (c_stack.c 37-52), c_queue_create (c_queue.c 37-52), c_priority_queue_create (c_priority_queue.c 39-56,
      whose comparator is added by the caller of this definition) *)
  Definition adapter_create_m (r : orc) (n : nat) h (k : bkind) : res (orc * nat * heap A * option (backend A)) :=
    let (ok, r) := outcome r in
    if negb ok then Ok (r, n, h, None)
    else
      do (r, n, h, b) <- create_backend_m r (S n) h k;
      match b with
      | None => do n <- frees 1 n; Ok (r, n, h, None)
      | Some b => Ok (r, n, h, Some b)
      end.
  (** c_stack_destroy (c_stack.c 54-59), c_queue_destroy (c_queue.c 54-59), c_priority_queue_destroy (c_priority_queue.c
      58-63), with backend_destroy (c_vector.c 359-366, c_deque.c 408-415, c_list.c 425-432): frees the container, the backend
      and the adapter *)
  Definition adapter_destroy_m (n : nat) h b : res (nat * heap A) :=
    do h <- be_destroy h b; do n <- frees 2 n; do n <- frees 1 n; Ok (n, h).
  (** backend_push_back (c_vector.c 437-443, c_deque.c 486-492, c_list.c 503-509): a vector or deque asks for memory only if its
      block is full (c_vector.c 793-797, c_deque.c 887-890) *)
  Definition be_push_back_m (r : orc) h b (x : bref A) : res (orc * heap A * backend A) :=
    match bops b, bimpl b with
    | KVector, IVec v =>
        do x <- block_arg h x;
        let (ok, r) := if fin v =? length (buf v) then outcome r else (true, r) in
        do v' <- vec_push_back_m ok v x; Ok (r, h, Backend KVector (IVec v'))
    | KDeque, IDeq d =>
        do x <- block_arg h x;
        let (ok, r) := if dfin d =? length (dbuf d) then outcome r else (true, r) in
        do d' <- deq_push_back_m ok d x; Ok (r, h, Backend KDeque (IDeq d'))
    | KList, IList s => do x <- list_arg x; do (r, h) <- push_back_m dflt alloc r h s x; Ok (r, h, b)
    | _, _ => UB
    end.
  (** c_stack_push (c_stack.c 88-92), c_queue_push (c_queue.c 94-98) *)
  Definition adapter_push_m (r : orc) h b (x : option (bref A)) : res (orc * heap A * backend A) :=
    match x with None => Ok (r, h, b) | Some x => be_push_back_m r h b x end.

  (** ** clients, as in Adapters.v; they keep the adapters that were created *)
  Notation state := (orc * nat * heap A * list (backend A))%type.
  Definition keep {B} (env : list B) (b : option B) : list B := match b with Some b => env ++ [b] | None => env end.
  Definition sop_run_m (st : state) (o : aop A) : res state :=
    let '(r, n, h, env) := st in
    match o with
    | ACreate k => do (r, n, h, s) <- adapter_create_m r n h k; Ok (r, n, h, keep env s)
    | APush i v => do s <- nth_res env i; do x <- resolve h env i v;
        do (r, h, s') <- adapter_push_m r h s x; Ok (r, n, h, <[i := s']> env)
    | ADestroy i => do s <- nth_res env i; do (n, h) <- adapter_destroy_m n h s; Ok (r, n, h, delete i env)
    | _ => do (h, env) <- sop_run dflt alloc (h, env) o; Ok (r, n, h, env)
    end.
  Fixpoint shist_run_m (st : state) (os : list (aop A)) : res state :=
    match os with [] => Ok st | o :: os' => do st' <- sop_run_m st o; shist_run_m st' os' end.
  Definition qop_run_m (st : state) (o : aop A) : res state :=
    let '(r, n, h, env) := st in
    match o with
    | ACreate k => do (r, n, h, q) <- adapter_create_m r n h k; Ok (r, n, h, keep env q)
    | APush i v => do q <- nth_res env i; do x <- resolve h env i v;
        do (r, h, q') <- adapter_push_m r h q x; Ok (r, n, h, <[i := q']> env)
    | ADestroy i => do q <- nth_res env i; do (n, h) <- adapter_destroy_m n h q; Ok (r, n, h, delete i env)
    | _ => do (h, env) <- qop_run dflt alloc (h, env) o; Ok (r, n, h, env)
    end.
  Fixpoint qhist_run_m (st : state) (os : list (aop A)) : res state :=
    match os with [] => Ok st | o :: os' => do st' <- qop_run_m st o; qhist_run_m st' os' end.

  (** ** priority queue *)
  (** the calls of begin and end (c_vector.c 384-414, c_deque.c 433-463) before a heap algorithm (c_list.c 450-480 for
      a list, which the algorithm then refuses): each allocates its iterator
      and is not checked; given a null iterator the algorithm does nothing (c_heap.c 190, 233) *)
  Definition be_algo_m (r : orc) b (f : list A -> nat -> nat -> res (list A)) : res (orc * backend A) :=
    let (ok1, r) := outcome r in
    let (ok2, r) := outcome r in
    if ok1 && ok2 then do b <- be_algo b f; Ok (r, b) else Ok (r, b).
  (** c_priority_queue.c 92-106 *)
  Definition pq_push_m (r : orc) h (q : pqueue A) (x : option (bref A)) : res (orc * heap A * pqueue A) :=
    match x with
    | None => Ok (r, h, q)
    | Some x =>
        do (r, h, b) <- be_push_back_m r h (pqb q) x;
        do (r, b) <- be_algo_m r b (algo_push_heap_by (pqcomp q));
        Ok (r, h, PQueue b (pqcomp q))
    end.
  (** c_priority_queue.c 108-122 *)
  Definition pq_pop_m (r : orc) h (q : pqueue A) : res (orc * heap A * pqueue A) :=
    do (r, b) <- be_algo_m r (pqb q) (algo_pop_heap_by (pqcomp q));
    do (h, b) <- be_pop_back h b;
    Ok (r, h, PQueue b (pqcomp q)).
  Notation pstate := (orc * nat * heap A * list (pqueue A))%type.
  Definition pop_run_m (st : pstate) (o : pop A) : res pstate :=
    let '(r, n, h, env) := st in
    match o with
    | PCreate k comp => do (r, n, h, b) <- adapter_create_m r n h k;
        Ok (r, n, h, keep env ((fun b => PQueue b comp) <$> b))
    | PPush i v => do q <- nth_res env i; do x <- resolve h (map pqb env) i v;
        do (r, h, q') <- pq_push_m r h q x; Ok (r, n, h, <[i := q']> env)
    | PPop i => do q <- nth_res env i; do (r, h, q') <- pq_pop_m r h q; Ok (r, n, h, <[i := q']> env)
    | PDestroy i => do q <- nth_res env i; do (n, h) <- adapter_destroy_m n h (pqb q); Ok (r, n, h, delete i env)
    | _ => do (h, env) <- pop_run dflt alloc (h, env) o; Ok (r, n, h, env)
    end.
  Fixpoint phist_run_m (st : pstate) (os : list (pop A)) : res pstate :=
    match os with [] => Ok st | o :: os' => do st' <- pop_run_m st o; phist_run_m st' os' end.
End oom.
