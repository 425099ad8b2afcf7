(** PropertiesAdapterOom.v — stacks, queues and priority queues when any call of malloc may return null (C136, C137).  [r] are
    the outcomes of the calls of malloc to come (arbitrary); the client starts with nothing. *)
From stdpp Require Import list gmap.
From Verif Require Import Base Spec SpecSeq SpecAdapters SpecAdapterOom Facts Buffer BufferProofs AlgoHeap AlgoHeapProofs
  Vector VectorProofs Deque DequeProofs DList SpecList Path DListCore DListProofs DListRun DListRunProofs DListOom DListOomProofs
  Adapters AdapterObs AdapterProofs AdapterPQ AdapterOom AdapterOomProofs PropertiesList PropertiesAdapters.
From stdpp Require Import list.

Lemma world_empty {A} (h : heap A) : bworld h [] -> vl h = ∅.
Proof. intros (_&_&HO). apply map_empty. intros y. apply eq_None_not_Some. intros Hy. by apply HO, elem_of_nil in Hy. Qed.

(** ** C136 stacks and queues.  [ahist_may] (SpecAdapterOom.v): an adapter that could not be created is absent, an element that
    could not be stored was not pushed, everything else was done.  The history runs to its end, or (an adapter the client
    counts on may not have been created) up to a call outside the contract.  [m] counts the adapters', backends' and
    containers' objects on the heap. *)
Theorem C136_stack_history : forall A (dflt : A) alloc, malloc_ok alloc -> forall (r : list bool) (os : list (aop A)),
  exists n used r' m h env ls, shist_run_m dflt alloc (r, 0, heap0, []) (take n os) = Ok (r', m, h, env) /\
    (n = length os \/ exists o, os !! n = Some o /\ stack_spec ls o = None) /\
    ahist_may stack_spec [] (take n os) ls /\
    Forall2 (stack_sees h) env ls /\
    (* nothing is leaked *)
    m = 3 * length env /\ (env = [] -> vl h = ∅) /\
    (* if no call of malloc failed, everything was done *)
    r = used ++ r' /\ (Forall (eq true) used -> stack_hist [] (take n os) = Some ls).
Proof.
  intros A dflt alloc Ha r os. destruct (stack_hist_m_ok dflt alloc Ha os r heap0 [] [] bworld_nil eq_refl) as (n&r'&h&W&ls&E&HW&HR&Hm&Hn&used&Hu&Hs).
  exists n, used, r', (3 * length W), h, W.*1, ls. split; [done|]. split; [done|]. split; [done|]. split.
  { unfold srel in HR. subst ls. apply Forall2_same_length_lookup_2; [by rewrite !map_length|].
    intros i s t Hi Ht. rewrite list_lookup_fmap in Hi. change (map ?f W) with (f <$> W) in Ht. rewrite list_lookup_fmap in Ht.
    destruct (W !! i) as [w|] eqn:Ew; [|done]. injection Hi as <-. injection Ht as <-.
    pose proof (bworld_at _ _ _ _ HW Ew) as Hb. unfold stack_sees, c_stack_top, c_stack_empty. cbn [snd].
    rewrite (be_back_ok _ _ _ _ _ Hb), (be_empty_ok _ _ _ _ _ Hb), head_rev. split; [done|]. f_equal.
    destruct (ielems w) as [|x l _] using rev_ind; [done|]. rewrite rev_unit, app_length, Nat.add_comm. done. }
  split; [by rewrite fmap_length|]. split; [|done]. intros ->%fmap_nil_inv. by apply world_empty.
Qed.
Print Assumptions C136_stack_history.
Theorem C136_queue_history : forall A (dflt : A) alloc, malloc_ok alloc -> forall (r : list bool) (os : list (aop A)),
  exists n used r' m h env ls, qhist_run_m dflt alloc (r, 0, heap0, []) (take n os) = Ok (r', m, h, env) /\
    (n = length os \/ exists o, os !! n = Some o /\ queue_spec ls o = None) /\
    ahist_may queue_spec [] (take n os) ls /\
    Forall2 (queue_sees h) env ls /\
    m = 3 * length env /\ (env = [] -> vl h = ∅) /\
    r = used ++ r' /\ (Forall (eq true) used -> queue_hist [] (take n os) = Some ls).
Proof.
  intros A dflt alloc Ha r os. destruct (queue_hist_m_ok dflt alloc Ha os r heap0 [] [] bworld_nil eq_refl) as (n&r'&h&W&ls&E&HW&HR&Hm&Hn&used&Hu&Hs).
  exists n, used, r', (3 * length W), h, W.*1, ls. split; [done|]. split; [done|]. split; [done|]. split.
  { unfold qrel in HR. subst ls. apply Forall2_same_length_lookup_2; [by rewrite !map_length|].
    intros i s t Hi Ht. rewrite list_lookup_fmap in Hi. change (map ?f W) with (f <$> W) in Ht. rewrite list_lookup_fmap in Ht.
    destruct (W !! i) as [w|] eqn:Ew; [|done]. injection Hi as <-. injection Ht as <-.
    pose proof (bworld_at _ _ _ _ HW Ew) as Hb. unfold queue_sees, c_queue_front, c_queue_back, c_queue_size, c_queue_empty, kl. cbn [snd].
    rewrite (be_front_ok _ _ _ _ _ Hb), (be_back_ok _ _ _ _ _ Hb), (be_size_ok _ _ _ _ _ Hb), (be_empty_ok _ _ _ _ _ Hb).
    split; [done|]. split; [done|]. split; [done|]. by destruct (ielems w). }
  split; [by rewrite fmap_length|]. split; [|done]. intros ->%fmap_nil_inv. by apply world_empty.
Qed.
Print Assumptions C136_queue_history.
(** the first creation fails at its third malloc; then a stack over a vector whose third push finds no memory, a copy of its top
    pushed on a stack over a list *)
Example C136_example :
  (do (r, m, h, env) <- shist_run_m 0 ex_alloc ([true; true; false] ++ replicate 3 true ++ [true; true; false] ++ [true], 0, heap0, [])
     [ACreate KVector; ACreate KVector; APush 0 (BVal 1); APush 0 (BVal 2); APush 0 (BVal 3); ACreate KList; APush 1 (BBack 0); APop 0];
   do a <- nth_res env 0; do b <- nth_res env 1; do x <- c_stack_top h a; do y <- c_stack_top h b; Ok (r, m, length env, x, y)) =
  Ok ([], 6, 2, Some 1, Some 2).
Proof. vm_compute. reflexivity. Qed.
(** every call of malloc failing: no adapter is created and nothing stays allocated; a push changes nothing *)
Theorem C136_no_memory : forall A (dflt : A) alloc r n (h : heap A) k, adapter_create_m alloc (false :: r) n h k = Ok (r, n, h, None) /\
  adapter_create_m alloc (true :: false :: r) n h k = Ok (r, n, h, None) /\
  adapter_create_m alloc (true :: true :: false :: r) n h k = Ok (r, n, h, None) /\
  forall v a, be_push_back_m dflt alloc (false :: r) h (Backend KVector (IVec v)) (RVal a) = Ok (r, h, Backend KVector (IVec v)) \/
              Vector.fin v <> length (buf v).
Proof.
  intros A dflt alloc r n h k. split; [done|]. split.
  { unfold adapter_create_m, create_backend_m. cbn. by rewrite Nat.sub_0_r. }
  split.
  { unfold adapter_create_m, create_backend_m, create_impl_m. destruct k; cbn; by rewrite !Nat.sub_0_r. }
  intros v a. destruct (decide (Vector.fin v = length (buf v))) as [E|E]; [left|by right].
  cbn [be_push_back_m bops bimpl block_arg rbind]. rewrite (proj2 (Nat.eqb_eq _ _) E). cbn [outcome]. unfold OomSeq.vec_push_back_m.
  rewrite (proj2 (Nat.eqb_eq _ _) E). done.
Qed.
Print Assumptions C136_no_memory.

(** ** C137 priority queues.  Refuted: the iterators that push and pop allocate for the heap algorithms are not checked.  With
    memory for the element but none for the iterators, a push leaves the new greatest element below another, and a pop removes
    an element that is not on top. *)
Theorem C137_priority_refuted : exists r r' : list bool,
  (do (r, m, h, env) <- phist_run_m 0 ex_alloc (r, 0, heap0, [])
     [PCreate KVector Nat.ltb; PPush 0 (BVal 3); PPush 0 (BVal 5)];
   do q <- nth_res env 0; do x <- c_pq_top h q; do s <- c_pq_size h q; Ok (x, s)) = Ok (Some 3, 2) /\
  (do (r, m, h, env) <- phist_run_m 0 ex_alloc (r', 0, heap0, [])
     [PCreate KVector Nat.ltb; PPush 0 (BVal 3); PPush 0 (BVal 5); PPop 0];
   do q <- nth_res env 0; do x <- c_pq_top h q; do s <- c_pq_size h q; Ok (x, s)) = Ok (Some 5, 1).
Proof.
  exists (replicate 7 true ++ [false]), (replicate 9 true ++ [false]). split; vm_compute; reflexivity.
Qed.
Print Assumptions C137_priority_refuted.
(** Missing: the order once memory for an iterator has been refused (refuted), and failures inside the heap algorithms (a null
    pointer is dereferenced).  Whatever fails otherwise, every call returns, the queues hold what they should as collections
    ([phist_may]: a push adds its value or nothing, a pop removes one element), nothing is leaked; and as long as no call of
    malloc has failed the run is the one in which none fails, to which C56 applies. *)
Theorem C137_priority_partial : forall A (dflt : A) alloc, malloc_ok alloc -> forall (r : list bool) (os : list (pop A)),
  exists n used r' m h env ls, phist_run_m dflt alloc (r, 0, heap0, []) (take n os) = Ok (r', m, h, env) /\
    (n = length os \/ exists o, os !! n = Some o /\
       forall c', ~ pq_legal1 (fun _ => True) (fun _ _ => True) (map (fun q => (akind q, acomp q)) ls) o c') /\
    phist_may [] (take n os) ls /\
    Forall2 (pq_sees h) env ls /\
    m = 3 * length env /\ (env = [] -> vl h = ∅) /\
    r = used ++ r' /\ (Forall (eq true) used -> phist_run dflt alloc (heap0, []) (take n os) = Ok (h, env)).
Proof.
  intros A dflt alloc Ha r os. destruct (pq_hist_m_ok dflt alloc Ha os r heap0 [] pworld_nil) as (n&r'&h&P&E&HW&Hm&Hn&used&Hu&Hs).
  exists n, used, r', (3 * length P), h, (pqs P), (apqs P). split; [done|]. split.
  { destruct Hn as [Hn|(o&Ho&Hn)]; [by left|right]. exists o. split; [done|].
    replace (map _ (apqs P)) with (cfg P); [done|]. unfold cfg, apqs. by rewrite map_map. }
  split; [done|]. split; [by eapply (pq_sees_ok h P HW)|]. split; [unfold pqs; by rewrite map_length|].
  split; [|done]. intros Hp. unfold pqs in Hp. apply map_eq_nil in Hp. subst P. destruct HW as [HB _]. by apply world_empty.
Qed.
Print Assumptions C137_priority_partial.
(** three queues, the second never created; a push without memory for the element *)
Example C137_example :
  (do (r, m, h, env) <- phist_run_m 0 ex_alloc (replicate 3 true ++ [true; false] ++ replicate 3 true ++ replicate 3 true ++ [false], 0, heap0, [])
     [PCreate KVector Nat.ltb; PCreate KVector Nat.ltb; PCreate KDeque Nat.ltb; PPush 0 (BVal 4); PPush 0 (BVal 7); PPush 1 (BFront 0); PDestroy 0];
   do q <- nth_res env 0; do x <- c_pq_top h q; do s <- c_pq_size h q; Ok (r, m, x, s)) = Ok ([], 3, Some 4, 1).
Proof. vm_compute. reflexivity. Qed.
