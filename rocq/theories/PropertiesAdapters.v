(** PropertiesAdapters.v — the property theorems about /repo/container/c_stack.c, c_queue.c and c_priority_queue.c
    (C54-C57, C90-C94).  The client starts with nothing ([heap0], no adapters) and makes the calls [os]; the
    theorems quantify over the allocator, the element type and all histories. *)
From stdpp Require Import list gmap.
From Verif Require Import Base Spec SpecSeq SpecAdapters Facts Buffer BufferProofs AlgoHeap AlgoHeapProofs AlgoHeapAny
  Vector VectorProofs Deque DequeProofs DList SpecList Path DListCore DListProofs DListRun DListRunProofs
  Adapters AdapterObs AdapterProofs AdapterPQ PropertiesList.
From stdpp Require Import list.

Lemma stack_reach {A} (dflt : A) alloc : malloc_ok alloc -> forall os ls, stack_hist [] os = Some ls ->
  exists h W, shist_run dflt alloc (heap0, []) os = Ok (h, W.*1) /\ bworld h W /\ srel W ls.
Proof. intros Ha os ls Hs. exact (stack_hist_ok dflt alloc Ha os heap0 [] [] ls bworld_nil eq_refl Hs). Qed.
Lemma queue_reach {A} (dflt : A) alloc : malloc_ok alloc -> forall os ls, queue_hist [] os = Some ls ->
  exists h W, qhist_run dflt alloc (heap0, []) os = Ok (h, W.*1) /\ bworld h W /\ qrel W ls.
Proof. intros Ha os ls Hs. exact (queue_hist_ok dflt alloc Ha os heap0 [] [] ls bworld_nil eq_refl Hs). Qed.

(** ** C54 stacks are last-in first-out.  [stack_hist] (SpecAdapters.v) is the meaning of the history: each stack
    is a sequence, push adds at the head, pop drops the head; it is [None] for calls outside the contract. *)
Theorem C54_stack_lifo : forall A (dflt : A) alloc, malloc_ok alloc -> forall os ls, stack_hist [] os = Some ls ->
  exists h env, shist_run dflt alloc (heap0, []) os = Ok (h, env) /\ Forall2 (stack_sees h) env ls.
Proof.
  intros A dflt alloc Ha os ls Hs. destruct (stack_reach dflt alloc Ha os ls Hs) as (h&W&Hr&HW&HR). unfold srel, qrel in HR. subst ls.
  exists h, W.*1. split; [done|]. apply Forall2_same_length_lookup_2; [by rewrite !map_length|].
  intros i s t Hi Ht. rewrite list_lookup_fmap in Hi. change (map ?f W) with (f <$> W) in Ht. rewrite list_lookup_fmap in Ht.
  destruct (W !! i) as [w|] eqn:E; [|done]. injection Hi as <-. injection Ht as <-.
  pose proof (bworld_at _ _ _ _ HW E) as Hb. unfold stack_sees, c_stack_top, c_stack_empty. cbn [snd].
  rewrite (be_back_ok _ _ _ _ _ Hb), (be_empty_ok _ _ _ _ _ Hb), head_rev. split; [done|]. f_equal.
  destruct (ielems w) as [|x l _] using rev_ind; [done|]. rewrite rev_unit, app_length, Nat.add_comm. done.
Qed.
Print Assumptions C54_stack_lifo.
Example C54_example :
  stack_hist [] [ACreate KVector; ACreate KList; APush 0 (BVal 1); APush 0 (BVal 2); APush 1 (BBack 0); APush 1 (BVal 3);
    APush 1 (BBack 1); APop 0; ACreate KVector; ASwap 0 2] = Some [(KVector, []); (KList, [3; 3; 2]); (KVector, [1])].
Proof. vm_compute. reflexivity. Qed.

(** ** C55 queues are first-in first-out over deques and lists ... *)
Theorem C55_queue_fifo : forall A (dflt : A) alloc, malloc_ok alloc -> forall os ls, queue_hist [] os = Some ls ->
  exists h env, qhist_run dflt alloc (heap0, []) os = Ok (h, env) /\ Forall2 (queue_sees h) env ls.
Proof.
  intros A dflt alloc Ha os ls Hs. destruct (queue_reach dflt alloc Ha os ls Hs) as (h&W&Hr&HW&HR). unfold srel, qrel in HR. subst ls.
  exists h, W.*1. split; [done|]. apply Forall2_same_length_lookup_2; [by rewrite !map_length|].
  intros i s t Hi Ht. rewrite list_lookup_fmap in Hi. change (map ?f W) with (f <$> W) in Ht. rewrite list_lookup_fmap in Ht.
  destruct (W !! i) as [w|] eqn:E; [|done]. injection Hi as <-. injection Ht as <-.
  pose proof (bworld_at _ _ _ _ HW E) as Hb. unfold queue_sees, c_queue_front, c_queue_back, c_queue_size, c_queue_empty, kl. cbn [snd].
  rewrite (be_front_ok _ _ _ _ _ Hb), (be_back_ok _ _ _ _ _ Hb), (be_size_ok _ _ _ _ _ Hb), (be_empty_ok _ _ _ _ _ Hb).
  split; [done|]. split; [done|]. split; [done|]. by destruct (ielems w).
Qed.
Print Assumptions C55_queue_fifo.
(** ... and over a vector pop is undefined in every reachable state, empty or not *)
Theorem C55_queue_vector_pop : forall A (dflt : A) alloc, malloc_ok alloc -> forall os ls i l, queue_hist [] os = Some ls ->
  ls !! i = Some (KVector, l) -> qhist_run dflt alloc (heap0, []) (os ++ [APop i]) = UB.
Proof.
  intros A dflt alloc Ha os ls i l Hs Hi. destruct (queue_reach dflt alloc Ha os ls Hs) as (h&W&Hr&HW&HR).
  assert (forall os st o, qhist_run dflt alloc st (os ++ [o]) = do st' <- qhist_run dflt alloc st os; qop_run dflt alloc st' o) as Happ.
  { clear. induction os as [|p os IH]; intros st o; cbn [qhist_run app rbind].
    - by destruct (qop_run dflt alloc st o).
    - destruct (qop_run dflt alloc st p) as [st'| |]; cbn [rbind]; [apply IH|done|done]. }
  rewrite Happ, Hr. cbn [rbind qop_run]. destruct (qrel_at _ _ _ _ HR Hi) as (w&Hw&Ek). rewrite (nth_fmap _ _ _ Hw). cbn [rbind].
  unfold kl in Ek. pose proof (bworld_at _ _ _ _ HW Hw) as Hb. injection Ek as Ek _. rewrite <- Ek in Hb.
  unfold c_queue_pop. by rewrite (be_pop_front_vec _ _ _ _ Hb).
Qed.
Print Assumptions C55_queue_vector_pop.
Example C55_example :
  queue_hist [] [ACreate KDeque; ACreate KList; APush 0 (BVal 1); APush 0 (BVal 2); APush 1 (BFront 0); APush 1 (BVal 3);
    APush 1 (BBack 1); APop 0; ACreate KVector; APush 2 (BVal 7)] = Some [(KDeque, [2]); (KList, [1; 3; 3]); (KVector, [7])].
Proof. vm_compute. reflexivity. Qed.

(** ** C56 priority queues over vectors and deques, with strict weak orders.  Along the whole history every call
    returns, [top] shows the head of the abstract queue, which is a greatest element; push adds exactly the value
    pushed and pop removes exactly the element top() showed. *)
Theorem C56_priority_order : forall A (dflt : A) alloc, malloc_ok alloc -> forall os, pq_legal StrictWeakOrder eq [] os ->
  pq_path dflt alloc top_greatest heap0 [] [] os.
Proof. intros A dflt alloc Ha os Hl. exact (pq_path_ok dflt alloc Ha inv_ordered os heap0 [] pworld_nil Hl). Qed.
Print Assumptions C56_priority_order.
Lemma ltb_swo : StrictWeakOrder Nat.ltb.
Proof. split; intros *; rewrite ?Nat.ltb_lt, ?Nat.ltb_ge; lia. Qed.
Lemma gtb_swo : StrictWeakOrder (fun x y => Nat.ltb y x).
Proof. split; intros *; rewrite ?Nat.ltb_lt, ?Nat.ltb_ge; lia. Qed.
Lemma pq_legal_cons {A} ok R (c c' : list (bkind * (A -> A -> bool))) o os :
  pq_legal1 ok R c o c' -> pq_legal ok R c' os -> pq_legal ok R c (o :: os).
Proof. by exists c'. Qed.
Ltac pq_ex := repeat (lazymatch goal with
  | |- pq_legal _ _ _ [] => exact I
  | |- pq_legal _ _ _ (?o :: _) => eapply pq_legal_cons;
      [ unfold pq_legal1; lazymatch o with
        | PCreate _ _ => split; [done|split; [first [exact I|apply ltb_swo|apply gtb_swo]|reflexivity]]
        | PPush _ _ => split; [cbn; lia|split; [reflexivity|first [exact I|split; [lia|cbn; lia]]]]
        | PPop _ => split; [cbn; lia|reflexivity]
        | PSwap _ _ => split; [eexists _, _; split; [reflexivity|split; [reflexivity|split; [reflexivity|first [exact I|reflexivity]]]]|reflexivity]
        | PDestroy _ => split; [cbn; lia|reflexivity]
        end
      | cbn [app delete list_delete] ]
  end).
Definition ex_pq : list (pop nat) := [PCreate KVector Nat.ltb; PCreate KDeque Nat.ltb; PPush 0 (BVal 2); PPush 0 (BVal 5);
  PPush 0 (BVal 3); PPush 1 (BFront 0); PPush 1 (BVal 9); PPop 0; PPop 1; PCreate KVector Nat.ltb; PSwap 0 2; PDestroy 1].
Example C56_example : pq_legal StrictWeakOrder eq [] ex_pq.
Proof. unfold ex_pq. pq_ex.
Qed.

(** ** C57 swapping priority queues.  Refuted: the comparators stay. *)
Theorem C57_swap_refuted : exists os, pq_legal StrictWeakOrder (fun _ _ => True) [] os /\
  exists (h : heap nat) env q q', phist_run 0 ex_alloc (heap0, []) os = Ok (h, env) /\
    (* pushing 0 into queue 1 makes 0 its top; after a swap, pushing 0 into queue 0, now holding the elements of
       queue 1, leaves 1 on top *)
    pop_run 0 ex_alloc (h, env) (PPush 1 (BVal 0)) = Ok (h, <[1 := q]> env) /\ c_pq_top h q = Ok (Some 0) /\
    phist_run 0 ex_alloc (h, env) [PSwap 0 1; PPush 0 (BVal 0)] = Ok q' /\
    (do p <- nth_res q'.2 0; c_pq_top q'.1 p) = Ok (Some 1).
Proof.
  exists [PCreate KVector Nat.ltb; PCreate KVector (fun x y => Nat.ltb y x); PPush 1 (BVal 3); PPush 1 (BVal 2); PPush 1 (BVal 1)].
  split.
  - pq_ex.
  - eexists _, _, _, _. split; [vm_compute; reflexivity|]. split; [vm_compute; reflexivity|].
    split; [vm_compute; reflexivity|]. split; [vm_compute; reflexivity|]. vm_compute. reflexivity.
Qed.
Print Assumptions C57_swap_refuted.
(** Missing: different comparators (refuted).  With the same comparator and kind of backend the two queues are
    exchanged exactly, in every reachable state; in general the elements move and the comparators stay. *)
Theorem C57_swap_partial : forall A (dflt : A) alloc, malloc_ok alloc ->
  forall os, pq_legal (fun _ => True) (fun _ _ => True) [] os ->
  forall h env, phist_run dflt alloc (heap0, []) os = Ok (h, env) ->
  forall i j q r, env !! i = Some q -> env !! j = Some r -> bops (pqb q) = bops (pqb r) ->
  pop_run dflt alloc (h, env) (PSwap i j) =
    Ok (h, <[j := PQueue (pqb q) (pqcomp r)]> (<[i := PQueue (pqb r) (pqcomp q)]> env)) /\
  (pqcomp q = pqcomp r -> pop_run dflt alloc (h, env) (PSwap i j) = Ok (h, <[j := q]> (<[i := r]> env))).
Proof.
  intros A dflt alloc Ha os Hl h env Hr i j q r Hi Hj Hk.
  destruct (pq_hist_ok dflt alloc Ha inv_any os heap0 [] pworld_nil Hl) as (h'&P&Hr'&HW).
  change (pqs []) with (@nil (pqueue A)) in Hr'. rewrite Hr' in Hr. injection Hr as <- <-.
  assert (pop_run dflt alloc (h', pqs P) (PSwap i j) =
    Ok (h', <[j := PQueue (pqb q) (pqcomp r)]> (<[i := PQueue (pqb r) (pqcomp q)]> (pqs P)))) as E.
  { cbn [pop_run]. unfold nth_res. rewrite Hi, Hj. cbn [rbind]. unfold c_pq_swap.
    unfold pqs in Hi, Hj. change (map ?f ?l) with (f <$> l) in Hi. change (map ?f ?l) with (f <$> l) in Hj.
    rewrite list_lookup_fmap in Hi. rewrite list_lookup_fmap in Hj.
    destruct (P !! i) as [p|] eqn:Ep; [|done]. destruct (P !! j) as [p'|] eqn:Ep'; [|done].
    injection Hi as <-. injection Hj as <-. cbn [pqb pqcomp] in *.
    destruct (pworld_at _ _ _ _ HW Ep) as (Hb&_). destruct (pworld_at _ _ _ _ HW Ep') as (Hb'&_).
    pose proof (proj1 Hb) as K1. pose proof (proj1 Hb') as K2. rewrite <- Hk, K1 in K2. rewrite <- K2 in Hb'.
    by rewrite (be_swap_ok _ _ _ _ _ _ _ _ Hb Hb'). }
  split; [done|]. intros Hc. rewrite E. rewrite Hc. rewrite <- Hc at 1. by destruct q, r.
Qed.
Print Assumptions C57_swap_partial.

(** ** C90 nothing is leaked: once all adapters are destroyed no list node is left allocated *)
Theorem C90_no_leak : forall A (dflt : A) alloc, malloc_ok alloc -> forall os,
  (stack_hist [] os = Some [] -> exists h, shist_run dflt alloc (heap0, []) os = Ok (h, []) /\ vl h = ∅) /\
  (queue_hist [] os = Some [] -> exists h, qhist_run dflt alloc (heap0, []) os = Ok (h, []) /\ vl h = ∅).
Proof.
  intros A dflt alloc Ha os. split; intros Hs.
  - destruct (stack_reach dflt alloc Ha os [] Hs) as (h&W&Hr&(_&_&HO)&HR). destruct W; [|done]. exists h. split; [done|].
    apply map_empty. intros y. apply eq_None_not_Some. intros Hy. by apply HO, elem_of_nil in Hy.
  - destruct (queue_reach dflt alloc Ha os [] Hs) as (h&W&Hr&(_&_&HO)&HR). destruct W; [|done]. exists h. split; [done|].
    apply map_empty. intros y. apply eq_None_not_Some. intros Hy. by apply HO, elem_of_nil in Hy.
Qed.
Print Assumptions C90_no_leak.
Example C90_example : stack_hist [] [ACreate KList; APush 0 (BVal 1); APush 0 (BVal 2); APop 0; ADestroy 0] = Some [] /\
  queue_hist [] [ACreate KList; APush 0 (BVal 1); APush 0 (BVal 2); APop 0; ADestroy 0] = Some [].
Proof. split; vm_compute; reflexivity. Qed.

(** ** C91 swapping adapters built on different containers.  Refuted, in every state. *)
Theorem C91_swap_refuted : forall A (dflt : A) alloc, malloc_ok alloc -> forall os ls i j t u, stack_hist [] os = Some ls ->
  ls !! i = Some t -> ls !! j = Some u -> t.1 <> u.1 ->
  exists h env, shist_run dflt alloc (heap0, []) os = Ok (h, env) /\ sop_run dflt alloc (h, env) (ASwap i j) = UB.
Proof.
  intros A dflt alloc Ha os ls i j t u Hs Hi Hj Hk. destruct (stack_reach dflt alloc Ha os ls Hs) as (h&W&Hr&HW&HR).
  exists h, W.*1. split; [done|]. destruct (srel_at _ _ _ _ HR Hi) as (w&Hw&->). destruct (srel_at _ _ _ _ HR Hj) as (w'&Hw'&->).
  cbn [sop_run]. rewrite (nth_fmap _ _ _ Hw). cbn [rbind]. rewrite (nth_fmap _ _ _ Hw'). cbn [rbind]. unfold c_stack_swap.
  by rewrite (be_swap_bad _ _ _ _ _ _ _ _ _ (bworld_at _ _ _ _ HW Hw) (bworld_at _ _ _ _ HW Hw') Hk).
Qed.
Print Assumptions C91_swap_refuted.
Example C91_example : exists ls, stack_hist [] [ACreate KVector; ACreate KDeque; APush 1 (BVal 4)] = Some ls /\
  ls !! 0 = Some (KVector, []) /\ ls !! 1 = Some (KDeque, [4]).
Proof. by eexists. Qed.
(** Missing: different containers (refuted).  Over the same kind of container two stacks, or queues, are exchanged
    exactly, also with themselves. *)
Theorem C91_swap_partial : forall A (dflt : A) alloc, malloc_ok alloc -> forall os ls i j k l l',
  ls !! i = Some (k, l) -> ls !! j = Some (k, l') ->
  (stack_hist [] os = Some ls -> exists h env s t, shist_run dflt alloc (heap0, []) os = Ok (h, env) /\
     env !! i = Some s /\ env !! j = Some t /\ sop_run dflt alloc (h, env) (ASwap i j) = Ok (h, <[j := s]> (<[i := t]> env))) /\
  (queue_hist [] os = Some ls -> exists h env s t, qhist_run dflt alloc (heap0, []) os = Ok (h, env) /\
     env !! i = Some s /\ env !! j = Some t /\ qop_run dflt alloc (h, env) (ASwap i j) = Ok (h, <[j := s]> (<[i := t]> env))).
Proof.
  intros A dflt alloc Ha os ls i j k l l' Hi Hj. split; intros Hs.
  - destruct (stack_reach dflt alloc Ha os ls Hs) as (h&W&Hr&HW&HR). exists h, W.*1.
    destruct (srel_at _ _ _ _ HR Hi) as (w&Hw&[= Ew _]). destruct (srel_at _ _ _ _ HR Hj) as (w'&Hw'&[= Ew' _]).
    exists w.1, w'.1. split; [done|]. split; [by rewrite list_lookup_fmap, Hw|]. split; [by rewrite list_lookup_fmap, Hw'|].
    cbn [sop_run]. rewrite (nth_fmap _ _ _ Hw). cbn [rbind]. rewrite (nth_fmap _ _ _ Hw'). cbn [rbind]. unfold c_stack_swap.
    pose proof (bworld_at _ _ _ _ HW Hw) as Hb. pose proof (bworld_at _ _ _ _ HW Hw') as Hb'. rewrite <- Ew' in Hb'. rewrite <- Ew in Hb.
    by rewrite (be_swap_ok _ _ _ _ _ _ _ _ Hb Hb').
  - destruct (queue_reach dflt alloc Ha os ls Hs) as (h&W&Hr&HW&HR). exists h, W.*1.
    destruct (qrel_at _ _ _ _ HR Hi) as (w&Hw&[= Ew _]). destruct (qrel_at _ _ _ _ HR Hj) as (w'&Hw'&[= Ew' _]).
    exists w.1, w'.1. split; [done|]. split; [by rewrite list_lookup_fmap, Hw|]. split; [by rewrite list_lookup_fmap, Hw'|].
    cbn [qop_run]. rewrite (nth_fmap _ _ _ Hw). cbn [rbind]. rewrite (nth_fmap _ _ _ Hw'). cbn [rbind]. unfold c_queue_swap.
    pose proof (bworld_at _ _ _ _ HW Hw) as Hb. pose proof (bworld_at _ _ _ _ HW Hw') as Hb'. rewrite <- Ew' in Hb'. rewrite <- Ew in Hb.
    by rewrite (be_swap_ok _ _ _ _ _ _ _ _ Hb Hb').
Qed.
Print Assumptions C91_swap_partial.

(** ** C92 pushing a stack's own top.  Refuted over vectors and deques: *)
Theorem C92_push_own_top_refuted :
  shist_run 0 ex_alloc (heap0, []) [ACreate KVector; APush 0 (BVal 1); APush 0 (BBack 0)] = UB /\
  shist_run 0 ex_alloc (heap0, []) [ACreate KDeque; APush 0 (BVal 1); APush 0 (BBack 0)] = UB.
Proof. split; vm_compute; reflexivity. Qed.
Print Assumptions C92_push_own_top_refuted.
(** Missing: vectors and deques whose block is full (refuted).  Over a list it pushes a copy, always; over a vector
    or deque exactly when the block has a free slot at its end, and otherwise reads freed memory. *)
Theorem C92_push_own_top_partial : forall A (dflt : A) alloc, malloc_ok alloc -> forall os ls i k a l,
  stack_hist [] os = Some ls -> ls !! i = Some (k, a :: l) ->
  exists h env s, shist_run dflt alloc (heap0, []) os = Ok (h, env) /\ env !! i = Some s /\
    match bimpl s with
    | IVec v => k = KVector /\ sop_run dflt alloc (h, env) (APush i (BBack i)) =
        if Vector.fin v <? length (buf v) then sop_run dflt alloc (h, env) (APush i (BVal a)) else UB
    | IDeq d => k = KDeque /\ sop_run dflt alloc (h, env) (APush i (BBack i)) =
        if dfin d <? length (dbuf d) then sop_run dflt alloc (h, env) (APush i (BVal a)) else UB
    | IList _ => k = KList /\ exists h' env', sop_run dflt alloc (h, env) (APush i (BBack i)) = Ok (h', env') /\
        Forall2 (stack_sees h') env' (<[i := (k, a :: a :: l)]> ls)
    end.
Proof.
  intros A dflt alloc Ha os ls i k a l Hs Hi. destruct (stack_reach dflt alloc Ha os ls Hs) as (h&W&Hr&HW&HR).
  destruct (srel_at _ _ _ _ HR Hi) as (w&Hw&[= Ek El]). exists h, W.*1, w.1. split; [done|]. split; [by rewrite list_lookup_fmap, Hw|].
  pose proof (bworld_at _ _ _ _ HW Hw) as Hb. rewrite <- Ek in Hb.
  assert (ielems w = rev l ++ [a]) as El' by (rewrite <- (rev_involutive (ielems w)), <- El; done). rewrite El' in Hb.
  destruct (brep_inv _ _ _ _ _ Hb) as [(v&Es&->&HV&_)|[(d&Es&->&HD&_)|(s&cs&Es&->&HL&Ecs&_)]].
  - rewrite Es. cbn [bimpl]. split; [done|]. cbn [sop_run]. rewrite (nth_fmap _ _ _ Hw), Es. cbn [rbind]. unfold resolve.
    rewrite (nth_fmap _ _ _ Hw), Es. cbn [rbind back_ref bops bimpl]. rewrite decide_True by done.
    destruct HV as (r&Hbuf&Hf). unfold vec_empty. rewrite Hf, app_length, Nat.add_comm. cbn [length Nat.add Nat.eqb Nat.sub rbind].
    rewrite Nat.sub_0_r. unfold c_stack_push. cbn [be_push_back bops bimpl block_arg rbind].
    rewrite (push_back_own v (rev l ++ [a]) (length (rev l)) a); [| |by apply list_lookup_middle].
    + rewrite Hf, app_length, Nat.add_comm. cbn [length Nat.add]. by destruct (_ <? _).
    + exists r. by rewrite Hf.
  - rewrite Es. cbn [bimpl]. split; [done|]. cbn [sop_run]. rewrite (nth_fmap _ _ _ Hw), Es. cbn [rbind]. unfold resolve.
    rewrite (nth_fmap _ _ _ Hw), Es. cbn [rbind back_ref bops bimpl]. rewrite decide_True by done.
    rewrite (proj2 (drep_size _ _ HD)), app_length, Nat.add_comm. cbn [length Nat.add Nat.eqb rbind].
    unfold c_stack_push. cbn [be_push_back bops bimpl block_arg rbind].
    pose proof (drep_bounds _ _ HD) as [Hfs _]. rewrite app_length in Hfs. cbn in Hfs.
    replace (dfin d - 1) with (dstart d + length (rev l)) by lia.
    rewrite (dpush_back_own d (rev l ++ [a]) (length (rev l)) a); [|done|by apply list_lookup_middle]. by destruct (_ <? _).
  - rewrite Es. cbn [bimpl]. split; [done|].
    assert (stack_hist [] (os ++ [APush i (BBack i)]) = Some (<[i := (KList, a :: a :: l)]> ls)) as Hs'.
    { assert (forall (os : list (aop A)) st o, stack_hist st (os ++ [o]) = st' ← stack_hist st os; stack_spec st' o) as Happ.
      { clear. induction os as [|p os IH]; intros st o; cbn [stack_hist app mbind option_bind].
        - cbn. by destruct (stack_spec st o).
        - destruct (stack_spec st p) as [st'|]; cbn; [apply IH|done]. }
      rewrite Happ, Hs. cbn [mbind option_bind stack_spec]. rewrite Hi. cbn [mbind option_bind stack_arg fst snd].
      unfold own_ok. rewrite Nat.eqb_refl, bool_decide_true by done. cbn [negb orb]. rewrite Hi. done. }
    destruct (C54_stack_lifo A dflt alloc Ha _ _ Hs') as (h'&env'&Hr'&HF). exists h', env'. split; [|done].
    assert (forall os st o, shist_run dflt alloc st (os ++ [o]) = do st' <- shist_run dflt alloc st os; sop_run dflt alloc st' o) as Happ.
    { clear. induction os as [|p os IH]; intros st o; cbn [shist_run app rbind].
      - by destruct (sop_run dflt alloc st o).
      - destruct (sop_run dflt alloc st p) as [st'| |]; cbn [rbind]; [apply IH|done|done]. }
    rewrite Happ, Hr in Hr'. exact Hr'.
Qed.
Print Assumptions C92_push_own_top_partial.

(** ** C93 a priority queue over a list cannot be used: the first push, and every pop, fails an assertion *)
Theorem C93_pq_over_list : forall A (dflt : A) alloc, malloc_ok alloc -> forall (h h' : heap A) comp q,
  c_pq_create alloc h KList comp = (h', q) ->
  (forall a, c_pq_push dflt alloc h' q (Some (RVal a)) = UB) /\ c_pq_pop h' q = UB.
Proof.
  intros A dflt alloc Ha h h' comp q Hc. unfold c_pq_create in Hc. pose proof (create_backend_ok alloc Ha h KList) as Hb.
  destruct (create_backend alloc h KList) as [h1 b]. injection Hc as <- <-. destruct Hb as (g&Hb&_). split.
  - intros a. unfold c_pq_push. cbn [pqb pqcomp].
    destruct (be_push_back_ok dflt alloc Ha h1 b KList [] g (RVal a) a Hb eq_refl) as (h2&b2&->&g2&Hb2&_). cbn [rbind].
    by rewrite (be_algo_list _ _ _ _ _ Hb2).
  - unfold c_pq_pop. cbn [pqb pqcomp]. by rewrite (be_algo_list _ _ _ _ _ Hb).
Qed.
Print Assumptions C93_pq_over_list.
Example C93_example : exists h q, c_pq_create ex_alloc heap0 KList Nat.ltb = (h, q).
Proof. by eexists _, _. Qed.

(** ** C94 whatever the comparators, and whichever queues (over the same kind of container) are swapped: every call
    returns, push adds exactly the value pushed, pop removes exactly the element top() showed, and swap exchanges
    the elements *)
Theorem C94_pq_conserves : forall A (dflt : A) alloc, malloc_ok alloc -> forall os,
  pq_legal (fun _ => True) (fun _ _ => True) [] os -> pq_path dflt alloc (fun _ _ => True) heap0 [] [] os.
Proof. intros A dflt alloc Ha os Hl. exact (pq_path_ok dflt alloc Ha inv_any os heap0 [] pworld_nil Hl). Qed.
Print Assumptions C94_pq_conserves.
Example C94_example : pq_legal (fun _ => True) (fun _ _ => True) []
  [PCreate KVector (fun _ _ => true); PCreate KVector Nat.ltb; PPush 0 (BVal 3); PPush 0 (BVal 1); PSwap 0 1; PPop 1].
Proof.
  cbn [pq_legal pq_legal1]. do 2 (eexists; split; [done|]). do 2 (eexists; split; [split; [cbn; lia|]; done|]).
  eexists. split; [split; [|reflexivity]; by eexists _, _|]. eexists. split; [split; [cbn; lia|done]|]. done.
Qed.
