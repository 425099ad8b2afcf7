(** PropertiesGrowth.v — how much memory vectors and deques hold on to (C127, C128):
    /repo/container/c_vector.c 488-509, /repo/container/c_deque.c 598-622. *)
From stdpp Require Import list gmap.
From Verif Require Import Base Spec SpecSeq SpecAdapters Facts Buffer BufferProofs Vector VectorProofs Deque DequeProofs
  DList Adapters Growth.
From stdpp Require Import list.

(** ** C127 a vector's block is at most twice the largest size it ever had, and growing is amortised *)
Theorem C127_vector_capacity : forall A (dflt : A) (ops : list (vec_op A)) (B : nat),
  (forall k, length (fold_left (vec_spec dflt) (take k ops) []) <= B) ->
  exists v, vec_run dflt vec_create ops = Ok v /\ vec_capacity v <= 2 * B.
Proof. intros A dflt ops B H. apply (run_capacity dflt B ops vec_create [] create_ok); [cbn; lia|exact H]. Qed.
Print Assumptions C127_vector_capacity.
(** all the reallocations of a history without shrink_to_fit together move at most as many elements as the final
    capacity, that is at most twice the largest size ... *)
Theorem C127_vector_moves : forall A (dflt : A) (ops : list (vec_op A)) (B : nat),
  Forall (fun o => o <> VShrinkToFit) ops ->
  (forall k, length (fold_left (vec_spec dflt) (take k ops) []) <= B) ->
  vec_moved dflt vec_create ops <= 2 * B.
Proof.
  intros A dflt ops B Hn Hp. destruct (C127_vector_capacity A dflt ops B Hp) as (v & E & Hc).
  destruct (run_moved dflt ops vec_create [] 0 create_ok Hn ltac:(lia)) as (v' & E' & H).
  rewrite E in E'. injection E' as <-. unfold vec_capacity in Hc. lia.
Qed.
Print Assumptions C127_vector_moves.
(** ... and there are at most 1 + log2 (2 B) of them *)
Theorem C127_vector_reallocations : forall A (dflt : A) (ops : list (vec_op A)) (B : nat) v,
  Forall (fun o => o <> VShrinkToFit) ops ->
  (forall k, length (fold_left (vec_spec dflt) (take k ops) []) <= B) ->
  vec_run dflt vec_create ops = Ok v -> gen v <= 1 + Nat.log2 (2 * B).
Proof.
  intros A dflt ops B v Hn Hp Hr. destruct (C127_vector_capacity A dflt ops B Hp) as (v0 & E & Hc).
  destruct (run_gens dflt ops vec_create [] create_ok Hn ltac:(done)) as (v' & E' & H).
  rewrite Hr in E, E'. injection E as <-. injection E' as <-. unfold vec_capacity in Hc.
  destruct (gen v) as [|g]; [lia|]. specialize (H ltac:(lia)). replace (S g - 1) with g in H by lia.
  assert (g <= Nat.log2 (2 * B)); [|lia]. rewrite <- (Nat.log2_pow2 g) by lia. apply Nat.log2_le_mono. lia.
Qed.
Print Assumptions C127_vector_reallocations.
(** five appended elements: capacity 8 <= 10; blocks of 1, 2, 4, 8 slots, 7 elements moved in 4 reallocations *)
Example C127_example :
  exists v, vec_run 0 vec_create (map VPushBack [1; 2; 3; 4; 5]) = Ok v /\
    vec_capacity v = 8 /\ gen v = 4 /\ vec_moved 0 vec_create (map VPushBack [1; 2; 3; 4; 5]) = 7.
Proof. eexists. split; [vm_compute; reflexivity|]. done. Qed.

(** ** C128 the memory of a deque *)
(** The claim "a deque's block is at most a constant times the largest size it ever had" is false: filled at one
    end and emptied at the other, never with more than one element, the block grows with the number of operations *)
Theorem C128_deque_memory_refuted : forall A (dflt a : A) (n : nat),
  let ops := concat (replicate n [DPushBack a; DPopFront]) in
  (forall k, length (fold_left (deq_spec dflt) (take k ops) []) <= 1) /\
  exists d, deq_run dflt deq_create ops = Ok d /\ deq_size d = 0 /\ n <= deq_capacity d <= 2 * n.
Proof.
  intros A dflt a n ops. split.
  - unfold ops. clear ops. induction n as [|n IH]; intros k; [cbn; rewrite take_nil; cbn; lia|].
    cbn [replicate concat app]. destruct k as [|[|k]]; [cbn; lia..|]. cbn [take fold_left deq_spec drop app]. apply IH.
  - unfold ops. destruct n as [|n]; [by exists deq_create|].
    destruct (fifo_rounds dflt a n) as (d & E & Hd & Hf & Hc). exists d. split; [done|].
    destruct (drep_size _ _ Hd) as [-> _]. split; [done|]. pose proof (drep_bounds _ _ Hd) as [_ Hb].
    unfold deq_capacity. lia.
Qed.
Print Assumptions C128_deque_memory_refuted.
Theorem C128_deque_memory_mirror_refuted : forall A (dflt a : A) (n : nat),
  let ops := concat (replicate n [DPushFront a; DPopBack]) in
  (forall k, length (fold_left (deq_spec dflt) (take k ops) []) <= 1) /\
  exists d, deq_run dflt deq_create ops = Ok d /\ deq_size d = 0 /\ n <= deq_capacity d.
Proof.
  intros A dflt a n ops. split.
  - unfold ops. clear ops. induction n as [|n IH]; intros k; [cbn; rewrite take_nil; cbn; lia|].
    cbn [replicate concat app]. destruct k as [|[|k]]; [cbn; lia..|]. cbn [take fold_left deq_spec]. apply IH.
  - unfold ops. destruct n as [|n]; [by exists deq_create|].
    destruct (mirror_rounds dflt a n) as (d & E & Hd & Hc). exists d. split; [done|].
    destruct (drep_size _ _ Hd) as [-> _]. split; [done|].
    unfold deq_capacity. lia.
Qed.
Print Assumptions C128_deque_memory_mirror_refuted.
(** So a queue (c_queue) on a deque that alternates push and pop holds memory for all the elements ever pushed *)
Theorem C128_queue_memory_refuted : forall A (dflt a : A) (alloc : heap A -> loc) (h : heap A) (n : nat),
  exists d, qhist_run dflt alloc (h, []) (ACreate KDeque :: concat (replicate n [APush 0 (BVal a); APop 0]))
      = Ok (h, [Backend KDeque (IDeq d)]) /\
    deq_size d = 0 /\ n <= deq_capacity d.
Proof.
  intros A dflt a alloc h n. destruct (C128_deque_memory_refuted A dflt a n) as [_ (d & E & Hs & Hc)].
  exists d. split; [|lia]. cbn [qhist_run qop_run c_queue_create create_backend app]. cbn [rbind].
  clear Hs Hc. revert E. generalize (@deq_create A) as d0. induction n as [|n IH]; intros d0 E.
  - cbn in E |- *. by injection E as ->.
  - cbn [replicate concat app deq_run] in E |- *. apply rbind_Ok in E as (d1 & E1 & E). apply rbind_Ok in E as (d2 & E2 & E).
    cbn [deq_step] in E1, E2. cbn [qhist_run qop_run]. unfold nth_res, resolve, c_queue_push, be_push_back, block_arg.
    cbn [lookup list_lookup rbind bops bimpl]. rewrite E1. cbn [rbind].
    change (<[0:=Backend KDeque (IDeq d1)]> [Backend KDeque (IDeq d0)]) with [Backend KDeque (IDeq d1)].
    cbn [qop_run]. unfold nth_res, c_queue_pop, be_pop_front.
    cbn [lookup list_lookup rbind bops bimpl]. rewrite E2. cbn [rbind].
    change (<[0:=Backend KDeque (IDeq d2)]> [Backend KDeque (IDeq d1)]) with [Backend KDeque (IDeq d2)].
    by apply IH.
Qed.
Print Assumptions C128_queue_memory_refuted.
(** What holds: the block is at most four times the largest size as long as the deque is not filled at the back
    and emptied at the front, nor filled at the front and emptied at the back.  (clear and shrink_to_fit are
    always allowed; inserting in the middle and growing resizes as well.) *)
Theorem C128_deque_memory_partial : forall A (dflt : A) (ops : list (deq_op A)) (B : nat),
  (forall k, length (fold_left (deq_spec dflt) (take k ops) []) <= B) ->
  ((forall a, DPushBack a ∉ ops) \/ DPopFront ∉ ops) ->
  ((forall a, DPushFront a ∉ ops) \/
   forall k o, ops !! k = Some o -> o = DPopFront \/ o = DClear \/ o = DShrinkToFit \/
     length (fold_left (deq_spec dflt) (take k ops) []) <= length (fold_left (deq_spec dflt) (take (S k) ops) [])) ->
  exists d, deq_run dflt deq_create ops = Ok d /\ deq_capacity d <= 4 * B.
Proof.
  intros A dflt ops B Hp H1 H2.
  assert (exists b1 : bool, if b1 then front_gap_small (@deq_create A) /\ Forall (fun o : deq_op A => o <> DPopFront) ops
     else Forall (fun o : deq_op A => forall a, o <> DPushBack a) ops) as [b1 G1].
  { destruct H1 as [H1|H1]; [exists false|exists true; split; [unfold front_gap_small; cbn; lia|]]; apply Forall_forall.
    - intros o Ho a ->. by apply (H1 a).
    - intros o Ho ->. done. }
  assert (exists b2 : bool, if b2 then back_gap_small (@deq_create A) /\ no_cuts dflt [] ops
     else Forall (fun o : deq_op A => forall a, o <> DPushFront a) ops) as [b2 G2].
  { destruct H2 as [H2|H2]; [exists false|exists true; split; [unfold back_gap_small; cbn; lia|]].
    - apply Forall_forall. intros o Ho a ->. by apply (H2 a).
    - intros k o Hk Hcut. destruct (H2 k o Hk) as [->|[->|[->|Hl]]]; [exact Hcut..|].
      rewrite (take_S_r _ _ _ Hk), fold_left_app in Hl. cbn [fold_left] in Hl.
      destruct o; cbn [cuts_back] in Hcut; lia || done. }
  apply (drun_gaps dflt B b1 b2 ops deq_create [] dcreate_ok Hp G1 G2). cbn. lia.
Qed.
Print Assumptions C128_deque_memory_partial.
(** ... and in every history it is at most eight times the number of elements ever added *)
Theorem C128_deque_memory_total_partial : forall A (dflt : A) (ops : list (deq_op A)),
  exists d, deq_run dflt deq_create ops = Ok d /\ deq_capacity d <= 8 * length (deq_all_added dflt [] ops).
Proof.
  intros A dflt ops. destruct (drun_added dflt ops deq_create [] 0 dcreate_ok) as (d & E & H).
  - split; [cbn; lia|]. cbn. lia.
  - exists d. split; [done|]. destruct H as (_ & H & _). exact H.
Qed.
Print Assumptions C128_deque_memory_total_partial.
(** a stack-like use that also inserts at the front of the elements, clears and shrinks *)
Example C128_example :
  let ops := [DPushBack 1; DPushBack 2; DPopBack; DInsert 0 3; DClear; DPushBack 4; DShrinkToFit; DInsertN 1 4 5] in
  (forall k, length (fold_left (deq_spec 0) (take k ops) []) <= 5) /\
  (forall a, DPushFront a ∉ ops) /\ DPopFront ∉ ops /\
  exists d, deq_run 0 deq_create ops = Ok d /\ deq_capacity d = 9.
Proof.
  split; [|split; [|split]].
  - intros k. do 9 (destruct k as [|k]; [vm_compute; lia|]). vm_compute. lia.
  - intros a. rewrite !not_elem_of_cons. do 8 (split; [done|]). apply not_elem_of_nil.
  - rewrite !not_elem_of_cons. do 8 (split; [done|]). apply not_elem_of_nil.
  - eexists. split; [vm_compute; reflexivity|]. done.
Qed.
