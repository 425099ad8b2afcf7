(** PropertiesSizeT.v — element counts near the limits of size_t (C129): /repo/container/c_vector.c 488-509, 816-836,
    /repo/container/c_deque.c 598-622, 808-825, 933-954.  [W] is the number of values of size_t, [sz] the element size. *)
From Verif Require Import Base Spec SpecSeq SpecOom Facts Buffer BufferProofs Vector VectorProofs Deque DequeProofs
  OomSeq OomSeqProofs Growth SizeT SizeTProofs PropertiesDeque.
From stdpp Require Import list.

(** ** C129 growing to any count is safe: it takes effect, or malloc fails and nothing changes *)
(** False for vectors: for every vector there is a count for which resize, after a successful malloc, writes outside the
    block (cap * value_size wraps around) *)
Theorem C129_vector_resize_refuted : forall A (dflt : A) (W sz k : nat) (v : vec A) l,
  W = k * sz -> 2 <= sz -> vec_traverse v = Ok l -> 2 * vec_capacity v + 1 < k ->
  exists count, count < W /\ vec_resize_with_value_w dflt W sz true v count None = UB.
Proof.
  intros A dflt W sz k v l HW Hsz Hv Hk. apply traverse_vrep in Hv. unfold vec_capacity in Hk.
  exists (k + 2 * length (buf v) + 1). split; [nia|]. by eapply vec_resize_wraps.
Qed.
Print Assumptions C129_vector_resize_refuted.
Theorem C129_vector_resize_64_refuted : forall A (dflt : A) (v : vec A) l,
  vec_traverse v = Ok l -> vec_capacity v < 2 ^ 59 ->
  exists count, count < 2 ^ 64 /\ vec_resize_with_value_w dflt (2 ^ 64) 8 true v count None = UB.
Proof.
  intros A dflt v l Hv Hc.
  assert (forall n, 2 ^ (n + 3) = 2 ^ n * 8) as Hp by (intros n; by rewrite Nat.pow_add_r).
  assert (forall n, 2 ^ (n + 2) = 2 ^ n * 4) as Hp2 by (intros n; by rewrite Nat.pow_add_r).
  apply (C129_vector_resize_refuted A dflt (2 ^ 64) 8 (2 ^ 61) v l (Hp 61)); [lia|done|].
  pose proof (Hp2 59) as E. change (59 + 2) with 61 in E. rewrite E. clear -Hc.
  revert Hc. generalize (2 ^ 59). intros x Hc. lia.
Qed.
Print Assumptions C129_vector_resize_64_refuted.
(** ... and for deques: count * 2 wraps around to zero (elements of any size, resize and insert) *)
Theorem C129_deque_refuted : forall A (dflt a : A) (W sz h : nat) (d : deq A) l i,
  W = 2 * h -> 0 < sz -> deq_holds d l -> i <= length l -> 2 * deq_capacity d * sz < h ->
  exists count count', count < W /\ count' < W /\
    deq_resize_with_value_w dflt W sz true d count None = UB /\
    deq_insert_n_w dflt W sz true d (dstart d + i) count' (Val a) = UB.
Proof.
  intros A dflt a W sz h d l i HW Hsz Hd Hi Hh. apply holds_drep in Hd. unfold deq_capacity in Hh.
  destruct (drep_bounds _ _ Hd) as [Hf Hc]. exists (length l + h), (deq_available d + h).
  unfold deq_available, available_start, available_end.
  split; [nia|]. split; [nia|]. split; [by eapply deq_resize_wraps|]. by eapply deq_insert_n_wraps.
Qed.
Print Assumptions C129_deque_refuted.
Theorem C129_deque_64_refuted : forall A (dflt a : A) (sz : nat) (d : deq A) l i,
  0 < sz -> deq_holds d l -> i <= length l -> 2 * deq_capacity d * sz < 2 ^ 63 ->
  exists count count', count < 2 ^ 64 /\ count' < 2 ^ 64 /\
    deq_resize_with_value_w dflt (2 ^ 64) sz true d count None = UB /\
    deq_insert_n_w dflt (2 ^ 64) sz true d (dstart d + i) count' (Val a) = UB.
Proof.
  intros A dflt a sz d l i Hsz Hd Hi Hc. apply (C129_deque_refuted A dflt a (2 ^ 64) sz (2 ^ 63) d l i); [|done..].
  exact (Nat.pow_succ_r' 2 63).
Qed.
Print Assumptions C129_deque_64_refuted.

(** What holds: as long as the sizes stay so small that four times the largest (for deques: sixteen times the number of
    elements the calls may add) fits into size_t in bytes, every history behaves as with unbounded numbers (which is
    C106: each call takes effect, or malloc failed and nothing changed). *)
Theorem C129_vector_partial : forall A (dflt : A) (W sz B : nat) (os : list (bool * vec_op A)),
  0 < sz -> 4 * B * sz < W ->
  (forall os', os' `sublist_of` map snd os -> length (fold_left (vec_spec dflt) os' []) <= B) ->
  exists v os', vec_run_w dflt W sz vec_create os = Ok v /\ some_dropped os os' /\
    vec_traverse v = Ok (fold_left (vec_spec dflt) os' []) /\
    ((forall b o, In (b, o) os -> b = true) -> os' = map snd os).
Proof.
  intros A dflt W sz B os Hsz HW Hp.
  rewrite (vec_run_w_eq dflt W sz B os vec_create [] Hsz create_ok); [|cbn; lia|done|cbn; lia|done].
  destruct (vec_run_m_ok dflt os _ _ create_ok) as (v & os' & He & Hd & Hv). exists v, os'. split; [done|]. split; [done|].
  split; [by apply vrep_traverse|]. by apply none_dropped.
Qed.
Print Assumptions C129_vector_partial.
Theorem C129_deque_partial : forall A (dflt : A) (W sz : nat) (os : list (bool * deq_op A)),
  0 < sz -> 16 * sum_list_with (fun o => deq_weight (snd o)) os * sz < W ->
  exists d os', deq_run_w dflt W sz deq_create os = Ok d /\ some_dropped os os' /\
    deq_holds d (fold_left (deq_spec dflt) os' []) /\
    ((forall b o, In (b, o) os -> b = true) -> os' = map snd os).
Proof.
  intros A dflt W sz os Hsz HW.
  rewrite (deq_run_w_eq dflt W sz os deq_create [] 0 Hsz dcreate_ok); [|split; [cbn; lia|cbn; lia]|done].
  destruct (deq_run_m_ok dflt os _ _ dcreate_ok) as (d & os' & He & Hdr & Hd). exists d, os'. split; [done|]. split; [done|].
  split; [by apply holds_drep|]. by apply none_dropped.
Qed.
Print Assumptions C129_deque_partial.
(** one operation on any vector or deque in the same way *)
Theorem C129_operation_partial : forall A (dflt : A) (W sz : nat) ok, 0 < sz ->
  (forall (v : vec A) l o, vec_traverse v = Ok l -> vec_capacity v * 2 * sz < W -> length (vec_spec dflt l o) * sz < W ->
    vec_step_w dflt W sz ok v o = vec_step_m dflt ok v o) /\
  (forall (d : deq A) l o, deq_holds d l -> deq_capacity d * 2 * sz < W -> 2 * length (deq_spec dflt l o) * sz < W ->
    deq_step_w dflt W sz ok d o = deq_step_m dflt ok d o).
Proof.
  intros A dflt W sz ok Hsz. split.
  - intros v l o Hv. apply traverse_vrep in Hv. by apply vec_step_w_eq.
  - intros d l o Hd. apply holds_drep in Hd. by apply deq_step_w_eq.
Qed.
Print Assumptions C129_operation_partial.

(** with a size_t of 16 bits and elements of 4 bytes: a history that meets the hypotheses, and a count for which growing a
    vector of three elements, or the deque, writes outside the block *)
Example C129_example :
  let os := [(true, VPushBack 1); (true, VPushBack 2); (false, VPushBack 3); (true, VResize 3)] in
  (forall os', os' `sublist_of` map snd os -> length (fold_left (vec_spec 0) os' []) <= 4) /\ 4 * 4 * 4 < 2 ^ 16 /\
  exists v, vec_run_w 0 (2 ^ 16) 4 vec_create os = Ok v /\ vec_traverse v = Ok [1; 2; 0] /\ vec_capacity v = 4 /\
    2 * vec_capacity v + 1 < 2 ^ 14 /\ 2 ^ 16 = 2 ^ 14 * 4.
Proof.
  split; [|split; [apply Nat.ltb_lt; vm_compute; reflexivity|]].
  - intros os' H. cbn [map snd] in H.
    repeat match goal with H : sublist _ (_ :: _) |- _ => apply sublist_cons_r in H as [H|(? & -> & H)] end;
      apply sublist_nil_r in H; subst; apply Nat.leb_le; vm_compute; reflexivity.
  - eexists. split; [vm_compute; reflexivity|]. split; [vm_compute; reflexivity|]. split; [vm_compute; reflexivity|].
    split; [apply Nat.ltb_lt; vm_compute; reflexivity|apply Nat.eqb_eq; vm_compute; reflexivity].
Qed.
Example C129_example_overflow : forall v, vec_traverse v = Ok [1; 2; 0] -> vec_capacity v = 4 ->
  vec_resize_with_value_w 0 (2 ^ 16) 4 true v (2 ^ 14 + 9) None = UB.
Proof.
  intros v Hv Hc. apply traverse_vrep in Hv. unfold vec_capacity in Hc.
  replace (2 ^ 14 + 9) with (2 ^ 14 + 2 * length (buf v) + 1) by (rewrite Hc; apply Nat.eqb_eq; vm_compute; reflexivity).
  apply (vec_resize_wraps 0 (2 ^ 16) 4 v [1; 2; 0] (2 ^ 14) None 0 Hv eq_refl).
  - apply Nat.eqb_eq; vm_compute; reflexivity.
  - lia.
  - rewrite Hc. apply Nat.ltb_lt; vm_compute; reflexivity.
Qed.
