(** PropertiesDeque.v — the property theorems about /repo/container/c_deque.c (C08-C11, C62-C65).
    "The deque [d] holds [l]": [deq_holds d l], i.e. iterating from begin() to end() yields [l], and begin
    lies in the deque's block. *)
From Verif Require Import Base Spec SpecSeq Facts Buffer BufferProofs VectorProofs Deque DequeProofs.
From stdpp Require Import list.

Definition deq_holds {A} (d : deq A) (l : list A) : Prop :=
  deq_traverse d = Ok l /\ dstart d <= deq_capacity d.
Lemma holds_drep {A} (d : deq A) l : deq_holds d l <-> drep d l.
Proof.
  split.
  - intros [H1 H2]. by apply traverse_drep.
  - intros H. split; [by apply drep_traverse|]. apply drep_bounds in H. unfold deq_capacity. lia.
Qed.

(** ** C08 every history *)
Theorem C08_history : forall A (dflt : A) (os : list (deq_op A)),
  let l := fold_left (deq_spec dflt) os [] in
  exists d, deq_run dflt deq_create os = Ok d /\ deq_holds d l /\
    deq_rtraverse d = Ok (rev l) /\ deq_size d = length l /\ deq_empty d = (length l =? 0) /\
    deq_front d = Ok (head l) /\ deq_back d = Ok (last l) /\
    forall i x, l !! i = Some x -> deq_at d i = Ok x.
Proof.
  intros A dflt os l. destruct (drun_ok dflt os _ _ dcreate_ok) as (d & He & Hd). exists d. fold l in Hd.
  destruct (drep_traverse _ _ Hd). destruct (drep_size _ _ Hd).
  split; [done|]. split; [by apply holds_drep|]. split; [done|]. split; [done|]. split; [done|].
  split; [by apply drep_front|]. split; [by apply drep_back|].
  intros i x Hi. by eapply drep_at.
Qed.
Print Assumptions C08_history.
Theorem C08_history_from : forall A (dflt : A) (os : list (deq_op A)) (d : deq A) l, deq_holds d l ->
  exists d', deq_run dflt d os = Ok d' /\ deq_holds d' (fold_left (deq_spec dflt) os l).
Proof.
  intros A dflt os d l Hd. apply holds_drep in Hd.
  destruct (drun_ok dflt os _ _ Hd) as (d' & He & Hd'). exists d'. split; [done|]. by apply holds_drep.
Qed.
Print Assumptions C08_history_from.
Theorem C08_create_from : forall A (dflt : A) l, l <> [] ->
  exists d, deq_create_from dflt l = Ok (Some d) /\ deq_holds d l.
Proof.
  intros A dflt l Hl. destruct (dcreate_from_ok dflt l Hl) as (d & ? & ? & _). exists d. split; [done|]. by apply holds_drep.
Qed.
Print Assumptions C08_create_from.
(** the iterator returned by insert_n, erase and erase_range has the offset of the first inserted element,
    or of the element after the removed ones *)
Theorem C08_returned_positions : forall A (dflt : A) (d : deq A) l, deq_holds d l ->
  (forall i n a, i <= length l -> exists d', deq_insert_n dflt d (dstart d + i) n (Val a) = Ok (d', dstart d' + i) /\
     deq_holds d' (seq_insert i (replicate n a) l)) /\
  (forall i, i < length l -> exists d', deq_erase d (dstart d + i) = Ok (d', dstart d' + i) /\
     deq_holds d' (seq_delete i (S i) l)) /\
  (forall i j, i <= j <= length l -> exists d', deq_erase_range d (dstart d + i) (dstart d + j) = Ok (d', dstart d' + i) /\
     deq_holds d' (seq_delete i j l)).
Proof.
  intros A dflt d l Hd. apply holds_drep in Hd. repeat split.
  - intros i n a Hi. destruct (dinsert_n_ok dflt d l i n a Hd Hi) as (d' & ? & ? & _).
    exists d'. split; [done|]. by apply holds_drep.
  - intros i Hi. destruct (lookup_lt_is_Some_2 l i Hi) as [x Hx].
    destruct (derase_ok d l i x Hd Hx) as (d' & ? & ? & _). exists d'. split; [done|]. by apply holds_drep.
  - intros i j Hij. destruct (derase_range_ok d l i j Hd Hij) as (d' & ? & ? & _). exists d'. split; [done|].
    by apply holds_drep.
Qed.
Print Assumptions C08_returned_positions.
Example C08_example :
  (do d <- deq_run 0 deq_create [DPushBack 1; DPushFront 2; DInsertN 1 5 7; DPopFront; DErase 0; DResize 7; DInsert 0 9;
     DEraseRange 1 3; DShrinkToFit]; deq_traverse d) = Ok [9; 7; 7; 1; 0; 0].
Proof. vm_compute. reflexivity. Qed.

(** ** C09 there is always enough room: no count makes an addition fail or overflow *)
Theorem C09_room : forall A (dflt : A) (d : deq A) l, deq_holds d l ->
  (forall i n a, i <= length l -> exists d' pos, deq_insert_n dflt d (dstart d + i) n (Val a) = Ok (d', pos) /\
     deq_holds d' (seq_insert i (replicate n a) l) /\ length l + n <= deq_capacity d') /\
  (forall a, exists d', deq_push_back d (Val a) = Ok d' /\ deq_holds d' (l ++ [a])) /\
  (forall a, exists d', deq_push_front d (Val a) = Ok d' /\ deq_holds d' (a :: l)) /\
  (forall n a, exists d', deq_resize_with_value dflt d n (Some (Val a)) = Ok d' /\ deq_holds d' (seq_resize n a l)) /\
  (forall n, exists d', deq_resize dflt d n = Ok d' /\ deq_holds d' (seq_resize n dflt l)).
Proof.
  intros A dflt d l Hd. apply holds_drep in Hd. split; [|split; [|split; [|split]]].
  - intros i n a Hi. destruct (dinsert_n_ok dflt d l i n a Hd Hi) as (d' & ? & Hr & _).
    exists d', (dstart d' + i). split; [done|]. split; [by apply holds_drep|].
    apply drep_bounds in Hr as [H1 H2]. unfold deq_capacity. unfold seq_insert in H1.
    rewrite !app_length, take_length, drop_length, replicate_length in H1. lia.
  - intros a. destruct (dpush_back_ok d l a Hd) as (d' & ? & ? & _). exists d'. split; [done|]. by apply holds_drep.
  - intros a. destruct (dpush_front_ok d l a Hd) as (d' & ? & ? & _). exists d'. split; [done|]. by apply holds_drep.
  - intros n a. destruct (dresize_ok dflt d l n (Some (Val a)) a Hd) as (d' & ? & ? & _); [done|].
    exists d'. split; [done|]. by apply holds_drep.
  - intros n. destruct (dresize_ok dflt d l n None dflt Hd) as (d' & ? & ? & _); [done|].
    exists d'. split; [done|]. by apply holds_drep.
Qed.
Print Assumptions C09_room.
(** a deque with its elements in the middle of the block *)
Definition ex_deq : deq nat := Deq [None; Some 1; Some 2; None] 1 3 0 [].
Example ex_deq_ok : deq_holds ex_deq [1; 2] /\ deq_capacity ex_deq = 4.
Proof. split; [|done]. split; [vm_compute; reflexivity|]. cbn. lia. Qed.
Example C09_example : exists d' pos, deq_insert_n 0 ex_deq (dstart ex_deq + 1) 11 (Val 9) = Ok (d', pos) /\
  deq_size d' = 13.
Proof. eexists _, _. vm_compute. auto. Qed.

(** ** C10 copy, C11 assign: refuted; C62 what they do instead *)
Theorem C10_copy_refuted : exists (d : deq nat) l d',
  deq_create_from 0 l = Ok (Some d) /\ deq_copy 0 d = Ok d' /\ deq_size d' <> length l.
Proof. eexists _, [1; 2; 3], _. split; [vm_compute; reflexivity|]. split; [vm_compute; reflexivity|]. vm_compute. congruence. Qed.
Print Assumptions C10_copy_refuted.
(** Missing: deques with spare capacity. *)
Theorem C10_copy_partial : forall A (dflt : A) (d : deq A) l, deq_holds d l -> deq_capacity d = deq_size d ->
  exists d', deq_copy dflt d = Ok d' /\ deq_holds d' l.
Proof.
  intros A dflt d l Hd Hc. apply holds_drep in Hd. destruct (dcopy_ok dflt d l Hd) as (d' & He & Hr & _).
  exists d'. split; [done|]. apply holds_drep. rewrite (proj1 (drep_size _ _ Hd)) in Hc. unfold deq_capacity in Hc.
  rewrite Hc, Nat.sub_diag in Hr. cbn [replicate] in Hr. by rewrite app_nil_r in Hr.
Qed.
Print Assumptions C10_copy_partial.
Theorem C11_assign_refuted :
  (exists (self other : deq nat) ls lo d', deq_holds self ls /\ deq_holds other lo /\
     deq_assign 0 self other = Ok d' /\ deq_traverse d' <> Ok lo) /\
  (exists (self other : deq nat) ls lo, deq_holds self ls /\ deq_holds other lo /\ deq_assign 0 self other = UB).
Proof.
  split.
  - exists ex_deq, ex_deq, [1; 2], [1; 2]. eexists. split; [apply ex_deq_ok|]. split; [apply ex_deq_ok|].
    split; [vm_compute; reflexivity|]. vm_compute. congruence.
  - exists ex_deq, (Deq [Some 1; Some 2; Some 3; Some 4] 0 4 0 []), [1; 2], [1; 2; 3; 4]. split; [apply ex_deq_ok|].
    split; [|vm_compute; reflexivity]. split; [vm_compute; reflexivity|cbn; lia].
Qed.
Print Assumptions C11_assign_refuted.
(** Missing: targets at least as large as the source, and sources with spare capacity. *)
Theorem C11_assign_partial : forall A (dflt : A) (self other : deq A) ls lo, deq_holds self ls -> deq_holds other lo ->
  deq_capacity self < deq_capacity other -> deq_capacity other = deq_size other ->
  exists d', deq_assign dflt self other = Ok d' /\ deq_holds d' lo.
Proof.
  intros A dflt self other ls lo Hs Ho Hlt Hc. apply holds_drep in Hs, Ho.
  destruct (proj2 (dassign_ok dflt self ls other lo Hs Ho) Hlt) as (d' & He & Hr & _). exists d'. split; [done|].
  apply holds_drep. rewrite (proj1 (drep_size _ _ Ho)) in Hc. unfold deq_capacity in Hc.
  rewrite Hc, Nat.sub_diag in Hr. cbn [replicate] in Hr. by rewrite app_nil_r in Hr.
Qed.
Print Assumptions C11_assign_partial.
Theorem C62_copy : forall A (dflt : A) (d : deq A) l, deq_holds d l ->
  exists d', deq_copy dflt d = Ok d' /\ deq_holds d' (l ++ replicate (deq_capacity d - length l) dflt).
Proof.
  intros A dflt d l Hd. apply holds_drep in Hd. destruct (dcopy_ok dflt d l Hd) as (d' & He & Hr & _).
  exists d'. split; [done|]. by apply holds_drep.
Qed.
Print Assumptions C62_copy.
Theorem C62_assign : forall A (dflt : A) (self other : deq A) ls lo, deq_holds self ls -> deq_holds other lo ->
  if deq_capacity other <=? deq_capacity self then
    if (if length ls =? 0 then dstart self else deq_capacity self / 2) + length lo <=? deq_capacity self
    then exists d', deq_assign dflt self other = Ok d' /\ deq_holds d' []
    else deq_assign dflt self other = UB
  else exists d', deq_assign dflt self other = Ok d' /\
    deq_holds d' (lo ++ replicate (deq_capacity other - length lo) dflt).
Proof.
  intros A dflt self other ls lo Hs Ho. apply holds_drep in Hs, Ho.
  destruct (dassign_ok dflt self ls other lo Hs Ho) as [H1 H2]. unfold deq_capacity.
  destruct (Nat.leb_spec (length (dbuf other)) (length (dbuf self))) as [H|H].
  - specialize (H1 H). cbv zeta in H1. destruct (_ <=? _); [|done].
    destruct H1 as (d' & ? & ?). exists d'. split; [done|]. by apply holds_drep.
  - destruct (H2 H) as (d' & ? & ? & _). exists d'. split; [done|]. by apply holds_drep.
Qed.
Print Assumptions C62_assign.
Example C62_example : exists d, deq_copy 0 ex_deq = Ok d /\ deq_traverse d = Ok [1; 2; 0; 0].
Proof. eexists. vm_compute. auto. Qed.

(** ** C63, C64 destruction of elements *)
Theorem C63_deque_removals : forall A (d : deq A) l, deq_holds d l ->
  (exists d', deq_pop_back d = Ok d' /\ ddead d' = ddead d ++ drop (length l - 1) l) /\
  (exists d', deq_pop_front d = Ok d' /\ ddead d' = ddead d ++ take 1 l) /\
  (forall i x, l !! i = Some x -> exists d' pos, deq_erase d (dstart d + i) = Ok (d', pos) /\ ddead d' = ddead d ++ [x]) /\
  (forall i j, i <= j <= length l -> exists d' pos, deq_erase_range d (dstart d + i) (dstart d + j) = Ok (d', pos) /\
     ddead d' = ddead d ++ take (j - i) (drop i l)) /\
  (exists d', deq_clear d = Ok d' /\ ddead d' = ddead d ++ l) /\
  deq_destroy d = Ok (ddead d ++ l).
Proof.
  intros A d l Hd. apply holds_drep in Hd.
  destruct (dclear_ok d l Hd) as (d' & He & _ & _ & _ & Hdd & _).
  split; [|split; [|split; [|split; [|split]]]].
  - destruct (dpop_back_ok d l Hd) as (d1 & ? & _ & _ & _ & ?). eauto.
  - destruct (dpop_front_ok d l Hd) as (d1 & ? & _ & _ & _ & ?). eauto.
  - intros i x Hx. destruct (derase_ok d l i x Hd Hx) as (d1 & ? & _ & _ & _ & ?). eauto.
  - intros i j Hij. destruct (derase_range_ok d l i j Hd Hij) as (d1 & ? & _ & _ & _ & _ & ?). eauto.
  - eauto.
  - unfold deq_destroy. rewrite He. cbn [rbind]. by rewrite Hdd.
Qed.
Print Assumptions C63_deque_removals.
Theorem C63_deque_shrinking : forall A (dflt : A) (d : deq A) l n value, deq_holds d l -> n <= length l ->
  exists d', deq_resize_with_value dflt d n value = Ok d' /\ ddead d' = ddead d ++ drop n l.
Proof.
  intros A dflt d l n value Hd Hn. apply holds_drep in Hd. destruct (drep_bounds d l Hd) as [Hf Hc].
  assert (deq_resize_with_value dflt d n value = deq_resize_with_value dflt d n None) as ->.
  { unfold deq_resize_with_value. rewrite (proj1 (drep_size _ _ Hd)). destruct (Nat.ltb_spec (length l) n) as [H|H]; [lia|done]. }
  destruct (dresize_ok dflt d l n None dflt Hd eq_refl) as (d' & He & _ & Hdd).
  destruct (Nat.leb_spec n (length (dbuf d))); [|lia]. destruct Hdd as (_ & Hdd & _). eauto.
Qed.
Print Assumptions C63_deque_shrinking.
Theorem C64_deque_destroyed_once_refuted : exists (os : list (deq_op nat)) d ds,
  deq_run 0 deq_create os = Ok d /\ deq_destroy d = Ok ds /\ ~ ds ≡ₚ deq_all_added 0 [] os.
Proof.
  exists [DPushBack 1; DPushBack 2]. eexists _, _. split; [vm_compute; reflexivity|].
  split; [vm_compute; reflexivity|]. intros H. apply Permutation_length in H. vm_compute in H. lia.
Qed.
Print Assumptions C64_deque_destroyed_once_refuted.
(** Missing: exactly-once across reallocations, which destroy the elements they move. *)
Theorem C64_deque_destroyed_partial : forall A (dflt : A) (d : deq A) l, deq_holds d l ->
  (forall o d', deq_step dflt d o = Ok d' ->
    ddead d' ++ deq_spec dflt l o ≡ₚ ddead d ++ l ++ deq_added dflt l o ++ (if dgen d' =? dgen d then [] else l)) /\
  (forall os d' ds, deq_run dflt d os = Ok d' -> dgen d' = dgen d -> deq_destroy d' = Ok ds ->
    ds ≡ₚ ddead d ++ l ++ deq_all_added dflt l os).
Proof.
  intros A dflt d l Hd. apply holds_drep in Hd. split.
  - intros o d' Ho. by apply dstep_dead.
  - intros os d' ds Hr Hg Hds. destruct (drun_ok dflt os d l Hd) as (d1 & H1 & Hd1). rewrite Hr in H1. injection H1 as <-.
    unfold deq_destroy in Hds. destruct (dclear_ok _ _ Hd1) as (d2 & He & _ & _ & _ & Hd2 & _). rewrite He in Hds.
    cbn [rbind] in Hds. injection Hds as <-. rewrite Hd2. by apply (drun_dead dflt os d l d' Hd Hr).
Qed.
Print Assumptions C64_deque_destroyed_partial.
Example C64_deque_example : exists d', deq_run 0 ex_deq [DPushBack 5; DPopFront; DPushFront 8] = Ok d' /\
  dgen d' = dgen ex_deq /\ deq_destroy d' = Ok [1; 8; 2; 5].
Proof. eexists. vm_compute. auto. Qed.

(** ** C65 adding an element of the deque to the deque itself *)
Theorem C65_deque_self_push_refuted : exists (d : deq nat) l i x,
  deq_holds d l /\ l !! i = Some x /\ deq_push_back d (Own (dgen d) (dstart d + i)) = UB.
Proof.
  exists (Deq [None; Some 1] 1 2 0 []), [1], 0, 1. split; [split; [vm_compute; reflexivity|cbn; lia]|].
  vm_compute. auto.
Qed.
Print Assumptions C65_deque_self_push_refuted.
(** Missing: pushes at an end without spare room, which read freed memory. *)
Theorem C65_deque_self_push_partial : forall A (d : deq A) l i x, deq_holds d l -> l !! i = Some x ->
  (if dfin d <? deq_capacity d
   then exists d', deq_push_back d (Own (dgen d) (dstart d + i)) = Ok d' /\ deq_holds d' (l ++ [x])
   else deq_push_back d (Own (dgen d) (dstart d + i)) = UB) /\
  (if 0 <? dstart d
   then exists d', deq_push_front d (Own (dgen d) (dstart d + i)) = Ok d' /\ deq_holds d' (x :: l)
   else deq_push_front d (Own (dgen d) (dstart d + i)) = UB).
Proof.
  intros A d l i x Hd Hx. apply holds_drep in Hd. unfold deq_capacity.
  rewrite (dpush_back_own d l i x Hd Hx), (dpush_front_own d l i x Hd Hx). split.
  - destruct (_ <? _) eqn:E; [|done]. destruct (dpush_back_ok d l x Hd) as (d' & ? & ? & _). exists d'.
    split; [done|]. by apply holds_drep.
  - destruct (_ <? _) eqn:E; [|done]. destruct (dpush_front_ok d l x Hd) as (d' & ? & ? & _). exists d'.
    split; [done|]. by apply holds_drep.
Qed.
Print Assumptions C65_deque_self_push_partial.
Example C65_deque_example : exists d', deq_push_back ex_deq (Own (dgen ex_deq) (dstart ex_deq + 0)) = Ok d' /\
  deq_traverse d' = Ok [1; 2; 1].
Proof. eexists. vm_compute. auto. Qed.
