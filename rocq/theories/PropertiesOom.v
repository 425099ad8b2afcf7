(** PropertiesOom.v — the property theorems about running out of memory (C106-C107): the containers when any call of
    malloc may return null.  The outcomes of the calls are arbitrary; nothing is assumed about which fail. *)
From stdpp Require Import list gmap.
From Verif Require Import Base Spec SpecSeq SpecListOps SpecOom Facts MergeFacts SortFacts.
From Verif Require Import Buffer BufferProofs Vector VectorProofs Deque DequeProofs OomSeq OomSeqProofs PropertiesVector PropertiesDeque.
From stdpp Require Import list.

(** ** C106 vectors and deques.  A history is a list of operations, each with the outcome of the malloc it may perform.
    [some_dropped os os'] (SpecOom.v): [os'] is [os] without some of the operations whose malloc failed. *)
Theorem C106_vector_history : forall A (dflt : A) (os : list (bool * vec_op A)),
  exists v os', vec_run_m dflt vec_create os = Ok v /\ some_dropped os os' /\
    let l := fold_left (vec_spec dflt) os' [] in
    vec_traverse v = Ok l /\ vec_rtraverse v = Ok (rev l) /\ vec_size v = length l /\ vec_size v <= vec_capacity v /\
    vec_front v = Ok (head l) /\ vec_back v = Ok (last l) /\ (forall i x, l !! i = Some x -> vec_at v i = Ok x) /\
    ((forall b o, In (b, o) os -> b = true) -> os' = map snd os).
Proof.
  intros A dflt os. destruct (vec_run_m_ok dflt os _ _ create_ok) as (v&os'&He&Hd&Hv). exists v, os'. split; [done|]. split; [done|].
  cbv zeta. destruct (vrep_traverse _ _ Hv). pose proof (vrep_cap _ _ Hv).
  assert (fin v = length (fold_left (vec_spec dflt) os' [])) as Hf by (destruct Hv as (? & ? & ?); done).
  split; [done|]. split; [done|]. split; [done|]. split; [done|]. split; [by apply vrep_front|]. split; [by apply vrep_back|].
  split; [intros i x Hi; by eapply vrep_at|]. by apply none_dropped.
Qed.
Print Assumptions C106_vector_history.
(** one operation on any vector: it takes full effect, or it needed more room than there is, malloc failed, and the vector
    is untouched: the same block, the same elements, nothing destroyed, every iterator still valid *)
Theorem C106_vector_operation : forall A (dflt : A) ok (v : vec A) l o, vec_traverse v = Ok l ->
  exists v', vec_step_m dflt ok v o = Ok v' /\
    (vec_traverse v' = Ok (vec_spec dflt l o) \/
     ok = false /\ v' = v /\ vec_capacity v < length (vec_spec dflt l o)).
Proof.
  intros A dflt ok v l o Hv. apply traverse_vrep in Hv. destruct (vec_step_m_ok dflt ok v l o Hv) as (v'&E&H). exists v'. split; [done|].
  destruct H as [H|H]; [left; by apply vrep_traverse|by right].
Qed.
Print Assumptions C106_vector_operation.
(** the iterator insert returns: the new element, or end() if there was no memory for it *)
Theorem C106_vector_insert : forall A (dflt : A) (v : vec A) l i a ok, vec_traverse v = Ok l -> i <= length l ->
  exists v' p, vec_insert_n_m dflt ok v i 1 (Val a) = Ok (v', p) /\
    (vec_traverse v' = Ok (seq_insert i [a] l) /\ p = i \/
     ok = false /\ vec_size v = vec_capacity v /\ v' = v /\ p = vec_size v (* end() *)).
Proof.
  intros A dflt v l i a ok Hv Hi. apply traverse_vrep in Hv. pose proof (vrep_cap _ _ Hv) as Hc.
  destruct (insert_n_ok dflt v l i 1 a Hv Hi) as (v'&E&Hv'&_); [by apply insert_fits_one|].
  assert (vec_insert_n_m dflt true v i 1 (Val a) = vec_insert_n dflt v i 1 (Val a)) as Ht.
  { unfold vec_insert_n_m, vec_insert_n, vec_realloc_m. destruct (negb (i <=? fin v)); [done|]. destruct (vec_available v <? 1); [|done].
    destruct (vec_realloc v (1 - vec_available v)); done. }
  destruct ok; [rewrite Ht, E; exists v', i; split; [done|]; left; split; [by apply vrep_traverse|done]|].
  destruct (decide (fin v = length (buf v))) as [Hf|Hf].
  - exists v, (fin v). split; [|by right]. unfold vec_insert_n_m. destruct (negb (i <=? fin v)); [done|].
    unfold vec_available. rewrite Hf, Nat.sub_diag. done.
  - exists v', i. split; [|left; split; [by apply vrep_traverse|done]]. rewrite <- E, <- Ht. unfold vec_insert_n_m.
    destruct (negb (i <=? fin v)); [done|]. unfold vec_available. rewrite (proj2 (Nat.ltb_ge _ _)) by lia. done.
Qed.
Print Assumptions C106_vector_insert.
Theorem C106_deque_history : forall A (dflt : A) (os : list (bool * deq_op A)),
  exists d os', deq_run_m dflt deq_create os = Ok d /\ some_dropped os os' /\
    let l := fold_left (deq_spec dflt) os' [] in
    deq_holds d l /\ deq_rtraverse d = Ok (rev l) /\ deq_size d = length l /\
    deq_front d = Ok (head l) /\ deq_back d = Ok (last l) /\ (forall i x, l !! i = Some x -> deq_at d i = Ok x) /\
    ((forall b o, In (b, o) os -> b = true) -> os' = map snd os).
Proof.
  intros A dflt os. destruct (deq_run_m_ok dflt os _ _ dcreate_ok) as (d&os'&He&Hdr&Hd). exists d, os'. split; [done|]. split; [done|].
  cbv zeta. destruct (drep_traverse _ _ Hd). destruct (drep_size _ _ Hd).
  split; [by apply holds_drep|]. split; [done|]. split; [done|]. split; [by apply drep_front|]. split; [by apply drep_back|].
  split; [intros i x Hi; by eapply drep_at|]. by apply none_dropped.
Qed.
Print Assumptions C106_deque_history.
Theorem C106_deque_operation : forall A (dflt : A) ok (d : deq A) l o, deq_holds d l ->
  exists d', deq_step_m dflt ok d o = Ok d' /\
    (deq_holds d' (deq_spec dflt l o) \/ ok = false /\ d' = d /\ length l < length (deq_spec dflt l o)).
Proof.
  intros A dflt ok d l o Hd. apply holds_drep in Hd. destruct (deq_step_m_ok dflt ok d l o Hd) as (d'&E&H). exists d'. split; [done|].
  destruct H as [H|H]; [left; by apply holds_drep|by right].
Qed.
Print Assumptions C106_deque_operation.
(** the third push finds no memory; the insertion at 0 after it finds some again *)
Example C106_example : (do v <- vec_run_m 0 vec_create [(true, VPushBack 1); (true, VPushBack 2); (false, VResize 9); (true, VInsert 0 7)]; vec_traverse v) =
  Ok [7; 1; 2] /\
  (do d <- deq_run_m 0 deq_create [(true, DPushBack 1); (true, DPushFront 2); (false, DResize 9); (true, DInsert 0 7)]; deq_traverse d) = Ok [7; 2; 1] /\
  some_dropped [(true, VPushBack 1); (false, VResize 9)] [VPushBack 1].
Proof. split; [vm_compute; reflexivity|]. split; [vm_compute; reflexivity|]. repeat constructor. Qed.

(** ** C107 copying.  Creating a copy (or a vector from an array) when there is no memory should give null, or at least
    touch nothing else.  It is so when the object itself cannot be allocated; but when its storage cannot, the elements are
    copied to a null pointer. *)
Theorem C107_copy_refuted : (exists (v : vec nat) l, vec_traverse v = Ok l /\ vec_copy_m 0 true false v = UB) /\
  (exists l : list nat, vec_create_from_array_m 0 true false l = UB) /\
  (exists (v w : vec nat) l, vec_traverse v = Ok [] /\ vec_traverse w = Ok l /\ vec_assign_m 0 false v w = UB) /\
  (exists (d : deq nat) l, deq_holds d l /\ deq_copy_m 0 true false d = UB) /\
  (exists l : list nat, deq_create_from_m 0 true false l = UB).
Proof.
  split; [exists ex_vec, [1; 2]; split; vm_compute; reflexivity|].
  split; [exists [1]; vm_compute; reflexivity|].
  split; [exists vec_create, ex_vec, [1; 2]; split; [|split]; vm_compute; reflexivity|].
  split; [|exists [1]; vm_compute; reflexivity].
  exists (Deq [Some 1] 0 1 0 []), [1]. split; [split; [vm_compute; reflexivity|vm_compute; lia]|vm_compute; reflexivity].
Qed.
Print Assumptions C107_copy_refuted.
(** exactly when: *)
Theorem C107_vector_copy_partial : forall A (dflt : A),
  (forall ok (v : vec A), vec_copy_m dflt false ok v = Ok None) /\
  (forall ok l, vec_create_from_array_m dflt false ok l = Ok None) /\
  (forall (v : vec A) l, vec_traverse v = Ok l ->
     vec_copy_m dflt true false v = if length l =? 0 then Ok (Some vec_create) else UB) /\
  (forall l, l <> [] -> vec_create_from_array_m dflt true false l = UB) /\
  (forall (v : vec A) l, vec_traverse v = Ok l -> vec_copy_m dflt true true v = do w <- vec_copy dflt v; Ok (Some w)).
Proof.
  intros A dflt. split; [done|]. split; [intros ok l; unfold vec_create_from_array_m; by destruct (length l =? 0)|].
  split; [intros v l Hv; apply traverse_vrep in Hv; by apply vec_copy_m_false|]. split; [apply vec_create_from_array_m_false|].
  intros v l Hv. apply traverse_vrep in Hv. unfold vec_copy_m, vec_copy, vec_create_m.
  assert (forall w n, vec_reserve_m dflt true w n = vec_reserve dflt w n) as Hr.
  { intros w n. unfold vec_reserve_m, vec_reserve, vec_resize, vec_resize_with_value_m, vec_resize_with_value, vec_realloc_m.
    destruct (n <=? vec_capacity w); [done|]. destruct (vec_size w <? n); [|done]. cbv zeta. destruct (vec_available w <? n - vec_size w); [|done].
    destruct (vec_realloc w (n - vec_size w)); done. }
  rewrite Hr. destruct (vec_reserve dflt vec_create (vec_capacity v)) as [w| |]; cbn [rbind]; [|done..].
  destruct (mcpy (buf w) 0 (buf v) 0 (vec_size v)); done.
Qed.
Print Assumptions C107_vector_copy_partial.
(** creating [count] copies of a value gives an empty vector instead of null *)
Theorem C107_create_n_partial : forall A (dflt : A) n a, 0 < n ->
  vec_create_n_m dflt true false n a = Ok (Some vec_create) /\ vec_traverse (vec_create : vec A) = Ok [] /\
  vec_create_n_m dflt false false n a = Ok None.
Proof.
  intros A dflt n a Hn. unfold vec_create_n_m. destruct n as [|n]; [lia|]. done.
Qed.
Print Assumptions C107_create_n_partial.
(** assignment between vectors: the storage is written out of bounds exactly when the source does not fit *)
Theorem C107_vector_assign_partial : forall A (dflt : A) (self other : vec A) ls lo, vec_traverse self = Ok ls -> vec_traverse other = Ok lo ->
  vec_capacity self < vec_capacity other ->
  if length lo <=? vec_capacity self then
    exists v, vec_assign_m dflt false self other = Ok v /\ vec_traverse v = Ok [] /\ vec_capacity v = vec_capacity self
  else vec_assign_m dflt false self other = UB.
Proof.
  intros A dflt self other ls lo Hs Ho Hc. apply traverse_vrep in Hs, Ho. unfold vec_assign_m, vec_capacity in *.
  destruct (clear_ok self ls Hs) as (v1&E1&Hv1&Hb&_). rewrite E1. cbn [rbind].
  assert (fin v1 = 0) as Hf1 by (destruct Hv1 as (? & ? & ?); done). pose proof (vrep_cap _ _ Ho) as Hco.
  assert (fin other = length lo) as Hfo by (destruct Ho as (? & ? & ?); done).
  assert (vec_reserve_m dflt false v1 (length (buf other)) = Ok v1) as ->.
  { unfold vec_reserve_m, vec_capacity. rewrite Hb, (proj2 (Nat.leb_gt _ _)) by lia.
    unfold vec_resize_with_value_m, vec_size, vec_available. rewrite Hf1, Hb, (proj2 (Nat.ltb_lt 0 _)) by lia.
    rewrite (proj2 (Nat.ltb_lt _ _)) by lia. done. }
  cbn [rbind]. unfold vec_size. rewrite Hfo, Hb. destruct (Nat.leb_spec (length lo) (length (buf self))) as [H|H].
  - rewrite mcpy_eq by lia. cbn [rbind]. eexists. split; [done|]. cbn [buf]. split.
    + rewrite Hf1. apply (vrep_traverse _ []). by eexists.
    + unfold patch, slice. rewrite !app_length, ?take_length, ?drop_length, ?take_length. cbn [length]. lia.
  - rewrite mcpy_UB by lia. done.
Qed.
Print Assumptions C107_vector_assign_partial.
Example C107_example : vec_traverse ex_vec = Ok [1; 2] /\ vec_traverse (Vec [Some 9] 1 0 []) = Ok [9] /\
  vec_capacity (Vec [Some 9] 1 0 []) < vec_capacity ex_vec /\ vec_assign_m 0 false (Vec [Some 9] 1 0 []) ex_vec = UB.
Proof. split; [|split; [|split]]; vm_compute; [reflexivity|reflexivity|lia|reflexivity]. Qed.
Theorem C107_deque_copy_partial : forall A (dflt : A),
  (forall ok (d : deq A), deq_copy_m dflt false ok d = Ok None) /\
  (forall ok l, deq_create_from_m dflt false ok l = Ok None) /\
  (forall (d : deq A) l, deq_holds d l ->
     deq_copy_m dflt true false d = if length l =? 0 then Ok (Some deq_create) else UB) /\
  (forall l, l <> [] -> deq_create_from_m dflt true false l = UB).
Proof.
  intros A dflt. split; [done|]. split; [intros ok l; unfold deq_create_from_m; by destruct (length l =? 0)|].
  split; [intros d l Hd; apply holds_drep in Hd; by apply deq_copy_m_false|]. apply deq_create_from_m_false.
Qed.
Print Assumptions C107_deque_copy_partial.
