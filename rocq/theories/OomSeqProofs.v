(** OomSeqProofs.v — vectors and deques when malloc may fail. *)
From Verif Require Import Base Spec SpecSeq SpecOom Facts Buffer BufferProofs Vector VectorProofs Deque DequeProofs OomSeq.
From stdpp Require Import list.

Section vector.
  Context {A : Type} (dflt : A).
  Implicit Types (v : vec A) (l : list A).

  (** a call in which malloc succeeds is the call of Vector.v *)
  Lemma vec_step_m_true v o : vec_step_m dflt true v o = vec_step dflt v o.
  Proof.
    destruct o; cbn [vec_step_m vec_step]; try done.
    - unfold vec_push_back_m, vec_push_back, vec_realloc_m. destruct (_ =? _); [by destruct (vec_realloc _ _)|done].
    - unfold vec_insert, vec_insert_n_m, vec_insert_n, vec_realloc_m. destruct (negb _); [done|].
      destruct (_ <? _); [by destruct (vec_realloc _ _)|done].
    - unfold vec_resize, vec_resize_with_value_m, vec_resize_with_value, vec_realloc_m. destruct (_ <? _); [|done]. cbv zeta.
      destruct (_ <? _); [by destruct (vec_realloc _ _)|done].
    - unfold vec_resize, vec_resize_with_value_m, vec_resize_with_value, vec_realloc_m. destruct (_ <? _); [|done]. cbv zeta.
      destruct (_ <? _); [by destruct (vec_realloc _ _)|done].
  Qed.
  (** a call in which it fails leaves the vector alone if it had to grow *)
  Lemma vec_step_m_false v l o : vrep v l ->
    vec_step_m dflt false v o = vec_step dflt v o \/
    vec_step_m dflt false v o = Ok v /\ (length (buf v) < length (vec_spec dflt l o) \/ vec_spec dflt l o = l).
  Proof.
    intros Hv. assert (fin v = length l) as Hf by (destruct Hv as (? & ? & ?); done). pose proof (vrep_cap _ _ Hv) as Hc.
    destruct o; cbn [vec_step_m vec_step]; try (by left).
    - unfold vec_push_back_m, vec_push_back, vec_realloc_m. destruct (Nat.eqb_spec (fin v) (length (buf v))); [|by left].
      right. split; [done|]. left. cbn. rewrite app_length. cbn. lia.
    - unfold vec_insert, vec_insert_n_m, vec_insert_n, vec_realloc_m, vec_available.
      destruct (Nat.leb_spec i (fin v)); [|by left]. cbn [negb].
      destruct (Nat.ltb_spec (length (buf v) - fin v) 1); [|by left]. right. split; [done|]. left. cbn.
      rewrite (proj2 (Nat.leb_le _ _)) by lia. unfold seq_insert. rewrite !app_length, take_length, drop_length. cbn. lia.
    - unfold vec_resize, vec_resize_with_value_m, vec_resize_with_value, vec_realloc_m, vec_size, vec_available.
      destruct (Nat.ltb_spec (fin v) n); [|by left]. cbv zeta.
      destruct (Nat.ltb_spec (length (buf v) - fin v) (n - fin v)); [|by left]. right. split; [done|]. left. cbn.
      unfold seq_resize. rewrite app_length, take_length, replicate_length. lia.
    - unfold vec_resize, vec_resize_with_value_m, vec_resize_with_value, vec_realloc_m, vec_size, vec_available.
      destruct (Nat.ltb_spec (fin v) n); [|by left]. cbv zeta.
      destruct (Nat.ltb_spec (length (buf v) - fin v) (n - fin v)); [|by left]. right. split; [done|]. left. cbn.
      unfold seq_resize. rewrite app_length, take_length, replicate_length. lia.
    - unfold vec_shrink_to_fit_m, vec_shrink_to_fit. destruct (_ =? _); [by left|]. destruct (_ =? _); [by left|].
      right. split; [done|]. by right.
  Qed.
  Lemma vec_step_m_ok ok v l o : vrep v l -> exists v', vec_step_m dflt ok v o = Ok v' /\
    (vrep v' (vec_spec dflt l o) \/ ok = false /\ v' = v /\ length (buf v) < length (vec_spec dflt l o)).
  Proof.
    intros Hv. destruct (step_ok dflt v l o Hv) as (v' & He & Hr). destruct ok.
    - exists v'. rewrite vec_step_m_true. auto.
    - destruct (vec_step_m_false v l o Hv) as [H|[H [Hs|Hs]]].
      + exists v'. rewrite H. auto.
      + exists v. auto.
      + exists v. split; [done|]. left. by rewrite Hs.
  Qed.
  Lemma vec_run_m_ok os : forall v l, vrep v l ->
    exists v' os', vec_run_m dflt v os = Ok v' /\ some_dropped os os' /\ vrep v' (fold_left (vec_spec dflt) os' l).
  Proof.
    induction os as [|[ok o] os IH]; intros v l Hv.
    - exists v, []. split; [done|]. split; [constructor|done].
    - destruct (vec_step_m_ok ok v l o Hv) as (v1 & He & [Hr|(-> & -> & _)]); cbn [vec_run_m]; rewrite He; cbn [rbind].
      + destruct (IH _ _ Hr) as (v' & os' & ? & ? & ?). exists v', (o :: os'). split; [done|]. split; [by constructor|done].
      + destruct (IH _ _ Hv) as (v' & os' & ? & ? & ?). exists v', os'. split; [done|]. split; [by constructor|done].
  Qed.
  Lemma vec_reserve_m_false v n : vec_reserve_m dflt false v n = Ok v \/ n <= fin v \/ fin v < n <= length (buf v).
  Proof.
    unfold vec_reserve_m, vec_capacity. destruct (Nat.leb_spec n (length (buf v))); [by left|].
    unfold vec_resize_with_value_m, vec_size, vec_available, vec_realloc_m. destruct (Nat.ltb_spec (fin v) n); [|lia]. cbv zeta.
    destruct (Nat.ltb_spec (length (buf v) - fin v) (n - fin v)); [by left|lia].
  Qed.
  Lemma vec_copy_m_false v l : vrep v l -> vec_copy_m dflt true false v = if length l =? 0 then Ok (Some vec_create) else UB.
  Proof.
    intros Hv. assert (fin v = length l) as Hf by (destruct Hv as (? & ? & ?); done). pose proof (vrep_cap _ _ Hv) as Hc.
    unfold vec_copy_m. cbn [vec_create_m]. destruct (vec_reserve_m_false vec_create (vec_capacity v)) as [->|H].
    - cbn [rbind]. unfold mcpy, vec_size. rewrite Hf. cbn [buf vec_create length]. destruct (Nat.eqb_spec (length l) 0) as [->|].
      + done.
      + rewrite (proj2 (Nat.leb_gt (0 + length l) 0)) by lia. by rewrite andb_false_r.
    - cbn in H. unfold vec_capacity in *. destruct H as [H|H]; [|lia]. unfold vec_reserve_m, vec_capacity. cbn [buf vec_create length].
      rewrite (proj2 (Nat.leb_le _ _)) by lia. cbn [rbind buf vec_create]. unfold mcpy, vec_size. rewrite Hf. assert (length l = 0) as -> by lia. done.
  Qed.
  Lemma vec_create_from_array_m_false l : l <> [] -> vec_create_from_array_m dflt true false l = UB.
  Proof.
    intros Hl. unfold vec_create_from_array_m. destruct l as [|x l]; [done|]. cbn [length Nat.eqb vec_create_m].
    unfold vec_reserve_m, vec_capacity. cbn [buf vec_create length Nat.leb]. unfold vec_resize_with_value_m, vec_size, vec_available, vec_realloc_m.
    cbn. unfold mcpy. cbn [length]. by rewrite andb_false_r.
  Qed.
End vector.

Section deque.
  Context {A : Type} (dflt : A).
  Implicit Types (d : deq A) (l : list A).

  Lemma deq_step_m_true d o : deq_step_m dflt true d o = deq_step dflt d o.
  Proof.
    destruct o; cbn [deq_step_m deq_step]; try done.
    - unfold deq_push_back_m, deq_push_back, deq_realloc_m. destruct (_ =? _); [by destruct (deq_realloc _ _)|done].
    - unfold deq_push_front_m, deq_push_front, deq_realloc_m. destruct (_ =? _); [by destruct (deq_realloc _ _)|done].
    - unfold deq_insert, deq_insert_n_m, deq_insert_n, deq_realloc_m. destruct (negb _); [done|].
      destruct (_ <? _); [by destruct (deq_realloc _ _)|done].
    - unfold deq_insert, deq_insert_n_m, deq_insert_n, deq_realloc_m. destruct (negb _); [done|].
      destruct (_ <? _); [by destruct (deq_realloc _ _)|done].
    - unfold deq_resize, deq_resize_with_value_m, deq_resize_with_value, deq_realloc_m. destruct (_ <? _); [|done]. cbv zeta.
      destruct (_ <? _); [by destruct (deq_realloc _ _)|done].
    - unfold deq_resize, deq_resize_with_value_m, deq_resize_with_value, deq_realloc_m. destruct (_ <? _); [|done]. cbv zeta.
      destruct (_ <? _); [by destruct (deq_realloc _ _)|done].
  Qed.
  Lemma deq_step_m_false d l o : drep d l ->
    deq_step_m dflt false d o = deq_step dflt d o \/
    deq_step_m dflt false d o = Ok d /\ (length l < length (deq_spec dflt l o) \/ deq_spec dflt l o = l).
  Proof.
    intros Hd. destruct (drep_bounds _ _ Hd) as [Hf Hc]. destruct (drep_size _ _ Hd) as [Hs _].
    destruct o; cbn [deq_step_m deq_step]; try (by left).
    - unfold deq_push_back_m, deq_push_back, deq_realloc_m. destruct (_ =? _); [|by left].
      right. split; [done|]. left. cbn. rewrite app_length. cbn. lia.
    - unfold deq_push_front_m, deq_push_front, deq_realloc_m. destruct (_ =? _); [|by left].
      right. split; [done|]. left. cbn. lia.
    - unfold deq_insert, deq_insert_n_m, deq_insert_n, deq_realloc_m.
      destruct (deq_valid d (dstart d + i)) eqn:Ev; [|by left]. unfold deq_valid in Ev. apply andb_true_iff in Ev as [_ Ev%Nat.leb_le]. cbn [negb].
      destruct (_ <? _); [|by left]. right. split; [done|]. left. cbn. rewrite (proj2 (Nat.leb_le _ _)) by lia.
      unfold seq_insert. rewrite !app_length, take_length, drop_length. cbn. lia.
    - unfold deq_insert_n_m, deq_insert_n, deq_realloc_m.
      destruct (deq_valid d (dstart d + i)) eqn:Ev; [|by left]. unfold deq_valid in Ev. apply andb_true_iff in Ev as [_ Ev%Nat.leb_le]. cbn [negb].
      destruct (Nat.ltb_spec (deq_available d) n); [|by left]. right. split; [done|]. left. cbn. rewrite (proj2 (Nat.leb_le _ _)) by lia.
      unfold seq_insert. rewrite !app_length, take_length, drop_length, replicate_length. lia.
    - unfold deq_resize, deq_resize_with_value_m, deq_resize_with_value, deq_realloc_m. rewrite Hs.
      destruct (Nat.ltb_spec (length l) n); [|by left]. cbv zeta. destruct (_ <? _); [|by left]. right. split; [done|]. left. cbn.
      unfold seq_resize. rewrite app_length, take_length, replicate_length. lia.
    - unfold deq_resize, deq_resize_with_value_m, deq_resize_with_value, deq_realloc_m. rewrite Hs.
      destruct (Nat.ltb_spec (length l) n); [|by left]. cbv zeta. destruct (_ <? _); [|by left]. right. split; [done|]. left. cbn.
      unfold seq_resize. rewrite app_length, take_length, replicate_length. lia.
    - unfold deq_shrink_to_fit_m, deq_shrink_to_fit. destruct (_ && _); [by left|]. destruct (_ =? _); [by left|].
      right. split; [done|]. by right.
  Qed.
  Lemma deq_step_m_ok ok d l o : drep d l -> exists d', deq_step_m dflt ok d o = Ok d' /\
    (drep d' (deq_spec dflt l o) \/ ok = false /\ d' = d /\ length l < length (deq_spec dflt l o)).
  Proof.
    intros Hd. destruct (dstep_ok dflt d l o Hd) as (d' & He & Hr). destruct ok.
    - exists d'. rewrite deq_step_m_true. auto.
    - destruct (deq_step_m_false d l o Hd) as [H|[H [Hs|Hs]]].
      + exists d'. rewrite H. auto.
      + exists d. auto.
      + exists d. split; [done|]. left. by rewrite Hs.
  Qed.
  Lemma deq_run_m_ok os : forall d l, drep d l ->
    exists d' os', deq_run_m dflt d os = Ok d' /\ some_dropped os os' /\ drep d' (fold_left (deq_spec dflt) os' l).
  Proof.
    induction os as [|[ok o] os IH]; intros d l Hd.
    - exists d, []. split; [done|]. split; [constructor|done].
    - destruct (deq_step_m_ok ok d l o Hd) as (d1 & He & [Hr|(-> & -> & _)]); cbn [deq_run_m]; rewrite He; cbn [rbind].
      + destruct (IH _ _ Hr) as (d' & os' & ? & ? & ?). exists d', (o :: os'). split; [done|]. split; [by constructor|done].
      + destruct (IH _ _ Hd) as (d' & os' & ? & ? & ?). exists d', os'. split; [done|]. split; [by constructor|done].
  Qed.
  Lemma deq_copy_m_false d l : drep d l -> deq_copy_m dflt true false d = if length l =? 0 then Ok (Some deq_create) else UB.
  Proof.
    intros Hd. destruct (drep_bounds _ _ Hd) as [Hf Hc]. destruct (drep_size _ _ Hd) as [Hs _].
    unfold deq_copy_m. cbn [deq_create_m]. assert (deq_reserve_m dflt false deq_create (deq_capacity d) = Ok deq_create) as ->.
    { unfold deq_reserve_m, deq_capacity. cbn [dbuf deq_create length]. destruct (Nat.ltb_spec 0 (length (dbuf d))); [|done].
      unfold deq_resize_with_value_m, deq_size, deq_available, available_start, available_end, deq_realloc_m. cbn [dfin dstart deq_create dbuf length].
      rewrite Nat.sub_0_r. cbn [Nat.add Nat.sub]. rewrite (proj2 (Nat.ltb_lt _ _)) by lia. cbv zeta. rewrite Nat.sub_0_r. rewrite (proj2 (Nat.ltb_lt _ _)) by lia. done. }
    cbn [rbind]. unfold mcpy. rewrite Hs. cbn [dbuf dstart deq_create length]. destruct (Nat.eqb_spec (length l) 0) as [->|].
    - rewrite (proj2 (Nat.leb_le _ _)) by lia. cbn. by rewrite Nat.add_0_r, slice_nil || done.
    - rewrite (proj2 (Nat.leb_gt (0 + length l) 0)) by lia. by rewrite andb_false_r.
  Qed.
  Lemma deq_create_from_m_false l : l <> [] -> deq_create_from_m dflt true false l = UB.
  Proof. intros Hl. destruct l as [|x l]; [done|]. cbn. unfold mcpy. cbn [length]. by rewrite andb_false_r. Qed.
End deque.
