(** InsertRangeProofs.v — c_vector_insert_range and c_deque_insert_range. *)
From stdpp Require Import list gmap.
From Verif Require Import Base Spec SpecSeq Buffer Vector VectorProofs Deque DequeProofs OomSeq OomSeqProofs DList Slist Tree Iter IterWorld
  SpecIter IterWorldProofs InsertRange.
From stdpp Require Import list.

Lemma seq_insert_next {A} i a (xs l : list A) : i <= length l -> seq_insert (S i) xs (seq_insert i [a] l) = seq_insert i (a :: xs) l.
Proof.
  intros H. unfold seq_insert. assert (length (take i l) = i) as E by (rewrite take_length; lia).
  rewrite take_app_ge by lia. rewrite drop_app_ge by lia. rewrite E.
  replace (S i - i) with 1 by lia. cbn [app take drop]. rewrite <-app_assoc. done.
Qed.
Lemma seq_insert_nil {A} i (l : list A) : seq_insert i [] l = l.
Proof. unfold seq_insert. cbn [app]. apply take_drop. Qed.
Lemma seq_insert_length {A} i (x l : list A) : i <= length l -> length (seq_insert i x l) = length x + length l.
Proof. intros H. unfold seq_insert. rewrite !app_length, take_length, drop_length. lia. Qed.

Section proofs.
  Context {A : Type} {CK : Checked} (dflt : A) (M : cmem A) (oks : nat -> bool).

  Lemma vinsert_one ok v l pos a : vrep v l -> pos <= length l ->
    (exists v', vec_insert_n_m dflt ok v pos 1 (Val a) = Ok (v', pos) /\ vrep v' (seq_insert pos [a] l)) \/
    (ok = false /\ vec_insert_n_m dflt ok v pos 1 (Val a) = Ok (v, length l)).
  Proof.
    intros Hv Hp. assert (fin v = length l) as Hf by (destruct Hv as (? & ? & ?); done). pose proof (vrep_cap _ _ Hv) as Hc.
    destruct (insert_n_ok dflt v l pos 1 a Hv Hp (insert_fits_one _ Hc)) as (v' & E & Hv' & _). cbn [replicate] in Hv'.
    revert E. unfold vec_insert_n_m, vec_insert_n, vec_realloc_m. rewrite (proj2 (Nat.leb_le _ _)) by lia. cbn [negb].
    destruct (Nat.ltb_spec (vec_available v) 1).
    - destruct ok.
      + intros E. left. exists v'. split; [|done]. by destruct (vec_realloc v _).
      + intros _. right. by rewrite <-Hf.
    - intros E. left. exists v'. done.
  Qed.
  Lemma dinsert_one ok d l i a : drep d l -> i <= length l ->
    (exists d', deq_insert_n_m dflt ok d (dstart d + i) 1 (Val a) = Ok (d', dstart d' + i) /\ drep d' (seq_insert i [a] l)) \/
    (ok = false /\ deq_insert_n_m dflt ok d (dstart d + i) 1 (Val a) = Ok (d, dfin d)).
  Proof.
    intros Hd Hi. destruct (dinsert_n_ok dflt d l i 1 a Hd Hi) as (d' & E & Hd' & _). cbn [replicate] in Hd'.
    revert E. unfold deq_insert_n_m, deq_insert_n, deq_realloc_m. destruct (negb _).
    - intros E. left. by exists d'.
    - destruct (deq_available d <? 1).
      + destruct ok.
        * intros E. left. exists d'. split; [|done]. cbv zeta in *. by destruct (deq_realloc d _).
        * intros _. by right.
      + intros E. left. by exists d'.
  Qed.

  Lemma vec_loop_ok c ps vs q j : sview M c ps vs -> ps !! j = Some q -> forall n k v l pos i p,
    j = i + n -> ps !! i = Some p -> vrep v l -> pos <= length l ->
    exists m v' r, vec_insert_range_loop dflt M oks (S n) k v pos (Some p) (Some q) = Ok (v', r) /\
      vrep v' (seq_insert pos (take m (drop i vs)) l) /\
      (m = n /\ r = pos + n \/ m < n /\ oks (k + m) = false /\ r = length l + m).
  Proof.
    intros V Hq n. induction n as [|n IH]; intros k v l pos i p -> Hp Hv Hpos.
    - exists 0, v, pos. cbn [vec_insert_range_loop position_of rbind]. rewrite (s_eq _ _ _ _ V _ _ _ _ Hp Hq). cbn [rbind].
      rewrite Nat.add_0_r, Nat.eqb_refl. split; [done|]. rewrite take_0, seq_insert_nil. split; [done|]. left. lia.
    - remember (S n) as f eqn:Ef. cbn [vec_insert_range_loop position_of rbind]. rewrite (s_eq _ _ _ _ V _ _ _ _ Hp Hq). cbn [rbind].
      rewrite (proj2 (Nat.eqb_neq _ _)) by lia.
      pose proof (s_len _ _ _ _ V) as HL. pose proof (lookup_lt_Some _ _ _ Hq) as Hlt.
      destruct (lookup_lt_is_Some_2 vs i) as [a Ha]; [lia|]. destruct (lookup_lt_is_Some_2 ps (S i)) as [p' Hp']; [lia|].
      rewrite (s_deref _ _ _ _ V _ _ _ Hp Ha). cbn [rbind].
      rewrite (s_inc _ _ _ _ V _ _ _ Hp Hp').
      destruct (vinsert_one (oks k) v l pos a Hv Hpos) as [(v1 & E & Hv1)|[Hok E]]; rewrite E; cbn [rbind].
      + assert (fin v1 = length (seq_insert pos [a] l)) as Hf1 by (destruct Hv1 as (? & ? & ?); done).
        rewrite seq_insert_length in Hf1 by done. cbn [length] in Hf1. rewrite (proj2 (Nat.eqb_neq _ _)) by lia. subst f.
        destruct (IH (S k) v1 _ (S pos) (S i) p' ltac:(lia) Hp' Hv1) as (m & v' & r & E' & Hv' & HR).
        { rewrite seq_insert_length by done. cbn [length]. lia. }
        exists (S m), v', r. split; [done|]. rewrite seq_insert_next in Hv' by done.
        rewrite (drop_S _ _ _ Ha). cbn [take]. split; [done|]. rewrite seq_insert_length in HR by done. cbn [length] in HR.
        replace (k + S m) with (S k + m) by lia.
        destruct HR as [[-> ->]|(? & ? & ->)]; [left|right]; split_and!; try done; lia.
      + assert (fin v = length l) as Hf by (destruct Hv as (? & ? & ?); done). rewrite Hf, Nat.eqb_refl.
        exists 0, v, (length l). split; [done|]. rewrite take_0, seq_insert_nil. split; [done|]. right.
        rewrite !Nat.add_0_r. split_and!; [lia|done..].
  Qed.
  Lemma deq_loop_ok c ps vs q j : sview M c ps vs -> ps !! j = Some q -> forall n k d l pos i p,
    j = i + n -> ps !! i = Some p -> drep d l -> pos <= length l ->
    exists m d' r, deq_insert_range_loop dflt M oks (S n) k d (dstart d + pos) (Some p) (Some q) = Ok (d', dstart d' + r) /\
      drep d' (seq_insert pos (take m (drop i vs)) l) /\
      (m = n /\ r = pos + n \/ m < n /\ oks (k + m) = false /\ r = length l + m).
  Proof.
    intros V Hq n. induction n as [|n IH]; intros k d l pos i p -> Hp Hd Hpos.
    - exists 0, d, pos. cbn [deq_insert_range_loop position_of rbind]. rewrite (s_eq _ _ _ _ V _ _ _ _ Hp Hq). cbn [rbind].
      rewrite Nat.add_0_r, Nat.eqb_refl. split; [done|]. rewrite take_0, seq_insert_nil. split; [done|]. left. lia.
    - remember (S n) as f eqn:Ef. cbn [deq_insert_range_loop position_of rbind]. rewrite (s_eq _ _ _ _ V _ _ _ _ Hp Hq). cbn [rbind].
      rewrite (proj2 (Nat.eqb_neq _ _)) by lia.
      pose proof (s_len _ _ _ _ V) as HL. pose proof (lookup_lt_Some _ _ _ Hq) as Hlt.
      destruct (lookup_lt_is_Some_2 vs i) as [a Ha]; [lia|]. destruct (lookup_lt_is_Some_2 ps (S i)) as [p' Hp']; [lia|].
      rewrite (s_deref _ _ _ _ V _ _ _ Hp Ha). cbn [rbind].
      rewrite (s_inc _ _ _ _ V _ _ _ Hp Hp').
      destruct (dinsert_one (oks k) d l pos a Hd Hpos) as [(d1 & E & Hd1)|[Hok E]]; rewrite E; cbn [rbind].
      + destruct (drep_bounds _ _ Hd1) as [Hf1 _].
        rewrite seq_insert_length in Hf1 by done. cbn [length] in Hf1. rewrite (proj2 (Nat.eqb_neq _ _)) by lia. subst f.
        destruct (IH (S k) d1 _ (S pos) (S i) p' ltac:(lia) Hp' Hd1) as (m & d' & r & E' & Hd' & HR).
        { rewrite seq_insert_length by done. cbn [length]. lia. }
        exists (S m), d', r. replace (S (dstart d1 + pos)) with (dstart d1 + S pos) by lia. split; [done|]. rewrite seq_insert_next in Hd' by done.
        rewrite (drop_S _ _ _ Ha). cbn [take]. split; [done|]. rewrite seq_insert_length in HR by done. cbn [length] in HR.
        replace (k + S m) with (S k + m) by lia.
        destruct HR as [[-> ->]|(? & ? & ->)]; [left|right]; split_and!; try done; lia.
      + destruct (drep_bounds _ _ Hd) as [Hf _]. rewrite Nat.eqb_refl.
        exists 0, d, (length l). rewrite <-Hf. split; [done|]. rewrite take_0, seq_insert_nil. split; [done|]. right.
        rewrite !Nat.add_0_r. split_and!; [lia|done..].
  Qed.
End proofs.
