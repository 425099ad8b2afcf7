(** Growth.v — how the blocks of vectors and deques grow over a history: facts about the models of
    /repo/container/c_vector.c (Vector.v) and /repo/container/c_deque.c (Deque.v). *)
From Verif Require Import Base Spec SpecSeq Facts Buffer BufferProofs Vector VectorProofs Deque DequeProofs.
From stdpp Require Import list.

(** ** specification side *)
(** the elements moved to another block during a history: when a step leaves the container with another
    block than before, all the elements it had were moved *)
Fixpoint vec_moved {A} (dflt : A) (v : vec A) (ops : list (vec_op A)) : nat :=
  match ops with
  | [] => 0
  | o :: ops' => match vec_step dflt v o with
                 | Ok v' => (if gen v' =? gen v then 0 else vec_size v) + vec_moved dflt v' ops'
                 | _ => 0
                 end
  end.

Section blocks.
  Context {A : Type}.
  Implicit Types b : list (option A).
  Lemma put_len b i x b' : put b i x = Ok b' -> length b' = length b.
  Proof. unfold put. destruct (_ <? _); [|done]. intros [= <-]. apply insert_length. Qed.
  Lemma mcpy_len b dst b' src n b1 : mcpy b dst b' src n = Ok b1 -> length b1 = length b.
  Proof.
    unfold mcpy. destruct (_ && _) eqn:E; [|done]. intros [= <-].
    apply andb_prop in E as [E1 E2]. apply Nat.leb_le in E1, E2. apply patch_length.
    rewrite slice_length by (split; lia). lia.
  Qed.
  Lemma fill_len (dflt : A) g n : forall b p b' val, fill dflt g n b p val = Ok b' -> length b' = length b.
  Proof.
    induction n as [|n IH]; intros b p b' val H; [by injection H as <-|]. cbn [fill] in H.
    apply rbind_Ok in H as (x & _ & H). apply rbind_Ok in H as (b1 & H1 & H). apply IH in H. rewrite H.
    by apply put_len in H1.
  Qed.
End blocks.

Section vector.
  Context {A : Type} (dflt : A).

  Lemma realloc_shape (v v' : vec A) n : vec_realloc v n = Ok v' ->
    length (buf v') = (length (buf v) * 2) `max` (n + fin v) /\ gen v' = S (gen v) /\ fin v' = fin v.
  Proof.
    unfold vec_realloc, vec_size, vec_capacity. intros [b [H1 [ds [H2 H3]]%rbind_Ok]]%rbind_Ok.
    injection H3 as <-. cbn [buf gen fin]. apply mcpy_len in H1. rewrite H1. unfold raw. rewrite replicate_length.
    split; [|done]. destruct (Nat.ltb_spec (length (buf v) * 2) (n + fin v)); lia.
  Qed.
  Lemma insert_shape (v v' : vec A) pos (a : arg A) q : fin v <= length (buf v) -> vec_insert dflt v pos a = Ok (v', q) ->
    length (buf v') = length (buf v) /\ gen v' = gen v \/
    gen v' = S (gen v) /\ fin v = length (buf v) /\ fin v' = S (fin v) /\
      length (buf v') = (length (buf v) * 2) `max` (S (fin v)).
  Proof.
    intros Hf. unfold vec_insert, vec_insert_n, vec_available. destruct (negb _); [by intros [= <- <-]; left|].
    intros [v1 [H1 [b [H2 [b' [H3 H4]]%rbind_Ok]]%rbind_Ok]]%rbind_Ok. injection H4 as <- <-.
    cbn [buf gen fin]. apply mcpy_len in H2. apply fill_len in H3. rewrite H3, H2.
    destruct (Nat.ltb_spec (length (buf v) - fin v) 1).
    - apply realloc_shape in H1 as (E1 & E2 & E3). right. rewrite E1, E2, E3. split; [done|].
      split; [lia|]. split; [lia|]. replace (length (buf v) - fin v) with 0 by lia. lia.
    - injection H1 as <-. by left.
  Qed.
  Lemma push_back_shape (v v' : vec A) (a : arg A) : vec_push_back v a = Ok v' ->
    length (buf v') = length (buf v) /\ gen v' = gen v \/
    gen v' = S (gen v) /\ fin v = length (buf v) /\ fin v' = S (fin v) /\
      length (buf v') = (length (buf v) * 2) `max` (S (fin v)).
  Proof.
    unfold vec_push_back. intros [v1 [H1 [x [H2 [b [H3 H4]]%rbind_Ok]]%rbind_Ok]]%rbind_Ok. injection H4 as <-.
    cbn [buf gen fin]. apply put_len in H3. rewrite H3. destruct (Nat.eqb_spec (fin v) (length (buf v))).
    - apply realloc_shape in H1 as (E1 & E2 & E3). right. rewrite E1, E2, E3. done.
    - injection H1 as <-. by left.
  Qed.

  (** one step: the block stays, or it is replaced by one twice as large or just large enough because the
      old one was too small for the new size, or shrink_to_fit was called *)
  Lemma step_growth v l o v' : vrep v l -> vec_step dflt v o = Ok v' ->
    let l' := vec_spec dflt l o in
    length (buf v') = length (buf v) /\ gen v' = gen v \/
    gen v' = S (gen v) /\ length (buf v) < length l' /\ length (buf v') = (length (buf v) * 2) `max` length l' \/
    o = VShrinkToFit /\ length (buf v') = length l'.
  Proof.
    intros Hv Hst l'. pose proof (vrep_cap _ _ Hv) as Hc.
    assert (fin v = length l) as Hf by (destruct Hv as (? & ? & ?); done).
    destruct (step_ok dflt v l o Hv) as (v2 & E & Hv2). rewrite Hst in E. injection E as <-.
    assert (fin v' = length l') as Hf' by (destruct Hv2 as (? & ? & ?); done).
    destruct o as [a| |i a|i|i j| |n|n a|]; cbn [vec_step] in Hst.
    - apply push_back_shape in Hst as [?|(? & ? & ? & H)]; [tauto|]. right; left. rewrite H. split; [done|]. lia.
    - destruct (pop_back_ok v l Hv) as (v1 & E & _ & Hb & Hg & _). rewrite E in Hst. injection Hst as ->.
      left. by rewrite Hb.
    - apply rbind_Ok in Hst as ([v1 q] & H1 & H2). injection H2 as ->.
      apply insert_shape in H1 as [?|(? & ? & ? & H)]; [tauto| |done]. right; left. rewrite H. split; [done|]. lia.
    - apply rbind_Ok in Hst as ([v1 q] & H1 & H2). injection H2 as ->. destruct (l !! i) as [x|] eqn:Ei.
      + destruct (erase_ok v l i x Hv Ei) as (v2 & E & _ & Hg & Hb & _). rewrite E in H1. injection H1 as -> _. by left.
      + apply lookup_ge_None in Ei. rewrite (erase_invalid v l) in H1 by done. injection H1 as -> _. by left.
    - apply rbind_Ok in Hst as ([v1 q] & H1 & H2). injection H2 as ->. destruct (decide (i <= j <= length l)) as [H|H].
      + destruct (erase_range_ok v l i j Hv H) as (v2 & E & _ & Hg & Hb & _). rewrite E in H1. injection H1 as -> _. by left.
      + rewrite (erase_range_invalid v l) in H1 by done. injection H1 as -> _. by left.
    - destruct (clear_ok v l Hv) as (v1 & E & _ & Hb & Hg & _). rewrite E in Hst. injection Hst as ->.
      left. by rewrite Hb.
    - destruct (resize_ok dflt v l n None dflt Hv eq_refl) as (v1 & E & Hr & H). unfold vec_resize in Hst. rewrite E in Hst.
      injection Hst as ->. destruct (Nat.leb_spec n (length (buf v))); [left; tauto|]. right; left.
      destruct H as (? & _ & H). rewrite H. subst l'. cbn [vec_spec]. unfold seq_resize.
      rewrite app_length, take_length, replicate_length. split; [done|]. lia.
    - destruct (resize_ok dflt v l n (Some (Val a)) a Hv eq_refl) as (v1 & E & Hr & H). rewrite E in Hst.
      injection Hst as ->. destruct (Nat.leb_spec n (length (buf v))); [left; tauto|]. right; left.
      destruct H as (? & _ & H). rewrite H. subst l'. cbn [vec_spec]. unfold seq_resize.
      rewrite app_length, take_length, replicate_length. split; [done|]. lia.
    - right; right. split; [done|]. destruct (shrink_ok v l Hv) as (v1 & E & _ & Hb & _). rewrite E in Hst.
      by injection Hst as ->.
  Qed.

  Definition peak_from (l : list A) (ops : list (vec_op A)) (B : nat) : Prop :=
    forall k, length (fold_left (vec_spec dflt) (take k ops) l) <= B.
  Lemma peak_from_cons l o ops B : peak_from l (o :: ops) B -> length l <= B /\ peak_from (vec_spec dflt l o) ops B.
  Proof. intros H. split; [exact (H 0)|]. intros k. exact (H (S k)). Qed.
  Lemma peak_from_0 l ops B : peak_from l ops B -> length l <= B.
  Proof. intros H. exact (H 0). Qed.

  Lemma run_capacity B ops : forall v l, vrep v l -> length (buf v) <= 2 * B -> peak_from l ops B ->
    exists v', vec_run dflt v ops = Ok v' /\ length (buf v') <= 2 * B.
  Proof.
    induction ops as [|o ops IH]; intros v l Hv Hc Hp; [by exists v|].
    apply peak_from_cons in Hp as [_ Hp]. pose proof (peak_from_0 _ _ _ Hp) as Hl.
    destruct (step_ok dflt v l o Hv) as (v1 & E & Hv1). cbn [vec_run]. rewrite E. cbn [rbind].
    apply (IH v1 _ Hv1); [|done]. destruct (step_growth v l o v1 Hv E) as [(-> & _)|[(_ & ? & ->)|(_ & ->)]]; lia.
  Qed.

  Lemma run_moved ops : forall v l m, vrep v l -> Forall (fun o => o <> VShrinkToFit) ops ->
    m <= length (buf v) ->
    exists v', vec_run dflt v ops = Ok v' /\ m + vec_moved dflt v ops <= length (buf v').
  Proof.
    induction ops as [|o ops IH]; intros v l m Hv Hn Hm; [exists v; cbn; split; [done|lia]|].
    apply Forall_cons in Hn as [Ho Hn]. pose proof (vrep_cap _ _ Hv) as Hc.
    destruct (step_ok dflt v l o Hv) as (v1 & E & Hv1). cbn [vec_run vec_moved]. rewrite E. cbn [rbind].
    destruct (step_growth v l o v1 Hv E) as [(Hb & Hg)|[(Hg & ? & Hb)|(? & _)]]; [| |done].
    - rewrite Hg, Nat.eqb_refl. destruct (IH v1 _ m Hv1 Hn ltac:(lia)) as (v' & H1 & H2). exists v'. split; [done|]. lia.
    - rewrite Hg, (proj2 (Nat.eqb_neq _ _)) by lia.
      destruct (IH v1 _ (m + vec_size v) Hv1 Hn) as (v' & H1 & H2); [unfold vec_size; lia|].
      exists v'. split; [done|]. lia.
  Qed.

  Lemma run_gens ops : forall v l, vrep v l -> Forall (fun o => o <> VShrinkToFit) ops ->
    (gen v <> 0 -> 2 ^ (gen v - 1) <= length (buf v)) ->
    exists v', vec_run dflt v ops = Ok v' /\ (gen v' <> 0 -> 2 ^ (gen v' - 1) <= length (buf v')).
  Proof.
    induction ops as [|o ops IH]; intros v l Hv Hn Hg; [by exists v|].
    apply Forall_cons in Hn as [Ho Hn].
    destruct (step_ok dflt v l o Hv) as (v1 & E & Hv1). cbn [vec_run]. rewrite E. cbn [rbind].
    apply (IH v1 _ Hv1 Hn).
    destruct (step_growth v l o v1 Hv E) as [(-> & ->)|[(Hg1 & H & Hb)|(? & _)]]; [done| |done].
    intros _. rewrite Hg1, Hb. replace (S (gen v) - 1) with (gen v) by lia. destruct (gen v) as [|g].
    - cbn. lia.
    - specialize (Hg ltac:(lia)). cbn [Nat.pow]. replace (S g - 1) with g in Hg by lia. lia.
  Qed.
End vector.

Section deque.
  Context {A : Type} (dflt : A).

  Lemma drealloc_shape (d d' : deq A) n : dstart d <= dfin d -> deq_realloc d n = Ok d' ->
    let size := dfin d - dstart d in
    let cap := (length (dbuf d) * 2) `max` (n + size) in
    length (dbuf d') = cap /\ dstart d' = (cap - size) / 2 /\ dfin d' = dstart d' + size.
  Proof.
    intros Hs. unfold deq_realloc, deq_size, deq_capacity. intros [b [H1 [ds [H2 H3]]%rbind_Ok]]%rbind_Ok.
    injection H3 as <-. cbn [dbuf dgen dfin dstart]. apply mcpy_len in H1. rewrite H1. unfold raw. rewrite replicate_length.
    assert ((if length (dbuf d) * 2 <? n + (dfin d - dstart d) then n + (dfin d - dstart d) else length (dbuf d) * 2)
      = (length (dbuf d) * 2) `max` (n + (dfin d - dstart d))) as ->; [|done].
    destruct (Nat.ltb_spec (length (dbuf d) * 2) (n + (dfin d - dstart d))); lia.
  Qed.
  Lemma dpush_back_shape (d d' : deq A) (a : arg A) : dstart d <= dfin d -> deq_push_back d a = Ok d' ->
    (dfin d <> length (dbuf d) /\ length (dbuf d') = length (dbuf d) /\ dstart d' = dstart d /\ dfin d' = S (dfin d)) \/
    (dfin d = length (dbuf d) /\ let size := dfin d - dstart d in
      length (dbuf d') = (length (dbuf d) * 2) `max` (2 + size) /\
      dstart d' = (length (dbuf d') - size) / 2 /\ dfin d' = S (dstart d' + size)).
  Proof.
    intros Hs. unfold deq_push_back. intros [v1 [H1 [x [H2 [b [H3 H4]]%rbind_Ok]]%rbind_Ok]]%rbind_Ok. injection H4 as <-.
    cbn [dbuf dstart dfin]. apply put_len in H3. rewrite H3. destruct (Nat.eqb_spec (dfin d) (length (dbuf d))).
    - apply drealloc_shape in H1 as (E1 & E2 & E3); [|done]. right. rewrite E3, E2, E1. done.
    - injection H1 as <-. by left.
  Qed.
  Lemma dpush_front_shape (d d' : deq A) (a : arg A) : dstart d <= dfin d -> deq_push_front d a = Ok d' ->
    (dstart d <> 0 /\ length (dbuf d') = length (dbuf d) /\ S (dstart d') = dstart d /\ dfin d' = dfin d) \/
    (dstart d = 0 /\ let size := dfin d - dstart d in
      length (dbuf d') = (length (dbuf d) * 2) `max` (2 + size) /\
      S (dstart d') = (length (dbuf d') - size) / 2 /\ dfin d' = S (dstart d') + size).
  Proof.
    intros Hs. unfold deq_push_front. intros [v1 [H1 H2]]%rbind_Ok. destruct (dstart v1) as [|s] eqn:Es; [done|].
    apply rbind_Ok in H2 as (x & H2 & H3). apply rbind_Ok in H3 as (b & H3 & H4). injection H4 as <-.
    cbn [dbuf dstart dfin]. apply put_len in H3. rewrite H3. destruct (Nat.eqb_spec (dstart d) 0).
    - apply drealloc_shape in H1 as (E1 & E2 & E3); [|done]. right. rewrite E3, E1, Es. rewrite Es in E2. by rewrite <- E2.
    - injection H1 as <-. by left.
  Qed.
  (** where __insert_aux leaves the elements *)
  Lemma insert_aux_shape (d d' : deq A) pos n val q : dstart d <= pos <= dfin d -> dfin d <= length (dbuf d) ->
    insert_aux dflt d pos n val = Ok (d', q) ->
    length (dbuf d') = length (dbuf d) /\
    (n <= length (dbuf d) - dfin d /\ dstart d' = dstart d /\ dfin d' = dfin d + n \/
     length (dbuf d) - dfin d < n <= dstart d /\ dstart d' = dstart d - n /\ dfin d' = dfin d \/
     length (dbuf d) - dfin d < n /\ dstart d < n /\ dstart d' = 0 /\ dfin d' = dfin d - dstart d + n).
  Proof.
    intros Hp Hc. unfold insert_aux, available_end, available_start.
    destruct (Nat.leb_spec n (length (dbuf d) - dfin d)) as [H1|H1]; [|destruct (Nat.leb_spec n (dstart d)) as [H2|H2]].
    - intros [b [E1 [b' [E2 E3]]%rbind_Ok]]%rbind_Ok. injection E3 as <- <-. cbn [dbuf dstart dfin].
      apply mcpy_len in E1. apply fill_len in E2. rewrite E2, E1. split; [done|]. by left.
    - intros [b [E1 [b' [E2 E3]]%rbind_Ok]]%rbind_Ok. injection E3 as <- <-. cbn [dbuf dstart dfin].
      apply mcpy_len in E1. apply fill_len in E2. rewrite E2, E1. split; [done|]. right; by left.
    - intros [b [E1 [b1 [E2 [b2 [E3 E4]]%rbind_Ok]]%rbind_Ok]]%rbind_Ok. injection E4 as <- <-. cbn [dbuf dstart dfin].
      apply mcpy_len in E1. apply mcpy_len in E2. apply fill_len in E3. rewrite E3, E2, E1. split; [done|].
      right; right. lia.
  Qed.

  (** the two invariants: the front gap (for filling at the back) and the back gap (for filling at the front)
      are at most half of the block *)
  Definition front_gap_small (d : deq A) : Prop := 2 * dstart d <= length (dbuf d) + 1.
  Definition back_gap_small (d : deq A) : Prop := length (dbuf d) <= 2 * dfin d + 1.

  Lemma half2 n : 2 * (n / 2) <= n <= 2 * (n / 2) + 1.
  Proof. pose proof (Nat.div_mod_eq n 2). pose proof (Nat.mod_upper_bound n 2). lia. Qed.

  (** an operation that moves the end back *)
  Definition cuts_back (l : list A) (o : deq_op A) : Prop :=
    match o with
    | DPopFront | DClear | DShrinkToFit => False
    | _ => length (deq_spec dflt l o) < length l
    end.

  Lemma insert_aux_gaps (d d' : deq A) pos n val q : dstart d <= pos <= dfin d -> dfin d <= length (dbuf d) ->
    insert_aux dflt d pos n val = Ok (d', q) ->
    length (dbuf d') = length (dbuf d) /\ (front_gap_small d -> front_gap_small d') /\
    (back_gap_small d -> back_gap_small d').
  Proof.
    intros Hp Hc H. apply insert_aux_shape in H as (Hb & H); [|done..]. unfold front_gap_small, back_gap_small.
    rewrite Hb. lia.
  Qed.
  Lemma drealloc_gaps (d d' : deq A) n : dstart d <= dfin d -> dfin d <= length (dbuf d) -> deq_realloc d n = Ok d' ->
    front_gap_small d' /\ back_gap_small d' /\ dstart d' <= dfin d' <= length (dbuf d') /\
    dfin d' - dstart d' = dfin d - dstart d /\
    length (dbuf d') = (length (dbuf d) * 2) `max` (n + (dfin d - dstart d)).
  Proof.
    intros Hs Hc H. apply drealloc_shape in H as (Hb & H1 & H2); [|done]. unfold front_gap_small, back_gap_small.
    rewrite Hb. pose proof (half2 ((length (dbuf d) * 2) `max` (n + (dfin d - dstart d)) - (dfin d - dstart d))) as Hh.
    rewrite <- H1 in Hh. lia.
  Qed.

  Lemma dresize_gaps (d d' : deq A) l n val a : drep d l -> dval_of dflt val = Some a ->
    deq_resize_with_value dflt d n val = Ok d' ->
    (front_gap_small d -> front_gap_small d') /\
    (length l <= n -> back_gap_small d -> back_gap_small d') /\
    (length (dbuf d') = length (dbuf d) \/ length (dbuf d) < n /\ length (dbuf d') <= 2 * n).
  Proof.
    intros Hd Hv H. pose proof (drep_bounds _ _ Hd) as [Hf Hc]. pose proof (drep_size _ _ Hd) as [Hsz _].
    unfold deq_resize_with_value in H. rewrite Hsz in H. destruct (Nat.ltb_spec (length l) n) as [Hn|Hn].
    - apply rbind_Ok in H as (d1 & H1 & H). apply rbind_Ok in H as ([d2 q] & H2 & H). injection H as ->.
      unfold deq_available, available_start, available_end in H1.
      destruct (Nat.ltb_spec (dstart d + (length (dbuf d) - dfin d)) (n - length l)) as [Ha|Ha].
      + apply drealloc_gaps in H1 as (G1 & G2 & G3 & G4 & G5); [|lia..].
        apply insert_aux_gaps in H2 as (E1 & E2 & E3); [|lia..]. split; [tauto|]. split; [tauto|]. right. lia.
      + injection H1 as <-. apply insert_aux_gaps in H2 as (E1 & E2 & E3); [|lia..]. tauto.
    - apply rbind_Ok in H as (ds & _ & H). injection H as <-. unfold front_gap_small, back_gap_small. cbn [dstart dfin dbuf].
      split; [done|]. split; [|by left]. intros ?. replace (dstart d + n) with (dfin d) by lia. done.
  Qed.
  Lemma dinsert_n_gaps (d d' : deq A) l i n a q : drep d l -> deq_insert_n dflt d (dstart d + i) n (Val a) = Ok (d', q) ->
    (front_gap_small d -> front_gap_small d') /\ (back_gap_small d -> back_gap_small d') /\
    (length (dbuf d') = length (dbuf d) \/
     i <= length l /\ length (dbuf d) < length l + n /\ length (dbuf d') <= 2 * (length l + n)).
  Proof.
    intros Hd H. pose proof (drep_bounds _ _ Hd) as [Hf Hc]. unfold deq_insert_n, deq_valid in H.
    destruct (Nat.leb_spec (dstart d) (dstart d + i)); [|lia].
    destruct (Nat.leb_spec (dstart d + i) (dfin d)) as [Hi|Hi]; cbn [andb negb] in H.
    - unfold deq_available, available_start, available_end in H.
      destruct (Nat.ltb_spec (dstart d + (length (dbuf d) - dfin d)) n) as [Ha|Ha].
      + apply rbind_Ok in H as (d1 & H1 & H).
        apply drealloc_gaps in H1 as (G1 & G2 & G3 & G4 & G5); [|lia..].
        apply insert_aux_gaps in H as (E1 & E2 & E3); [|lia..]. split; [tauto|]. split; [tauto|]. right. lia.
      + apply insert_aux_gaps in H as (E1 & E2 & E3); [|lia..]. tauto.
    - injection H as <- _. tauto.
  Qed.

  Lemma dstep_gaps (d d' : deq A) l o (B : nat) (b1 b2 : bool) : drep d l -> deq_step dflt d o = Ok d' ->
    length (deq_spec dflt l o) <= B ->
    (if b1 then front_gap_small d /\ o <> DPopFront else forall a, o <> DPushBack a) ->
    (if b2 then back_gap_small d /\ ~ cuts_back l o else forall a, o <> DPushFront a) ->
    length (dbuf d) <= 4 * B ->
    (b1 = true -> front_gap_small d') /\ (b2 = true -> back_gap_small d') /\ length (dbuf d') <= 4 * B.
  Proof.
    intros Hd Hst HB H1 H2 Hcap. pose proof (drep_bounds _ _ Hd) as [Hf Hc].
    destruct o as [a|a| | |i a|i n a|i|i j| |n|n a|]; cbn [deq_step deq_spec] in *.
    - apply dpush_back_shape in Hst as [(H & Hb & Hs & He)|(H & Hb & Hs & He)]; [| |lia].
      + unfold front_gap_small, back_gap_small in *. rewrite Hb, Hs, He. destruct b1, b2; split_and!; intros; first [done|lia].
      + destruct b1; [|by destruct (H1 a)]. destruct H1 as [H1 _]. unfold front_gap_small, back_gap_small in *.
        rewrite app_length in HB. cbn [length] in HB.
        pose proof (half2 (length (dbuf d') - (dfin d - dstart d))) as Hh. rewrite <- Hs in Hh. lia.
    - apply dpush_front_shape in Hst as [(H & Hb & Hs & He)|(H & Hb & Hs & He)]; [| |lia].
      + unfold front_gap_small, back_gap_small in *. rewrite Hb, He. destruct b1, b2; split_and!; intros; first [done|lia].
      + destruct b2; [|by destruct (H2 a)]. destruct H2 as [H2 _]. unfold front_gap_small, back_gap_small in *.
        cbn [length] in HB.
        pose proof (half2 (length (dbuf d') - (dfin d - dstart d))) as Hh. rewrite <- Hs in Hh. lia.
    - unfold deq_pop_back in Hst. destruct (drep_size _ _ Hd) as [_ He]. rewrite He in Hst.
      destruct (Nat.eqb_spec (length l) 0) as [Hl|Hl].
      + injection Hst as <-. destruct b1, b2; split_and!; intros; first [done|tauto].
      + apply rbind_Ok in Hst as (x & _ & Hst). injection Hst as <-. unfold front_gap_small, back_gap_small in *.
        cbn [dstart dfin dbuf]. cbn [cuts_back deq_spec] in H2. rewrite take_length in H2. destruct b1, b2; split_and!; intros; first [done|lia].
    - unfold deq_pop_front in Hst. destruct (deq_empty d).
      + injection Hst as <-. destruct b1, b2; split_and!; intros; first [done|tauto].
      + apply rbind_Ok in Hst as (x & _ & Hst). injection Hst as <-. unfold front_gap_small, back_gap_small in *.
        cbn [dstart dfin dbuf]. destruct b1, b2; split_and!; intros; first [done|tauto].
    - apply rbind_Ok in Hst as ([d1 q] & Hst & E). injection E as ->. unfold deq_insert in Hst.
      eapply dinsert_n_gaps in Hst as (E1 & E2 & E3); [|done]. destruct (Nat.leb_spec i (length l)) as [Hi|Hi].
      + unfold seq_insert in HB. rewrite !app_length, take_length, drop_length in HB. cbn [length] in HB.
        split; [destruct b1; [tauto|done]|]. split; [destruct b2; [tauto|done]|]. lia.
      + split; [destruct b1; [tauto|done]|]. split; [destruct b2; [tauto|done]|]. lia.
    - apply rbind_Ok in Hst as ([d1 q] & Hst & E). injection E as ->.
      eapply dinsert_n_gaps in Hst as (E1 & E2 & E3); [|done]. destruct (Nat.leb_spec i (length l)) as [Hi|Hi].
      + unfold seq_insert in HB. rewrite !app_length, take_length, drop_length, replicate_length in HB.
        split; [destruct b1; [tauto|done]|]. split; [destruct b2; [tauto|done]|]. lia.
      + split; [destruct b1; [tauto|done]|]. split; [destruct b2; [tauto|done]|]. lia.
    - apply rbind_Ok in Hst as ([d1 q] & Hst & E). injection E as ->.
      destruct (decide (i < length l)) as [Hi|Hi].
      + unfold deq_erase in Hst. destruct (_ || _) eqn:Eg.
        * injection Hst as <- _. destruct b1, b2; split_and!; intros; first [done|tauto].
        * apply rbind_Ok in Hst as (x & _ & Hst). apply rbind_Ok in Hst as (b & Hm & Hst). injection Hst as <- _.
          apply mcpy_len in Hm. unfold front_gap_small, back_gap_small in *. cbn [dstart dfin dbuf]. rewrite Hm.
          unfold cuts_back, deq_spec, seq_delete in H2. rewrite app_length, take_length, drop_length in H2.
          destruct b1, b2; split_and!; intros; first [done|lia].
      + rewrite (derase_invalid d l) in Hst by (done || lia). injection Hst as <- _.
        destruct b1, b2; split_and!; intros; first [done|tauto].
    - apply rbind_Ok in Hst as ([d1 q] & Hst & E). injection E as ->.
      destruct (decide (i <= j <= length l)) as [Hij|Hij].
      + destruct (derase_range_ok d l i j Hd Hij) as (d2 & E & Hd2 & _ & Hs & Hb & _). rewrite E in Hst. injection Hst as -> _.
        rewrite !(proj2 (Nat.leb_le _ _)) in HB by lia. cbn [andb] in HB.
        apply drep_bounds in Hd2 as [Hf2 _]. unfold front_gap_small, back_gap_small in *. rewrite Hb, Hf2, Hs.
        unfold cuts_back, deq_spec in H2. rewrite !(proj2 (Nat.leb_le _ _)) in H2 by lia. cbn [andb] in H2.
        destruct b1, b2; split_and!; intros; first [done|lia].
      + rewrite (derase_range_invalid d l) in Hst by done. injection Hst as <- _. destruct b1, b2; split_and!; intros; first [done|tauto].
    - destruct (dclear_ok d l Hd) as (d1 & E & Hd1 & Hb & _ & _ & Hs). rewrite E in Hst. injection Hst as ->.
      apply drep_bounds in Hd1 as [Hf1 _]. cbn [length] in Hf1. unfold front_gap_small, back_gap_small in *.
      rewrite Hf1, Hs, Hb. pose proof (half2 (length (dbuf d))). destruct (Nat.eqb_spec (length l) 0); destruct b1, b2; split_and!; intros; first [done|lia].
    - eapply dresize_gaps in Hst as (E1 & E2 & E3); [|done|done]. unfold cuts_back, deq_spec, seq_resize in *.
      rewrite app_length, take_length, replicate_length in *. split; [destruct b1; [tauto|done]|].
      split; [|lia]. intros ->. destruct H2 as [H2 H3]. apply E2; [lia|done].
    - eapply dresize_gaps in Hst as (E1 & E2 & E3); [|done|done]. unfold cuts_back, deq_spec, seq_resize in *.
      rewrite app_length, take_length, replicate_length in *. split; [destruct b1; [tauto|done]|].
      split; [|lia]. intros ->. destruct H2 as [H2 H3]. apply E2; [lia|done].
    - destruct (dshrink_ok d l Hd) as (d1 & E & Hd1 & Hb & _). rewrite E in Hst. injection Hst as ->.
      apply drep_bounds in Hd1 as [Hf1 Hc1]. unfold front_gap_small, back_gap_small. lia.
  Qed.

  Definition dpeak_from (l : list A) (ops : list (deq_op A)) (B : nat) : Prop :=
    forall k, length (fold_left (deq_spec dflt) (take k ops) l) <= B.
  Lemma dpeak_from_cons l o ops B : dpeak_from l (o :: ops) B -> length l <= B /\ dpeak_from (deq_spec dflt l o) ops B.
  Proof. intros H. split; [exact (H 0)|]. intros k. exact (H (S k)). Qed.
  (** no operation of the history moves the end back *)
  Definition no_cuts (l : list A) (ops : list (deq_op A)) : Prop :=
    forall k o, ops !! k = Some o -> ~ cuts_back (fold_left (deq_spec dflt) (take k ops) l) o.
  Lemma no_cuts_cons l o ops : no_cuts l (o :: ops) -> ~ cuts_back l o /\ no_cuts (deq_spec dflt l o) ops.
  Proof. intros H. split; [exact (H 0 o eq_refl)|]. intros k o' Hk. exact (H (S k) o' Hk). Qed.

  Lemma drun_gaps (B : nat) (b1 b2 : bool) ops : forall d l, drep d l ->
    dpeak_from l ops B ->
    (if b1 then front_gap_small d /\ Forall (fun o => o <> DPopFront) ops
     else Forall (fun o => forall a, o <> DPushBack a) ops) ->
    (if b2 then back_gap_small d /\ no_cuts l ops else Forall (fun o => forall a, o <> DPushFront a) ops) ->
    length (dbuf d) <= 4 * B ->
    exists d', deq_run dflt d ops = Ok d' /\ length (dbuf d') <= 4 * B.
  Proof.
    induction ops as [|o ops IH]; intros d l Hd Hp H1 H2 Hc; [by exists d|].
    apply dpeak_from_cons in Hp as [_ Hp]. pose proof (Hp 0) as Hl. rewrite take_0 in Hl. cbn [fold_left] in Hl.
    destruct (dstep_ok dflt d l o Hd) as (d1 & E & Hd1). cbn [deq_run]. rewrite E. cbn [rbind].
    destruct (dstep_gaps d d1 l o B b1 b2 Hd E Hl) as (G1 & G2 & G3).
    - destruct b1; [|by apply Forall_cons in H1 as [? _]]. destruct H1 as [? H1].
      apply Forall_cons in H1 as [? _]. done.
    - destruct b2; [|by apply Forall_cons in H2 as [? _]]. destruct H2 as [? H2].
      apply no_cuts_cons in H2 as [? _]. done.
    - done.
    - apply (IH d1 _ Hd1 Hp); [| |done].
      + destruct b1; [|by apply Forall_cons in H1 as [_ ?]]. split; [by apply G1|]. destruct H1 as [_ H1].
        by apply Forall_cons in H1 as [_ ?].
      + destruct b2; [|by apply Forall_cons in H2 as [_ ?]]. split; [by apply G2|]. destruct H2 as [_ H2].
        by apply no_cuts_cons in H2 as [_ ?].
  Qed.

  (** ** filling at one end and emptying at the other *)
  Lemma drun_app ops1 : forall d ops2, deq_run dflt d (ops1 ++ ops2) = (do d1 <- deq_run dflt d ops1; deq_run dflt d1 ops2).
  Proof.
    induction ops1 as [|o ops1 IH]; intros d ops2; [done|]. cbn [app deq_run].
    destruct (deq_step dflt d o) as [d1| |]; cbn [rbind]; [apply IH|done|done].
  Qed.
  Lemma fifo_round (d : deq A) a : drep d [] ->
    exists d', deq_run dflt d [DPushBack a; DPopFront] = Ok d' /\ drep d' [] /\
      (length (dbuf d) = 0 -> dfin d' = 2 /\ length (dbuf d') = 2) /\
      (length (dbuf d) <> 0 -> dfin d' = S (dfin d) /\
        length (dbuf d') = if dfin d =? length (dbuf d) then 2 * length (dbuf d) else length (dbuf d)).
  Proof.
    intros Hd. pose proof (drep_bounds _ _ Hd) as [Hf Hc]. cbn [length] in Hf.
    destruct (dpush_back_ok d [] a Hd) as (d1 & E1 & Hd1 & _). pose proof (drep_bounds _ _ Hd1) as [Hf1 Hc1]. cbn in Hf1.
    destruct (dpop_front_ok d1 _ Hd1) as (d2 & E2 & Hd2 & Hb2 & _). cbn [app] in Hd2.
    exists d2. cbn [deq_run deq_step]. rewrite E1. cbn [rbind]. rewrite E2. cbn [rbind]. split; [done|]. split; [done|].
    assert (dfin d2 = dfin d1) as Hf2.
    { unfold deq_pop_front in E2. destruct (drep_size _ _ Hd1) as [_ He]. cbn in He. rewrite He in E2.
      apply rbind_Ok in E2 as (x & _ & E2). by injection E2 as <-. }
    rewrite Hb2, Hf2. apply dpush_back_shape in E1 as [(H & Hb & Hs & He)|(H & Hb & Hs & He)]; [| |lia].
    - split; [lia|]. intros _. rewrite He, Hb. rewrite (proj2 (Nat.eqb_neq _ _)) by lia. done.
    - replace (dfin d - dstart d) with 0 in * by lia. split; intros Hz.
      + rewrite Hz in Hb. cbn in Hb. rewrite Hb in Hs. cbn in Hs. lia.
      + rewrite (proj2 (Nat.eqb_eq _ _)) by lia. rewrite Hb in Hs.
        pose proof (half2 ((length (dbuf d) * 2) `max` (2 + 0) - 0)) as Hh. rewrite <- Hs in Hh. lia.
  Qed.
  Lemma fifo_rounds a n : exists d, deq_run dflt deq_create (concat (replicate (S n) [DPushBack a; DPopFront])) = Ok d /\
    drep d [] /\ dfin d = S (S n) /\ length (dbuf d) <= 2 * (S n).
  Proof.
    induction n as [|n (d & E & Hd & Hf & Hc)].
    - destruct (fifo_round deq_create a dcreate_ok) as (d & E & Hd & H & _). exists d. split; [done|].
      split; [done|]. destruct (H eq_refl). lia.
    - destruct (fifo_round d a Hd) as (d' & E' & Hd' & _ & H). exists d'.
      rewrite replicate_S_end, concat_app, drun_app, E. cbn [rbind concat app]. split; [done|]. split; [done|].
      pose proof (drep_bounds _ _ Hd) as [_ Hb]. destruct H as [Hf' Hb']; [lia|]. split; [lia|].
      destruct (Nat.eqb_spec (dfin d) (length (dbuf d))); lia.
  Qed.
  (** the mirror image *)
  Lemma mirror_round (d : deq A) a : drep d [] ->
    exists d', deq_run dflt d [DPushFront a; DPopBack] = Ok d' /\ drep d' [] /\
      length (dbuf d') + dstart d = S (length (dbuf d) + dstart d') + (if length (dbuf d) =? 0 then 1 else 0).
  Proof.
    intros Hd. pose proof (drep_bounds _ _ Hd) as [Hf Hc]. cbn [length] in Hf.
    destruct (dpush_front_ok d [] a Hd) as (d1 & E1 & Hd1 & _). pose proof (drep_bounds _ _ Hd1) as [Hf1 Hc1]. cbn in Hf1.
    destruct (dpop_back_ok d1 _ Hd1) as (d2 & E2 & Hd2 & Hb2 & _). cbn [length take Nat.sub] in Hd2. try rewrite take_0 in Hd2.
    exists d2. cbn [deq_run deq_step]. rewrite E1. cbn [rbind]. rewrite E2. cbn [rbind]. split; [done|]. split; [done|].
    assert (dstart d2 = dstart d1) as Hf2.
    { unfold deq_pop_back in E2. destruct (drep_size _ _ Hd1) as [_ He]. cbn in He. rewrite He in E2.
      apply rbind_Ok in E2 as (x & _ & E2). by injection E2 as <-. }
    rewrite Hb2, Hf2. apply dpush_front_shape in E1 as [(H & Hb & Hs & He)|(H & Hb & Hs & He)]; [| |lia].
    - rewrite (proj2 (Nat.eqb_neq _ _)) by lia. lia.
    - replace (dfin d - dstart d) with 0 in * by lia. rewrite Hb in Hs.
      pose proof (half2 ((length (dbuf d) * 2) `max` (2 + 0) - 0)) as Hh. rewrite <- Hs in Hh.
      destruct (Nat.eqb_spec (length (dbuf d)) 0); lia.
  Qed.
  Lemma mirror_rounds a n : exists d, deq_run dflt deq_create (concat (replicate (S n) [DPushFront a; DPopBack])) = Ok d /\
    drep d [] /\ length (dbuf d) = S (S n) + dstart d.
  Proof.
    induction n as [|n (d & E & Hd & Hc)].
    - destruct (mirror_round deq_create a dcreate_ok) as (d & E & Hd & H). exists d. split; [done|].
      split; [done|]. cbn in H. lia.
    - destruct (mirror_round d a Hd) as (d' & E' & Hd' & H). exists d'.
      rewrite replicate_S_end, concat_app, drun_app, E. cbn [rbind concat app]. split; [done|]. split; [done|].
      rewrite (proj2 (Nat.eqb_neq _ _)) in H by lia. lia.
  Qed.

  (** ** the block is at most eight times the number of elements ever added *)
  (** [N]: the number of elements added so far *)
  Definition added_inv (d : deq A) (l : list A) (N : nat) : Prop :=
    length l <= N /\ length (dbuf d) <= 8 * N /\
    3 * length (dbuf d) <= 8 * dstart d + 8 * N + 8 /\
    3 * length (dbuf d) <= 8 * (length (dbuf d) - dfin d) + 8 * N + 8.

  Lemma insert_aux_added (d d' : deq A) (l : list A) pos n val q (N : nat) : dstart d <= pos <= dfin d ->
    dfin d <= length (dbuf d) -> insert_aux dflt d pos n val = Ok (d', q) ->
    3 * length (dbuf d) <= 8 * dstart d + 8 * N + 8 ->
    3 * length (dbuf d) <= 8 * (length (dbuf d) - dfin d) + 8 * N + 8 ->
    length (dbuf d') = length (dbuf d) /\
    3 * length (dbuf d') <= 8 * dstart d' + 8 * (N + n) + 8 /\
    3 * length (dbuf d') <= 8 * (length (dbuf d') - dfin d') + 8 * (N + n) + 8.
  Proof.
    intros Hp Hc H H1 H2. apply insert_aux_shape in H as (Hb & H); [|done..]. rewrite Hb. lia.
  Qed.
  Lemma grown_added (d d' : deq A) (N : nat) : length (dbuf d') <= 2 * N ->
    3 * length (dbuf d') <= 8 * dstart d' + 8 * N + 8 /\
    3 * length (dbuf d') <= 8 * (length (dbuf d') - dfin d') + 8 * N + 8.
  Proof. lia. Qed.

  Lemma dinsert_n_added (d d' : deq A) l i n a q N : drep d l -> i <= length l -> added_inv d l N ->
    deq_insert_n dflt d (dstart d + i) n (Val a) = Ok (d', q) ->
    length (dbuf d') <= 8 * (N + n) /\ 3 * length (dbuf d') <= 8 * dstart d' + 8 * (N + n) + 8 /\
    3 * length (dbuf d') <= 8 * (length (dbuf d') - dfin d') + 8 * (N + n) + 8.
  Proof.
    intros Hd Hi (HN & H1 & H2 & H3) H. pose proof (drep_bounds _ _ Hd) as [Hf Hc]. unfold deq_insert_n, deq_valid in H.
    rewrite !(proj2 (Nat.leb_le _ _)) in H by lia. cbn [andb negb] in H.
    unfold deq_available, available_start, available_end in H.
    destruct (Nat.ltb_spec (dstart d + (length (dbuf d) - dfin d)) n) as [Ha|Ha].
    - apply rbind_Ok in H as (d1 & E & H).
      apply drealloc_gaps in E as (G1 & G2 & G3 & G4 & G5); [|lia..].
      apply insert_aux_shape in H as (E1 & _); [|lia..]. lia.
    - eapply (insert_aux_added _ _ l) in H; [|lia|lia|exact H2|exact H3]. lia.
  Qed.
  Lemma dresize_added (d d' : deq A) l n val a N : drep d l -> dval_of dflt val = Some a -> added_inv d l N ->
    deq_resize_with_value dflt d n val = Ok d' ->
    let N' := N + (n - length l) in
    length (dbuf d') <= 8 * N' /\ 3 * length (dbuf d') <= 8 * dstart d' + 8 * N' + 8 /\
    3 * length (dbuf d') <= 8 * (length (dbuf d') - dfin d') + 8 * N' + 8.
  Proof.
    intros Hd Hv (HN & G1 & G2 & G3) H N'. pose proof (drep_bounds _ _ Hd) as [Hf Hc]. pose proof (drep_size _ _ Hd) as [Hsz _].
    unfold deq_resize_with_value in H. rewrite Hsz in H. destruct (Nat.ltb_spec (length l) n) as [Hn|Hn].
    - apply rbind_Ok in H as (d1 & H1 & H). apply rbind_Ok in H as ([d2 q] & H2 & H). injection H as ->.
      unfold deq_available, available_start, available_end in H1.
      destruct (Nat.ltb_spec (dstart d + (length (dbuf d) - dfin d)) (n - length l)) as [Ha|Ha].
      + apply drealloc_gaps in H1 as (F1 & F2 & F3 & F4 & F5); [|lia..].
        apply insert_aux_shape in H2 as (E1 & _); [|lia..]. lia.
      + injection H1 as <-. eapply (insert_aux_added _ _ l) in H2; [|lia|lia|exact G2|exact G3]. lia.
    - apply rbind_Ok in H as (ds & _ & H). injection H as <-. cbn [dstart dfin dbuf]. lia.
  Qed.

  Lemma dstep_added (d d' : deq A) l o (N N' : nat) : drep d l -> deq_step dflt d o = Ok d' ->
    N + length (deq_added dflt l o) <= N' -> added_inv d l N -> added_inv d' (deq_spec dflt l o) N'.
  Proof.
    intros Hd Hst HN Hinv. pose proof (drep_bounds _ _ Hd) as [Hf Hc].
    assert (length (deq_spec dflt l o) <= N').
    { destruct Hinv as (Hl & _). destruct o as [a|a| | |i a|i n a|i|i j| |n|n a|]; cbn [deq_added deq_spec] in *;
        unfold seq_insert, seq_delete, seq_resize in *; repeat (case_match; cbn [length] in *);
        rewrite ?app_length, ?take_length, ?drop_length, ?replicate_length, ?app_length, ?replicate_length, ?drop_length in *;
        cbn [length] in *; lia. }
    split; [done|].
    destruct o as [a|a| | |i a|i n a|i|i j| |n|n a|]; cbn [deq_step deq_added] in Hst, HN.
    - destruct Hinv as (Hl & G1 & G2 & G3). cbn [length] in HN.
      apply dpush_back_shape in Hst as [(H0 & Hb & Hs & He)|(H0 & Hb & Hs & He)]; [| |lia].
      + lia.
      + pose proof (half2 (length (dbuf d') - (dfin d - dstart d))) as Hh. rewrite <- Hs in Hh. lia.
    - destruct Hinv as (Hl & G1 & G2 & G3). cbn [length] in HN.
      apply dpush_front_shape in Hst as [(H0 & Hb & Hs & He)|(H0 & Hb & Hs & He)]; [| |lia].
      + lia.
      + pose proof (half2 (length (dbuf d') - (dfin d - dstart d))) as Hh. rewrite <- Hs in Hh. lia.
    - destruct Hinv as (Hl & G1 & G2 & G3). cbn [length] in HN. unfold deq_pop_back in Hst. destruct (deq_empty d).
      + injection Hst as <-. lia.
      + apply rbind_Ok in Hst as (x & _ & Hst). injection Hst as <-. cbn [dstart dfin dbuf]. lia.
    - destruct Hinv as (Hl & G1 & G2 & G3). cbn [length] in HN. unfold deq_pop_front in Hst. destruct (deq_empty d).
      + injection Hst as <-. lia.
      + apply rbind_Ok in Hst as (x & _ & Hst). injection Hst as <-. cbn [dstart dfin dbuf]. lia.
    - apply rbind_Ok in Hst as ([d1 q] & Hst & E). injection E as ->. unfold deq_insert in Hst.
      destruct (Nat.leb_spec i (length l)) as [Hi|Hi].
      + eapply dinsert_n_added in Hst; [|done|done|done]. cbn [length] in HN. lia.
      + rewrite (dinsert_n_invalid dflt d l) in Hst by (done || lia). injection Hst as <- _.
        destruct Hinv as (Hl & G1 & G2 & G3). cbn [length] in HN. lia.
    - apply rbind_Ok in Hst as ([d1 q] & Hst & E). injection E as ->.
      destruct (Nat.leb_spec i (length l)) as [Hi|Hi].
      + eapply dinsert_n_added in Hst; [|done|done|done]. rewrite replicate_length in HN. lia.
      + rewrite (dinsert_n_invalid dflt d l) in Hst by (done || lia). injection Hst as <- _.
        destruct Hinv as (Hl & G1 & G2 & G3). cbn [length] in HN. lia.
    - apply rbind_Ok in Hst as ([d1 q] & Hst & E). injection E as ->. destruct Hinv as (Hl & G1 & G2 & G3). cbn [length] in HN.
      unfold deq_erase in Hst. destruct (_ || _).
      + injection Hst as <- _. lia.
      + apply rbind_Ok in Hst as (x & _ & Hst). apply rbind_Ok in Hst as (b & Hm & Hst). injection Hst as <- _.
        apply mcpy_len in Hm. cbn [dstart dfin dbuf]. lia.
    - apply rbind_Ok in Hst as ([d1 q] & Hst & E). injection E as ->. destruct Hinv as (Hl & G1 & G2 & G3). cbn [length] in HN.
      unfold deq_erase_range in Hst. destruct (_ || _); [injection Hst as <- _; lia|].
      destruct (_ =? _); [injection Hst as <- _; lia|].
      apply rbind_Ok in Hst as (x & _ & Hst). apply rbind_Ok in Hst as (b & Hm & Hst). injection Hst as <- _.
      apply mcpy_len in Hm. cbn [dstart dfin dbuf]. lia.
    - destruct (dclear_ok d l Hd) as (d1 & E & Hd1 & Hb & _ & _ & Hs). rewrite E in Hst. injection Hst as ->.
      apply drep_bounds in Hd1 as [Hf1 _]. cbn [length] in Hf1, HN. destruct Hinv as (Hl & G1 & G2 & G3).
      rewrite Hb, Hf1, Hs. pose proof (half2 (length (dbuf d))). destruct (Nat.eqb_spec (length l) 0); lia.
    - eapply dresize_added in Hst; [|done|done|done]. rewrite replicate_length in HN. lia.
    - eapply dresize_added in Hst; [|done|done|done]. rewrite replicate_length in HN. lia.
    - destruct (dshrink_ok d l Hd) as (d1 & E & Hd1 & Hb & _). rewrite E in Hst. injection Hst as ->.
      apply drep_bounds in Hd1 as [Hf1 Hc1]. destruct Hinv as (Hl & _). cbn [length] in HN. lia.
  Qed.
  Lemma drun_added ops : forall d l N, drep d l -> added_inv d l N ->
    exists d', deq_run dflt d ops = Ok d' /\
      added_inv d' (fold_left (deq_spec dflt) ops l) (N + length (deq_all_added dflt l ops)).
  Proof.
    induction ops as [|o ops IH]; intros d l N Hd Hi; [exists d; split; [done|]; cbn; by rewrite Nat.add_0_r|].
    destruct (dstep_ok dflt d l o Hd) as (d1 & E & Hd1). cbn [deq_run deq_all_added fold_left]. rewrite E. cbn [rbind].
    destruct (IH d1 _ (N + length (deq_added dflt l o)) Hd1) as (d' & E' & H); [by eapply dstep_added|].
    exists d'. split; [done|]. by rewrite app_length, Nat.add_assoc.
  Qed.
End deque.
