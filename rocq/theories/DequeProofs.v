(** DequeProofs.v — the deque refines a sequence. *)
From Verif Require Import Base Spec SpecSeq Facts Buffer BufferProofs VectorProofs Deque.
From stdpp Require Import list.

Section deque.
  Context {A : Type} (dflt : A).
  Implicit Types d : deq A.
  Implicit Types l : list A.

  Definition drep d l : Prop := exists p r,
    dbuf d = p ++ map Some l ++ r /\ dstart d = length p /\ dfin d = length p + length l.

  Lemma drep_bounds d l : drep d l -> dfin d = dstart d + length l /\ dfin d <= length (dbuf d).
  Proof. intros (p & r & Hb & Hs & Hf). rewrite Hb, !app_length, map_length. lia. Qed.
  Lemma drep_intro p l r s f g dd : s = length p -> f = length p + length l ->
    drep (Deq (p ++ map Some l ++ r) s f g dd) l.
  Proof. intros -> ->. by exists p, r. Qed.
  Lemma drep_size d l : drep d l -> deq_size d = length l /\ deq_empty d = (length l =? 0).
  Proof.
    intros H. apply drep_bounds in H as [H _]. unfold deq_size, deq_empty. split; [lia|].
    destruct (Nat.eqb_spec (dstart d) (dfin d)), (Nat.eqb_spec (length l) 0); lia.
  Qed.

  (** ** observers *)
  Lemma dwalk_ok l : forall n (p r : list (option A)) i j, i = length p -> j = length p + length l -> length l < n ->
    dwalk n (p ++ map Some l ++ r) i j = Ok l.
  Proof.
    induction l as [|a l IH]; intros n p r i j Hi Hj Hn; (destruct n as [|n]; [cbn in *; lia|]); cbn [length dwalk] in *.
    - rewrite (proj2 (Nat.eqb_eq _ _)) by lia. done.
    - rewrite (proj2 (Nat.eqb_neq _ _)) by lia. cbn [map app]. rewrite get_at by done. cbn [rbind].
      replace (p ++ Some a :: map Some l ++ r) with ((p ++ [Some a]) ++ map Some l ++ r) by (by applist).
      rewrite IH; [done| | |]; rewrite ?app_length; cbn; lia.
  Qed.
  Lemma drwalk_ok l : forall n (p r : list (option A)) i j, i = length p -> j = length p + length l -> length l < n ->
    drwalk n (p ++ map Some l ++ r) j i = Ok (rev l).
  Proof.
    induction l as [|a l IH] using rev_ind; intros n p r i j Hi Hj Hn; (destruct n as [|n]; [cbn in *; lia|]); cbn [drwalk].
    - cbn in Hj. rewrite (proj2 (Nat.eqb_eq _ _)) by lia. done.
    - rewrite app_length in *. cbn [length] in *. rewrite (proj2 (Nat.eqb_neq _ _)) by lia.
      destruct j as [|j]; [lia|]. rewrite (get_seg p (l ++ [a]) r (length l) _ a); [|lia|by rewrite list_lookup_middle].
      cbn [rbind]. rewrite map_app. rewrite <- (app_assoc (map Some l)). rewrite IH; [|lia|lia|lia].
      cbn [rbind]. by rewrite rev_unit.
  Qed.
  Lemma drep_traverse d l : drep d l -> deq_traverse d = Ok l /\ deq_rtraverse d = Ok (rev l).
  Proof.
    intros H. pose proof (drep_bounds _ _ H) as Hc. destruct H as (p & r & Hb & Hs & Hf).
    unfold deq_traverse, deq_rtraverse. split.
    - rewrite Hb at 2. apply (dwalk_ok l _ p); lia.
    - rewrite Hb at 2. apply (drwalk_ok l _ p); lia.
  Qed.
  Lemma dwalk_inv : forall n (b : list (option A)) i j l, dwalk n b i j = Ok l -> i <= j ->
    j = i + length l /\ forall k a, l !! k = Some a -> b !! (i + k) = Some (Some a).
  Proof. clear dflt.
    induction n as [|n IH]; intros b i j l H Hij; [done|]. cbn [dwalk] in H. destruct (i =? j) eqn:E.
    - injection H as <-. apply Nat.eqb_eq in E. cbn. split; [lia|]. done.
    - apply Nat.eqb_neq in E. apply rbind_Ok in H as (x & Hx & H). apply rbind_Ok in H as (rr & Hr & H).
      injection H as <-. apply IH in Hr as [Hj Hk]; [|lia]. cbn [length]. split; [lia|].
      intros [|k] a Ha; cbn in Ha.
      + injection Ha as <-. rewrite Nat.add_0_r. unfold get in Hx.
        destruct (b !! i) as [[y|]|]; congruence.
      + replace (i + S k) with (S i + k) by lia. by apply Hk.
  Qed.
  (** without the state check start <= finish a walk can only run off the block *)
  Lemma dwalk_le : forall n (b : list (option A)) i j l, dwalk n b i j = Ok l -> i <= j.
  Proof. clear dflt.
    induction n as [|n IH]; intros b i j l H; [done|]. cbn [dwalk] in H. destruct (i =? j) eqn:E.
    - apply Nat.eqb_eq in E. lia.
    - apply rbind_Ok in H as (x & _ & H). apply rbind_Ok in H as (rr & Hr & _). apply IH in Hr. lia.
  Qed.
  Lemma dwalk_fit : forall n (b : list (option A)) i j l, dwalk n b i j = Ok l -> i <= length b -> j <= length b.
  Proof. clear dflt.
    induction n as [|n IH]; intros b i j l H Hi; [done|]. cbn [dwalk] in H. destruct (i =? j) eqn:E.
    - apply Nat.eqb_eq in E. lia.
    - apply rbind_Ok in H as (x & Hx & H). apply rbind_Ok in H as (rr & Hr & _). apply IH in Hr; [done|].
      unfold get in Hx. destruct (b !! i) as [o|] eqn:Eo; [|done]. apply lookup_lt_Some in Eo. lia.
  Qed.
  Lemma traverse_drep d l : deq_traverse d = Ok l -> dstart d <= length (dbuf d) -> drep d l.
  Proof. clear dflt.
    intros H Hs. unfold deq_traverse in H. pose proof (dwalk_fit _ _ _ _ _ H Hs) as Hfit.
    pose proof (dwalk_le _ _ _ _ _ H) as Hle.
    apply dwalk_inv in H as [Hf Hk]; [|done].
    exists (take (dstart d) (dbuf d)), (drop (dfin d) (dbuf d)).
    rewrite take_length, Nat.min_l by lia. split; [|split; [done|lia]].
    rewrite <- (take_drop (dstart d) (dbuf d)) at 1. f_equal.
    rewrite <- (take_drop (length l) (drop (dstart d) (dbuf d))) at 1. rewrite drop_drop, <- Hf. f_equal.
    apply list_eq. intros k. change (map Some l) with (Some <$> l). rewrite list_lookup_fmap.
    destruct (l !! k) as [a|] eqn:E; cbn.
    - rewrite lookup_take by (by apply lookup_lt_Some in E). rewrite lookup_drop. by apply Hk.
    - apply lookup_ge_None in E. by rewrite lookup_take_ge.
  Qed.
  Lemma drep_at d l i a : drep d l -> l !! i = Some a -> deq_at d i = Ok a.
  Proof. intros (p & r & Hb & Hs & Hf) H. unfold deq_at. rewrite Hb. apply (get_seg p l r i); [lia|done]. Qed.
  Lemma drep_front d l : drep d l -> deq_front d = Ok (head l).
  Proof.
    intros H. unfold deq_front. rewrite (proj2 (drep_size _ _ H)).
    destruct H as (p & r & Hb & Hs & Hf). rewrite Hs, Hb. destruct l as [|a l]; [done|].
    cbn [length Nat.eqb]. by rewrite (get_seg p (a :: l) r 0 _ a) by (done || lia).
  Qed.
  Lemma drep_back d l : drep d l -> deq_back d = Ok (last l).
  Proof.
    intros H. unfold deq_back. rewrite (proj2 (drep_size _ _ H)).
    destruct H as (p & r & Hb & Hs & Hf). rewrite Hf, Hb.
    destruct l as [|a l] using rev_ind; [done|]. rewrite app_length. cbn [length].
    rewrite (proj2 (Nat.eqb_neq _ _)) by lia. rewrite last_snoc.
    rewrite (get_seg p (l ++ [a]) r (length l) _ a); [done|lia|by rewrite list_lookup_middle].
  Qed.

  (** ** reallocation *)
  Lemma drealloc_ok d l n : drep d l ->
    exists p r, deq_realloc d n = Ok (Deq (p ++ map Some l ++ r) (length p) (length p + length l)
        (S (dgen d)) (ddead d ++ l)) /\
      length p + length l + length r = (length (dbuf d) * 2) `max` (n + length l) /\
      length p <= length r <= S (length p).
  Proof.
    intros Hd. pose proof (drep_bounds _ _ Hd) as [Hfs Hc].
    unfold deq_realloc, deq_capacity. rewrite (proj1 (drep_size _ _ Hd)).
    destruct Hd as (p & r & Hb & Hs & Hf).
    set (cap := if length (dbuf d) * 2 <? n + length l then n + length l else length (dbuf d) * 2).
    assert (cap = (length (dbuf d) * 2) `max` (n + length l)) as Hcap
      by (subst cap; destruct (Nat.ltb_spec (length (dbuf d) * 2) (n + length l)); lia).
    clearbody cap. set (s := (cap - length l) / 2).
    assert (s + s <= cap - length l <= s + s + 1) as Hs2.
    { subst s. pose proof (Nat.div_mod (cap - length l) 2 ltac:(done)).
      pose proof (Nat.mod_upper_bound (cap - length l) 2 ltac:(done)). lia. }
    clearbody s. assert (length l <= cap) by lia.
    exists (raw s), (raw (cap - s - length l)).
    rewrite Hb, Hs, Hf.
    replace (length p + length l - length p) with (length l) by lia.
    rewrite (raw_split cap s) by lia. rewrite (raw_split (cap - s) (length l)) by lia.
    rewrite (mcpy_seg (raw s) (raw (length l))); rewrite ?map_length, ?raw_length; try done.
    cbn [rbind]. rewrite destroys_ok by done. cbn [rbind].
    split; [done|]. rewrite <- Hb. lia.
  Qed.

  (** ** insertion *)
  Definition dval_of (value : option (arg A)) : option A :=
    match value with None => Some dflt | Some (Val a) => Some a | Some (Own _ _) => None end.
  Lemma dval_of_ok value a g : dval_of value = Some a ->
    forall b : list (option A), match value with Some v => arg_get b g v | None => Ok dflt end = Ok a.
  Proof. destruct value as [[?|? ?]|]; cbn; intros H b; congruence. Qed.

  (** [insert_aux] inserts whenever there are enough free slots in total *)
  Lemma insert_aux_ok p l1 l2 r g dd n value a : dval_of value = Some a ->
    n <= length p + length r ->
    exists d' pos',
      insert_aux dflt (Deq (p ++ map Some (l1 ++ l2) ++ r) (length p) (length p + length (l1 ++ l2)) g dd)
        (length p + length l1) n value = Ok (d', pos') /\
      drep d' (l1 ++ replicate n a ++ l2) /\ pos' = dstart d' + length l1 /\
      length (dbuf d') = length p + length (l1 ++ l2) + length r /\ dgen d' = g /\ ddead d' = dd /\
      (n <= length r -> dstart d' = length p).
  Proof.
    intros Hv Hn. pose proof (dval_of_ok _ _ g Hv) as Hva.
    unfold insert_aux, available_end, available_start. cbn [dbuf dstart dfin dgen ddead].
    assert (forall x y : list (option A), length (x ++ map Some (l1 ++ l2) ++ y) =
      length x + length (l1 ++ l2) + length y) as HL by (intros; rewrite !app_length, map_length, app_length; lia).
    rewrite HL. pose proof (app_length l1 l2) as Hll. rewrite Hll in *.
    replace (length p + (length l1 + length l2) + length r - (length p + (length l1 + length l2))) with (length r) by lia.
    replace (length p + (length l1 + length l2) - (length p + length l1)) with (length l2) by lia.
    replace (length p + length l1 - length p) with (length l1) by lia.
    destruct (Nat.leb_spec n (length r)) as [H1|H1]; [|destruct (Nat.leb_spec n (length p)) as [H2|H2]].
    - (* room at the end *)
      destruct (move_right (p ++ map Some l1) (map Some l2) r n (length p + length l1) (length l2))
        as (junk & Hj & Hm); [rewrite app_length, map_length; lia|by rewrite map_length|lia|].
      rewrite map_app. rewrite <- !app_assoc in Hm |- *. rewrite Hm. cbn [rbind].
      replace (p ++ map Some l1 ++ junk ++ map Some l2 ++ drop n r)
        with ((p ++ map Some l1) ++ junk ++ map Some l2 ++ drop n r) by (by applist).
      rewrite (fill_n_ok _ _ a) by (try done; rewrite app_length, map_length; lia). cbn [rbind].
      eexists _, _. split; [done|]. cbn [dbuf dstart dfin dgen ddead]. split; [|split; [done|]].
      + exists p, (drop n r). cbn [dbuf dstart dfin].
        rewrite !map_app, map_replicate, !app_length, replicate_length. applist. split; [done|lia].
      + rewrite !app_length, !map_length, replicate_length, drop_length. split; [lia|done].
    - (* room at the start *)
      destruct (Nat.le_exists_sub n (length p) H2) as (k & Hk & _).
      assert (exists p1 p2, p = p1 ++ p2 /\ length p1 = k /\ length p2 = n) as (p1 & p2 & -> & Hp1 & Hp2).
      { exists (take k p), (drop k p). rewrite take_drop, take_length, drop_length. split; [done|lia]. }
      rewrite app_length in *.
      destruct (move_left p1 p2 (map Some l1) (map Some l2 ++ r) (length p1 + length p2 - n) (length p1 + length p2) (length l1))
        as (junk & Hj & Hm); [lia|lia|by rewrite map_length|].
      rewrite map_app. rewrite <- !app_assoc  . rewrite Hm. cbn [rbind].
      replace (p1 ++ map Some l1 ++ junk ++ map Some l2 ++ r)
        with ((p1 ++ map Some l1) ++ junk ++ map Some l2 ++ r) by (by applist).
      rewrite (fill_n_ok _ _ a) by (try done; rewrite ?app_length, ?map_length; lia). cbn [rbind].
      eexists _, _. split; [done|]. cbn [dbuf dstart dfin dgen ddead]. split; [|split; [lia|]].
      + exists p1, r. cbn [dbuf dstart dfin].
        rewrite !map_app, map_replicate, !app_length, replicate_length. applist. split; [done|lia].
      + rewrite !app_length, !map_length, replicate_length. split; [lia|]. split; [done|]. split; [done|]. lia.
    - (* shift both ways *)
      destruct (move_left [] p (map Some l1) (map Some l2 ++ r) 0 (length p) (length l1))
        as (junk & Hj & Hm); [done|cbn; lia|by rewrite map_length|].
      rewrite map_app. rewrite <- !app_assoc. cbn [app] in Hm. rewrite Hm. cbn [rbind].
      assert (exists j1 j2, junk = j1 ++ j2 /\ length j2 = n - length r /\ length j1 = length p + length r - n) as _.
      { exists (take (length p + length r - n) junk), (drop (length p + length r - n) junk).
        rewrite take_drop, take_length, drop_length. split; [done|lia]. }
      (* the second half moves right by n - length p slots *)
      destruct (move_right (map Some l1 ++ junk) (map Some l2) r (n - length p) (length p + length l1) (length l2))
        as (junk2 & Hj2 & Hm2); [rewrite app_length, map_length; lia|by rewrite map_length|lia|].
      rewrite <- !app_assoc in Hm2.
      replace (length p + length l1 + (n - length p)) with (length l1 + n) in Hm2 by lia.
      rewrite Hm2. cbn [rbind].
      replace (map Some l1 ++ junk ++ junk2 ++ map Some l2 ++ drop (n - length p) r)
        with (map Some l1 ++ (junk ++ junk2) ++ map Some l2 ++ drop (n - length p) r) by (by applist).
      rewrite (fill_n_ok _ _ a) by (try done; rewrite ?app_length, ?map_length; lia). cbn [rbind].
      eexists _, _. split; [done|]. cbn [dbuf dstart dfin dgen ddead]. split; [|split; [done|]].
      + exists [], (drop (n - length p) r). cbn [dbuf dstart dfin].
        rewrite !map_app, map_replicate, !app_length, replicate_length. applist. split; [done|]. cbn. lia.
      + rewrite !app_length, !map_length, replicate_length, drop_length. split; [lia|].
        split; [done|]. split; [done|]. lia.
  Qed.
  Lemma drep_eq d l : drep d l -> exists p r,
    d = Deq (p ++ map Some l ++ r) (length p) (length p + length l) (dgen d) (ddead d) /\
    deq_available d = length p + length r /\ length (dbuf d) = length p + length l + length r.
  Proof.
    intros (p & r & Hb & Hs & Hf). exists p, r. unfold deq_available, available_start, available_end.
    destruct d as [b s f g dd]. cbn in *. subst. split; [done|].
    rewrite !app_length, map_length. lia.
  Qed.

  Lemma dinsert_n_ok d l i n a : drep d l -> i <= length l ->
    exists d', deq_insert_n dflt d (dstart d + i) n (Val a) = Ok (d', dstart d' + i) /\
      drep d' (seq_insert i (replicate n a) l) /\
      (if n <=? deq_available d
       then dgen d' = dgen d /\ ddead d' = ddead d /\ length (dbuf d') = length (dbuf d)
       else dgen d' = S (dgen d) /\ ddead d' = ddead d ++ l).
  Proof.
    intros Hd Hi. destruct (drep_bounds _ _ Hd) as [Hfs Hc]. unfold deq_insert_n, deq_valid.
    rewrite !(proj2 (Nat.leb_le _ _)) by lia. cbn [negb andb].
    assert (length (take i l) = i) as Lt by (rewrite take_length; lia).
    destruct (Nat.ltb_spec (deq_available d) n) as [H|H].
    - rewrite (proj2 (Nat.leb_gt _ _)) by lia.
      pose proof (drep_eq _ _ Hd) as (p0 & r0 & _ & Hav & Hlen).
      destruct (drealloc_ok d l ((n - deq_available d) * 2) Hd) as (p & r & -> & Hcap & Hbal). cbn [rbind dstart].
      destruct (insert_aux_ok p (take i l) (drop i l) r (S (dgen d)) (ddead d ++ l) n (Some (Val a)) a)
        as (d' & pos' & He & Hr & Hp & Hlen' & Hg & Hdd & _); [done|lia|].
      rewrite take_drop, Lt in He. rewrite Lt in Hp.
      replace (length p + (dstart d + i - dstart d)) with (length p + i) by lia.
      rewrite He. exists d'. split; [by rewrite Hp|]. split; [exact Hr|]. done.
    - rewrite (proj2 (Nat.leb_le _ _)) by lia.
      destruct (drep_eq _ _ Hd) as (p & r & Ed & Hav & Hlen).
      destruct (insert_aux_ok p (take i l) (drop i l) r (dgen d) (ddead d) n (Some (Val a)) a)
        as (d' & pos' & He & Hr & Hp & Hlen' & Hg & Hdd & _); [done|lia|].
      rewrite take_drop, Lt in He. rewrite Lt in Hp. rewrite <- Ed in He.
      replace (length p) with (dstart d) in He by (by rewrite Ed).
      rewrite He. exists d'. split; [by rewrite Hp|]. split; [exact Hr|].
      rewrite take_drop in Hlen'. rewrite Hlen', Hlen. done.
  Qed.
  Lemma dinsert_n_invalid d l pos n value : drep d l -> ~ (dstart d <= pos <= dstart d + length l) ->
    deq_insert_n dflt d pos n value = Ok (d, dfin d).
  Proof.
    intros Hd H. destruct (drep_bounds _ _ Hd) as [Hfs _]. unfold deq_insert_n, deq_valid.
    destruct (Nat.leb_spec (dstart d) pos), (Nat.leb_spec pos (dfin d)); cbn; try done. lia.
  Qed.

  (** ** the ends *)
  Lemma dpush_back_ok d l a : drep d l ->
    exists d', deq_push_back d (Val a) = Ok d' /\ drep d' (l ++ [a]) /\
      (if dfin d <? length (dbuf d)
       then dgen d' = dgen d /\ ddead d' = ddead d /\ length (dbuf d') = length (dbuf d)
       else dgen d' = S (dgen d) /\ ddead d' = ddead d ++ l).
  Proof.
    intros Hd. destruct (drep_bounds _ _ Hd) as [Hfs Hc]. unfold deq_push_back.
    destruct (Nat.eqb_spec (dfin d) (length (dbuf d))) as [E|E].
    - rewrite (proj2 (Nat.ltb_ge _ _)) by lia.
      destruct (drealloc_ok d l 2 Hd) as (p & r & -> & Hcap & Hbal). cbn [rbind arg_get dbuf dfin dgen ddead dstart].
      destruct r as [|o r]; [cbn in *; lia|].
      rewrite app_assoc, put_at by (rewrite app_length, map_length; lia). cbn [rbind].
      eexists. split; [done|]. split; [|done].
      exists p, r. cbn. rewrite map_app, app_length. cbn. applist. split; [done|lia].
    - rewrite (proj2 (Nat.ltb_lt _ _)) by lia. cbn [rbind arg_get].
      destruct Hd as (p & r & Hb & Hs & Hf).
      assert (exists o r', r = o :: r') as (o & r' & ->).
      { rewrite Hb, Hf, !app_length, map_length in *. destruct r; [cbn in *; lia|eauto]. }
      rewrite Hb, app_assoc, put_at by (rewrite app_length, map_length; lia). cbn [rbind].
      eexists. split; [done|]. cbn [dgen ddead dbuf]. split.
      + exists p, r'. cbn. rewrite map_app, app_length, Hf. cbn. applist. split; [done|lia].
      + rewrite !app_length. cbn. done.
  Qed.
  Lemma dpush_front_ok d l a : drep d l ->
    exists d', deq_push_front d (Val a) = Ok d' /\ drep d' (a :: l) /\
      (if 0 <? dstart d
       then dgen d' = dgen d /\ ddead d' = ddead d /\ length (dbuf d') = length (dbuf d)
       else dgen d' = S (dgen d) /\ ddead d' = ddead d ++ l).
  Proof.
    intros Hd. destruct (drep_bounds _ _ Hd) as [Hfs Hc]. unfold deq_push_front.
    destruct (Nat.eqb_spec (dstart d) 0) as [E|E].
    - rewrite E. cbn [Nat.ltb Nat.leb].
      destruct (drealloc_ok d l 2 Hd) as (p & r & -> & Hcap & Hbal). cbn [rbind arg_get dbuf dfin dgen ddead dstart].
      destruct p as [|o p _] using rev_ind; [cbn in *; lia|].
      rewrite app_length, Nat.add_comm. cbn [length Nat.add].
      rewrite <- app_assoc. cbn [app]. rewrite put_at by done. cbn [rbind].
      eexists. split; [done|]. split; [|done].
      exists p, r. cbn. split; [done|lia].
    - rewrite (proj2 (Nat.ltb_lt _ _)) by lia. cbn [rbind arg_get].
      destruct Hd as (p & r & Hb & Hs & Hf). rewrite Hs, Hb in *.
      destruct p as [|o p _] using rev_ind; [cbn in *; lia|].
      rewrite app_length, Nat.add_comm. cbn [length Nat.add].
      rewrite <- app_assoc. cbn [app]. rewrite put_at by done. cbn [rbind].
      eexists. split; [done|]. cbn [dgen ddead dbuf]. split.
      + exists p, r. cbn. rewrite Hf, app_length. cbn. split; [done|lia].
      + rewrite !app_length. cbn [length]. done.
  Qed.
  Lemma dpop_back_ok d l : drep d l ->
    exists d', deq_pop_back d = Ok d' /\ drep d' (take (length l - 1) l) /\
      dbuf d' = dbuf d /\ dgen d' = dgen d /\ ddead d' = ddead d ++ drop (length l - 1) l.
  Proof.
    intros Hd. unfold deq_pop_back. rewrite (proj2 (drep_size _ _ Hd)).
    destruct l as [|a l _] using rev_ind.
    - exists d. cbn. by rewrite app_nil_r.
    - rewrite app_length. cbn [length]. rewrite (proj2 (Nat.eqb_neq _ _)) by lia.
      replace (length l + 1 - 1) with (length l) by lia. rewrite take_app, drop_app.
      destruct Hd as (p & r & Hb & Hs & Hf). rewrite app_length in Hf. cbn [length] in Hf.
      assert (get (dbuf d) (dfin d - 1) = Ok a) as ->.
      { rewrite Hb. apply (get_seg p (l ++ [a]) r (length l) _ a); [lia|by rewrite list_lookup_middle]. }
      cbn [rbind]. eexists. split; [done|]. split; [|done].
      exists p, (Some a :: r). cbn. rewrite Hb, map_app. cbn. applist. split; [done|lia].
  Qed.
  Lemma dpop_front_ok d l : drep d l ->
    exists d', deq_pop_front d = Ok d' /\ drep d' (drop 1 l) /\
      dbuf d' = dbuf d /\ dgen d' = dgen d /\ ddead d' = ddead d ++ take 1 l.
  Proof.
    intros Hd. unfold deq_pop_front. rewrite (proj2 (drep_size _ _ Hd)).
    destruct l as [|a l].
    - exists d. cbn. by rewrite app_nil_r.
    - cbn [length Nat.eqb take drop]. destruct Hd as (p & r & Hb & Hs & Hf).
      assert (get (dbuf d) (dstart d) = Ok a) as -> by (rewrite Hb; apply (get_seg p (a :: l) r 0 _ a); [lia|done]).
      cbn [rbind]. eexists. split; [done|]. rewrite take_0, drop_0. split; [|done].
      exists (p ++ [Some a]), r. cbn. rewrite Hb. applist. rewrite app_length. cbn in *. split; [done|lia].
  Qed.

  (** ** removal *)
  Lemma dclear_ok d l : drep d l ->
    exists d', deq_clear d = Ok d' /\ drep d' [] /\ dbuf d' = dbuf d /\ dgen d' = dgen d /\ ddead d' = ddead d ++ l /\
      dstart d' = (if length l =? 0 then dstart d else length (dbuf d) / 2).
  Proof.
    intros Hd. unfold deq_clear. rewrite (proj2 (drep_size _ _ Hd)). destruct (Nat.eqb_spec (length l) 0) as [E|E].
    - destruct l; [|done]. exists d. by rewrite app_nil_r.
    - destruct Hd as (p & r & Hb & Hs & Hf).
      assert (destroys (dfin d - dstart d) (dbuf d) (dstart d) = Ok l) as -> by (rewrite Hb; apply destroys_ok; lia). cbn [rbind].
      eexists. split; [done|]. cbn [dbuf dstart dfin dgen ddead]. split; [|done].
      assert (length (dbuf d) / 2 <= length (dbuf d)) by (apply Nat.div_le_upper_bound; lia).
      exists (take (length (dbuf d) / 2) (dbuf d)), (drop (length (dbuf d) / 2) (dbuf d)). cbn [dbuf dstart dfin map app length].
      rewrite take_drop, take_length. split; [done|lia].
  Qed.
  Lemma derase_range_ok d l i j : drep d l -> i <= j <= length l ->
    exists d', deq_erase_range d (dstart d + i) (dstart d + j) = Ok (d', dstart d' + i) /\
      drep d' (seq_delete i j l) /\ dgen d' = dgen d /\ dstart d' = dstart d /\
      length (dbuf d') = length (dbuf d) /\ ddead d' = ddead d ++ take (j - i) (drop i l).
  Proof.
    intros Hd Hij. destruct (drep_bounds _ _ Hd) as [Hfs Hc]. unfold deq_erase_range, deq_valid.
    rewrite !(proj2 (Nat.leb_le _ _)) by lia. rewrite (proj2 (Nat.ltb_ge _ _)) by lia. cbn [negb andb orb].
    destruct (Nat.eqb_spec (dstart d + i) (dstart d + j)) as [E|E].
    - assert (i = j) as -> by lia. exists d. rewrite Nat.sub_diag, take_0, app_nil_r.
      split; [done|]. split; [|done]. unfold seq_delete. by rewrite take_drop.
    - destruct Hd as (p & r & Hb & Hs & Hf).
      assert (exists l1 l2 l3, l = l1 ++ l2 ++ l3 /\ length l1 = i /\ length l2 = j - i) as (l1 & l2 & l3 & -> & H1 & H2).
      { exists (take i l), (take (j - i) (drop i l)), (drop (j - i) (drop i l)).
        rewrite take_drop, take_drop, !take_length, drop_length. split; [done|lia]. }
      rewrite !app_length in *. rewrite !map_app in Hb.
      rewrite Hb. replace (p ++ (map Some l1 ++ map Some l2 ++ map Some l3) ++ r)
        with ((p ++ map Some l1) ++ map Some l2 ++ map Some l3 ++ r) by (by applist).
      rewrite destroys_ok by (rewrite ?app_length, ?map_length; lia). cbn [rbind].
      destruct (move_left (p ++ map Some l1) (map Some l2) (map Some l3) r (dstart d + i) (dstart d + j) (dfin d - (dstart d + j)))
        as (junk & Hj & ->); [rewrite app_length, map_length; lia|rewrite app_length, !map_length; lia|rewrite map_length; lia|].
      cbn [rbind]. eexists (Deq _ (dstart d) _ _ _). split; [reflexivity|]. cbn [dbuf dgen ddead dstart].
      assert (seq_delete i j (l1 ++ l2 ++ l3) = l1 ++ l3) as Es.
      { unfold seq_delete. rewrite <- H1, take_app. f_equal. rewrite app_assoc.
        replace j with (length (l1 ++ l2)) by (rewrite app_length; lia). by rewrite drop_app. }
      rewrite Es. split; [|split; [done|split; [done|split]]].
      + exists p, (junk ++ r). cbn [dbuf dstart dfin]. rewrite map_app. applist. rewrite app_length. split; [done|]. lia.
      + rewrite !app_length, !map_length in *. lia.
      + f_equal. rewrite <- H1, drop_app, H1. by rewrite <- H2, take_app.
  Qed.
  Lemma derase_range_invalid d l i j : drep d l -> ~ (i <= j <= length l) ->
    deq_erase_range d (dstart d + i) (dstart d + j) = Ok (d, dfin d).
  Proof.
    intros Hd H. destruct (drep_bounds _ _ Hd) as [Hfs Hc]. unfold deq_erase_range, deq_valid.
    repeat match goal with |- context [?x <=? ?y] => destruct (Nat.leb_spec x y); cbn [negb andb orb]; try done end.
    rewrite (proj2 (Nat.ltb_lt _ _)) by lia. done.
  Qed.
  Lemma derase_ok d l i x : drep d l -> l !! i = Some x ->
    exists d', deq_erase d (dstart d + i) = Ok (d', dstart d' + i) /\ drep d' (seq_delete i (S i) l) /\
      dgen d' = dgen d /\ length (dbuf d') = length (dbuf d) /\ ddead d' = ddead d ++ [x].
  Proof.
    intros Hd Hi. pose proof (lookup_lt_Some _ _ _ Hi) as Hlt. destruct (drep_bounds _ _ Hd) as [Hfs Hc].
    destruct (derase_range_ok d l i (S i) Hd) as (d' & He & Hr & Hg & Hs & Hlen & Hdd); [lia|].
    exists d'. replace (S i - i) with 1 in Hdd by lia.
    rewrite (drop_S _ _ _ Hi) in Hdd. cbn [take] in Hdd. rewrite take_0 in Hdd. split; [|done].
    rewrite <- He. unfold deq_erase, deq_erase_range.
    assert (deq_valid d (dstart d + i) = true) as -> by (unfold deq_valid; rewrite !(proj2 (Nat.leb_le _ _)) by lia; done).
    assert (deq_valid d (dstart d + S i) = true) as -> by (unfold deq_valid; rewrite !(proj2 (Nat.leb_le _ _)) by lia; done).
    rewrite (proj2 (Nat.ltb_ge _ _)) by lia. cbn [negb orb].
    rewrite (proj2 (Nat.eqb_neq (dstart d + i) (dfin d))) by lia.
    rewrite (proj2 (Nat.eqb_neq (dstart d + i) (dstart d + S i))) by lia.
    replace (dstart d + S i - (dstart d + i)) with 1 by lia. cbn [destroys].
    replace (S (dstart d + i)) with (dstart d + S i) by lia.
    destruct (get (dbuf d) (dstart d + i)); cbn [rbind]; done.
  Qed.
  Lemma derase_invalid d l i : drep d l -> length l <= i -> deq_erase d (dstart d + i) = Ok (d, dfin d).
  Proof.
    intros Hd H. destruct (drep_bounds _ _ Hd) as [Hfs Hc]. unfold deq_erase, deq_valid.
    destruct (Nat.leb_spec (dstart d) (dstart d + i)); [|lia].
    destruct (Nat.leb_spec (dstart d + i) (dfin d)); cbn [negb andb orb]; [|done].
    by rewrite (proj2 (Nat.eqb_eq _ _)) by lia.
  Qed.
  Lemma dresize_ok d l n value a : drep d l -> dval_of value = Some a ->
    exists d', deq_resize_with_value dflt d n value = Ok d' /\ drep d' (seq_resize n a l) /\
      (if n <=? length (dbuf d)
       then dgen d' = dgen d /\ ddead d' = ddead d ++ drop n l /\ length (dbuf d') = length (dbuf d)
       else dgen d' = S (dgen d) /\ ddead d' = ddead d ++ l /\
         length (dbuf d') = (length (dbuf d) * 2) `max` ((n - length l) * 2 + length l)).
  Proof.
    intros Hd Hv. destruct (drep_bounds _ _ Hd) as [Hfs Hc]. unfold deq_resize_with_value.
    rewrite (proj1 (drep_size _ _ Hd)). unfold seq_resize.
    destruct (drep_eq _ _ Hd) as (p & r & Ed & Hav & Hlen).
    destruct (Nat.ltb_spec (length l) n) as [H|H].
    - rewrite take_ge by lia.
      destruct (Nat.ltb_spec (deq_available d) (n - length l)) as [H1|H1].
      + destruct (drealloc_ok d l ((n - length l) * 2) Hd) as (p' & r' & -> & Hcap & Hbal). cbn [rbind dfin].
        destruct (insert_aux_ok p' l [] r' (S (dgen d)) (ddead d ++ l) (n - length l) value a)
          as (d' & pos' & He & Hr & Hp & Hlen' & Hg & Hdd & _); [done|lia|].
        rewrite app_nil_r in He, Hr, Hlen'. rewrite He. cbn [rbind]. exists d'. split; [done|]. split; [done|].
        rewrite (proj2 (Nat.leb_gt _ _)) by lia. split; [done|]. split; [done|]. lia.
      + destruct (insert_aux_ok p l [] r (dgen d) (ddead d) (n - length l) value a)
          as (d' & pos' & He & Hr & Hp & Hlen' & Hg & Hdd & _); [done|lia|].
        rewrite app_nil_r in He, Hr, Hlen'. rewrite <- Ed in He. cbn [rbind].
        replace (length p + length l) with (dfin d) in He by (by rewrite Ed). rewrite He.
        cbn [rbind]. exists d'. split; [done|]. split; [done|].
        rewrite (proj2 (Nat.leb_le _ _)) by lia. rewrite drop_ge by lia. rewrite app_nil_r. split; [done|]. split; [done|]. lia.
    - replace (n - length l) with 0 by lia. cbn [replicate]. rewrite app_nil_r.
      rewrite (proj2 (Nat.leb_le n (length (dbuf d)))) by lia.
      destruct Hd as (p0 & r0 & Hb & Hs & Hf).
      pose proof (destroys_ok (drop n l) (p0 ++ map Some (take n l)) r0 (dstart d + n) (dfin d - (dstart d + n))) as E.
      rewrite <- app_assoc, (app_assoc (map Some (take n l))), <- map_app, take_drop, <- Hb in E.
      rewrite E by (rewrite ?app_length, ?map_length, ?take_length, ?drop_length; lia).
      cbn [rbind]. eexists. split; [done|]. split; [|done].
      exists p0, (map Some (drop n l) ++ r0). cbn.
      rewrite take_length, Hb. rewrite <- (take_drop n l) at 1. rewrite map_app. applist. split; [done|lia].
  Qed.
  Lemma dshrink_ok d l : drep d l ->
    exists d', deq_shrink_to_fit d = Ok d' /\ drep d' l /\ length (dbuf d') = length l /\
      ddead d' = ddead d ++ (if length (dbuf d) =? length l then [] else l).
  Proof.
    intros Hd. destruct (drep_bounds _ _ Hd) as [Hfs Hc]. unfold deq_shrink_to_fit.
    pose proof (proj1 (drep_size _ _ Hd)) as Hsz. unfold deq_size in Hsz. rewrite Hsz.
    destruct (Nat.eqb_spec (length (dbuf d)) (length l)) as [E|E].
    - rewrite (proj2 (Nat.eqb_eq _ _)) by lia. rewrite (proj2 (Nat.eqb_eq (dstart d) 0)) by lia. cbn [andb].
      exists d. rewrite app_nil_r. done.
    - assert ((length (dbuf d) =? dfin d) && (dstart d =? 0) = false) as ->.
      { destruct (Nat.eqb_spec (length (dbuf d)) (dfin d)), (Nat.eqb_spec (dstart d) 0); cbn; try done. lia. }
      destruct (Nat.eqb_spec (length l) 0) as [E2|E2].
      + destruct l; [|done]. eexists. split; [done|]. cbn. rewrite app_nil_r. split; [|done]. by exists [], [].
      + destruct Hd as (p & r & Hb & Hs & Hf). rewrite Hb, Hs.
        rewrite <- (app_nil_r (raw (length l))).
        rewrite (mcpy_seg [] (raw (length l)) [] p (map Some l) r) by (rewrite ?map_length, ?raw_length; done).
        cbn [rbind]. rewrite destroys_ok by done. cbn [rbind app].
        eexists. split; [done|]. cbn. rewrite app_nil_r, map_length. split; [|done].
        exists [], []. cbn. by rewrite app_nil_r.
  Qed.

  (** ** histories *)
  Lemma dstep_ok d l o : drep d l -> exists d', deq_step dflt d o = Ok d' /\ drep d' (deq_spec dflt l o).
  Proof.
    intros Hd. destruct o as [a|a| | |i a|i n a|i|i j| |n|n a|]; cbn [deq_step deq_spec].
    - destruct (dpush_back_ok d l a Hd) as (d' & ? & ? & _). eauto.
    - destruct (dpush_front_ok d l a Hd) as (d' & ? & ? & _). eauto.
    - destruct (dpop_back_ok d l Hd) as (d' & ? & ? & _). eauto.
    - destruct (dpop_front_ok d l Hd) as (d' & ? & ? & _). eauto.
    - unfold deq_insert. destruct (Nat.leb_spec i (length l)) as [H|H].
      + destruct (dinsert_n_ok d l i 1 a Hd H) as (d' & -> & ? & _). cbn [rbind]. eauto.
      + rewrite (dinsert_n_invalid d l) by (done || lia). cbn [rbind]. eauto.
    - destruct (Nat.leb_spec i (length l)) as [H|H].
      + destruct (dinsert_n_ok d l i n a Hd H) as (d' & -> & ? & _). cbn [rbind]. eauto.
      + rewrite (dinsert_n_invalid d l) by (done || lia). cbn [rbind]. eauto.
    - destruct (l !! i) as [x|] eqn:E.
      + destruct (derase_ok d l i x Hd E) as (d' & -> & ? & _). cbn [rbind]. eauto.
      + apply lookup_ge_None in E. rewrite (derase_invalid d l) by done. cbn [rbind]. exists d. split; [done|].
        unfold seq_delete. rewrite take_ge, drop_ge by lia. by rewrite app_nil_r.
    - destruct (decide (i <= j <= length l)) as [H|H].
      + rewrite !(proj2 (Nat.leb_le _ _)) by lia. cbn [andb].
        destruct (derase_range_ok d l i j Hd H) as (d' & -> & ? & _). cbn [rbind]. eauto.
      + rewrite (derase_range_invalid d l) by done. cbn [rbind]. exists d. split; [done|].
        destruct (Nat.leb_spec i j), (Nat.leb_spec j (length l)); cbn; try done. lia.
    - destruct (dclear_ok d l Hd) as (d' & ? & ? & _). eauto.
    - destruct (dresize_ok d l n None dflt Hd) as (d' & ? & ? & _); eauto.
    - destruct (dresize_ok d l n (Some (Val a)) a Hd) as (d' & ? & ? & _); eauto.
    - destruct (dshrink_ok d l Hd) as (d' & ? & ? & _). eauto.
  Qed.
  Lemma drun_ok os : forall d l, drep d l ->
    exists d', deq_run dflt d os = Ok d' /\ drep d' (fold_left (deq_spec dflt) os l).
  Proof.
    induction os as [|o os IH]; intros d l Hd; [cbn; eauto|]. cbn [deq_run fold_left].
    destruct (dstep_ok d l o Hd) as (d1 & -> & H1). cbn [rbind]. by apply IH.
  Qed.
  Lemma dcreate_ok : drep deq_create ([] : list A).
  Proof. by exists [], []. Qed.

  (** ** copies *)
  (** [reserve] beyond the capacity of an empty deque leaves [n] default elements *)
  Lemma dreserve_empty d n : drep d [] -> length (dbuf d) < n ->
    exists d', deq_reserve dflt d n = Ok d' /\ drep d' (replicate n dflt) /\ ddead d' = ddead d.
  Proof.
    intros Hd Hn. unfold deq_reserve, deq_capacity. rewrite (proj2 (Nat.ltb_lt _ _)) by lia.
    destruct (dresize_ok d [] n None dflt Hd) as (d' & He & Hr & Hc); [done|].
    rewrite (proj2 (Nat.leb_gt _ _)) in Hc by lia. destruct Hc as (_ & Hc & _).
    exists d'. split; [exact He|]. rewrite app_nil_r in Hc. split; [|done].
    unfold seq_resize in Hr. cbn [length] in Hr. by rewrite take_nil, Nat.sub_0_r in Hr.
  Qed.
  (** copying a shorter sequence over the defaults *)
  Lemma overwrite_ok d n (b : list (option A)) src l : drep d (replicate n dflt) -> length l <= n ->
    (exists p' r', b = p' ++ map Some l ++ r' /\ src = length p') ->
    exists b', mcpy (dbuf d) (dstart d) b src (length l) = Ok b' /\
      drep (Deq b' (dstart d) (dfin d) (dgen d) (ddead d)) (l ++ replicate (n - length l) dflt).
  Proof.
    intros (p & r & Hb & Hs & Hf) Hl (p' & r' & -> & ->).
    replace n with (length l + (n - length l)) in Hb at 1 by lia.
    rewrite replicate_add, map_app, <- app_assoc in Hb.
    rewrite Hb. eexists. rewrite mcpy_seg by (rewrite ?map_length, ?replicate_length; done).
    split; [done|]. exists p, r. cbn [dbuf dstart dfin]. rewrite map_app. applist. split; [done|].
    rewrite replicate_length in Hf. rewrite app_length, replicate_length. lia.
  Qed.
  Lemma dreserve_then_copy d o l : drep d [] -> drep o l -> length (dbuf d) < length (dbuf o) ->
    exists d', (do d2 <- deq_reserve dflt d (deq_capacity o);
      do b <- mcpy (dbuf d2) (dstart d2) (dbuf o) (dstart o) (deq_size o);
      Ok (Deq b (dstart d2) (dfin d2) (dgen d2) (ddead d2))) = Ok d' /\
      drep d' (l ++ replicate (length (dbuf o) - length l) dflt) /\ ddead d' = ddead d.
  Proof.
    intros Hd Ho Hlt. destruct (drep_bounds _ _ Ho) as [Ho1 Ho2]. unfold deq_capacity.
    destruct (dreserve_empty d (length (dbuf o)) Hd Hlt) as (d2 & -> & Hr2 & Hd2). cbn [rbind].
    rewrite (proj1 (drep_size _ _ Ho)).
    destruct (overwrite_ok d2 (length (dbuf o)) (dbuf o) (dstart o) l) as (b' & -> & Hr); [done|lia| |].
    { destruct Ho as (p & r & Hb & Hs & Hf). eauto. }
    cbn [rbind]. eexists. split; [done|]. split; [exact Hr|done].
  Qed.
  Lemma dcopy_ok d l : drep d l ->
    exists d', deq_copy dflt d = Ok d' /\ drep d' (l ++ replicate (length (dbuf d) - length l) dflt) /\ ddead d' = [].
  Proof.
    intros Hd. destruct (drep_bounds _ _ Hd) as [Hfs Hc]. destruct (decide (length (dbuf d) = 0)) as [E|E].
    - unfold deq_copy, deq_reserve, deq_capacity. rewrite E. cbn [deq_create dbuf length Nat.ltb Nat.leb rbind dstart].
      rewrite (proj1 (drep_size _ _ Hd)). assert (l = []) as -> by (destruct l; [done|cbn in *; lia]).
      cbn [length]. rewrite mcpy_eq by (cbn; lia). cbn [rbind]. eexists. split; [done|]. cbn. split; [|done].
      exists [], []. cbn. split; [|done]. rewrite Nat.add_0_r.
      unfold slice. by rewrite Nat.sub_diag, take_0.
    - destruct (dreserve_then_copy deq_create d l dcreate_ok Hd) as (d' & He & Hr & Hdd); [cbn; lia|].
      exists d'. done.
  Qed.
  Lemma dcreate_from_ok l : l <> [] ->
    exists d, deq_create_from dflt l = Ok (Some d) /\ drep d l /\ length (dbuf d) = 2 * length l.
  Proof.
    intros Hl. unfold deq_create_from. assert (length l <> 0) as Hl0 by (by destruct l).
    rewrite (proj2 (Nat.eqb_neq _ _)) by done.
    unfold deq_reserve, deq_capacity. cbn [deq_create dbuf length]. rewrite (proj2 (Nat.ltb_lt _ _)) by lia.
    destruct (dresize_ok deq_create [] (length l) None dflt dcreate_ok) as (d2 & He & Hr2 & Hc); [done|].
    unfold deq_resize. rewrite He. cbn [rbind].
    cbn [deq_create dbuf length] in Hc. rewrite (proj2 (Nat.leb_gt _ _)) in Hc by lia. destruct Hc as (_ & _ & Hc).
    unfold seq_resize in Hr2. cbn [length] in Hr2. rewrite take_nil, Nat.sub_0_r in Hr2. cbn [app] in Hr2.
    destruct (overwrite_ok d2 (length l) (map Some l) 0 l Hr2) as (b' & Hb' & Hr); [lia| |].
    { exists [], []. cbn. by rewrite app_nil_r. }
    rewrite Hb'. cbn [rbind]. eexists. split; [done|].
    rewrite Nat.sub_diag in Hr. cbn [replicate] in Hr. rewrite app_nil_r in Hr. split; [done|].
    cbn [dbuf]. unfold mcpy in Hb'. destruct (_ && _) eqn:E; [|done]. injection Hb' as <-.
    apply andb_prop in E as [E1 E2]. apply Nat.leb_le in E1, E2.
    unfold patch, slice. repeat (rewrite ?app_length, ?take_length, ?drop_length, ?map_length in * ). lia.
  Qed.
  Lemma dassign_ok self ls other lo : drep self ls -> drep other lo ->
    (* large enough already: nothing is reserved and the result is empty, or the copy overflows *)
    (length (dbuf other) <= length (dbuf self) ->
      let start := if length ls =? 0 then dstart self else length (dbuf self) / 2 in
      if start + length lo <=? length (dbuf self)
      then exists d', deq_assign dflt self other = Ok d' /\ drep d' []
      else deq_assign dflt self other = UB) /\
    (length (dbuf self) < length (dbuf other) ->
      exists d', deq_assign dflt self other = Ok d' /\
        drep d' (lo ++ replicate (length (dbuf other) - length lo) dflt) /\ ddead d' = ddead self ++ ls).
  Proof.
    intros Hs Ho. destruct (dclear_ok self ls Hs) as (d1 & E1 & H1 & Hb1 & Hg1 & Hd1 & Hst).
    destruct (drep_bounds _ _ Ho) as [Ho1 Ho2].
    unfold deq_assign. rewrite E1. cbn [rbind]. split.
    - intros Hc. set (start := if length ls =? 0 then dstart self else length (dbuf self) / 2) in *. unfold deq_reserve, deq_capacity. rewrite Hb1, (proj2 (Nat.ltb_ge _ _)) by lia. cbn [rbind].
      rewrite (proj1 (drep_size _ _ Ho)), Hst, Hb1.
      destruct (Nat.leb_spec (start + length lo) (length (dbuf self))) as [H|H].
      + rewrite mcpy_eq by lia. cbn [rbind]. eexists. split; [done|].
        assert (start <= length (dbuf self)) as Hlt by lia.
        set (b := patch _ _ _). assert (length b = length (dbuf self)) as Hlb.
        { subst b. unfold patch, slice. repeat (rewrite ?app_length, ?take_length, ?drop_length, ?map_length in * ). lia. }
        destruct (drep_bounds _ _ H1) as [H11 H12]. cbn in H11.
        exists (take start b), (drop start b). cbn [dbuf dstart dfin map app length].
        rewrite take_drop, take_length. split; [done|]. lia.
      + rewrite mcpy_UB by lia. done.
    - intros Hc. rewrite <- Hb1 in Hc. destruct (dreserve_then_copy d1 other lo H1 Ho Hc) as (d' & He & Hr & Hdd).
      exists d'. split; [done|]. split; [done|]. by rewrite Hdd, Hd1.
  Qed.

  (** ** a value argument that points into the deque itself *)
  Lemma dpush_back_own d l i x : drep d l -> l !! i = Some x ->
    deq_push_back d (Own (dgen d) (dstart d + i)) =
      if dfin d <? length (dbuf d) then deq_push_back d (Val x) else UB.
  Proof.
    intros Hd Hi. pose proof (drep_bounds _ _ Hd) as [Hfs Hc]. unfold deq_push_back.
    destruct (Nat.ltb_spec (dfin d) (length (dbuf d))) as [H|H].
    - rewrite (proj2 (Nat.eqb_neq _ _)) by lia. cbn [rbind arg_get]. rewrite Nat.eqb_refl.
      destruct Hd as (p & r & Hb & Hs & Hf). rewrite Hb. by rewrite (get_seg p l r i _ x) by (done || lia).
    - rewrite (proj2 (Nat.eqb_eq _ _)) by lia. destruct (drealloc_ok d l 2 Hd) as (p & r & -> & _).
      cbn [rbind arg_get dgen]. by rewrite (proj2 (Nat.eqb_neq _ _)) by lia.
  Qed.
  Lemma dpush_front_own d l i x : drep d l -> l !! i = Some x ->
    deq_push_front d (Own (dgen d) (dstart d + i)) =
      if 0 <? dstart d then deq_push_front d (Val x) else UB.
  Proof.
    intros Hd Hi. pose proof (drep_bounds _ _ Hd) as [Hfs Hc]. unfold deq_push_front.
    destruct (Nat.ltb_spec 0 (dstart d)) as [H|H].
    - rewrite (proj2 (Nat.eqb_neq _ _)) by lia. cbn [rbind arg_get]. rewrite Nat.eqb_refl.
      destruct Hd as (p & r & Hb & Hs & Hf). rewrite Hb. rewrite (get_seg p l r i _ x) by (done || lia).
      done.
    - rewrite (proj2 (Nat.eqb_eq _ _)) by lia. destruct (drealloc_ok d l 2 Hd) as (p & r & -> & ? & ?).
      cbn [rbind arg_get dgen dstart]. rewrite (proj2 (Nat.eqb_neq _ _)) by lia.
      destruct (length p); done.
  Qed.

  (** ** which elements are destroyed *)
  Lemma dshrink_gen d l d' : drep d l -> deq_shrink_to_fit d = Ok d' ->
    if length (dbuf d) =? length l then d' = d else dgen d' = S (dgen d).
  Proof.
    intros Hd. destruct (drep_bounds _ _ Hd) as [Hfs Hc]. unfold deq_shrink_to_fit.
    destruct (Nat.eqb_spec (length (dbuf d)) (length l)) as [E|E].
    - rewrite (proj2 (Nat.eqb_eq _ _)) by lia. rewrite (proj2 (Nat.eqb_eq (dstart d) 0)) by lia. by intros [= <-].
    - assert ((length (dbuf d) =? dfin d) && (dstart d =? 0) = false) as ->.
      { destruct (Nat.eqb_spec (length (dbuf d)) (dfin d)), (Nat.eqb_spec (dstart d) 0); cbn; try done. lia. }
      destruct (_ =? 0); [by intros [= <-]|].
      intros H. apply rbind_Ok in H as (b & _ & H). apply rbind_Ok in H as (ds & _ & H). by injection H as <-.
  Qed.
  Lemma dstep_dead d l o d' : drep d l -> deq_step dflt d o = Ok d' ->
    dgen d <= dgen d' /\
    ddead d' ++ deq_spec dflt l o ≡ₚ
      ddead d ++ l ++ deq_added dflt l o ++ (if dgen d' =? dgen d then [] else l).
  Proof.
    intros Hv Hst. pose proof (drep_bounds _ _ Hv) as [Hf Hc].
    assert (forall dd : list A, dd = ddead d -> dgen d' = dgen d -> forall x y, deq_spec dflt l o ++ x ≡ₚ l ++ y ->
      deq_added dflt l o = y -> ddead d' = dd ++ x ->
      dgen d <= dgen d' /\ ddead d' ++ deq_spec dflt l o ≡ₚ
      ddead d ++ l ++ deq_added dflt l o ++ (if dgen d' =? dgen d then [] else l)) as Hsame.
    { intros dd -> Hg x y Hp Ha Hd. split; [lia|]. rewrite Hg, Nat.eqb_refl, app_nil_r, Hd, Ha, <- Hp.
      rewrite <- app_assoc. f_equiv. apply Permutation_app_comm. }
    assert (dgen d' = S (dgen d) -> ddead d' = ddead d ++ l -> deq_spec dflt l o ≡ₚ l ++ deq_added dflt l o ->
      dgen d <= dgen d' /\ ddead d' ++ deq_spec dflt l o ≡ₚ
      ddead d ++ l ++ deq_added dflt l o ++ (if dgen d' =? dgen d then [] else l)) as Hnew.
    { intros Hg Hd Hp. split; [lia|]. rewrite Hg, (proj2 (Nat.eqb_neq _ _)) by lia. rewrite Hd, Hp.
      rewrite <- app_assoc. f_equiv. f_equiv. apply Permutation_app_comm. }
    destruct o as [a|a| | |i a|i n a|i|i j| |n|n a|]; cbn [deq_step deq_spec deq_added] in *.
    - destruct (dpush_back_ok d l a Hv) as (v1 & E & _ & H). rewrite E in Hst. injection Hst as ->.
      destruct (dfin d <? length (dbuf d)).
      + destruct H as (Hg & Hd & _). eapply (Hsame _ eq_refl Hg [] [a]); [by rewrite app_nil_r|done|by rewrite app_nil_r].
      + destruct H as (Hg & Hd). by apply Hnew.
    - destruct (dpush_front_ok d l a Hv) as (v1 & E & _ & H). rewrite E in Hst. injection Hst as ->.
      destruct (0 <? dstart d).
      + destruct H as (Hg & Hd & _). eapply (Hsame _ eq_refl Hg [] [a]); [|done|by rewrite app_nil_r].
        rewrite app_nil_r. apply (Permutation_app_comm [a]).
      + destruct H as (Hg & Hd). apply Hnew; [done|done|]. apply (Permutation_app_comm [a]).
    - destruct (dpop_back_ok d l Hv) as (v1 & E & _ & _ & Hg & Hd). rewrite E in Hst. injection Hst as ->.
      eapply (Hsame _ eq_refl Hg _ []); [by rewrite take_drop, app_nil_r|done|exact Hd].
    - destruct (dpop_front_ok d l Hv) as (v1 & E & _ & _ & Hg & Hd). rewrite E in Hst. injection Hst as ->.
      eapply (Hsame _ eq_refl Hg _ []); [|done|exact Hd]. by rewrite Permutation_app_comm, take_drop, app_nil_r.
    - unfold deq_insert in Hst. destruct (Nat.leb_spec i (length l)) as [Hi|Hi].
      + destruct (dinsert_n_ok d l i 1 a Hv Hi) as (v1 & E & _ & H).
        rewrite E in Hst. injection Hst as ->. destruct (1 <=? deq_available d).
        * destruct H as (Hg & Hd & _). eapply (Hsame _ eq_refl Hg [] [a]); [|done|by rewrite app_nil_r].
          rewrite app_nil_r. apply seq_insert_perm.
        * destruct H as (Hg & Hd). apply Hnew; [done|done|]. apply seq_insert_perm.
      + rewrite (dinsert_n_invalid d l) in Hst by (done || lia). injection Hst as <-.
        eapply (Hsame _ eq_refl eq_refl [] []); [done|done|by rewrite app_nil_r].
    - destruct (Nat.leb_spec i (length l)) as [Hi|Hi].
      + destruct (dinsert_n_ok d l i n a Hv Hi) as (v1 & E & _ & H).
        rewrite E in Hst. injection Hst as ->. destruct (n <=? deq_available d).
        * destruct H as (Hg & Hd & _). eapply (Hsame _ eq_refl Hg [] _); [|reflexivity|by rewrite app_nil_r].
          rewrite app_nil_r. apply seq_insert_perm.
        * destruct H as (Hg & Hd). apply Hnew; [done|done|]. apply seq_insert_perm.
      + rewrite (dinsert_n_invalid d l) in Hst by (done || lia). injection Hst as <-.
        eapply (Hsame _ eq_refl eq_refl [] []); [done|done|by rewrite app_nil_r].
    - destruct (l !! i) as [x|] eqn:Ei.
      + destruct (derase_ok d l i x Hv Ei) as (v1 & E & _ & Hg & _ & Hd). rewrite E in Hst. injection Hst as ->.
        eapply (Hsame _ eq_refl Hg [x] []); [|done|done]. rewrite app_nil_r.
        pose proof (seq_delete_perm i (S i) l ltac:(lia)) as Hp. replace (S i - i) with 1 in Hp by lia.
        rewrite (drop_S _ _ _ Ei) in Hp. cbn [take] in Hp. by rewrite take_0 in Hp.
      + apply lookup_ge_None in Ei. rewrite (derase_invalid d l) in Hst by done. injection Hst as <-.
        eapply (Hsame _ eq_refl eq_refl [] []); [|done|by rewrite app_nil_r].
        unfold seq_delete. rewrite take_ge, drop_ge by lia. by rewrite !app_nil_r.
    - destruct (decide (i <= j <= length l)) as [H|H].
      + rewrite !(proj2 (Nat.leb_le _ _)) in Hsame by lia. cbn [andb] in Hsame.
        destruct (derase_range_ok d l i j Hv H) as (v1 & E & _ & Hg & _ & _ & Hd). rewrite E in Hst. injection Hst as ->.
        rewrite !(proj2 (Nat.leb_le _ _)) by lia. cbn [andb].
        eapply (Hsame _ eq_refl Hg _ []); [|done|exact Hd]. rewrite app_nil_r. apply seq_delete_perm. lia.
      + rewrite (derase_range_invalid d l) in Hst by done. injection Hst as <-.
        assert ((i <=? j) && (j <=? length l) = false) as E
          by (destruct (Nat.leb_spec i j), (Nat.leb_spec j (length l)); cbn; try done; lia).
        rewrite E in *. eapply (Hsame _ eq_refl eq_refl [] []); [done|done|by rewrite app_nil_r].
    - destruct (dclear_ok d l Hv) as (v1 & E & _ & _ & Hg & Hd & _). rewrite E in Hst. injection Hst as ->.
      eapply (Hsame _ eq_refl Hg l []); [by rewrite app_nil_r|done|done].
    - destruct (dresize_ok d l n None dflt Hv) as (v1 & E & _ & H); [done|]. unfold deq_resize in Hst.
      rewrite E in Hst. injection Hst as ->. destruct (Nat.leb_spec n (length (dbuf d))) as [Hn|Hn].
      + destruct H as (Hg & Hd & _). eapply (Hsame _ eq_refl Hg _ _); [|reflexivity|exact Hd].
        unfold seq_resize. rewrite <- app_assoc. transitivity ((take n l ++ drop n l) ++ replicate (n - length l) dflt); [|by rewrite take_drop]. rewrite <- app_assoc. f_equiv.
        apply Permutation_app_comm.
      + destruct H as (Hg & Hd & _). apply Hnew; [done|done|]. unfold seq_resize. by rewrite take_ge by lia.
    - destruct (dresize_ok d l n (Some (Val a)) a Hv) as (v1 & E & _ & H); [done|].
      rewrite E in Hst. injection Hst as ->. destruct (Nat.leb_spec n (length (dbuf d))) as [Hn|Hn].
      + destruct H as (Hg & Hd & _). eapply (Hsame _ eq_refl Hg _ _); [|reflexivity|exact Hd].
        unfold seq_resize. rewrite <- app_assoc. transitivity ((take n l ++ drop n l) ++ replicate (n - length l) a); [|by rewrite take_drop]. rewrite <- app_assoc. f_equiv.
        apply Permutation_app_comm.
      + destruct H as (Hg & Hd & _). apply Hnew; [done|done|]. unfold seq_resize. by rewrite take_ge by lia.
    - pose proof (dshrink_gen d l d' Hv Hst) as Hg. destruct (dshrink_ok d l Hv) as (v1 & E & _ & _ & Hd).
      rewrite E in Hst. injection Hst as ->. destruct (length (dbuf d) =? length l).
      + subst d'. eapply (Hsame _ eq_refl eq_refl [] []); [done|done|by rewrite app_nil_r].
      + apply Hnew; [done|done|]. by rewrite app_nil_r.
  Qed.
  Lemma drun_dead os : forall d l d', drep d l -> deq_run dflt d os = Ok d' ->
    dgen d <= dgen d' /\ (dgen d' = dgen d ->
    ddead d' ++ fold_left (deq_spec dflt) os l ≡ₚ ddead d ++ l ++ deq_all_added dflt l os).
  Proof.
    induction os as [|o os IH]; intros d l d' Hv Hr; cbn [deq_run fold_left deq_all_added] in *.
    - injection Hr as <-. rewrite app_nil_r. done.
    - apply rbind_Ok in Hr as (v1 & H1 & Hr). destruct (dstep_ok d l o Hv) as (v1' & H1' & Hv1).
      rewrite H1 in H1'. injection H1' as <-. destruct (dstep_dead d l o v1 Hv H1) as [Hg Hd].
      destruct (IH _ _ _ Hv1 Hr) as [Hg2 Hd2]. split; [lia|]. intros E.
      rewrite Hd2 by lia. rewrite app_assoc, Hd. rewrite (proj2 (Nat.eqb_eq (dgen v1) (dgen d))) by lia.
      rewrite app_nil_r. by rewrite <- !app_assoc.
  Qed.
End deque.
