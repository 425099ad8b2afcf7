(** SizeTProofs.v — when the arithmetic of SizeT.v does not wrap it is that of OomSeq.v; when it does, the functions
    write outside their block. *)
From Verif Require Import Base Spec SpecSeq SpecOom Facts Buffer BufferProofs Vector VectorProofs Deque DequeProofs
  OomSeq OomSeqProofs Growth SizeT.
From stdpp Require Import list.

Section size_t.
  Context {A : Type} (dflt : A) (W sz : nat).
  Notation wrap := (wrap W).

  Lemma wrap_small n : n < W -> wrap n = n.
  Proof. apply Nat.mod_small. Qed.
  Lemma wrap_mul n : 0 < sz -> n * sz < W -> wrap (n * sz) / sz = n.
  Proof. intros H1 H2. rewrite wrap_small by done. apply Nat.div_mul. lia. Qed.
  Lemma wrap_le n : n * sz < W -> 0 < sz -> n < W.
  Proof. intros H1 H2. nia. Qed.

  (** a fill that runs out of the block *)
  Lemma fill_UB g a value : (forall b : list (option A), match value with Some v => arg_get b g v | None => Ok dflt end = Ok a) ->
    forall n b p, p <= length b -> length b < p + n -> fill dflt g n b p value = UB.
  Proof.
    intros Hv. induction n as [|n IH]; intros b p Hp Hn; [lia|]. cbn [fill]. rewrite Hv. cbn [rbind]. unfold put.
    destruct (Nat.ltb_spec p (length b)) as [H|H]; [|done]. cbn [rbind]. apply IH; rewrite insert_length; lia.
  Qed.

  (** ** vectors *)
  Lemma vec_realloc_w_eq ok (v : vec A) n : 0 < sz -> vec_capacity v * 2 * sz < W -> (n + vec_size v) * sz < W ->
    vec_realloc_w W sz ok v n = vec_realloc_m ok v n.
  Proof.
    intros Hsz H1 H2. unfold vec_realloc_w, vec_realloc_m, vec_realloc. destruct ok; cbn [negb]; [|done].
    rewrite !(wrap_small (_ * 2)), !(wrap_small (n + _)) by (by apply wrap_le).
    rewrite wrap_mul; [|done|by destruct (_ <? _)]. destruct (mcpy _ _ _ _ _); [|done|done]. cbn [rbind].
    by destruct (destroys _ _ _).
  Qed.
  Lemma vec_step_w_eq ok (v : vec A) l o : vrep v l -> 0 < sz -> vec_capacity v * 2 * sz < W ->
    length (vec_spec dflt l o) * sz < W ->
    vec_step_w dflt W sz ok v o = vec_step_m dflt ok v o.
  Proof.
    intros Hv Hsz H1 H2. assert (fin v = length l) as Hf by (destruct Hv as (? & ? & ?); done).
    pose proof (vrep_cap _ _ Hv) as Hc. unfold vec_capacity in H1.
    destruct o as [a| |i a|i|i j| |n|n a|]; cbn [vec_step_w vec_step_m vec_spec] in *; try done.
    - unfold vec_push_back_w, vec_push_back_m. destruct (_ =? _); [|done].
      rewrite vec_realloc_w_eq; [done|done|done|]. unfold vec_size. rewrite app_length in H2. cbn [length] in H2.
      replace (1 + fin v) with (length l + 1) by lia. done.
    - unfold vec_insert_n_w, vec_insert_n_m, vec_available. destruct (Nat.leb_spec i (fin v)) as [Hi|Hi]; [|done]. cbn [negb].
      rewrite (proj2 (Nat.leb_le i (length l))) in H2 by lia.
      unfold seq_insert in H2. rewrite !app_length, take_length, drop_length in H2. cbn [length] in H2.
      rewrite (wrap_mul 1) by (done || nia).
      destruct (Nat.ltb_spec (length (buf v) - fin v) 1); [|done]. rewrite vec_realloc_w_eq; [done|done|done|].
      unfold vec_size. nia.
    - unfold vec_resize_with_value_w, vec_resize_with_value_m, vec_size. destruct (Nat.ltb_spec (fin v) n) as [Hn|Hn]; [|done].
      unfold seq_resize in H2. rewrite app_length, take_length, replicate_length in H2. cbv zeta.
      destruct (_ <? _); [|done]. rewrite vec_realloc_w_eq; [done|done|done|]. unfold vec_size. nia.
    - unfold vec_resize_with_value_w, vec_resize_with_value_m, vec_size. destruct (Nat.ltb_spec (fin v) n) as [Hn|Hn]; [|done].
      unfold seq_resize in H2. rewrite app_length, take_length, replicate_length in H2. cbv zeta.
      destruct (_ <? _); [|done]. rewrite vec_realloc_w_eq; [done|done|done|]. unfold vec_size. nia.
  Qed.
  Lemma step_m_capacity (B : nat) ok v l o v' : vrep v l -> vec_step_m dflt ok v o = Ok v' ->
    length (vec_spec dflt l o) <= B -> length (buf v) <= 2 * B -> length (buf v') <= 2 * B.
  Proof.
    intros Hv E Hl Hc. pose proof (vec_step_m_true dflt v o) as Ht.
    assert (forall w, vec_step dflt v o = Ok w -> length (buf w) <= 2 * B) as Hg.
    { intros w Hw. destruct (step_growth dflt v l o w Hv Hw) as [(-> & _)|[(_ & ? & ->)|(_ & ->)]]; lia. }
    destruct ok; [rewrite Ht in E; by apply Hg|].
    destruct (vec_step_m_false dflt v l o Hv) as [H|[H _]]; rewrite H in E; [by apply Hg|]. by injection E as <-.
  Qed.
  Lemma vec_run_w_eq (B : nat) os : forall (v : vec A) l, 0 < sz -> vrep v l -> length (buf v) <= 2 * B -> 4 * B * sz < W ->
    length l <= B ->
    (forall os', os' `sublist_of` map snd os -> length (fold_left (vec_spec dflt) os' l) <= B) ->
    vec_run_w dflt W sz v os = vec_run_m dflt v os.
  Proof.
    induction os as [|[ok o] os IH]; intros v l Hsz Hv Hc HW Hl Hp; [done|]. cbn [vec_run_w vec_run_m map snd] in *.
    assert (length (vec_spec dflt l o) <= B) as Hl'.
    { apply (Hp [o]). apply sublist_skip. apply sublist_nil_l. }
    rewrite (vec_step_w_eq ok v l o Hv Hsz); [|unfold vec_capacity; nia|nia].
    destruct (vec_step_m_ok dflt ok v l o Hv) as (v1 & E & H). rewrite E. cbn [rbind].
    pose proof (step_m_capacity B ok v l o v1 Hv E Hl' Hc) as Hc1.
    destruct H as [H|(-> & -> & _)].
    - apply (IH v1 _ Hsz H Hc1 HW Hl'). intros os' Hs. apply (Hp (o :: os')). by apply sublist_skip.
    - apply (IH v l Hsz Hv Hc1 HW Hl). intros os' Hs. apply Hp. by apply sublist_cons.
  Qed.

  (** a resize whose number of bytes wraps around to a small one *)
  Lemma vec_resize_wraps (v : vec A) l k value a : vrep v l -> val_of dflt value = Some a ->
    W = k * sz -> 2 <= sz -> 2 * length (buf v) + 1 < k ->
    vec_resize_with_value_w dflt W sz true v (k + 2 * length (buf v) + 1) value = UB.
  Proof.
    intros Hv Hva HW Hsz Hk. assert (fin v = length l) as Hf by (destruct Hv as (? & ? & ?); done).
    pose proof (vrep_cap _ _ Hv) as Hc. unfold vec_resize_with_value_w, vec_size, vec_available.
    rewrite (proj2 (Nat.ltb_lt _ _)) by lia. cbv zeta. rewrite (proj2 (Nat.ltb_lt _ _)) by lia.
    unfold vec_realloc_w, vec_size, vec_capacity. cbn [negb].
    replace (k + 2 * length (buf v) + 1 - fin v + fin v) with (k + 2 * length (buf v) + 1) by lia.
    rewrite !(wrap_small (length (buf v) * 2)), !(wrap_small (k + _ + 1)) by nia.
    rewrite (proj2 (Nat.ltb_lt (length (buf v) * 2) _)) by lia.
    assert (wrap ((k + 2 * length (buf v) + 1) * sz) / sz = 2 * length (buf v) + 1) as ->.
    { unfold SizeT.wrap. replace ((k + 2 * length (buf v) + 1) * sz) with ((2 * length (buf v) + 1) * sz + 1 * W) by (subst W; nia).
      rewrite Nat.mod_add by nia. rewrite Nat.mod_small by (subst W; nia). apply Nat.div_mul. lia. }
    assert (destroys (fin v) (buf v) 0 = Ok l) as Hds.
    { destruct Hv as (r & Hb & _). rewrite Hb. by apply (destroys_ok l [] r). }
    destruct (mcpy _ _ _ _ _) as [b| |] eqn:E; [|done|].
    2:{ exfalso. unfold mcpy in E. by destruct (_ && _). }
    cbn [rbind]. rewrite Hds. cbn [rbind gen buf fin].
    apply mcpy_len in E. unfold raw in E. rewrite replicate_length in E.
    rewrite (fill_UB _ a) by (first [lia|apply (val_of_ok dflt _ _ _ Hva)]). done.
  Qed.

  (** ** deques *)
  Lemma wrap_sub c s : s <= c -> c < W -> wrap (c + (W - s)) = c - s.
  Proof.
    intros H1 H2. unfold SizeT.wrap. replace (c + (W - s)) with (c - s + 1 * W) by lia.
    rewrite Nat.mod_add by lia. apply Nat.mod_small. lia.
  Qed.
  Lemma deq_realloc_w_eq ok (d : deq A) n : 0 < sz -> deq_size d <= deq_capacity d -> deq_capacity d * 2 * sz < W ->
    (n + deq_size d) * sz < W -> deq_realloc_w W sz ok d n = deq_realloc_m ok d n.
  Proof.
    intros Hsz H0 H1 H2. unfold deq_realloc_w, deq_realloc_m, deq_realloc. destruct ok; cbn [negb]; [|done].
    rewrite !(wrap_small (_ * 2)), !(wrap_small (n + _)) by (by apply wrap_le).
    set (c := if deq_capacity d * 2 <? n + deq_size d then n + deq_size d else deq_capacity d * 2).
    assert (c * sz < W) as Hc by (unfold c; by destruct (_ <? _)).
    assert (deq_size d <= c) as Hc2 by (unfold c; destruct (_ <? _); lia).
    rewrite wrap_mul by done. rewrite wrap_sub by (try done; by apply wrap_le).
    rewrite wrap_mul; [|done|].
    2:{ eapply Nat.le_lt_trans; [|exact Hc]. apply Nat.mul_le_mono_r. pose proof (half2 (c - deq_size d)). lia. }
    destruct (mcpy _ _ _ _ _); [|done|done]. cbn [rbind]. by destruct (destroys _ _ _).
  Qed.
  Lemma insert_aux_w_eq (d : deq A) pos n value : 0 < sz -> n * sz < W ->
    insert_aux_w dflt W sz d pos n value = insert_aux dflt d pos n value.
  Proof. intros Hsz Hn. unfold insert_aux_w, insert_aux. by rewrite wrap_mul. Qed.
  Lemma deq_insert_n_w_eq ok (d : deq A) l i n a : drep d l -> 0 < sz -> deq_capacity d * 2 * sz < W ->
    (i <= length l -> 2 * (length l + n) * sz < W) ->
    deq_insert_n_w dflt W sz ok d (dstart d + i) n (Val a) = deq_insert_n_m dflt ok d (dstart d + i) n (Val a).
  Proof.
    intros Hd Hsz H1 H2. pose proof (drep_bounds _ _ Hd) as [Hf Hc]. destruct (drep_size _ _ Hd) as [Hs _].
    unfold deq_insert_n_w, deq_insert_n_m, deq_valid. rewrite (proj2 (Nat.leb_le (dstart d) _)) by lia. cbn [andb].
    destruct (Nat.leb_spec (dstart d + i) (dfin d)) as [Hi|Hi]; [|done]. cbn [negb]. specialize (H2 ltac:(lia)).
    destruct (Nat.ltb_spec (deq_available d) n) as [Ha|Ha].
    - rewrite (wrap_small ((n - deq_available d) * 2)) by (eapply wrap_le; [|exact Hsz]; nia).
      rewrite deq_realloc_w_eq; [|done|unfold deq_capacity; lia|done|rewrite Hs; nia].
      destruct (deq_realloc_m ok d _) as [[d1|]| |]; cbn [rbind]; [|done|done|done].
      apply insert_aux_w_eq; [done|nia].
    - apply insert_aux_w_eq; [done|nia].
  Qed.
  Lemma deq_resize_w_eq ok (d : deq A) l n value : drep d l -> 0 < sz -> deq_capacity d * 2 * sz < W ->
    2 * n * sz < W ->
    deq_resize_with_value_w dflt W sz ok d n value = deq_resize_with_value_m dflt ok d n value.
  Proof.
    intros Hd Hsz H1 H2. pose proof (drep_bounds _ _ Hd) as [Hf Hc]. destruct (drep_size _ _ Hd) as [Hs _].
    unfold deq_resize_with_value_w, deq_resize_with_value_m. rewrite Hs.
    destruct (Nat.ltb_spec (length l) n) as [Hn|Hn]; [|done]. cbv zeta.
    destruct (Nat.ltb_spec (deq_available d) (n - length l)) as [Ha|Ha].
    - rewrite (wrap_small ((n - length l) * 2)) by (eapply wrap_le; [|exact Hsz]; nia).
      rewrite deq_realloc_w_eq; [|done|unfold deq_capacity; lia|done|rewrite Hs; nia].
      destruct (deq_realloc_m ok d _) as [[d1|]| |]; cbn [rbind]; [|done|done|done].
      rewrite insert_aux_w_eq; [done|done|nia].
    - cbn [rbind]. rewrite insert_aux_w_eq; [done|done|nia].
  Qed.
  Lemma deq_step_w_eq ok (d : deq A) l o : drep d l -> 0 < sz -> deq_capacity d * 2 * sz < W ->
    2 * length (deq_spec dflt l o) * sz < W ->
    deq_step_w dflt W sz ok d o = deq_step_m dflt ok d o.
  Proof.
    intros Hd Hsz H1 H2. pose proof (drep_bounds _ _ Hd) as [Hf Hc]. destruct (drep_size _ _ Hd) as [Hs _].
    destruct o as [a|a| | |i a|i n a|i|i j| |n|n a|]; cbn [deq_step_w deq_step_m deq_spec] in *; try done.
    - unfold deq_push_back_w, deq_push_back_m. destruct (_ =? _); [|done]. rewrite app_length in H2. cbn [length] in H2.
      rewrite deq_realloc_w_eq; [done|done|unfold deq_capacity; lia|done|rewrite Hs; nia].
    - unfold deq_push_front_w, deq_push_front_m. destruct (_ =? _); [|done]. cbn [length] in H2.
      rewrite deq_realloc_w_eq; [done|done|unfold deq_capacity; lia|done|rewrite Hs; nia].
    - rewrite (deq_insert_n_w_eq ok d l i 1 a Hd Hsz H1); [done|]. intros Hi.
      rewrite (proj2 (Nat.leb_le _ _)) in H2 by done. unfold seq_insert in H2.
      rewrite !app_length, take_length, drop_length in H2. cbn [length] in H2. nia.
    - rewrite (deq_insert_n_w_eq ok d l i n a Hd Hsz H1); [done|]. intros Hi.
      rewrite (proj2 (Nat.leb_le _ _)) in H2 by done. unfold seq_insert in H2.
      rewrite !app_length, take_length, drop_length, replicate_length in H2. nia.
    - unfold seq_resize in H2. rewrite app_length, take_length, replicate_length in H2.
      apply (deq_resize_w_eq ok d l n None Hd Hsz H1). nia.
    - unfold seq_resize in H2. rewrite app_length, take_length, replicate_length in H2.
      apply (deq_resize_w_eq ok d l n (Some (Val a)) Hd Hsz H1). nia.
  Qed.

  (** the most elements an operation can add *)
  Definition deq_weight (o : deq_op A) : nat :=
    match o with
    | DPushBack _ | DPushFront _ | DInsert _ _ => 1
    | DInsertN _ n _ | DResize n | DResizeWith n _ => n
    | _ => 0
    end.
  Lemma added_weight l o : length (deq_added dflt l o) <= deq_weight o.
  Proof. destruct o; cbn [deq_added deq_weight]; repeat case_match; cbn [length]; rewrite ?replicate_length; lia. Qed.
  Lemma spec_weight l o : length (deq_spec dflt l o) <= length l + deq_weight o.
  Proof.
    destruct o; cbn [deq_spec deq_weight]; unfold seq_insert, seq_delete, seq_resize; repeat case_match; cbn [length];
      rewrite ?app_length, ?take_length, ?drop_length, ?replicate_length, ?app_length, ?replicate_length, ?drop_length; cbn [length]; lia.
  Qed.
  Lemma added_inv_mono (d : deq A) l N N' : N <= N' -> added_inv d l N -> added_inv d l N'.
  Proof. unfold added_inv. lia. Qed.
  Lemma deq_run_w_eq os : forall (d : deq A) l N, 0 < sz -> drep d l -> added_inv d l N ->
    16 * (N + sum_list_with (fun o => deq_weight (snd o)) os) * sz < W ->
    deq_run_w dflt W sz d os = deq_run_m dflt d os.
  Proof.
    induction os as [|[ok o] os IH]; intros d l N Hsz Hd Hi HW; [done|].
    cbn [deq_run_w deq_run_m sum_list_with snd] in *. pose proof (spec_weight l o) as Hw. pose proof Hi as (Hl & Hcap & _).
    rewrite (deq_step_w_eq ok d l o Hd Hsz); [|unfold deq_capacity; nia|nia].
    destruct (deq_step_m_ok dflt ok d l o Hd) as (d1 & E & H). rewrite E. cbn [rbind].
    destruct H as [H|(-> & -> & _)].
    - assert (added_inv d1 (deq_spec dflt l o) (N + deq_weight o)) as Hi1.
      { destruct ok.
        - rewrite deq_step_m_true in E. eapply dstep_added; [exact Hd|exact E| |exact Hi]. pose proof (added_weight l o). lia.
        - destruct (deq_step_m_false dflt d l o Hd) as [E'|[E' [Hs|Hs]]]; rewrite E' in E.
          + eapply dstep_added; [exact Hd|exact E| |exact Hi]. pose proof (added_weight l o). lia.
          + injection E as <-. exfalso. apply drep_traverse in H as [H _]. apply drep_traverse in Hd as [Hd' _].
            rewrite H in Hd'. injection Hd' as E2. rewrite E2 in Hs. lia.
          + injection E as <-. rewrite Hs. eapply added_inv_mono; [|exact Hi]. lia. }
      apply (IH d1 _ _ Hsz H Hi1). nia.
    - apply (IH d l N Hsz Hd Hi). nia.
  Qed.

  (** a request whose size wraps around to zero *)
  Lemma insert_aux_w_UB (d : deq A) pos n value a : dval_of dflt value = Some a -> length (dbuf d) < n ->
    pos - dstart d <= length (dbuf d) -> dstart d <= length (dbuf d) -> insert_aux_w dflt W sz d pos n value = UB.
  Proof.
    intros Hv Hn Hp Hs. unfold insert_aux_w, available_end, available_start.
    rewrite !(proj2 (Nat.leb_gt _ _)) by lia. cbv zeta.
    destruct (mcpy (dbuf d) 0 _ _ _) as [b| |] eqn:E; [|done|unfold mcpy in E; by destruct (_ && _)]. cbn [rbind].
    destruct (mcpy b _ _ _ _) as [b1| |] eqn:E1; [|done|unfold mcpy in E1; by destruct (_ && _)]. cbn [rbind].
    apply mcpy_len in E, E1. rewrite (fill_UB _ a); [done|apply (dval_of_ok dflt _ _ _ Hv)|lia|lia].
  Qed.
  Lemma deq_realloc_w_zero (d : deq A) l : drep d l -> 0 < sz -> 2 * length (dbuf d) * sz < W ->
    exists d1, deq_realloc_w W sz true d 0 = Ok (Some d1) /\ length (dbuf d1) = 2 * length (dbuf d) /\
      dfin d1 = dstart d1 + length l /\ dfin d1 <= length (dbuf d1).
  Proof.
    intros Hd Hsz HW. pose proof (drep_bounds _ _ Hd) as [Hf Hc]. destruct (drep_size _ _ Hd) as [Hs _].
    rewrite deq_realloc_w_eq; [|done|unfold deq_capacity; lia|unfold deq_capacity; nia|rewrite Hs; nia].
    unfold deq_realloc_m. destruct (drealloc_ok d l 0 Hd) as (p & r & E & Hlen & _). rewrite E. cbn [rbind].
    eexists. split; [done|]. cbn [dbuf dstart dfin]. rewrite !app_length, map_length. lia.
  Qed.
  Lemma deq_resize_wraps (d : deq A) l h value a : drep d l -> dval_of dflt value = Some a -> W = 2 * h -> 0 < sz ->
    2 * length (dbuf d) * sz < h ->
    deq_resize_with_value_w dflt W sz true d (length l + h) value = UB.
  Proof.
    intros Hd Hv HW Hsz Hh. pose proof (drep_bounds _ _ Hd) as [Hf Hc]. destruct (drep_size _ _ Hd) as [Hs _].
    unfold deq_resize_with_value_w. rewrite Hs. rewrite (proj2 (Nat.ltb_lt _ _)) by lia. cbv zeta.
    replace (length l + h - length l) with h by lia. unfold deq_available, available_start, available_end.
    rewrite (proj2 (Nat.ltb_lt _ _)) by nia.
    assert (wrap (h * 2) = 0) as ->. { unfold SizeT.wrap. replace (h * 2) with W by lia. apply Nat.mod_same. lia. }
    destruct (deq_realloc_w_zero d l Hd Hsz ltac:(nia)) as (d1 & E & H1 & H2 & H3). rewrite E. cbn [rbind].
    rewrite (insert_aux_w_UB d1 _ h value a Hv); [done|nia|lia|lia].
  Qed.
  Lemma deq_insert_n_wraps (d : deq A) l h i a : drep d l -> i <= length l -> W = 2 * h -> 0 < sz ->
    2 * length (dbuf d) * sz < h ->
    deq_insert_n_w dflt W sz true d (dstart d + i) (deq_available d + h) (Val a) = UB.
  Proof.
    intros Hd Hi HW Hsz Hh. pose proof (drep_bounds _ _ Hd) as [Hf Hc].
    unfold deq_insert_n_w, deq_valid. rewrite !(proj2 (Nat.leb_le _ _)) by lia. cbn [andb negb].
    rewrite (proj2 (Nat.ltb_lt _ _)) by nia. cbv zeta. replace (deq_available d + h - deq_available d) with h by lia.
    assert (wrap (h * 2) = 0) as ->. { unfold SizeT.wrap. replace (h * 2) with W by lia. apply Nat.mod_same. lia. }
    destruct (deq_realloc_w_zero d l Hd Hsz ltac:(nia)) as (d1 & E & H1 & H2 & H3). rewrite E. cbn [rbind].
    apply (insert_aux_w_UB d1 _ _ _ a); [done|nia|lia|lia].
  Qed.
End size_t.
