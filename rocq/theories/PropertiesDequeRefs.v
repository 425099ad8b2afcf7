(** PropertiesDequeRefs.v — C135: which references to the elements of a deque survive a modification.
    The reference to the i-th element ([c_deque_at], or an iterator's position) is its address: the block it
    lies in and the slot, [ref_to d i].  [read d r] dereferences a reference taken earlier when the deque is
    in state [d]: undefined behaviour if the block has been freed since, else the slot's content. *)
From Verif Require Import Base Spec SpecSeq Facts Buffer BufferProofs VectorProofs Deque DequeProofs PropertiesDeque.
From stdpp Require Import list.

Section refs.
  Context {A : Type} (dflt : A).
  (** c_deque.c 696-700: the address itself *)
  Definition ref_to (d : deq A) (i : nat) : arg A := Own (dgen d) (dstart d + i).
  Definition read (d : deq A) (r : arg A) : res A := arg_get (dbuf d) (dgen d) r.

  Lemma read_slot (d d' : deq A) l' i j x : drep d' l' -> dgen d' = dgen d -> l' !! j = Some x ->
    dstart d + i = dstart d' + j -> read d' (ref_to d i) = Ok x /\ ref_to d' j = ref_to d i.
  Proof.
    intros Hd Hg Hj He. unfold read, ref_to, arg_get. rewrite Hg, Nat.eqb_refl, He.
    split; [|done]. apply (drep_at d' l' j x Hd Hj).
  Qed.
  Lemma read_dangling (d d' : deq A) i : dgen d' = S (dgen d) -> read d' (ref_to d i) = UB.
  Proof. intros Hg. unfold read, ref_to, arg_get. rewrite Hg. destruct (Nat.eqb_spec (dgen d) (S (dgen d))); [lia|done]. Qed.

  Lemma dpush_back_start d (l : list A) a d' : drep d l -> deq_push_back d (Val a) = Ok d' ->
    dfin d < length (dbuf d) -> dstart d' = dstart d.
  Proof.
    intros Hd He Hr. unfold deq_push_back in He.
    destruct (Nat.eqb_spec (dfin d) (length (dbuf d))); [lia|]. cbn [rbind arg_get] in He.
    apply rbind_Ok in He as (b & _ & [= <-]). done.
  Qed.
  Lemma dpush_front_start d (l : list A) a d' : drep d l -> deq_push_front d (Val a) = Ok d' ->
    0 < dstart d -> dstart d = S (dstart d').
  Proof.
    intros Hd He Hr. unfold deq_push_front in He.
    destruct (Nat.eqb_spec (dstart d) 0); [lia|]. cbn [rbind arg_get] in He.
    destruct (dstart d) as [|s]; [lia|].
    apply rbind_Ok in He as (b & _ & [= <-]). done.
  Qed.
  Lemma insert_aux_start (d : deq A) pos n v d' q : insert_aux dflt d pos n v = Ok (d', q) ->
    dstart d' = if n <=? available_end d then dstart d
                else if n <=? available_start d then dstart d - n else 0.
  Proof.
    unfold insert_aux. intros He. destruct (n <=? available_end d); [|destruct (n <=? available_start d)].
    - apply rbind_Ok in He as (b & _ & He). apply rbind_Ok in He as (b' & _ & [= <- _]). done.
    - apply rbind_Ok in He as (b & _ & He). apply rbind_Ok in He as (b' & _ & [= <- _]). done.
    - apply rbind_Ok in He as (b & _ & He). apply rbind_Ok in He as (b' & _ & He).
      apply rbind_Ok in He as (b'' & _ & [= <- _]). done.
  Qed.
  Lemma dinsert_n_start d l i n a d' q : drep d l -> i <= length l -> n <= deq_available d ->
    deq_insert_n dflt d (dstart d + i) n (Val a) = Ok (d', q) ->
    dstart d' = if n <=? available_end d then dstart d
                else if n <=? available_start d then dstart d - n else 0.
  Proof.
    intros Hd Hi Hn He. pose proof (drep_bounds _ _ Hd) as [Hf _]. unfold deq_insert_n, deq_valid in He.
    replace (dstart d <=? dstart d + i) with true in He by (symmetry; apply Nat.leb_le; lia).
    replace (dstart d + i <=? dfin d) with true in He by (symmetry; apply Nat.leb_le; lia).
    cbn [andb negb] in He. replace (deq_available d <? n) with false in He by (symmetry; apply Nat.ltb_ge; lia).
    by apply insert_aux_start in He.
  Qed.
  Lemma seq_insert_before k (x l : list A) i : i < k -> k <= length l -> seq_insert k x l !! i = l !! i.
  Proof.
    intros H1 H2. unfold seq_insert. rewrite lookup_app_l by (rewrite take_length; lia). by apply lookup_take.
  Qed.
  Lemma seq_insert_after k (x l : list A) i : k <= i -> k <= length l -> seq_insert k x l !! (i + length x) = l !! i.
  Proof.
    intros H1 H2. unfold seq_insert. rewrite lookup_app_r by (rewrite take_length; lia).
    rewrite take_length, lookup_app_r by lia. rewrite lookup_drop. f_equal. lia.
  Qed.
  Lemma seq_insert_new k n (a : A) (l : list A) i : k <= i < k + n -> k <= length l ->
    seq_insert k (replicate n a) l !! i = Some a.
  Proof.
    intros H1 H2. unfold seq_insert. rewrite lookup_app_r by (rewrite take_length; lia).
    rewrite take_length, lookup_app_l by (rewrite replicate_length; lia). apply lookup_replicate. split; [done|lia].
  Qed.
  Lemma seq_delete_before i j (l : list A) k : k < i -> i <= length l -> seq_delete i j l !! k = l !! k.
  Proof.
    intros H1 H2. unfold seq_delete. rewrite lookup_app_l by (rewrite take_length; lia). by apply lookup_take.
  Qed.
  Lemma seq_delete_after i j (l : list A) k : i <= j <= length l -> j <= k -> seq_delete i j l !! (k - (j - i)) = l !! k.
  Proof.
    intros H1 H2. unfold seq_delete. rewrite lookup_app_r by (rewrite take_length; lia).
    rewrite take_length, lookup_drop. f_equal. lia.
  Qed.
End refs.

(** ** Pushing and popping at the ends *)
Theorem C135_ends : forall A (d : deq A) l i x, deq_holds d l -> l !! i = Some x ->
  (forall a d', deq_push_back d (Val a) = Ok d' ->
     if dfin d <? deq_capacity d
     then read d' (ref_to d i) = Ok x /\ ref_to d' i = ref_to d i
     else read d' (ref_to d i) = UB) /\
  (forall a d', deq_push_front d (Val a) = Ok d' ->
     if 0 <? dstart d
     then read d' (ref_to d i) = Ok x /\ ref_to d' (S i) = ref_to d i
     else read d' (ref_to d i) = UB) /\
  (forall d', deq_pop_back d = Ok d' -> S i < length l -> read d' (ref_to d i) = Ok x /\ ref_to d' i = ref_to d i) /\
  (forall d', deq_pop_front d = Ok d' -> 0 < i -> read d' (ref_to d i) = Ok x /\ ref_to d' (i - 1) = ref_to d i).
Proof.
  intros A d l i x Hd Hx. apply holds_drep in Hd. pose proof (lookup_lt_Some _ _ _ Hx) as Hlt.
  pose proof (drep_bounds _ _ Hd) as [Hf Hc]. pose proof (drep_size _ _ Hd) as [_ Hem].
  split; [|split; [|split]].
  - intros a d' He. destruct (dpush_back_ok d l a Hd) as (d2 & He2 & Hd2 & Hg). rewrite He in He2. injection He2 as <-.
    unfold deq_capacity. destruct (Nat.ltb_spec (dfin d) (length (dbuf d))).
    + apply (read_slot d d' (l ++ [a]) i i x); [done|tauto|by rewrite lookup_app_l|].
      by rewrite (dpush_back_start d l a d').
    + apply read_dangling. tauto.
  - intros a d' He. destruct (dpush_front_ok d l a Hd) as (d2 & He2 & Hd2 & Hg). rewrite He in He2. injection He2 as <-.
    destruct (Nat.ltb_spec 0 (dstart d)).
    + apply (read_slot d d' (a :: l) i (S i) x); [done|tauto|done|].
      rewrite (dpush_front_start d l a d'); [lia|done..].
    + apply read_dangling. tauto.
  - intros d' He Hi. destruct (dpop_back_ok d l Hd) as (d2 & He2 & Hd2 & _ & Hg & _). rewrite He in He2. injection He2 as <-.
    apply (read_slot d d' _ i i x Hd2 Hg); [by rewrite lookup_take by lia|].
    unfold deq_pop_back in He. rewrite Hem in He. destruct (Nat.eqb_spec (length l) 0); [lia|].
    apply rbind_Ok in He as (y & _ & [= <-]). done.
  - intros d' He Hi. destruct (dpop_front_ok d l Hd) as (d2 & He2 & Hd2 & _ & Hg & _). rewrite He in He2. injection He2 as <-.
    apply (read_slot d d' _ i (i - 1) x Hd2 Hg); [rewrite lookup_drop; by replace (1 + (i - 1)) with i by lia|].
    unfold deq_pop_front in He. rewrite Hem in He. destruct (Nat.eqb_spec (length l) 0); [lia|].
    apply rbind_Ok in He as (y & _ & [= <-]). cbn. lia.
Qed.
Print Assumptions C135_ends.

(** ** Removals: references before the removed elements survive; a reference to an element behind them reads
    the element that moved there; the block is never freed *)
Theorem C135_removals : forall A (d : deq A) l, deq_holds d l ->
  (forall i j k x d' q, i <= j <= length l -> deq_erase_range d (dstart d + i) (dstart d + j) = Ok (d', q) ->
     l !! k = Some x ->
     (k < i -> read d' (ref_to d k) = Ok x /\ ref_to d' k = ref_to d k) /\
     (j <= k -> read d' (ref_to d (k - (j - i))) = Ok x)) /\
  (forall i k x d' q, i < length l -> deq_erase d (dstart d + i) = Ok (d', q) ->
     l !! k = Some x ->
     (k < i -> read d' (ref_to d k) = Ok x /\ ref_to d' k = ref_to d k) /\
     (i < k -> read d' (ref_to d (k - 1)) = Ok x)).
Proof.
  intros A d l Hd. apply holds_drep in Hd. pose proof (drep_bounds _ _ Hd) as [Hf Hc].
  split.
  - intros i j k x d' q Hij He Hx.
    destruct (derase_range_ok d l i j Hd Hij) as (d2 & He2 & Hd2 & Hg & Hs & _). rewrite He in He2. injection He2 as <- _.
    split.
    + intros Hk. apply (read_slot d d' _ k k x Hd2 Hg); [|lia]. rewrite seq_delete_before by lia. done.
    + intros Hk. apply (read_slot d d' _ (k - (j - i)) (k - (j - i)) x Hd2 Hg); [|lia]. rewrite seq_delete_after by lia. done.
  - intros i k x d' q Hi He Hx.
    destruct (lookup_lt_is_Some_2 l i Hi) as [y Hy].
    destruct (derase_ok d l i y Hd Hy) as (d2 & He2 & Hd2 & Hg & _). rewrite He in He2. injection He2 as <- _.
    assert (dstart d' = dstart d) as Hs.
    { unfold deq_erase in He. destruct (negb _ || _).
      - by injection He as <- _.
      - apply rbind_Ok in He as (z & _ & He). apply rbind_Ok in He as (b & _ & [= <- _]). done. }
    split.
    + intros Hk. apply (read_slot d d' _ k k x Hd2 Hg); [|lia]. rewrite seq_delete_before by lia. done.
    + intros Hk. apply (read_slot d d' _ (k - 1) (k - 1) x Hd2 Hg); [|lia].
      pose proof (seq_delete_after i (S i) l k ltac:(lia) ltac:(lia)) as Ha.
      replace (k - (S i - i)) with (k - 1) in Ha by lia. by rewrite Ha.
Qed.
Print Assumptions C135_removals.

(** ** Insertion of [n] elements before the element with index [i]: if they fit behind the last element, the
    references before the position survive; else, if they fit before the first element, the references from
    the position on survive and those before it do not (the elements in front of the position move down); else
    if there is room on both sides together, everything before the position moves to the start of the block
    and everything behind it up, so what an old reference reads is the element of the new sequence whose
    index is the old index plus the old room at the front; else every reference dangles. *)
Theorem C135_insert_exact_partial : forall A (dflt : A) (d : deq A) l i n a d' q, deq_holds d l -> i <= length l ->
  deq_insert_n dflt d (dstart d + i) n (Val a) = Ok (d', q) ->
  forall k x, l !! k = Some x ->
  (n <= available_end d ->
     (k < i -> read d' (ref_to d k) = Ok x /\ ref_to d' k = ref_to d k) /\
     (i <= k -> ref_to d' (k + n) = Own (dgen d) (dstart d + k + n) /\ read d' (ref_to d' (k + n)) = Ok x)) /\
  (available_end d < n <= available_start d ->
     (i <= k -> read d' (ref_to d k) = Ok x /\ ref_to d' (k + n) = ref_to d k) /\
     (k < i -> ref_to d' k = Own (dgen d) (dstart d + k - n) /\ read d' (ref_to d' k) = Ok x)) /\
  (available_end d < n -> available_start d < n -> n <= deq_available d ->
     forall y, seq_insert i (replicate n a) l !! (dstart d + k) = Some y -> read d' (ref_to d k) = Ok y) /\
  (deq_available d < n -> read d' (ref_to d k) = UB).
Proof.
  intros A dflt d l i n a d' q Hd Hi He k x Hx. apply holds_drep in Hd.
  destruct (dinsert_n_ok dflt d l i n a Hd Hi) as (d2 & He2 & Hd2 & Hg). rewrite He in He2. injection He2 as <- _.
  assert (forall j, ref_to d' j = ref_to d' j) as _ by done.
  assert (Hst := fun H => dinsert_n_start dflt d l i n a d' q Hd Hi H He).
  assert (Hfit : n <= deq_available d -> dgen d' = dgen d).
  { intros H. destruct (Nat.leb_spec n (deq_available d)); [tauto|lia]. }
  assert (Hnew : i <= k -> seq_insert i (replicate n a) l !! (k + n) = Some x).
  { intros H. pose proof (seq_insert_after i (replicate n a) l k H Hi) as Ha. rewrite replicate_length in Ha. by rewrite Ha. }
  assert (Hself : forall j y, seq_insert i (replicate n a) l !! j = Some y -> read d' (ref_to d' j) = Ok y).
  { intros j y Hj. by apply (read_slot d' d' _ j j y Hd2). }
  unfold deq_available in *. split; [|split; [|split]].
  - intros Hn. specialize (Hst ltac:(lia)). specialize (Hfit ltac:(lia)).
    destruct (Nat.leb_spec n (available_end d)); [|lia]. split.
    + intros Hk. apply (read_slot d d' _ k k x Hd2 Hfit); [|lia]. by rewrite seq_insert_before.
    + intros Hk. split; [|by apply Hself, Hnew]. unfold ref_to. rewrite Hfit, Hst. f_equal. lia.
  - intros Hn. specialize (Hst ltac:(lia)). specialize (Hfit ltac:(lia)).
    destruct (Nat.leb_spec n (available_end d)); [lia|]. destruct (Nat.leb_spec n (available_start d)); [|lia].
    unfold available_start in *. split.
    + intros Hk. apply (read_slot d d' _ k (k + n) x Hd2 Hfit); [by apply Hnew|lia].
    + intros Hk. split; [|apply Hself; by rewrite seq_insert_before]. unfold ref_to. rewrite Hfit, Hst. f_equal. lia.
  - intros H1 H2 H3 y Hy. specialize (Hst H3). specialize (Hfit H3).
    destruct (Nat.leb_spec n (available_end d)); [lia|]. destruct (Nat.leb_spec n (available_start d)); [lia|].
    apply (read_slot d d' _ k (dstart d + k) y Hd2 Hfit); [done|lia].
  - intros Hn. apply read_dangling. destruct (Nat.leb_spec n (available_start d + available_end d)); [lia|tauto].
Qed.
Print Assumptions C135_insert_exact_partial.

(** ** Growing and shrinking: resize to at most the capacity never frees the block; making it smaller keeps
    every reference to a remaining element, and so does growing into the room behind the last element.
    shrink_to_fit frees the block unless the elements fill it. *)
Theorem C135_resize_and_shrink : forall A (dflt : A) (d : deq A) l i x, deq_holds d l -> l !! i = Some x ->
  (forall n value d', (value = None \/ exists a, value = Some (Val a)) -> deq_resize_with_value dflt d n value = Ok d' ->
     (deq_capacity d < n -> read d' (ref_to d i) = UB) /\
     (i < n -> n <= length l \/ n - length l <= available_end d ->
        read d' (ref_to d i) = Ok x /\ ref_to d' i = ref_to d i)) /\
  (forall d', deq_shrink_to_fit d = Ok d' ->
     if deq_capacity d =? length l
     then read d' (ref_to d i) = Ok x /\ ref_to d' i = ref_to d i
     else read d' (ref_to d i) = UB).
Proof.
  intros A dflt d l i x Hd Hx. apply holds_drep in Hd. pose proof (lookup_lt_Some _ _ _ Hx) as Hlt.
  pose proof (drep_bounds _ _ Hd) as [Hf Hc]. pose proof (drep_size _ _ Hd) as [Hsz _].
  split.
  - intros n value d' Hv0 He.
    assert (exists a, dval_of dflt value = Some a) as [a Hv].
    { destruct Hv0 as [->|[a ->]]; by eexists. }
    destruct (dresize_ok dflt d l n value a Hd Hv) as (d2 & He2 & Hd2 & Hg).
    rewrite He in He2. injection He2 as <-. unfold deq_capacity, available_end. split.
    + intros Hn. destruct (Nat.leb_spec n (length (dbuf d))); [lia|]. apply read_dangling. tauto.
    + intros Hi Hn. destruct (Nat.leb_spec n (length (dbuf d))); [|lia].
      apply (read_slot d d' _ i i x Hd2); [tauto| |].
      { unfold seq_resize. rewrite lookup_app_l by (rewrite take_length; lia). by rewrite lookup_take. }
      enough (dstart d' = dstart d) as -> by done.
      unfold deq_resize_with_value in He. rewrite Hsz in He. destruct (Nat.ltb_spec (length l) n).
      * replace (deq_available d <? n - length l) with false in He
          by (symmetry; apply Nat.ltb_ge; unfold deq_available, available_end, available_start; lia).
        cbn [rbind] in He. apply rbind_Ok in He as ([d2 q] & He & [= <-]).
        rewrite (insert_aux_start _ _ _ _ _ _ _ He). unfold available_end.
        destruct (Nat.leb_spec (n - length l) (length (dbuf d) - dfin d)); [done|lia].
      * apply rbind_Ok in He as (ds & _ & [= <-]). done.
  - intros d' He. destruct (dshrink_ok d l Hd) as (d2 & He2 & Hd2 & _). rewrite He in He2. injection He2 as <-.
    pose proof (dshrink_gen d l d' Hd He) as Hg. unfold deq_capacity. destruct (Nat.eqb_spec (length (dbuf d)) (length l)).
    + subst d'. by apply (read_slot d d _ i i x Hd).
    + by apply read_dangling.
Qed.
Print Assumptions C135_resize_and_shrink.

(** ** The property as stated is false: an insertion with room in the block, that does not reallocate, makes a
    reference to an element before the position read another element. *)
Definition ex_full : deq nat := Deq [None; None; Some 1; Some 2; Some 3; Some 4] 2 6 7 [].
Theorem C135_insert_before_refuted :
  ~ (forall A (dflt : A) (d : deq A) l i n a d' q, deq_holds d l -> i <= length l -> n <= deq_available d ->
      deq_insert_n dflt d (dstart d + i) n (Val a) = Ok (d', q) ->
      dgen d' = dgen d ->
      forall k x, k < i -> l !! k = Some x -> read d' (ref_to d k) = Ok x).
Proof.
  intros H.
  specialize (H nat 0 ex_full [1; 2; 3; 4] 3 1 9 (Deq [None; Some 1; Some 2; Some 3; Some 9; Some 4] 1 6 7 []) 4).
  specialize (H ltac:(split; [done|cbn; lia]) ltac:(cbn; lia) ltac:(cbn; lia) eq_refl eq_refl 0 1 ltac:(lia) eq_refl).
  discriminate H.
Qed.
Print Assumptions C135_insert_before_refuted.
(** Nor is it true that, as in a deque of blocks, pushing at an end keeps all references: without room there
    every reference dangles ([C135_ends]), even with room at the other end. *)
Theorem C135_push_keeps_refuted :
  ~ (forall A (d : deq A) l a d', deq_holds d l -> 0 < deq_available d -> deq_push_back d (Val a) = Ok d' ->
      forall k x, l !! k = Some x -> read d' (ref_to d k) = Ok x).
Proof.
  intros H. destruct (dpush_back_ok ex_full [1; 2; 3; 4] 9) as (d' & He & _).
  { apply holds_drep. split; [done|cbn; lia]. }
  specialize (H nat ex_full [1; 2; 3; 4] 9 d' ltac:(split; [done|cbn; lia]) ltac:(cbn; lia) He 0 1 eq_refl).
  pose proof (C135_ends nat ex_full [1; 2; 3; 4] 0 1 ltac:(split; [done|cbn; lia]) eq_refl) as (Hp & _).
  specialize (Hp 9 d' He). cbn in Hp. unfold ref_to in H. cbn in H. rewrite Hp in H. discriminate H.
Qed.
Print Assumptions C135_push_keeps_refuted.

(** ** Histories of pushes and pops at the ends: as long as the block is not replaced, a reference keeps reading
    its element until that element is popped.  [follow] tracks an element's index. *)
Inductive end_op (A : Type) := EPushBack (a : A) | EPushFront (a : A) | EPopBack | EPopFront.
Global Arguments EPushBack {A} a.
Global Arguments EPushFront {A} a.
Global Arguments EPopBack {A}.
Global Arguments EPopFront {A}.
Definition to_op {A} (o : end_op A) : deq_op A :=
  match o with EPushBack a => DPushBack a | EPushFront a => DPushFront a | EPopBack => DPopBack | EPopFront => DPopFront end.
(** where the element with index [i] of a sequence of length [n] is afterwards, [None] if popped *)
Fixpoint follow {A} (os : list (end_op A)) (n i : nat) : option nat :=
  match os with
  | [] => Some i
  | EPushBack _ :: os' => follow os' (S n) i
  | EPushFront _ :: os' => follow os' (S n) (S i)
  | EPopBack :: os' => if S i =? n then None else follow os' (n - 1) i
  | EPopFront :: os' => if i =? 0 then None else follow os' (n - 1) (i - 1)
  end.
Lemma dgen_mono {A} (dflt : A) os : forall (d : deq A) l d', drep d l -> deq_run dflt d os = Ok d' -> dgen d <= dgen d'.
Proof. intros d l d' Hd He. by apply (drun_dead dflt os d l d' Hd He). Qed.
Theorem C135_ends_history : forall A (dflt : A) (os : list (end_op A)) (d : deq A) l d' i x,
  deq_holds d l -> deq_run dflt d (map to_op os) = Ok d' -> dgen d' = dgen d ->
  l !! i = Some x ->
  forall j, follow os (length l) i = Some j ->
    fold_left (deq_spec dflt) (map to_op os) l !! j = Some x /\
    ref_to d' j = ref_to d i /\ read d' (ref_to d i) = Ok x.
Proof.
  intros A dflt os. induction os as [|o os IH]; intros d l d' i x Hd He Hg Hx j Hj.
  - injection He as <-. injection Hj as <-. split; [done|]. split; [done|].
    apply holds_drep in Hd. by apply (read_slot d d l i i x Hd).
  - cbn [map deq_run] in He. apply rbind_Ok in He as (d1 & He1 & He).
    pose proof (proj1 (holds_drep _ _) Hd) as Hr.
    destruct (dstep_ok dflt d l (to_op o) Hr) as (d1' & He1' & Hr1). rewrite He1 in He1'. injection He1' as <-.
    pose proof (dgen_mono dflt _ _ _ _ Hr1 He) as Hm1.
    pose proof (proj1 (dstep_dead dflt d l (to_op o) d1 Hr He1)) as Hm0.
    assert (dgen d1 = dgen d) as Hg1 by lia.
    pose proof (C135_ends A d l i x Hd Hx) as (E1 & E2 & E3 & E4).
    pose proof (lookup_lt_Some _ _ _ Hx) as Hlt.
    assert (Hstep : forall i1 l1, l1 = deq_spec dflt l (to_op o) -> l1 !! i1 = Some x -> ref_to d1 i1 = ref_to d i ->
      follow os (length l1) i1 = Some j ->
      fold_left (deq_spec dflt) (map to_op os) l1 !! j = Some x /\ ref_to d' j = ref_to d i /\ read d' (ref_to d i) = Ok x).
    { intros i1 l1 -> Hx1 Href Hf. rewrite <- Href. apply (IH d1 _ d' i1 x); [by apply holds_drep|done|lia|done|done]. }
    cbn [map fold_left]. destruct o as [a|a| |]; cbn [to_op deq_step deq_spec follow] in *.
    + specialize (E1 a d1 He1). destruct (dfin d <? deq_capacity d) eqn:Er.
      * apply (Hstep i); [done|by rewrite lookup_app_l|tauto|]. rewrite app_length. cbn. by rewrite Nat.add_1_r.
      * destruct (dpush_back_ok d l a Hr) as (d2 & He2 & _ & Hg2). rewrite He1 in He2. injection He2 as <-.
        unfold deq_capacity in Er. rewrite Er in Hg2. lia.
    + specialize (E2 a d1 He1). destruct (0 <? dstart d) eqn:Er.
      * by apply (Hstep (S i)); [done|done|tauto|].
      * destruct (dpush_front_ok d l a Hr) as (d2 & He2 & _ & Hg2). rewrite He1 in He2. injection He2 as <-.
        rewrite Er in Hg2. lia.
    + destruct (Nat.eqb_spec (S i) (length l)); [done|]. specialize (E3 d1 He1 ltac:(lia)).
      apply (Hstep i); [done|by rewrite lookup_take by lia|tauto|]. rewrite take_length. by rewrite Nat.min_l by lia.
    + destruct (Nat.eqb_spec i 0); [done|]. specialize (E4 d1 He1 ltac:(lia)).
      apply (Hstep (i - 1)); [done| |tauto|by rewrite drop_length].
      rewrite lookup_drop. by replace (1 + (i - 1)) with i by lia.
Qed.
Print Assumptions C135_ends_history.

Definition ex_roomy : deq nat := Deq [None; None; Some 1; Some 2; Some 3; None; None] 2 5 7 [].
Example C135_example :
  deq_holds ex_roomy [1; 2; 3] /\
  match deq_run 0 ex_roomy (map to_op [EPushFront 8; EPopBack; EPushBack 5; EPushFront 9; EPopBack; EPopFront; EPopFront]) with
  | Ok d' => dgen d' = dgen ex_roomy /\ read d' (ref_to ex_roomy 1) = Ok 2
  | _ => False
  end /\
  follow [EPushFront 8; EPopBack; EPushBack 5; EPushFront 9; EPopBack; EPopFront; EPopFront] 3 1 = Some 1.
Proof. split; [split; [done|cbn; lia]|]. vm_compute. done. Qed.
