(** AlgoHeapProofs.v — proofs about AlgoHeap.v. *)
From Verif Require Import Base Spec Facts AlgoHeap.
From stdpp Require Import list.

Section permutes.
  Context {A : Type}.
  Implicit Types m : list A.

  Lemma permutes_refl m f l : permutes m m f l.
  Proof. split; [done|]. split; done. Qed.
  Lemma permutes_trans m1 m2 m3 f l : permutes m1 m2 f l -> permutes m2 m3 f l -> permutes m1 m3 f l.
  Proof.
    intros [L1 [F1 P1]] [L2 [F2 P2]]. split; [congruence|]. split.
    - intros k Hk. rewrite F2, F1 by done. done.
    - etransitivity; eauto.
  Qed.
  Lemma permutes_whole m m' f l : range m f l -> length m' = length m ->
    (forall k, k < f \/ l <= k -> m' !! k = m !! k) -> Permutation m m' -> permutes m m' f l.
  Proof.
    intros [H1 H2] HL HF HP. split; [done|]. split; [done|].
    assert (Hd : forall u : list A, l <= length u -> u = take f u ++ slice u f l ++ drop l u).
    { intros u Hu. rewrite <- (take_drop f u) at 1. f_equal. unfold slice.
      rewrite <- (take_drop (l - f) (drop f u)) at 1. f_equal. rewrite drop_drop. f_equal. lia. }
    rewrite (Hd m), (Hd m') in HP by lia.
    assert (take f m' = take f m) as Ht.
    { apply list_eq. intros i. destruct (decide (i < f)).
      - rewrite !lookup_take by done. apply HF. lia.
      - rewrite !lookup_take_ge by lia. done. }
    assert (drop l m' = drop l m) as Hdr.
    { apply list_eq. intros i. rewrite !lookup_drop. apply HF. lia. }
    rewrite Ht, Hdr in HP. apply Permutation_app_inv_l in HP. by apply Permutation_app_inv_r in HP.
  Qed.
  Lemma permutes_perm m m' f l : range m f l -> permutes m m' f l -> Permutation m m'.
  Proof.
    intros [H1 H2] [HL [HF HP]].
    assert (Hd : forall u : list A, l <= length u -> u = take f u ++ slice u f l ++ drop l u).
    { intros u Hu. rewrite <- (take_drop f u) at 1. f_equal. unfold slice.
      rewrite <- (take_drop (l - f) (drop f u)) at 1. f_equal. rewrite drop_drop. f_equal. lia. }
    rewrite (Hd m), (Hd m') by lia.
    assert (take f m' = take f m) as ->.
    { apply list_eq. intros i. destruct (decide (i < f)).
      - rewrite !lookup_take by done. apply HF. lia.
      - rewrite !lookup_take_ge by lia. done. }
    assert (drop l m' = drop l m) as ->.
    { apply list_eq. intros i. rewrite !lookup_drop. apply HF. lia. }
    by rewrite HP.
  Qed.
  Lemma permutes_mono m m' f l f' l' : range m f' l' -> f' <= f -> f <= l -> l <= l' ->
    permutes m m' f l -> permutes m m' f' l'.
  Proof.
    intros [R1 R2] H1 H2 H3 HP. pose proof (permutes_perm m m' f l ltac:(split; lia) HP) as HW.
    destruct HP as [HL [HF _]]. apply permutes_whole; [split; lia|done| |done].
    intros k Hk. apply HF. lia.
  Qed.
  Lemma permutes_swp m f l i j : range m f l -> f <= i < l -> f <= j < l ->
    exists m' x y, swp m i j = Ok m' /\ m !! i = Some x /\ m !! j = Some y /\
      m' = <[j:=x]> (<[i:=y]> m) /\ permutes m m' f l.
  Proof.
    intros [R1 R2] Hi Hj. destruct (lookup_lt_is_Some_2 m i) as [x Hx]; [lia|].
    destruct (lookup_lt_is_Some_2 m j) as [y Hy]; [lia|].
    exists (<[j:=x]> (<[i:=y]> m)), x, y. split; [by apply swp_Ok|]. split; [done|]. split; [done|]. split; [done|].
    apply permutes_whole; [split; lia|by rewrite !insert_length| |].
    - intros k Hk. rewrite !list_lookup_insert_ne by lia. done.
    - by apply swap_perm.
  Qed.
  Lemma permutes_patch m m' f l : range m f l -> permutes m m' f l -> m' = patch m f (slice m' f l).
  Proof.
    intros [R1 R2] [HL [HF HP]]. apply list_eq. intros k.
    assert (length (slice m' f l) = l - f) as Hs by (apply slice_length; split; lia).
    rewrite patch_lookup by lia. rewrite Hs. destruct (decide _) as [Hd|Hd].
    - rewrite slice_lookup by lia. f_equal. lia.
    - apply HF. lia.
  Qed.
End permutes.

Section heap.
  Context {A : Type} (comp : A -> A -> bool).
  Context (HW : StrictWeakOrder comp).
  Implicit Types m : list A.

  Definition child (i j : nat) : Prop := j = 2 * i + 1 \/ j = 2 * i + 2.

  (** all parent/child pairs with parent at least [lo], except where the parent is [hole] *)
  Definition heap_but m f n lo hole : Prop := forall i j x y, child i j -> lo <= i -> i <> hole -> j < n ->
    m !! (f + i) = Some x -> m !! (f + j) = Some y -> comp x y = false.
  (** grandparent condition at the hole *)
  Definition gp m f n lo hole : Prop := forall i j x y, child i hole -> child hole j -> lo <= i -> j < n ->
    m !! (f + i) = Some x -> m !! (f + j) = Some y -> comp x y = false.
  Definition heap_in m f n lo : Prop := forall i j x y, child i j -> lo <= i -> j < n ->
    m !! (f + i) = Some x -> m !! (f + j) = Some y -> comp x y = false.

  Lemma heap_in_max_heap m f l : range m f l -> heap_in m f (l - f) 0 <-> max_heap comp (slice m f l).
  Proof.
    intros [H1 H2]. split.
    - intros H i j x y Hc Hx Hy. pose proof (lookup_lt_Some _ _ _ Hy) as Hj.
      rewrite slice_length in Hj by (split; lia). rewrite slice_lookup in Hx, Hy by lia.
      apply (H i j x y); [done|lia|done|done|done].
    - intros H i j x y Hc _ Hj Hx Hy. unfold child in Hc. apply (H i j); [done|..]; rewrite slice_lookup by lia; done.
  Qed.

  (** the two facts about one sift-down iteration *)
  Lemma sift_stop m f n lo hole : heap_but m f n lo hole ->
    (forall j x y, child hole j -> j < n -> m !! (f + hole) = Some x -> m !! (f + j) = Some y -> comp x y = false) ->
    heap_in m f n lo.
  Proof.
    intros HB HS i j x y Hc Hlo Hj Hx Hy. destruct (decide (i = hole)) as [->|Hne]; [eauto|].
    eapply HB; eauto.
  Qed.
  Lemma sift_swap m f n lo hole c h v :
    heap_but m f n lo hole -> gp m f n lo hole -> lo <= hole -> child hole c -> c < n ->
    m !! (f + hole) = Some h -> m !! (f + c) = Some v -> comp h v = true ->
    (forall j y, child hole j -> j < n -> m !! (f + j) = Some y -> comp v y = false) ->
    let m' := <[f + c := h]> (<[f + hole := v]> m) in
    heap_but m' f n lo c /\ gp m' f n lo c.
  Proof.
    intros HB HG Hlo Hc Hcn Hh Hv Hhv Hbest m'.
    assert (hole < c) as Hlt by (unfold child in Hc; lia).
    assert (Hm'1 : m' !! (f + c) = Some h).
    { unfold m'. apply list_lookup_insert. rewrite insert_length. by eapply lookup_lt_Some. }
    assert (Hm'2 : m' !! (f + hole) = Some v).
    { unfold m'. rewrite list_lookup_insert_ne by lia. apply list_lookup_insert. by eapply lookup_lt_Some. }
    assert (Hm'3 : forall k, k <> c -> k <> hole -> m' !! (f + k) = m !! (f + k)).
    { intros k H1 H2. unfold m'. rewrite !list_lookup_insert_ne by lia. done. }
    split.
    - intros i j x y Hij Hi Hne Hj Hx Hy.
      destruct (decide (i = hole)) as [->|Hi2].
      + rewrite Hm'2 in Hx. injection Hx as <-. destruct (decide (j = c)) as [->|Hjc].
        * rewrite Hm'1 in Hy. injection Hy as <-. by apply swo_asym.
        * rewrite Hm'3 in Hy by (unfold child in *; lia). eapply Hbest; eauto.
      + rewrite Hm'3 in Hx by done. destruct (decide (j = hole)) as [->|Hjh].
        * rewrite Hm'2 in Hy. injection Hy as <-. eapply (HG i c); eauto.
        * assert (j <> c) by (unfold child in *; lia). rewrite Hm'3 in Hy by done. eapply (HB i j); eauto.
    - intros i j x y Hic Hcj Hi Hj Hx Hy.
      assert (i = hole) as -> by (unfold child in *; lia). rewrite Hm'2 in Hx. injection Hx as <-.
      rewrite Hm'3 in Hy by (unfold child in *; lia). apply (HB c j v y); [done|lia|lia|done|done|done].
  Qed.

  Lemma percolate_down_ok f n lo : forall fuel m hole, f + n <= length m -> hole < n -> lo <= hole -> n - hole < fuel ->
    heap_but m f n lo hole -> gp m f n lo hole ->
    exists m', percolate_down comp fuel m f n hole = Ok m' /\ permutes m m' f (f + n) /\ heap_in m' f n lo.
  Proof.
    induction fuel as [|fuel IH]; intros m hole HL Hn Hlo Hf HB HG; [lia|].
    cbn [percolate_down]. set (left := get_left hole). set (right := get_right hole).
    assert (left = 2 * hole + 1) as Hleft by (unfold left, get_left; lia).
    assert (right = 2 * hole + 2) as Hright by (unfold right, get_right; lia).
    clearbody left right.
    destruct (rd_lt m (f + hole)) as [h [Hh Hrh]]; [lia|]. rewrite Hrh. cbn [rbind].
    assert (Hgo : forall c v, child hole c -> c < n -> m !! (f + c) = Some v -> comp h v = true ->
      (forall j y, child hole j -> j < n -> m !! (f + j) = Some y -> comp v y = false) ->
      exists m', (if negb (c =? hole) then do m' <- swp m (f + hole) (f + c); percolate_down comp fuel m' f n c else Ok m) = Ok m'
        /\ permutes m m' f (f + n) /\ heap_in m' f n lo).
    { intros c v Hc Hcn Hv Hcomp Hbest.
      assert (hole < c) as Hlt by (unfold child in Hc; lia).
      replace (c =? hole) with false by (symmetry; apply Nat.eqb_neq; lia). cbn [negb].
      destruct (permutes_swp m f (f + n) (f + hole) (f + c)) as [m1 [x [y [-> [Hx [Hy [Hm1 HP]]]]]]];
        [split; lia|lia|lia|]. replace x with h in * by congruence. replace y with v in * by congruence.
      destruct (sift_swap m f n lo hole c h v HB HG Hlo Hc Hcn Hh Hv Hcomp Hbest) as [HB' HG'].
      rewrite <- Hm1 in HB', HG'. cbn [rbind].
      destruct (IH m1 c) as [m2 [HE [HP2 HH]]]; [by rewrite (proj1 HP)|lia|lia|lia|done|done|].
      exists m2. split; [done|]. split; [|done]. by eapply permutes_trans. }
    assert (Hstop : (forall j y, child hole j -> j < n -> m !! (f + j) = Some y -> comp h y = false) ->
      exists m', (if negb (hole =? hole) then do m' <- swp m (f + hole) (f + hole); percolate_down comp fuel m' f n hole else Ok m) = Ok m'
        /\ permutes m m' f (f + n) /\ heap_in m' f n lo).
    { intros HS. rewrite Nat.eqb_refl. cbn [negb]. exists m. split; [done|]. split; [apply permutes_refl|].
      eapply sift_stop; eauto. intros j x y Hc Hj Hx. rewrite Hh in Hx. injection Hx as <-. eauto. }
    destruct (left <? n) eqn:E1.
    - destruct (rd_lt m (f + left)) as [a [Ha Hra]]; [lia|]. rewrite Hra. cbn [rbind].
      destruct (right <? n) eqn:E2.
      + destruct (rd_lt m (f + right)) as [b [Hb Hrb]]; [lia|]. rewrite Hrb.
        assert (Hch : forall (P : A -> Prop), P a -> P b -> forall j y, child hole j -> j < n -> m !! (f + j) = Some y -> P y).
        { intros P Pa Pb j y [Hj|Hj] _ Hy; [replace j with left in Hy by lia|replace j with right in Hy by lia]; congruence. }
        destruct (comp h a) eqn:C1.
        * rewrite Hra. cbn [rbind]. destruct (comp a b) eqn:C2.
          -- apply (Hgo right b); [unfold child; lia|lia|done|by eapply swo_trans; eauto|].
             apply Hch; [by apply swo_asym|apply (swo_irrefl _ HW)].
          -- apply (Hgo left a); [unfold child; lia|lia|done|done|].
             apply Hch; [apply (swo_irrefl _ HW)|done].
        * rewrite Hrh. cbn [rbind]. destruct (comp h b) eqn:C2.
          -- apply (Hgo right b); [unfold child; lia|lia|done|done|].
             apply Hch; [|apply (swo_irrefl _ HW)]. apply swo_asym; [done|]. eapply swo_le_lt_trans; eauto.
          -- apply Hstop. by apply Hch.
      + cbn [rbind].
        assert (Hch : forall (P : A -> Prop), P a -> forall j y, child hole j -> j < n -> m !! (f + j) = Some y -> P y).
        { intros P Pa j y [Hj|Hj] Hjn Hy; [replace j with left in Hy by lia; congruence|lia]. }
        destruct (comp h a) eqn:C1.
        * apply (Hgo left a); [unfold child; lia|lia|done|done|]. apply Hch. apply (swo_irrefl _ HW).
        * apply Hstop. by apply Hch.
    - cbn [rbind]. replace (right <? n) with false by (symmetry; apply Nat.ltb_ge; lia). cbn [rbind].
      apply Hstop. intros j y [Hj|Hj] Hjn Hy; lia.
  Qed.

  Lemma heapify_loop_ok f n : forall k m, f + n <= length m -> k <= n -> heap_in m f n k ->
    exists m', heapify_loop comp m f n k = Ok m' /\ permutes m m' f (f + n) /\ heap_in m' f n 0.
  Proof.
    induction k as [|k IH]; intros m HL Hk HH; cbn [heapify_loop].
    - exists m. split; [done|]. split; [apply permutes_refl|done].
    - destruct (percolate_down_ok f n k (S (length m)) m k) as [m1 [-> [HP HH1]]]; [done|lia|lia|lia| | |].
      + intros i j x y Hc Hlo Hne. apply HH; [done|lia].
      + intros i j x y Hc Hc2 Hlo. unfold child in Hc. lia.
      + cbn [rbind]. destruct (IH m1) as [m2 [-> [HP2 HH2]]]; [by rewrite (proj1 HP)|lia|done|].
        exists m2. split; [done|]. split; [by eapply permutes_trans|done].
  Qed.

  Lemma make_heap_ok m f l : range m f l ->
    exists m', algo_make_heap_by comp m f l = Ok m' /\ permutes m m' f l /\ max_heap comp (slice m' f l).
  Proof.
    intros [H1 H2]. unfold algo_make_heap_by. destruct (l - f <? 2) eqn:E.
    - exists m. split; [done|]. split; [apply permutes_refl|].
      apply heap_in_max_heap; [split; lia|]. intros i j x y Hc _ Hj. unfold child in Hc. lia.
    - unfold heapify, get_parent.
      pose proof (Nat.div_lt (l - f - 1 - 1 + 1) 2) as Hd0.
      assert (Hd : 2 * ((l - f - 1 - 1) / 2) <= l - f - 1 - 1 < 2 * ((l - f - 1 - 1) / 2) + 2).
      { pose proof (Nat.div_mod (l - f - 1 - 1) 2). pose proof (Nat.mod_upper_bound (l - f - 1 - 1) 2). lia. }
      destruct (heapify_loop_ok f (l - f) (S ((l - f - 1 - 1) / 2)) m) as [m' [-> [HP HH]]]; [lia|lia| |].
      + intros i j x y Hc Hlo Hj. unfold child in Hc. lia.
      + exists m'. split; [done|]. replace (f + (l - f)) with l in HP by lia. split; [done|].
        apply heap_in_max_heap; [split; rewrite ?(proj1 HP); lia|done].
  Qed.

  (** ** is_heap(_until) *)
  Lemma is_heap_until_loop_ok m f n : f + n <= length m -> forall fuel p, n - p < fuel ->
    (forall i j x y, child i j -> i < p -> j < n -> m !! (f + i) = Some x -> m !! (f + j) = Some y -> comp x y = false) ->
    exists r, is_heap_until_loop comp fuel m f n p = Ok r /\
      match r with
      | None => heap_in m f n 0
      | Some q => p <= q /\ q < n /\
        (forall i j x y, child i j -> i < q -> j < n -> m !! (f + i) = Some x -> m !! (f + j) = Some y -> comp x y = false) /\
        exists j x y, child q j /\ j < n /\ m !! (f + q) = Some x /\ m !! (f + j) = Some y /\ comp x y = true
      end.
  Proof.
    intros HL fuel. induction fuel as [|fuel IH]; intros p Hf Hall; [lia|]. cbn [is_heap_until_loop].
    set (left := get_left p). set (right := get_right p).
    assert (left = 2 * p + 1) as Hleft by (unfold left, get_left; lia).
    assert (right = 2 * p + 2) as Hright by (unfold right, get_right; lia).
    clearbody left right.
    destruct (left <? n) eqn:E1.
    - destruct (rd_lt m (f + p)) as [h [Hh ->]]; [lia|]. destruct (rd_lt m (f + left)) as [a [Ha ->]]; [lia|].
      cbn [rbind]. destruct (comp h a) eqn:C1.
      { eexists. split; [done|]. split; [lia|]. split; [lia|]. split; [done|]. exists left, h, a. unfold child. split; [lia|]. split; [lia|]. done. }
      assert (Hnext : (forall b, right < n -> m !! (f + right) = Some b -> comp h b = false) ->
        exists r, is_heap_until_loop comp fuel m f n (S p) = Ok r /\
        match r with
        | None => heap_in m f n 0
        | Some q => p <= q /\ q < n /\
          (forall i j x y, child i j -> i < q -> j < n -> m !! (f + i) = Some x -> m !! (f + j) = Some y -> comp x y = false) /\
          exists j x y, child q j /\ j < n /\ m !! (f + q) = Some x /\ m !! (f + j) = Some y /\ comp x y = true
        end).
      { intros Hb. destruct (IH (S p)) as [r [-> HI]]; [lia| |].
        - intros i j x y Hc Hi Hj Hx Hy. destruct (decide (i = p)) as [->|Hne].
          + destruct Hc as [Hc|Hc]; [replace j with left in Hy by lia|replace j with right in * by lia].
            * replace x with h by congruence. replace y with a by congruence. done.
            * replace x with h by congruence. by apply Hb.
          + apply (Hall i j); [done|lia|done|done|done].
        - exists r. split; [done|]. destruct r as [q|]; [|done]. split; [lia|]. apply HI. }
      destruct (right <? n) eqn:E2.
      + destruct (rd_lt m (f + right)) as [b [Hb ->]]; [lia|]. cbn [rbind]. destruct (comp h b) eqn:C2.
        { eexists. split; [done|]. split; [lia|]. split; [lia|]. split; [done|]. exists right, h, b. unfold child. split; [lia|]. split; [lia|]. done. }
        apply Hnext. intros b' _ Hb'. congruence.
      + apply Hnext. lia.
    - eexists. split; [done|]. intros i j x y Hc _ Hj. apply Hall; [done|unfold child in Hc; lia|done].
  Qed.
  (** until: [last] when the range is a heap, otherwise the position of the first *parent* that is
      less than one of its children *)
  Lemma is_heap_until_ok m f l : range m f l ->
    exists u, algo_is_heap_until_by comp m f l = Ok u /\ f <= u <= l /\ max_heap comp (slice m f u) /\
      (u = l <-> max_heap comp (slice m f l)) /\
      (u < l -> exists j x y, child (u - f) j /\ j < l - f /\ m !! u = Some x /\ m !! (f + j) = Some y /\ comp x y = true).
  Proof.
    intros [H1 H2]. unfold algo_is_heap_until_by.
    destruct (is_heap_until_loop_ok m f (l - f) ltac:(lia) (S (length m)) 0) as [r [-> HI]]; [lia|lia|].
    cbn [rbind]. eexists. split; [done|]. destruct r as [q|].
    - destruct HI as [_ [Hq [Hall [j [x [y [Hc [Hj [Hx [Hy Hxy]]]]]]]]]]. split; [lia|]. split; [|split].
      + apply heap_in_max_heap; [split; lia|]. intros i k a b Hik _ Hk. apply Hall; [done|unfold child in Hik; lia|lia].
      + split; [lia|]. intros HH. apply heap_in_max_heap in HH; [|split; lia].
        rewrite (HH q j x y) in Hxy; [done|done|lia|done|done|done].
      + intros _. exists j, x, y. replace (f + q - f) with q by lia. done.
    - split; [lia|]. split; [by apply heap_in_max_heap|]. split; [|lia].
      split; [|done]. intros _. by apply heap_in_max_heap.
  Qed.
  Lemma is_heap_ok m f l : range m f l ->
    exists b, algo_is_heap_by comp m f l = Ok b /\ (b = true <-> max_heap comp (slice m f l)).
  Proof.
    intros H. unfold algo_is_heap_by. destruct (is_heap_until_ok m f l H) as [u [-> [Hu [_ [Hiff _]]]]]. cbn [rbind].
    exists (u =? l). split; [done|]. rewrite <- Hiff. apply Nat.eqb_eq.
  Qed.

  (** ** push_heap *)
  Definition up_inv m f n hole : Prop :=
    (forall i j x y, child i j -> j <> hole -> j < n -> m !! (f + i) = Some x -> m !! (f + j) = Some y -> comp x y = false) /\
    gp m f n 0 hole.
  Lemma push_heap_loop_ok f n v : forall fuel m hole, f + n <= length m -> hole < n -> hole < fuel ->
    up_inv (<[f + hole := v]> m) f n hole ->
    exists m' h', push_heap_loop comp fuel m f hole v = Ok (m', h') /\ h' < n /\ length m' = length m /\
      permutes (<[f + hole := v]> m) (<[f + h' := v]> m') f (f + n) /\
      heap_in (<[f + h' := v]> m') f n 0.
  Proof.
    induction fuel as [|fuel IH]; intros m hole HL Hn Hf HU; [lia|]. cbn [push_heap_loop].
    assert (Hdone : (forall i x, child i hole -> m !! (f + i) = Some x -> comp x v = false) ->
      heap_in (<[f + hole:=v]> m) f n 0).
    { intros HS i j x y Hc _ Hj Hx Hy. destruct HU as [HB HG]. destruct (decide (j = hole)) as [->|Hne].
      - rewrite list_lookup_insert in Hy by lia. injection Hy as <-.
        rewrite list_lookup_insert_ne in Hx by (unfold child in Hc; lia). eauto.
      - eapply (HB i j); eauto. }
    destruct (0 <? hole) eqn:E.
    - set (parent := get_parent hole).
      assert (Hp : child parent hole).
      { unfold parent, get_parent, child. pose proof (Nat.div_mod (hole - 1) 2). pose proof (Nat.mod_upper_bound (hole - 1) 2). lia. }
      clearbody parent. assert (parent < hole) as Hph by (unfold child in Hp; lia).
      destruct (rd_lt m (f + parent)) as [p [Hpv ->]]; [lia|]. cbn [rbind].
      destruct (comp p v) eqn:C.
      + rewrite wr_Ok by lia. cbn [rbind].
        set (M := <[f + hole:=v]> m) in *. set (M' := <[f + parent:=v]> (<[f + hole:=p]> m)).
        assert (HMp : M !! (f + parent) = Some p) by (unfold M; rewrite list_lookup_insert_ne by lia; done).
        assert (HMh : M !! (f + hole) = Some v) by (unfold M; apply list_lookup_insert; lia).
        assert (HMM : M' = <[f + parent := v]> (<[f + hole := p]> M)).
        { unfold M', M. by rewrite list_insert_insert. }
        assert (Hm'1 : M' !! (f + parent) = Some v) by (unfold M'; apply list_lookup_insert; rewrite insert_length; lia).
        assert (Hm'2 : M' !! (f + hole) = Some p).
        { unfold M'. rewrite list_lookup_insert_ne by lia. apply list_lookup_insert. lia. }
        assert (Hm'3 : forall k, k <> parent -> k <> hole -> M' !! (f + k) = M !! (f + k)).
        { intros k K1 K2. unfold M', M. rewrite !list_lookup_insert_ne by lia. done. }
        destruct HU as [HB HG].
        assert (HP : permutes M M' f (f + n)).
        { destruct (permutes_swp M f (f + n) (f + hole) (f + parent)) as [m2 [x [y [_ [Hx [Hy [Hm2 HP]]]]]]];
            [unfold M; split; rewrite ?insert_length; lia|lia|lia|].
          rewrite HMh in Hx. rewrite HMp in Hy. injection Hx as <-. injection Hy as <-. rewrite HMM, <- Hm2. done. }
        destruct (IH (<[f + hole:=p]> m) parent) as [m2 [h2 [HE [Hh2 [HL2 [HP2 HH2]]]]]].
        * rewrite insert_length. lia.
        * lia.
        * lia.
        * fold M'. split.
          -- intros i j x y Hc Hj Hjn Hx Hy. destruct (decide (i = parent)) as [->|Hip].
             ++ rewrite Hm'1 in Hx. injection Hx as <-. destruct (decide (j = hole)) as [->|Hjh].
                ** rewrite Hm'2 in Hy. injection Hy as <-. by apply swo_asym.
                ** rewrite Hm'3 in Hy by done. assert (comp p y = false) as Hpy by (eapply (HB parent j); eauto).
                   apply swo_asym; [done|]. eapply swo_le_lt_trans; eauto.
             ++ destruct (decide (i = hole)) as [->|Hih].
                ** rewrite Hm'2 in Hx. injection Hx as <-. rewrite Hm'3 in Hy by (unfold child in *; lia).
                   apply (HG parent j); [done|done|lia|done|done|done].
                ** rewrite Hm'3 in Hx by done.
                   assert (j <> hole) by (unfold child in *; lia). rewrite Hm'3 in Hy by done.
                   eapply (HB i j); eauto.
          -- intros i j x y Hip Hpj _ Hjn Hx Hy.
             rewrite Hm'3 in Hx by (unfold child in *; lia).
             assert (comp x p = false) as Hxp by (apply (HB i parent x p); [done|lia|lia|done|done]).
             destruct (decide (j = hole)) as [->|Hjh].
             ++ rewrite Hm'2 in Hy. injection Hy as <-. done.
             ++ rewrite Hm'3 in Hy by (unfold child in *; lia).
                apply (swo_le_trans _ HW) with p; [|done]. eapply (HB parent j); eauto.
        * exists m2, h2. split; [done|]. split; [done|]. split; [by rewrite HL2, insert_length|].
          split; [|done]. eapply permutes_trans; [exact HP|exact HP2].
      + exists m, hole. split; [done|]. split; [done|]. split; [done|]. split; [apply permutes_refl|].
        apply Hdone. intros i x Hi Hx. assert (i = parent) as -> by (unfold child in *; lia). congruence.
    - exists m, hole. split; [done|]. split; [done|]. split; [done|]. split; [apply permutes_refl|].
      apply Hdone. intros i x Hi Hx. unfold child in Hi. lia.
  Qed.
  Lemma push_heap_ok m f l : range m f l -> max_heap comp (slice m f (l - 1)) ->
    exists m', algo_push_heap_by comp m f l = Ok m' /\ permutes m m' f l /\ max_heap comp (slice m' f l).
  Proof.
    intros [H1 H2] HH. unfold algo_push_heap_by. destruct (l - f <? 2) eqn:E.
    - exists m. split; [done|]. split; [apply permutes_refl|].
      apply heap_in_max_heap; [split; lia|]. intros i j x y Hc _ Hj. unfold child in Hc. lia.
    - destruct (rd_lt m (l - 1)) as [v [Hv ->]]; [lia|]. cbn [rbind].
      apply heap_in_max_heap in HH; [|split; lia].
      assert (<[f + (l - 1 - f) := v]> m = m) as Hid.
      { apply list_insert_id. by replace (f + (l - 1 - f)) with (l - 1) by lia. }
      destruct (push_heap_loop_ok f (l - f) v (S (length m)) m (l - 1 - f)) as [m1 [h1 [-> [Hh1 [HL1 [HP HH1]]]]]].
      + lia.
      + lia.
      + lia.
      + rewrite Hid. split.
        * intros i j x y Hc Hj Hjn. apply HH; [done|lia|lia].
        * intros i j x y Hc1 Hc2 _ Hj. unfold child in *. lia.
      + cbn [rbind]. rewrite wr_Ok by lia. eexists. split; [done|]. rewrite Hid in HP.
        replace (f + (l - f)) with l in HP by lia. split; [done|].
        apply heap_in_max_heap; [split; rewrite ?insert_length; lia|done].
  Qed.

  (** ** pop_heap *)
  Lemma pop_heap_loop_ok f n : forall fuel m hole, f + n <= length m -> (hole < n \/ hole = 0) -> n - hole < fuel ->
    heap_but m f n 0 hole -> gp m f n 0 hole ->
    exists m', pop_heap_loop comp fuel m f n hole = Ok m' /\ permutes m m' f (f + n) /\ heap_in m' f n 0.
  Proof.
    induction fuel as [|fuel IH]; intros m hole HL Hn Hf HB HG; [lia|].
    cbn [pop_heap_loop]. set (left := get_left hole). set (right := get_right hole).
    assert (left = 2 * hole + 1) as Hleft by (unfold left, get_left; lia).
    assert (right = 2 * hole + 2) as Hright by (unfold right, get_right; lia).
    clearbody left right.
    assert (Hgo : forall c h v, child hole c -> c < n -> m !! (f + hole) = Some h -> m !! (f + c) = Some v -> comp h v = true ->
      (forall j y, child hole j -> j < n -> m !! (f + j) = Some y -> comp v y = false) ->
      exists m', (do m' <- swp m (f + hole) (f + c); pop_heap_loop comp fuel m' f n c) = Ok m'
        /\ permutes m m' f (f + n) /\ heap_in m' f n 0).
    { intros c h v Hc Hcn Hh Hv Hcomp Hbest.
      assert (hole < c) as Hlt by (unfold child in Hc; lia).
      destruct (permutes_swp m f (f + n) (f + hole) (f + c)) as [m1 [x [y [-> [Hx [Hy [Hm1 HP]]]]]]];
        [split; lia|lia|lia|]. replace x with h in * by congruence. replace y with v in * by congruence.
      destruct (sift_swap m f n 0 hole c h v HB HG ltac:(lia) Hc Hcn Hh Hv Hcomp Hbest) as [HB' HG'].
      rewrite <- Hm1 in HB', HG'. cbn [rbind].
      destruct (IH m1 c) as [m2 [HE [HP2 HH]]]; [by rewrite (proj1 HP)|lia|lia|done|done|].
      exists m2. split; [done|]. split; [|done]. by eapply permutes_trans. }
    assert (Hstop : (forall j x y, child hole j -> j < n -> m !! (f + hole) = Some x -> m !! (f + j) = Some y -> comp x y = false) ->
      exists m', Ok m = Ok m' /\ permutes m m' f (f + n) /\ heap_in m' f n 0).
    { intros HS. exists m. split; [done|]. split; [apply permutes_refl|]. eapply sift_stop; eauto. }
    destruct (left <? n) eqn:E1.
    - destruct (rd_lt m (f + hole)) as [h [Hh ->]]; [lia|]. destruct (rd_lt m (f + left)) as [a [Ha ->]]; [lia|].
      cbn [rbind]. destruct (right <? n) eqn:E2.
      + destruct (rd_lt m (f + right)) as [b [Hb ->]]; [lia|]. cbn [rbind].
        assert (Hch : forall (P : A -> Prop), P a -> P b -> forall j y, child hole j -> j < n -> m !! (f + j) = Some y -> P y).
        { intros P Pa Pb j y [Hj|Hj] _ Hy; [replace j with left in Hy by lia|replace j with right in Hy by lia]; congruence. }
        destruct (comp a b) eqn:C1; [destruct (comp h b) eqn:C2|destruct (comp h a) eqn:C2].
        * apply (Hgo right h b); [unfold child; lia|lia|done|done|done|].
          apply Hch; [by apply swo_asym|apply (swo_irrefl _ HW)].
        * apply Hstop. intros j x y Hc Hj Hx. replace x with h by congruence. revert j y Hc Hj Hx.
          intros j y Hc Hj _. revert j y Hc Hj. apply Hch; [|done].
          apply (swo_le_trans _ HW) with b; [|done]. by apply swo_asym.
        * apply (Hgo left h a); [unfold child; lia|lia|done|done|done|].
          apply Hch; [apply (swo_irrefl _ HW)|done].
        * apply Hstop. intros j x y Hc Hj Hx. replace x with h by congruence.
          clear Hx. revert j y Hc Hj. apply Hch; [done|].
          apply (swo_le_trans _ HW) with a; done.
      + assert (Hch : forall (P : A -> Prop), P a -> forall j y, child hole j -> j < n -> m !! (f + j) = Some y -> P y).
        { intros P Pa j y [Hj|Hj] Hjn Hy; [replace j with left in Hy by lia; congruence|lia]. }
        destruct (comp h a) eqn:C1.
        * apply (Hgo left h a); [unfold child; lia|lia|done|done|done|]. apply Hch. apply (swo_irrefl _ HW).
        * apply Hstop. intros j x y Hc Hj Hx. replace x with h by congruence.
          clear Hx. revert j y Hc Hj. by apply Hch.
    - apply Hstop. intros j x y [Hj|Hj] Hjn Hx Hy; lia.
  Qed.

  Lemma heap_root_greatest m f n : f + n <= length m -> heap_in m f n 0 -> forall k x y, k < n ->
    m !! f = Some x -> m !! (f + k) = Some y -> comp x y = false.
  Proof.
    intros HL HH k. induction k as [k IH] using lt_wf_ind. intros x y Hk Hx Hy.
    destruct (decide (k = 0)) as [->|Hne].
    - rewrite Nat.add_0_r in Hy. replace y with x by congruence. apply (swo_irrefl _ HW).
    - set (p := (k - 1) / 2). assert (Hp : child p k).
      { unfold p, child. pose proof (Nat.div_mod (k - 1) 2). pose proof (Nat.mod_upper_bound (k - 1) 2). lia. }
      clearbody p. assert (p < k) by (unfold child in Hp; lia).
      destruct (lookup_lt_is_Some_2 m (f + p)) as [z Hz]; [lia|].
      apply (swo_le_trans _ HW) with z.
      + eapply (HH p k); eauto; lia.
      + eapply (IH p); eauto; lia.
  Qed.

  Lemma pop_heap_ok m f l : range m f l -> f < l -> max_heap comp (slice m f l) ->
    exists m' x, algo_pop_heap_by comp m f l = Ok m' /\ permutes m m' f l /\
      max_heap comp (slice m' f (l - 1)) /\ m !! f = Some x /\ m' !! (l - 1) = Some x /\
      forall y, y ∈ slice m f l -> comp x y = false.
  Proof.
    intros [H1 H2] Hlt HH. apply heap_in_max_heap in HH; [|split; lia].
    destruct (lookup_lt_is_Some_2 m f) as [x Hx]; [lia|].
    assert (Hgr : forall y, y ∈ slice m f l -> comp x y = false).
    { intros y Hy. apply elem_of_slice in Hy as [k [Hk Hy]].
      apply (heap_root_greatest m f (l - f) ltac:(lia) HH (k - f)); [lia|done|].
      by replace (f + (k - f)) with k by lia. }
    unfold algo_pop_heap_by. destruct (l - f <? 2) eqn:E.
    - exists m, x. split; [done|]. split; [apply permutes_refl|].
      split; [|split; [done|split; [by replace (l - 1) with f by lia|done]]].
      apply heap_in_max_heap; [split; lia|]. intros i j a b Hc _ Hj. unfold child in Hc. lia.
    - destruct (permutes_swp m f l f (l - 1)) as [m1 [x' [y [-> [Hx' [Hy [Hm1 HP]]]]]]]; [split; lia|lia|lia|].
      replace x' with x in * by congruence. clear x' Hx'. cbn [rbind].
      destruct (pop_heap_loop_ok f (l - 1 - f) (S (length m)) m1 0) as [m2 [-> [HP2 HH2]]].
      + rewrite (proj1 HP). lia.
      + by right.
      + lia.
      + intros i j a b Hc _ Hi Hj. subst m1. unfold child in Hc.
        rewrite !list_lookup_insert_ne by lia. apply HH; [done|lia|lia].
      + intros i j a b Hc. unfold child in Hc. lia.
      + replace (f + (l - 1 - f)) with (l - 1) in HP2 by lia.
        exists m2, x. split; [done|]. split; [|split; [|split; [done|split; [|done]]]].
        * eapply permutes_trans; [exact HP|]. eapply permutes_mono; [| | | |exact HP2].
          -- split; rewrite ?(proj1 HP); lia.
          -- lia.
          -- lia.
          -- lia.
        * apply heap_in_max_heap; [split; rewrite ?(proj1 HP2), ?(proj1 HP); lia|done].
        * destruct HP2 as [_ [HF _]]. rewrite HF by lia. subst m1. apply list_lookup_insert.
          rewrite insert_length. lia.
  Qed.

  Lemma sort_heap_loop_ok f l : forall fuel m e, range m f l -> f <= e <= l -> e - f < fuel ->
    max_heap comp (slice m f e) -> sorted comp (slice m e l) ->
    (forall x y, x ∈ slice m f e -> y ∈ slice m e l -> comp y x = false) ->
    exists m', sort_heap_loop comp fuel m f e = Ok m' /\ permutes m m' f l /\ sorted comp (slice m' f l).
  Proof.
    induction fuel as [|fuel IH]; intros m e [R1 R2] He Hf HH HS HC; [lia|]. cbn [sort_heap_loop].
    destruct (f =? e) eqn:E.
    - assert (f = e) as -> by lia. exists m. split; [done|]. split; [apply permutes_refl|done].
    - destruct (pop_heap_ok m f e) as [m1 [x [-> [HP [HH1 [Hx [Hx1 Hgr]]]]]]]; [split; lia|lia|done|]. cbn [rbind].
      assert (HPl : permutes m m1 f l) by (eapply permutes_mono; [..|exact HP]; [split; lia|lia|lia|lia]).
      assert (Hsl : slice m1 e l = slice m e l).
      { apply list_eq. intros i. destruct (decide (i < l - e)).
        - rewrite !slice_lookup by done. apply (proj1 (proj2 HP)). lia.
        - rewrite !(proj2 (lookup_ge_None _ _)); [done| |]; rewrite slice_length; try lia; split; rewrite ?(proj1 HP); lia. }
      assert (HP' : Permutation (slice m f e) (slice m1 f (e - 1) ++ [x])).
      { rewrite (proj2 (proj2 HP)). rewrite (slice_app_slice m1 f (e - 1) e) by lia.
        rewrite (slice_cons m1 (e - 1) e x) by (done || lia). replace (S (e - 1)) with e by lia. by rewrite slice_nil. }
      assert (Hs2 : slice m1 (e - 1) l = x :: slice m e l).
      { rewrite (slice_cons m1 (e - 1) l x) by (done || lia). replace (S (e - 1)) with e by lia. by rewrite Hsl. }
      assert (Hxin : x ∈ slice m f e) by (apply elem_of_slice; exists f; split; [lia|done]).
      destruct (IH m1 (e - 1)) as [m2 [-> [HP2 HS2]]].
      + split; rewrite ?(proj1 HP); lia.
      + lia.
      + lia.
      + done.
      + rewrite Hs2. apply sorted_cons. split; [|done]. apply Forall_forall. intros y Hy. by apply HC.
      + intros a b Ha Hb.
        assert (a ∈ slice m f e) as Ha' by (rewrite HP'; set_solver).
        rewrite Hs2 in Hb. apply elem_of_cons in Hb as [->|Hb]; [by apply Hgr|by apply HC].
      + exists m2. split; [done|]. split; [by eapply permutes_trans|done].
  Qed.
  Lemma sort_heap_ok m f l : range m f l -> max_heap comp (slice m f l) ->
    exists m', algo_sort_heap_by comp m f l = Ok m' /\ permutes m m' f l /\ sorted comp (slice m' f l).
  Proof.
    intros [R1 R2] HH. unfold algo_sort_heap_by. destruct (l - f <? 2) eqn:E.
    - exists m. split; [done|]. split; [apply permutes_refl|]. intros i j x y Hij Hx Hy.
      apply lookup_lt_Some in Hx, Hy. rewrite slice_length in Hx, Hy by (split; lia). lia.
    - apply sort_heap_loop_ok; [split; lia|lia|lia|done| |].
      + rewrite slice_nil. apply sorted_nil.
      + intros x y _ Hy. rewrite slice_nil in Hy. by apply elem_of_nil in Hy.
  Qed.
End heap.
