(** IterSortLift.v — the programs of IterSort.v on vectors and deques. *)
From stdpp Require Import list gmap.
From Verif Require Import Base Spec Iter IterFlat IterWp IterWorld SpecIter SpecIterOrd IterWorldProofs IterLift Facts AlgoNonMod AlgoNonModProofs
  AlgoMod AlgoModProofs AlgoHeap AlgoHeapProofs AlgoSort AlgoSortProofs IterNonMod IterNonModProofs IterMod IterModProofs IterModProofs2 IterModProofs3 IterNonModLift IterModLift
  IterOrdProofs IterOrdLift IterLocals IterHeap IterHeapProofs IterHeapLift IterSort IterSortProofs IterPscProofs.
From stdpp Require Import list.

Section lifted.
  Context {A : Type} {CK : Checked} `{Inhabited A}.
  Implicit Types (M : cmem A) (S : gmap iid cpos) (q : cont * list cpos * list A) (comp : A -> A -> bool).

  Lemma site_sort q L m s comp i j vs' first last : site q L m s -> StrictWeakOrder comp -> j - i <= 512 \/ checked = false -> i <= j -> j <= length q.2 ->
    algo_sort_by comp q.2 i j = Ok vs' -> s !! first = Some i -> s !! last = Some j ->
    fwp L (sort_by_p comp first last) (patch m 0 q.2) s (makes s tt (patch m 0 vs')).
  Proof.
    intros HL HW HC Hij Hj Hs Hf Hl. destruct HC as [HC|HC].
    - eapply (sort_wp L comp m (length q.2) (si_len _ _ _ _ HL) (si_rng _ _ _ _ HL 0 (length q.2) ltac:(lia) ltac:(lia)) (si_wr _ _ _ _ HL 0 ltac:(lia)) (si_cat _ _ _ _ HL 0 ltac:(lia)) HW 512);
        [lia|exact Hs|done|lia|lia|done..].
    - eapply (sort_wp L comp m (length q.2) (si_len _ _ _ _ HL) (si_rng _ _ _ _ HL 0 (length q.2) ltac:(lia) ltac:(lia)) (si_wr _ _ _ _ HL 0 ltac:(lia)) (si_cat _ _ _ _ HL 0 ltac:(lia)) HW (j - i));
        [intros _; apply (si_over _ _ _ _ HL HC); lia|exact Hs|done|lia|lia|done..].
  Qed.
  Lemma sort_small_run M S q comp first last i j : StrictWeakOrder comp -> own_range M S q first last i j -> cat_of q.1.1 = RANDOM -> j - i <= 512 ->
    exists l, stable_rearrangement comp (slice q.2 i j) l /\ sorted comp l /\ changes M S q i l (sort_by_p comp first last) tt.
  Proof.
    intros HW HS Hcat Hn. destruct (own_bounds _ _ _ _ _ _ _ HS) as (Hrange&Hij&Hj).
    destruct (sort_small_ok comp HW q.2 i j Hrange Hn) as (vs'&Hv&Hp&Hso&Hst). exists (slice vs' i j). split; [done|]. split; [done|].
    eapply (own_permutes M S q first last i j (sort_by_p comp first last) tt vs' HS Hcat Hp).
    intros L m s HL Hf Hl. apply (site_sort q L m s comp i j vs'); [done|done|by left|done..].
  Qed.
  Lemma becomes_slice M M' q vs' i j : length vs' = length q.2 -> i <= j -> j <= length q.2 -> (forall k, k < i \/ j <= k -> vs' !! k = q.2 !! k) ->
    vs' = patch q.2 i (slice vs' i j).
  Proof.
    intros Hlen Hij Hj Hout. apply list_eq. intros k. unfold patch, slice. destruct (decide (k < i)) as [Hk|Hk].
    { rewrite lookup_app_l by (rewrite take_length; lia). rewrite lookup_take by lia. apply Hout. by left. }
    rewrite lookup_app_r by (rewrite take_length; lia). rewrite take_length, Nat.min_l by lia.
    assert (length (take (j - i) (drop i vs')) = j - i) as Hl by (rewrite take_length, drop_length; lia).
    destruct (decide (k < j)) as [Hk2|Hk2].
    - rewrite lookup_app_l by lia. rewrite lookup_take, lookup_drop by lia. f_equal. lia.
    - rewrite lookup_app_r by lia. rewrite Hl, lookup_drop, Hout by lia. f_equal. lia.
  Qed.
  Lemma sort_any_run M S q comp first last i j : checked = false -> StrictWeakOrder comp -> own_range M S q first last i j -> cat_of q.1.1 = RANDOM ->
    exists l, length l = j - i /\ sorted comp l /\ (forall x, x ∈ l -> x ∈ slice q.2 i j) /\ changes M S q i l (sort_by_p comp first last) tt.
  Proof.
    intros HC HW HS Hcat. destruct (own_bounds _ _ _ _ _ _ _ HS) as (Hrange&Hij&Hj).
    destruct (sort_any_ok comp HW q.2 i j Hrange) as (vs'&Hv&Hlen&Hout&Hso&Hel). exists (slice vs' i j).
    split; [rewrite slice_len' by lia; lia|]. split; [done|]. split; [done|].
    destruct (own_run M S q first last i j [] (sort_by_p comp first last) tt vs' HS Hcat ltac:(constructor) Hlen) as (M'&He&Hb).
    { intros L m s HL Hf Hl _. apply (site_sort q L m s comp i j vs'); [done|done|by right|done..]. }
    exists M'. split; [done|]. by rewrite <- (becomes_slice M M' q vs' i j Hlen Hij Hj Hout).
  Qed.
  (** whatever the list function computes is what the vector holds afterwards *)
  Lemma sort_exact_run M S q comp first last i j vs' : checked = false -> StrictWeakOrder comp -> own_range M S q first last i j -> cat_of q.1.1 = RANDOM ->
    algo_sort_by comp q.2 i j = Ok vs' -> exists M', exec (cworld A) (sort_by_p comp first last) (M, S) tt (M', S) /\ becomes M [(q, vs')] M'.
  Proof.
    intros HC HW HS Hcat Hv. destruct (own_bounds _ _ _ _ _ _ _ HS) as (Hrange&Hij&Hj).
    destruct (sort_any_ok comp HW q.2 i j Hrange) as (vs2&Hv2&Hlen&_). rewrite Hv in Hv2. injection Hv2 as <-.
    apply (own_run M S q first last i j [] (sort_by_p comp first last) tt vs' HS Hcat ltac:(constructor) Hlen).
    intros L m s HL Hf Hl _. apply (site_sort q L m s comp i j vs'); [done|done|by right|done..].
  Qed.
  Lemma partial_sort_run M S q comp first middle last i k j : checked = false -> StrictWeakOrder comp -> own_range M S q first last i j -> at_pos S q middle k -> i <= k <= j ->
    cat_of q.1.1 = RANDOM ->
    exists l1 l2, length l1 = k - i /\ Permutation (slice q.2 i j) (l1 ++ l2) /\ sorted comp l1 /\ (forall x y, x ∈ l1 -> y ∈ l2 -> comp y x = false) /\
      changes M S q i (l1 ++ l2) (partial_sort_by_p comp first middle last) tt.
  Proof.
    intros HC HW HS Hmid Hk Hcat. destruct (own_bounds _ _ _ _ _ _ _ HS) as (Hrange&Hij&Hj).
    destruct (partial_sort_ok comp HW q.2 i k j Hrange Hk) as (vs'&Hv&Hp&Hso&Hle). pose proof Hp as (Hlen&_&HP).
    assert (slice vs' i j = slice vs' i k ++ slice vs' k j) as Es.
    { unfold slice. rewrite <- (take_drop (k - i) (take (j - i) (drop i vs'))). rewrite take_take, skipn_firstn_comm, drop_drop.
      f_equal; [f_equal; lia|]. f_equal; [lia|f_equal; lia]. }
    exists (slice vs' i k), (slice vs' k j). split; [rewrite slice_len' by lia; lia|]. rewrite <- Es. split; [done|]. split; [done|]. split; [done|].
    destruct (own_run M S q first last i j [(middle, k)] (partial_sort_by_p comp first middle last) tt vs' HS Hcat ltac:(by repeat constructor) Hlen) as (M'&He&Hb).
    { intros L m s HL Hf Hl Hx. pose proof (Hx middle k ltac:(apply elem_of_list_here)) as Hm.
      eapply (partial_sort_wp L comp m (length q.2) (si_len _ _ _ _ HL) (si_rng _ _ _ _ HL 0 (length q.2) ltac:(lia) ltac:(lia)) (si_wr _ _ _ _ HL 0 ltac:(lia)) (si_cat _ _ _ _ HL 0 ltac:(lia)) i k j);
        [exact Hv|done|lia|lia|apply (si_over _ _ _ _ HL HC); lia|done..]. }
    exists M'. split; [done|]. by rewrite <- (permutes_patch q.2 vs' i j Hrange Hp).
  Qed.
  Lemma partial_sort_copy_run M S q1 q2 comp first last d_first d_last o i j d e : checked = false -> StrictWeakOrder comp ->
    shown M q1 -> shown M q2 -> range_in S q1 first last i j -> range_in S q2 d_first d_last d e -> unmixed q1 [first; last] q2 [d_first; d_last] ->
    mutable q2.1.1 = true -> cat_of q2.1.1 = RANDOM -> same_or_apart q1 q2 -> (q1 = q2 -> apart d e i j) -> out_ok S q2 o ->
    exists l rest, length l = (j - i) `min` (e - d) /\ sorted comp l /\ Permutation (slice q1.2 i j) (l ++ rest) /\
      (forall x y, x ∈ l -> y ∈ rest -> comp y x = false) /\
      changes_out M S q2 o d l (d + length l) (partial_sort_copy_by_p comp first last d_first d_last o) (length l).
  Proof.
    intros HC HW Hq1 Hq2 HR1 HR2 Hu Hmu Hcat Hsa Hap Ho.
    destruct (range_at _ _ _ _ _ _ HR1) as [Hat1 Hij]. destruct (range_at _ _ _ _ _ _ HR2) as [Hat2 Hde].
    pose proof (at_le _ _ _ _ _ Hq1 (proj1 (proj2 HR1))) as Hj. pose proof (at_le _ _ _ _ _ Hq2 (proj1 (proj2 HR2))) as He.
    destruct (run_two M S q1 q2 _ _ false true Hq1 Hq2 Hat1 Hat2 Hu) as (L&m&s&b&JW&J&HRO&Hs1&Hs2); [done|done|done|].
    pose proof (ro_open1 _ _ _ _ _ _ _ _ _ _ _ _ HRO) as HO1. pose proof (ro_open2 _ _ _ _ _ _ _ _ _ _ _ _ HRO) as HO2.
    pose proof (op_len _ _ _ _ _ _ _ HO1) as Hlen1. pose proof (op_len _ _ _ _ _ _ _ HO2) as Hlen2. cbn [plus] in Hlen1.
    assert (apart (b + d) (b + e) i j) as Hap'.
    { destruct (ro_sep _ _ _ _ _ _ _ _ _ _ _ _ HRO) as [[E ->]|Hsep]; [by apply Hap|]. unfold apart. lia. }
    destruct (partial_sort_copy_ok comp HW m i j (b + d) (b + e)) as (l&rest&Hv&Hl&Hso&HP&Hle); [split; lia|split; lia|done|].
    pose proof (op_slice _ _ _ _ _ _ _ HO1 i j Hj) as Esl. cbn [plus] in Esl. rewrite Esl in HP.
    exists l, rest. split; [lia|]. split; [done|]. split; [done|]. split; [done|].
    eapply (two_out_patch M S q1 q2 L m s b JW J _ o (length l) d l (d + length l)); [exact HRO|lia|lia|]. rewrite Nat.add_assoc.
    eapply (partial_sort_copy_wp L comp i j (b + d) (b + e)); [..|exact Hv| | | | | ].
    - by apply (op_rng _ _ _ _ _ _ _ HO1 i j).
    - by apply (op_rng _ _ _ _ _ _ _ HO2 d e).
    - apply (op_mut _ _ _ _ _ _ _ HO2 d); [lia|done].
    - rewrite <- Hcat. apply (op_cateq _ _ _ _ _ _ _ HO2 d). lia.
    - apply (op_cat _ _ _ _ _ _ _ HO1 i); [lia|apply cat_forward].
    - apply (op_over _ _ _ _ _ _ _ HO2 d); [lia|]. unfold strays. by rewrite HC, Hcat.
    - apply Hs1, elem_of_list_here.
    - apply Hs1, elem_of_list_further, elem_of_list_here.
    - apply Hs2, elem_of_list_here.
    - apply Hs2, elem_of_list_further, elem_of_list_here.
    - apply (op_out _ _ _ _ _ _ _ HO2 d); [lia|done].
  Qed.
End lifted.
