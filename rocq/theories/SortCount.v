(** SortCount.v — how many elements algo_partial_sort_by and algo_partial_sort_copy_by push into their heap (used by
    IterTempCount.v). *)
From Verif Require Import Base Spec Facts AlgoNonMod AlgoMod AlgoModProofs AlgoHeap AlgoHeapProofs AlgoSort AlgoSortProofs.
From stdpp Require Import list.

Section spec.
  Context {A : Type} (comp : A -> A -> bool).
  (** element number [k] of [l] is less than all but fewer than [n] of the elements before it *)
  Definition newly_smallest (n : nat) (l : list A) (k : nat) : bool :=
    match l !! k with Some x => length (List.filter (fun y => negb (comp x y)) (take k l)) <? n | None => false end.
  (** how many elements of [l] after the first [n] are, when they are reached from the left, among the [n] smallest *)
  Definition replacements (n : nat) (l : list A) : nat := length (List.filter (newly_smallest n l) (seq n (length l - n))).
End spec.

Section count.
  Context {A : Type} (comp : A -> A -> bool) (HW : StrictWeakOrder comp).
  Implicit Types m : list A.

  (** the loops of AlgoSort.v with a counter *)
  Fixpoint partial_sort_count (w fuel : nat) m (first middle i last : nat) : res (list A * nat) :=
    match fuel with
    | 0 => NoFuel
    | S fuel' =>
      if i =? last then Ok (m, 0)
      else do x <- rd m i; do y <- rd m first;
           if comp x y then
             do m1 <- algo_pop_heap_by comp m first middle;
             do m2 <- swp m1 (middle - 1) i;
             do m3 <- algo_push_heap_by comp m2 first middle;
             do (m', n) <- partial_sort_count w fuel' m3 first middle (S i) last; Ok (m', w + n)
           else partial_sort_count w fuel' m first middle (S i) last
    end.
  Fixpoint psc_count (w fuel : nat) m (d_first d i last : nat) : res (list A * nat) :=
    match fuel with
    | 0 => NoFuel
    | S fuel' =>
      if i =? last then Ok (m, 0)
      else do x <- rd m i; do y <- rd m d_first;
           if comp x y then
             do m1 <- algo_pop_heap_by comp m d_first d;
             do x' <- rd m1 i;
             do m2 <- wr m1 (d - 1) x';
             do m3 <- algo_push_heap_by comp m2 d_first d;
             do (m', n) <- psc_count w fuel' m3 d_first d (S i) last; Ok (m', w + n)
           else psc_count w fuel' m d_first d (S i) last
    end.

  Lemma filter_perm (p : A -> bool) (l l' : list A) : l ≡ₚ l' -> length (List.filter p l) = length (List.filter p l').
  Proof. intros H. induction H; cbn; [done| | |congruence]; [destruct (p x); cbn; lia|destruct (p x), (p y); cbn; lia]. Qed.
  Lemma filter_none (p : A -> bool) (l : list A) : (forall x, x ∈ l -> p x = false) -> List.filter p l = [].
  Proof.
    induction l as [|x l IH]; intros H; cbn; [done|]. rewrite (H x) by left. apply IH. intros y Hy. apply H. by right.
  Qed.
  Lemma filter_all (p : A -> bool) (l : list A) : (forall x, x ∈ l -> p x = true) -> List.filter p l = l.
  Proof.
    induction l as [|x l IH]; intros H; cbn; [done|]. rewrite (H x) by left. f_equal. apply IH. intros y Hy. apply H. by right.
  Qed.
  Lemma filter_length_le (p : A -> bool) (l : list A) : length (List.filter p l) <= length l.
  Proof. induction l as [|x l IH]; cbn; [done|]. destruct (p x); cbn; lia. Qed.
  (** the test of the loop: [x] against the top [t] of the heap [t :: h] of the smallest elements *)
  Lemma test_ok x t h rest (l : list A) : l ≡ₚ (t :: h) ++ rest -> (forall z, z ∈ h -> comp t z = false) -> (forall z, z ∈ rest -> comp z t = false) ->
    (length (List.filter (fun y => negb (comp x y)) l) <? S (length h)) = comp x t.
  Proof.
    intros HP Hh Hr. rewrite (filter_perm _ _ _ HP). rewrite List.filter_app, app_length. destruct (comp x t) eqn:C.
    - rewrite (filter_none _ rest). 2:{ intros z Hz. rewrite (swo_lt_le_trans _ HW x t z C); [done|]. by apply Hr. }
      cbn [List.filter]. rewrite C. cbn [negb length]. pose proof (filter_length_le (fun y => negb (comp x y)) h). apply Nat.ltb_lt. lia.
    - rewrite (filter_all _ (t :: h)).
      + cbn [length]. apply Nat.ltb_ge. lia.
      + intros z Hz. apply negb_true_iff. apply elem_of_cons in Hz as [->|Hz]; [done|].
        apply (swo_le_trans _ HW) with t; [by apply Hh|done].
  Qed.

  (** number of the elements [i, l) of [m] counted *)
  Definition counted m f n i l : nat := length (List.filter (newly_smallest comp n (slice m f l)) (seq (i - f) (l - i))).
  Lemma counted_step m f n i l x : f <= i < l -> l <= length m -> m !! i = Some x ->
    counted m f n i l = (if length (List.filter (fun y => negb (comp x y)) (slice m f i)) <? n then 1 else 0) + counted m f n (S i) l.
  Proof.
    intros Hi Hl Hx. unfold counted. replace (l - i) with (S (l - S i)) by lia. cbn [seq List.filter]. replace (S (i - f)) with (S i - f) by lia.
    unfold newly_smallest at 1. rewrite slice_lookup by lia. replace (f + (i - f)) with i by lia. rewrite Hx.
    assert (take (i - f) (slice m f l) = slice m f i) as -> by (unfold slice; rewrite take_take; f_equal; lia).
    destruct (_ <? n); cbn [length]; lia.
  Qed.
  Lemma counted_all m f n l : f + n <= l <= length m -> counted m f n (f + n) l = replacements comp n (slice m f l).
  Proof.
    intros H. unfold counted, replacements. rewrite slice_length by (split; lia). replace (f + n - f) with n by lia.
    by replace (l - (f + n)) with (l - f - n) by lia.
  Qed.

  Lemma partial_sort_count_ok w m0 f mid l : f < mid -> l <= length m0 -> forall fuel m i, mid <= i <= l -> l - i < fuel ->
    max_heap comp (slice m f mid) -> top_le_rest comp m f mid i -> permutes m0 m f i ->
    exists m', partial_sort_count w fuel m f mid i l = Ok (m', w * counted m0 f (mid - f) i l) /\ partial_sort_loop comp fuel m f mid i l = Ok m'.
  Proof.
    intros Hfm Hl fuel. induction fuel as [|fuel IH]; intros m i Hi Hf HH HT HP0; [lia|]. cbn [partial_sort_count partial_sort_loop].
    pose proof (proj1 HP0) as HL0. destruct (i =? l) eqn:E.
    { exists m. unfold counted. assert (i = l) as -> by lia. rewrite Nat.sub_diag. cbn [seq List.filter length]. by rewrite Nat.mul_0_r. }
    assert (R2 : l <= length m) by lia.
    destruct (rd_lt m i) as [x [Hx ->]]; [lia|]. destruct (rd_lt m f) as [y [Hy ->]]; [lia|]. cbn [rbind].
    assert (Hx0 : m0 !! i = Some x) by (rewrite <- (proj1 (proj2 HP0)); [done|lia]).
    assert (Hsp : slice m f i = slice m f mid ++ slice m mid i).
    { unfold slice. rewrite <- (take_drop (mid - f) (take (i - f) (drop f m))). rewrite take_take, skipn_firstn_comm, drop_drop.
      f_equal; [f_equal; lia|]. f_equal; [lia|f_equal; lia]. }
    assert (Hc : (length (List.filter (fun y => negb (comp x y)) (slice m0 f i)) <? mid - f) = comp x y).
    { rewrite (slice_split_at m f y mid) in Hsp by done. replace (mid - f) with (S (length (slice m (S f) mid))) by (rewrite slice_length; [lia|split; lia]).
      apply (test_ok x y (slice m (S f) mid) (slice m mid i)).
      - rewrite <- Hsp. apply HP0.
      - intros z Hz. apply elem_of_slice in Hz as (k&Hk&Hz).
        assert (heap_in comp (slice m f mid) 0 (mid - f) 0) as Hin by (intros u v a b Hc _ Hj Ha Hb; eapply HH; eauto).
        apply (heap_root_greatest comp HW (slice m f mid) 0 (mid - f) ltac:(rewrite slice_length; [lia|split; lia]) Hin (k - f)); [lia| |].
        + cbn. rewrite slice_lookup by lia. by rewrite Nat.add_0_r.
        + cbn. rewrite slice_lookup by lia. by replace (f + (k - f)) with k by lia.
      - intros z Hz. by apply (HT y z Hy). }
    rewrite (counted_step m0 f _ i l x ltac:(lia) Hl Hx0), Hc.
    destruct (comp x y) eqn:C.
    - destruct (pop_heap_ok comp HW m f mid) as [m1 [y' [-> [HP1 [HH1 [Hy' [Hm1 Hgr]]]]]]]; [split; lia|lia|done|].
      replace y' with y in * by congruence. clear y' Hy'. cbn [rbind].
      assert (Hm1i : m1 !! i = Some x) by (rewrite (proj1 (proj2 HP1)) by lia; done).
      assert (HL1 : length m1 = length m) by apply HP1.
      destruct (permutes_swp m1 f (S i) (mid - 1) i) as [m2 [y' [x' [-> [Hy' [Hx' [Hm2 HP2]]]]]]]; [split; lia|lia|lia|].
      replace y' with y in * by congruence. replace x' with x in * by congruence. clear y' x' Hy' Hx'. cbn [rbind].
      assert (HL2 : length m2 = length m) by (rewrite (proj1 HP2); done).
      destruct (push_heap_ok comp HW m2 f mid) as [m3 [-> [HP3 HH3]]]; [split; lia| |].
      { assert (slice m2 f (mid - 1) = slice m1 f (mid - 1)) as ->; [|done].
        apply list_eq. intros k. destruct (decide (k < mid - 1 - f)).
        - rewrite !slice_lookup by done. subst m2. rewrite !list_lookup_insert_ne by lia. done.
        - rewrite !(proj2 (lookup_ge_None _ _)); [done| |]; rewrite slice_length; try lia; split; lia. }
      cbn [rbind].
      assert (HL3 : length m3 = length m) by (rewrite (proj1 HP3); done).
      assert (HP13 : permutes m0 m3 f (S i)).
      { apply permutes_trans with m; [eapply permutes_mono; [..|exact HP0]; [split; lia|lia|lia|lia]|].
        apply permutes_trans with m1; [eapply permutes_mono; [..|exact HP1]; [split; lia|lia|lia|lia]|].
        apply permutes_trans with m2; [exact HP2|].
        eapply permutes_mono; [..|exact HP3]; [split; lia|lia|lia|lia]. }
      assert (Hm3 : forall k z, mid <= k < S i -> m3 !! k = Some z -> comp z y = false).
      { intros k z Hk Hz. rewrite (proj1 (proj2 HP3)) in Hz by lia. subst m2.
        destruct (decide (k = i)) as [->|Hki].
        - rewrite list_lookup_insert in Hz by (rewrite insert_length; lia). replace z with y by congruence.
          apply (swo_irrefl _ HW).
        - rewrite !list_lookup_insert_ne in Hz by lia. rewrite (proj1 (proj2 HP1)) in Hz by lia.
          apply (HT y z Hy). apply elem_of_slice. exists k. split; [lia|done]. }
      assert (Hin : forall z, z ∈ slice m3 f mid -> comp y z = false).
      { intros z Hz. rewrite <- (proj2 (proj2 HP3)) in Hz. apply elem_of_slice in Hz as [k [Hk Hz]]. subst m2.
        rewrite list_lookup_insert_ne in Hz by lia. destruct (decide (k = mid - 1)) as [->|Hkm].
        - rewrite list_lookup_insert in Hz by lia. replace z with x by congruence. by apply swo_asym.
        - rewrite list_lookup_insert_ne in Hz by lia. apply Hgr. rewrite (proj2 (proj2 HP1)).
          apply elem_of_slice. exists k. split; [lia|done]. }
      destruct (IH m3 (S i)) as [m4 [-> E4]]; [lia|lia|done| |done|].
      + intros t z Ht Hz. apply elem_of_slice in Hz as [k [Hk Hz]].
        apply (swo_le_trans _ HW) with y; [|by apply (Hm3 k)].
        apply Hin. apply elem_of_slice. exists f. split; [lia|done].
      + exists m4. cbn [rbind]. split; [|done]. do 2 f_equal. lia.
    - apply IH; [lia|lia|done| |eapply permutes_mono; [..|exact HP0]; [split; lia|lia|lia|lia]]. intros t z Ht Hz. replace t with y by congruence.
      rewrite (slice_snoc m mid i x) in Hz by (done || lia).
      apply elem_of_app in Hz as [Hz|Hz]; [by apply (HT y)|]. by apply elem_of_list_singleton in Hz as ->.
  Qed.

  Lemma psc_count_ok w (m0 : list A) f d n l : 0 < n -> d + n <= length m0 -> l <= length m0 -> apart d (d + n) f l ->
    forall fuel i h rest, f <= i <= l -> l - i < fuel -> length h = n ->
      max_heap comp h -> Permutation (slice m0 f i) (h ++ rest) ->
      (forall t y, h !! 0 = Some t -> y ∈ rest -> comp y t = false) ->
      exists m', psc_count w fuel (patch m0 d h) d (d + n) i l = Ok (m', w * counted m0 f n i l) /\
        psc_select comp fuel (patch m0 d h) d (d + n) i l = Ok m'.
  Proof.
    intros Hn Hd Hl Hap fuel. induction fuel as [|fuel IH]; intros i h rest Hi Hf Hlen HH HP HR; [lia|].
    cbn [psc_count psc_select]. destruct (i =? l) eqn:E.
    - eexists. unfold counted. assert (i = l) as -> by lia. rewrite Nat.sub_diag. cbn [seq List.filter length]. by rewrite Nat.mul_0_r.
    - destruct (lookup_lt_is_Some_2 m0 i) as [x Hx]; [lia|].
      destruct (lookup_lt_is_Some_2 h 0) as [t Ht]; [lia|].
      assert (HLp : length (patch m0 d h) = length m0) by (apply patch_length; lia).
      rewrite (rd_Ok _ i x) by (rewrite patch_lookup_out; unfold apart in *; (done || lia)).
      assert (Hdt : patch m0 d h !! d = Some t).
      { rewrite patch_lookup by lia. rewrite decide_True by lia. by rewrite Nat.sub_diag. }
      rewrite (rd_Ok _ d t Hdt). cbn [rbind].
      assert (Hsl : slice (patch m0 d h) d (d + n) = h) by (rewrite <- Hlen; apply slice_patch_same; lia).
      assert (HPx : Permutation (slice m0 f (S i)) (x :: h ++ rest)).
      { rewrite (slice_snoc m0 f i x) by (done || lia). rewrite HP. by rewrite Permutation_app_comm. }
      assert (Hc : (length (List.filter (fun y => negb (comp x y)) (slice m0 f i)) <? n) = comp x t).
      { destruct h as [|t' h]; [done|]. cbn in Ht. injection Ht as ->. rewrite <- Hlen. cbn [length].
        apply (test_ok x t h rest); [done| |].
        - intros z Hz. apply elem_of_list_lookup in Hz as [k Hk].
          assert (heap_in comp (t :: h) 0 n 0) as Hin by (intros u v a b Hc _ Hj Ha Hb; eapply HH; eauto).
          apply (heap_root_greatest comp HW (t :: h) 0 n ltac:(lia) Hin (S k)); [|done|done].
          apply lookup_lt_Some in Hk. cbn in Hlen. lia.
        - intros z Hz. by apply (HR t). }
      rewrite (counted_step m0 f _ i l x ltac:(lia) Hl Hx), Hc.
      destruct (comp x t) eqn:C.
      + destruct (pop_heap_ok comp HW (patch m0 d h) d (d + n)) as [m1 [t' [-> [HP1 [HH1 [Ht' [Hm1 Hgr]]]]]]];
          [split; lia|lia|by rewrite Hsl|]. replace t' with t in * by congruence. clear t' Ht'. cbn [rbind].
        rewrite <- Hlen in HP1. apply permutes_patch_inv in HP1 as [h1 [Hh1 [Hm1e [Hl1 Hs1]]]]; [|lia].
        rewrite Hlen in Hs1. rewrite Hsl in Hgr.
        assert (Hrdi : rd m1 i = Ok x).
        { apply rd_Ok. rewrite Hm1e, patch_lookup_out; unfold apart in *; (done || lia). }
        rewrite Hrdi. cbn [rbind].
        assert (Hh1t : h1 !! (n - 1) = Some t).
        { rewrite Hm1e, patch_lookup in Hm1 by lia. rewrite decide_True in Hm1 by lia.
          by replace (d + n - 1 - d) with (n - 1) in Hm1 by lia. }
        assert (exists g, h1 = g ++ [t] /\ length g = n - 1) as [g [Hg Hgl]].
        { exists (take (n - 1) h1). split; [|rewrite take_length; lia].
          rewrite <- (take_drop (n - 1) h1) at 1. f_equal. rewrite (drop_S _ _ _ Hh1t).
          replace (S (n - 1)) with n by lia. rewrite drop_ge by lia. done. }
        rewrite wr_Ok by (rewrite Hm1e, patch_length; lia). cbn [rbind].
        assert (Hm2 : <[d + n - 1:=x]> m1 = patch m0 d (g ++ [x])).
        { rewrite Hm1e, Hg. rewrite <- patch_snoc by lia. rewrite <- patch_snoc by lia.
          replace (d + n - 1) with (d + length g) by lia. by rewrite list_insert_insert. }
        rewrite Hm2.
        assert (Hgx : length (g ++ [x]) = n) by (rewrite app_length; cbn; lia).
        destruct (push_heap_ok comp HW (patch m0 d (g ++ [x])) d (d + n)) as [m3 [-> [HP3 HH3]]].
        { split; [lia|]. rewrite patch_length; lia. }
        { assert (slice (patch m0 d (g ++ [x])) d (d + n - 1) = slice m1 d (d + n - 1)) as ->; [|done].
          rewrite Hm1e, Hg. apply list_eq. intros k.
          destruct (decide (k < d + n - 1 - d)).
          - rewrite !slice_lookup by done. rewrite !patch_lookup by (rewrite ?app_length; cbn; lia).
            rewrite !decide_True by (rewrite app_length; cbn; lia). rewrite !lookup_app_l by lia. done.
          - rewrite !(proj2 (lookup_ge_None _ _)); [done| |]; rewrite slice_length; try lia;
              split; rewrite ?patch_length; rewrite ?app_length; cbn; lia. }
        cbn [rbind]. rewrite <- Hgx in HP3. apply permutes_patch_inv in HP3 as [h3 [Hh3 [Hm3e [Hl3 Hs3]]]]; [|lia].
        rewrite Hgx in Hs3. rewrite Hm3e. rewrite Hs3 in HH3.
        destruct (IH (S i) h3 (t :: rest)) as (m'&->&Em'); [lia|lia|lia|done| | |].
        * rewrite HPx. rewrite Hh1, Hg. rewrite <- Hh3. rewrite <- !app_assoc. cbn.
          apply Permutation_middle.
        * intros s y Hs Hy. assert (Hts : comp t s = false).
          { assert (s ∈ g ++ [x]) as Hsin by (rewrite Hh3; by eapply elem_of_list_lookup_2).
            apply elem_of_app in Hsin as [Hsin|Hsin].
            - apply Hgr. rewrite Hh1, Hg. apply elem_of_app. by left.
            - apply elem_of_list_singleton in Hsin as ->. by apply swo_asym. }
          apply elem_of_cons in Hy as [->|Hy]; [done|]. apply (swo_le_trans _ HW) with t; [done|]. by apply HR.
        * exists m'. cbn [rbind]. split; [|done]. do 2 f_equal. lia.
      + apply (IH (S i) h (x :: rest)); [lia|lia|done|done| |].
        * rewrite HPx. by rewrite Permutation_middle.
        * intros s y Hs Hy. replace s with t by congruence. apply elem_of_cons in Hy as [->|Hy]; [done|]. by apply HR.
  Qed.
End count.
