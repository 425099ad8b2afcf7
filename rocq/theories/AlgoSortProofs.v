(** AlgoSortProofs.v — proofs about AlgoSort.v. *)
From Verif Require Import Base Spec Facts AlgoNonMod AlgoMod AlgoModProofs AlgoHeap AlgoHeapProofs AlgoSort.
From stdpp Require Import list.

Section sort.
  Context {A : Type} (comp : A -> A -> bool).
  Context (HW : StrictWeakOrder comp).
  Implicit Types m : list A.

  (** ** insertion of one element *)
  Lemma unguarded_linear_tmp v : forall (s : list A) fuel (pre : list A) h (post : list A) a,
    length s < fuel -> a ∈ s -> comp v a = false ->
    exists s1 y s2, s = s1 ++ y :: s2 /\ comp v y = false /\ (forall z, z ∈ s2 -> comp v z = true) /\
      unguarded_linear comp fuel (pre ++ s ++ h :: post) (length pre + length s) (Tmp v)
      = Ok (pre ++ s1 ++ y :: v :: s2 ++ post).
  Proof.
    induction s as [|y s IH] using rev_ind; intros fuel pre h post a Hf Ha Hav; [by apply elem_of_nil in Ha|].
    destruct fuel as [|fuel]; [lia|].
    replace (length pre + length (s ++ [y])) with (S (length pre + length s)) by (rewrite app_length; cbn; lia).
    cbn [unguarded_linear deref rbind].
    replace (pre ++ (s ++ [y]) ++ h :: post) with ((pre ++ s) ++ y :: h :: post) by (by applist).
    rewrite rd_at by (rewrite app_length; lia). cbn [rbind].
    replace ((pre ++ s) ++ y :: h :: post) with ((pre ++ s ++ [y]) ++ h :: post) by (by applist).
    destruct (comp v y) eqn:E.
    - rewrite wr_at by (rewrite !app_length; cbn; lia). cbn [rbind].
      rewrite app_length in Hf. cbn in Hf.
      destruct (IH fuel pre y (y :: post) a) as [s1 [w [s2 [Hs [Hw [H2 HE]]]]]].
      + lia.
      + apply elem_of_app in Ha as [Ha|Ha]; [done|]. apply elem_of_list_singleton in Ha as ->. congruence.
      + done.
      + exists s1, w, (s2 ++ [y]). split; [rewrite Hs; by applist|]. split; [done|]. split.
        * intros z Hz. apply elem_of_app in Hz as [Hz|Hz]; [auto|]. apply elem_of_list_singleton in Hz as ->. done.
        * replace ((pre ++ s ++ [y]) ++ y :: post) with (pre ++ s ++ y :: y :: post) by (by applist).
          rewrite HE. by applist.
    - rewrite wr_at by (rewrite !app_length; cbn; lia). exists s, y, []. split; [done|]. split; [done|]. split.
      + intros z Hz. by apply elem_of_nil in Hz.
      + by applist.
  Qed.

  (** [s'] is [s] with [v] inserted after the elements that are not greater than it *)
  Definition inserted (v : A) (s s' : list A) : Prop := exists s1 s2, s = s1 ++ s2 /\ s' = s1 ++ v :: s2 /\
    (forall y, y ∈ s1 -> comp v y = false) /\ (forall y, y ∈ s2 -> comp v y = true).

  Lemma linear_sort_ok (pre s post : list A) v : s <> [] -> sorted comp s ->
    exists s', inserted v s s' /\
      linear_sort comp (pre ++ s ++ v :: post) (length pre) (length pre + length s) = Ok (pre ++ s' ++ post).
  Proof.
    intros Hne HS. unfold linear_sort. destruct s as [|a s]; [done|]. clear Hne.
    assert (rd (pre ++ (a :: s) ++ v :: post) (length pre + length (a :: s)) = Ok v) as ->.
    { rewrite app_assoc. apply rd_at. by rewrite app_length. }
    assert (rd (pre ++ (a :: s) ++ v :: post) (length pre) = Ok a) as -> by (by apply rd_at).
    cbn [rbind].
    apply sorted_cons in HS as HS'. destruct HS' as [HF HS']. rewrite Forall_forall in HF.
    destruct (comp v a) eqn:E.
    - exists (v :: a :: s). split.
      + exists [], (a :: s). split; [done|]. split; [done|]. split; [by intros y Hy%elem_of_nil|].
        intros y Hy. apply elem_of_cons in Hy as [->|Hy]; [done|]. eapply swo_lt_le_trans; eauto.
      + rewrite copy_backward_ok.
        * cbn [rbind fst]. replace (S (length pre + length (a :: s)) - (length pre + length (a :: s) - length pre))
            with (S (length pre)) by lia.
          assert (slice (pre ++ (a :: s) ++ v :: post) (length pre) (length pre + length (a :: s)) = a :: s) as ->
            by apply slice_app.
          replace (pre ++ (a :: s) ++ v :: post) with ((pre ++ [a]) ++ (s ++ [v]) ++ post) by (by applist).
          replace (S (length pre)) with (length (pre ++ [a])) by (rewrite app_length; cbn; lia).
          rewrite patch_app by (rewrite app_length; cbn; lia).
          replace ((pre ++ [a]) ++ (a :: s) ++ post) with (pre ++ a :: (a :: s) ++ post) by (by applist).
          by rewrite wr_at.
        * split; [lia|]. rewrite !app_length. cbn. lia.
        * rewrite !app_length. cbn. lia.
        * lia.
    - destruct (unguarded_linear_tmp v (a :: s) (S (length (pre ++ (a :: s) ++ v :: post))) pre v post a)
        as [s1 [y [s2 [Hs [Hy [H2 HE]]]]]].
      + rewrite !app_length. cbn. lia.
      + set_solver.
      + done.
      + exists (s1 ++ y :: v :: s2). split.
        * exists (s1 ++ [y]), s2. split; [rewrite Hs; by applist|]. split; [by applist|]. split; [|done].
          intros z Hz. apply elem_of_app in Hz as [Hz|Hz]; [|by apply elem_of_list_singleton in Hz as ->].
          apply (swo_le_trans _ HW) with y; [|done]. rewrite Hs in HS.
          apply sorted_app in HS as [_ [_ HS]]. apply HS; set_solver.
        * rewrite HE. by applist.
  Qed.

  Lemma inserted_sorted v s s' : sorted comp s -> inserted v s s' -> sorted comp s'.
  Proof.
    intros HS [s1 [s2 [-> [-> [H1 H2]]]]]. apply sorted_app in HS as [S1 [S2 S12]].
    apply sorted_app. split; [done|]. split.
    - apply sorted_cons. split; [|done]. apply Forall_forall. intros y Hy. apply swo_asym; auto.
    - intros x y Hx Hy. apply elem_of_cons in Hy as [->|Hy]; auto.
  Qed.
  Lemma inserted_stable v s s' o : inserted v s s' -> stable_rearrangement comp o s ->
    stable_rearrangement comp (o ++ [v]) s'.
  Proof.
    intros [s1 [s2 [-> [-> [H1 H2]]]]] [HP HF]. split.
    - rewrite HP. rewrite <- !app_assoc. apply Permutation_app_head. apply Permutation_app_comm.
    - intros x. rewrite !List.filter_app in *. specialize (HF x). rewrite !List.filter_app in HF. rewrite <- HF.
      cbn [List.filter]. destruct (equivb comp x v) eqn:E; [|by rewrite app_nil_r].
      assert (List.filter (equivb comp x) s2 = []) as ->; [|by rewrite app_nil_r].
      assert (Hnone : forall y, y ∈ s2 -> equivb comp x y = false).
      { intros y Hy. specialize (H2 y Hy). destruct (equivb comp x y) eqn:E2; [|done].
        rewrite equivb_sym in E. pose proof (equivb_trans _ HW _ _ _ E E2) as H. apply equivb_true in H. intuition congruence. }
      clear -Hnone. induction s2 as [|y s2 IH]; [done|]. cbn. rewrite Hnone by set_solver. apply IH. set_solver.
  Qed.

  Lemma insertion_loop_ok : forall (rest : list A) fuel (pre s post o : list A), length rest < fuel -> s <> [] -> sorted comp s ->
    stable_rearrangement comp o s ->
    exists s', insertion_loop comp fuel (pre ++ s ++ rest ++ post) (length pre) (length pre + length s) (length pre + length s + length rest)
      = Ok (pre ++ s' ++ post) /\ sorted comp s' /\ stable_rearrangement comp (o ++ rest) s'.
  Proof.
    induction rest as [|v rest IH]; intros fuel pre s post o Hf Hne HS Ho; (destruct fuel as [|fuel]; [cbn in Hf; lia|]);
      cbn [insertion_loop].
    - replace (_ =? _) with true by (symmetry; apply Nat.eqb_eq; cbn; lia). exists s. rewrite app_nil_r. done.
    - replace (_ =? _) with false by (symmetry; apply Nat.eqb_neq; cbn; lia). cbn [app].
      destruct (linear_sort_ok pre s (rest ++ post) v Hne HS) as [s1 [Hi ->]]. cbn [rbind].
      pose proof (inserted_sorted _ _ _ HS Hi) as HS1. pose proof (inserted_stable _ _ _ _ Hi Ho) as Ho1.
      assert (Hl1 : length s1 = S (length s)).
      { destruct Hi as [a [b [-> [-> _]]]]. rewrite !app_length. cbn. lia. }
      cbn in Hf. destruct (IH fuel pre s1 post (o ++ [v])) as [s2 [HE [HS2 Ho2]]].
      + lia.
      + by destruct s1.
      + done.
      + done.
      + exists s2. split; [|split; [done|]].
        * etransitivity; [|exact HE]. f_equal; rewrite Hl1; cbn; lia.
        * rewrite <- app_assoc in Ho2. done.
  Qed.

  Lemma stable_refl (l : list A) : stable_rearrangement comp l l.
  Proof. split; done. Qed.

  Lemma insertion_sort_ok m f l : range m f l ->
    exists m', insertion_sort comp m f l = Ok m' /\ permutes m m' f l /\ sorted comp (slice m' f l) /\
      stable_rearrangement comp (slice m f l) (slice m' f l).
  Proof.
    intros H. unfold insertion_sort. destruct (f =? l) eqn:E.
    - assert (f = l) as -> by lia. exists m. split; [done|]. split; [apply permutes_refl|]. rewrite slice_nil.
      split; [apply sorted_nil|apply stable_refl].
    - destruct (range_split m f l H) as [pre [s [post [Hm [Hf [Hl [Hs _]]]]]]].
      destruct s as [|a s]; [cbn in Hl; lia|].
      destruct (insertion_loop_ok s (S (length m)) pre [a] post [a]) as [s' [HE [HS HO]]].
      + rewrite Hm, !app_length. cbn. lia.
      + done.
      + apply sorted_cons. split; [constructor|apply sorted_nil].
      + apply stable_refl.
      + assert (length s' = length (a :: s)) as Hlen by (symmetry; apply (Permutation_length (proj1 HO))).
        assert (Hsl : slice (pre ++ s' ++ post) f l = s').
        { rewrite Hf. replace l with (length pre + length s') by lia. apply slice_app. }
        exists (pre ++ s' ++ post). split; [|split; [|split]].
        * rewrite <- HE. rewrite Hm. f_equal; cbn; cbn in Hl; lia.
        * split; [rewrite Hm, !app_length; lia|]. split.
          -- intros k Hk. rewrite Hm. destruct (decide (k < f)).
             ++ rewrite !lookup_app_l by lia. done.
             ++ rewrite !(lookup_app_r pre) by lia. rewrite !lookup_app_r by lia. f_equal. lia.
          -- rewrite Hsl, Hs. exact (proj1 HO).
        * by rewrite Hsl.
        * rewrite Hsl, Hs. exact HO.
  Qed.

  (** ** the partition of introsort: safety, permutation, boundary inside the range *)
  Lemma scan_up_ok m p i0 x0 : m !! i0 = Some x0 -> comp x0 p = false -> forall fuel i, i <= i0 -> i0 - i < fuel ->
    exists j x, scan_up comp fuel m i p = Ok j /\ i <= j <= i0 /\ m !! j = Some x /\ comp x p = false /\
      forall k y, i <= k < j -> m !! k = Some y -> comp y p = true.
  Proof.
    intros H0 Hc fuel. induction fuel as [|fuel IH]; intros i Hi Hf; [lia|]. cbn [scan_up].
    pose proof (lookup_lt_Some _ _ _ H0) as Hlt.
    destruct (rd_lt m i) as [x [Hx ->]]; [lia|]. cbn [rbind]. destruct (comp x p) eqn:E.
    - assert (i <> i0) by congruence. destruct (IH (S i)) as [j [y [-> [Hj [Hy [Hyc HA]]]]]]; [lia|lia|].
      exists j, y. split; [done|]. split; [lia|]. split; [done|]. split; [done|].
      intros k z Hk Hz. destruct (decide (k = i)) as [->|]; [congruence|]. apply (HA k); [lia|done].
    - exists i, x. split; [done|]. split; [lia|]. split; [done|]. split; [done|]. lia.
  Qed.
  Lemma scan_down_ok m p j0 x0 : m !! j0 = Some x0 -> comp p x0 = false -> forall fuel l, j0 < l -> l <= length m -> l - j0 <= fuel ->
    exists j x, scan_down comp fuel m l p = Ok j /\ j0 <= j < l /\ m !! j = Some x /\ comp p x = false /\
      forall k y, j < k < l -> m !! k = Some y -> comp p y = true.
  Proof.
    intros H0 Hc fuel. induction fuel as [|fuel IH]; intros l Hl Hlm Hf; [lia|]. cbn [scan_down].
    destruct l as [|l]; [lia|].
    destruct (rd_lt m l) as [x [Hx ->]]; [lia|]. cbn [rbind]. destruct (comp p x) eqn:E.
    - assert (l <> j0) by congruence. destruct (IH l) as [j [y [-> [Hj [Hy [Hyc HA]]]]]]; [lia|lia|lia|].
      exists j, y. split; [done|]. split; [lia|]. split; [done|]. split; [done|].
      intros k z Hk Hz. destruct (decide (k = l)) as [->|]; [congruence|]. apply (HA k); [lia|done].
    - exists l, x. split; [done|]. split; [lia|]. split; [done|]. split; [done|]. lia.
  Qed.
  Lemma partition_by_ok p F L : forall fuel m i l, range m F L -> F <= i -> i <= l -> l <= L -> l - i < fuel ->
    (exists i0 x0, i <= i0 < L /\ m !! i0 = Some x0 /\ comp x0 p = false) ->
    (exists j0 x0, F <= j0 < l /\ m !! j0 = Some x0 /\ comp p x0 = false) ->
    (forall k y, F <= k < i -> m !! k = Some y -> comp p y = false) ->
    (forall k y, l <= k < L -> m !! k = Some y -> comp y p = false) ->
    exists m' part, partition_by comp fuel m i l p = Ok (m', part) /\ F <= part < L /\ permutes m m' F L /\
      (forall k y, F <= k < part -> m' !! k = Some y -> comp p y = false) /\
      (forall k y, part <= k < L -> m' !! k = Some y -> comp y p = false).
  Proof.
    induction fuel as [|fuel IH]; intros m i l [R1 R2] Hi Hil Hl Hf [i0 [x0 [Hi0 [Hx0 Hc0]]]] [j0 [y0 [Hj0 [Hy0 Hd0]]]] HLo HHi; [lia|].
    cbn [partition_by].
    destruct (scan_up_ok m p i0 x0 Hx0 Hc0 (S (length m)) i) as [a [x [-> [Ha [Hx [Hxc HxA]]]]]]; [lia|lia|]. cbn [rbind].
    destruct (scan_down_ok m p j0 y0 Hy0 Hd0 (S (length m)) l) as [b [y [-> [Hb [Hy [Hyc HyA]]]]]]; [lia|lia|lia|]. cbn [rbind].
    destruct (a <? b) eqn:E; cbn [negb].
    - destruct (permutes_swp m F L a b) as [m1 [x' [y' [-> [Hx' [Hy' [Hm1 HP]]]]]]]; [split; lia|lia|lia|].
      replace x' with x in * by congruence. replace y' with y in * by congruence. cbn [rbind].
      assert (Hm1a : m1 !! a = Some y).
      { subst m1. rewrite list_lookup_insert_ne by lia. apply list_lookup_insert. lia. }
      assert (Hm1b : m1 !! b = Some x) by (subst m1; apply list_lookup_insert; rewrite insert_length; lia).
      assert (Hm1o : forall k, k <> a -> k <> b -> m1 !! k = m !! k) by (intros k K1 K2; subst m1; rewrite !list_lookup_insert_ne by lia; done).
      destruct (IH m1 (S a) b) as [m2 [part [HE [Hpart [HP2 [HLo2 HHi2]]]]]].
      + split; [lia|]. rewrite (proj1 HP). lia.
      + lia.
      + lia.
      + lia.
      + lia.
      + exists b, x. split; [lia|done].
      + exists a, y. split; [lia|done].
      + intros k z Hk Hz. destruct (decide (k = a)) as [->|Hka]; [congruence|]. rewrite Hm1o in Hz by lia.
        destruct (decide (k < i)); [apply (HLo k); [lia|done]|]. apply swo_asym; [done|]. apply (HxA k); [lia|done].
      + intros k z Hk Hz. destruct (decide (k = b)) as [->|Hkb]; [congruence|]. rewrite Hm1o in Hz by lia.
        destruct (decide (l <= k)); [apply (HHi k); [lia|done]|]. apply swo_asym; [done|]. apply (HyA k); [lia|done].
      + exists m2, part. split; [done|]. split; [done|]. split; [by eapply permutes_trans|done].
    - exists m, a. split; [done|]. split; [lia|]. split; [apply permutes_refl|]. split.
      + intros k z Hk Hz. destruct (decide (k < i)); [apply (HLo k); [lia|done]|]. apply swo_asym; [done|]. apply (HxA k); [lia|done].
      + intros k z Hk Hz. destruct (decide (l <= k)); [apply (HHi k); [lia|done]|].
        destruct (decide (k = b)) as [->|Hkb].
        * assert (a = b) as -> by lia. congruence.
        * apply swo_asym; [done|]. apply (HyA k); [lia|done].
  Qed.

  (** ** partial_sort *)
  Lemma slice_split_at m i x j : i < j -> m !! i = Some x -> slice m i j = x :: slice m (S i) j.
  Proof. intros. by apply slice_cons. Qed.

  Definition top_le_rest m f mid i : Prop :=
    forall x y, m !! f = Some x -> y ∈ slice m mid i -> comp y x = false.
  Lemma partial_sort_loop_ok f mid l : f < mid -> forall fuel m i, range m f l -> mid <= i <= l -> l - i < fuel ->
    max_heap comp (slice m f mid) -> top_le_rest m f mid i ->
    exists m', partial_sort_loop comp fuel m f mid i l = Ok m' /\ permutes m m' f l /\
      max_heap comp (slice m' f mid) /\ top_le_rest m' f mid l.
  Proof.
    intros Hfm fuel. induction fuel as [|fuel IH]; intros m i [R1 R2] Hi Hf HH HT; [lia|]. cbn [partial_sort_loop].
    destruct (i =? l) eqn:E.
    - assert (i = l) as -> by lia. exists m. split; [done|]. split; [apply permutes_refl|]. done.
    - destruct (rd_lt m i) as [x [Hx ->]]; [lia|]. destruct (rd_lt m f) as [y [Hy ->]]; [lia|]. cbn [rbind].
      destruct (comp x y) eqn:C.
      + destruct (pop_heap_ok comp HW m f mid) as [m1 [y' [-> [HP1 [HH1 [Hy' [Hm1 Hgr]]]]]]]; [split; lia|lia|done|].
        replace y' with y in * by congruence. clear y' Hy'. cbn [rbind].
        assert (Hm1i : m1 !! i = Some x) by (rewrite (proj1 (proj2 HP1)) by lia; done).
        assert (HL1 : length m1 = length m) by apply HP1.
        destruct (permutes_swp m1 f l (mid - 1) i) as [m2 [y' [x' [-> [Hy' [Hx' [Hm2 HP2]]]]]]]; [split; lia|lia|lia|].
        replace y' with y in * by congruence. replace x' with x in * by congruence. clear y' x' Hy' Hx'. cbn [rbind].
        assert (HL2 : length m2 = length m) by (rewrite (proj1 HP2); done).
        destruct (push_heap_ok comp HW m2 f mid) as [m3 [-> [HP3 HH3]]]; [split; lia| |].
        { assert (slice m2 f (mid - 1) = slice m1 f (mid - 1)) as ->; [|done].
          apply list_eq. intros k. destruct (decide (k < mid - 1 - f)).
          - rewrite !slice_lookup by done. subst m2. rewrite !list_lookup_insert_ne by lia. done.
          - rewrite !(proj2 (lookup_ge_None _ _)); [done| |]; rewrite slice_length; try lia; split; lia. }
        cbn [rbind].
        assert (HL3 : length m3 = length m) by (rewrite (proj1 HP3); done).
        assert (HP13 : permutes m m3 f l).
        { apply permutes_trans with m1; [eapply permutes_mono; [..|exact HP1]; [split; lia|lia|lia|lia]|].
          apply permutes_trans with m2; [exact HP2|].
          eapply permutes_mono; [..|exact HP3]; [split; lia|lia|lia|lia]. }
        (* the cells from mid on *)
        assert (Hm3 : forall k z, mid <= k < S i -> m3 !! k = Some z -> comp z y = false).
        { intros k z Hk Hz. rewrite (proj1 (proj2 HP3)) in Hz by lia. subst m2.
          destruct (decide (k = i)) as [->|Hki].
          - rewrite list_lookup_insert in Hz by (rewrite insert_length; lia). replace z with y by congruence.
            apply (swo_irrefl _ HW).
          - rewrite !list_lookup_insert_ne in Hz by lia. rewrite (proj1 (proj2 HP1)) in Hz by lia.
            apply (HT y z Hy). apply elem_of_slice. exists k. split; [lia|done]. }
        assert (Hin : forall z, z ∈ slice m3 f mid -> comp y z = false).
        { intros z Hz. rewrite <- (proj2 (proj2 HP3)) in Hz. apply elem_of_slice in Hz as [k [Hk Hz]]. subst m2.
          rewrite list_lookup_insert_ne in Hz by lia. destruct (decide (k = mid - 1)) as [->|Hkm].
          - rewrite list_lookup_insert in Hz by lia. replace z with x by congruence. by apply swo_asym.
          - rewrite list_lookup_insert_ne in Hz by lia. apply Hgr. rewrite (proj2 (proj2 HP1)).
            apply elem_of_slice. exists k. split; [lia|done]. }
        destruct (IH m3 (S i)) as [m4 [-> [HP4 [HH4 HT4]]]].
        * split; lia.
        * lia.
        * lia.
        * done.
        * intros t z Ht Hz. apply elem_of_slice in Hz as [k [Hk Hz]].
          apply (swo_le_trans _ HW) with y; [|by apply (Hm3 k)].
          apply Hin. apply elem_of_slice. exists f. split; [lia|done].
        * exists m4. split; [done|]. split; [by eapply permutes_trans|done].
      + apply IH; [split; lia|lia|lia|done|]. intros t z Ht Hz. replace t with y by congruence.
        rewrite (slice_snoc m mid i x) in Hz by (done || lia).
        apply elem_of_app in Hz as [Hz|Hz]; [by apply (HT y)|]. by apply elem_of_list_singleton in Hz as ->.
  Qed.
  Lemma partial_sort_ok m f mid l : range m f l -> f <= mid <= l ->
    exists m', algo_partial_sort_by comp m f mid l = Ok m' /\ permutes m m' f l /\
      sorted comp (slice m' f mid) /\
      (forall x y, x ∈ slice m' f mid -> y ∈ slice m' mid l -> comp y x = false).
  Proof.
    intros [R1 R2] Hmid. unfold algo_partial_sort_by. destruct (f =? mid) eqn:E.
    - assert (f = mid) as -> by lia. exists m. split; [done|]. split; [apply permutes_refl|]. rewrite slice_nil.
      split; [apply sorted_nil|]. intros x y Hx. by apply elem_of_nil in Hx.
    - destruct (make_heap_ok comp HW m f mid) as [m1 [-> [HP1 HH1]]]; [split; lia|]. cbn [rbind].
      assert (HL1 : length m1 = length m) by apply HP1.
      destruct (partial_sort_loop_ok f mid l ltac:(lia) (S (length m)) m1 mid) as [m2 [-> [HP2 [HH2 HT2]]]];
        [split; lia|lia|lia|done| |].
      { intros x y _ Hy. rewrite slice_nil in Hy. by apply elem_of_nil in Hy. }
      cbn [rbind]. assert (HL2 : length m2 = length m) by (rewrite (proj1 HP2); done).
      destruct (sort_heap_ok comp HW m2 f mid) as [m3 [-> [HP3 HS3]]]; [split; lia|done|].
      exists m3. split; [done|]. split; [|split; [done|]].
      + apply permutes_trans with m1; [eapply permutes_mono; [..|exact HP1]; [split; lia|lia|lia|lia]|].
        apply permutes_trans with m2; [exact HP2|].
        eapply permutes_mono; [..|exact HP3]; [split; lia|lia|lia|lia].
      + intros x y Hx Hy. rewrite <- (proj2 (proj2 HP3)) in Hx.
        apply elem_of_slice in Hy as [k [Hk Hy]]. rewrite (proj1 (proj2 HP3)) in Hy by lia.
        destruct (lookup_lt_is_Some_2 m2 f) as [t Ht]; [lia|].
        apply (swo_le_trans _ HW) with t.
        * apply elem_of_slice in Hx as [j [Hj Hx]].
          apply heap_in_max_heap in HH2; [|split; lia].
          apply (heap_root_greatest comp HW m2 f (mid - f) ltac:(lia) HH2 (j - f)); [lia|done|].
          by replace (f + (j - f)) with j by lia.
        * apply (HT2 t y Ht). apply elem_of_slice. exists k. split; [lia|done].
  Qed.

  Lemma median_in x y z : median_of_three comp x y z = x \/ median_of_three comp x y z = y \/ median_of_three comp x y z = z.
  Proof. unfold median_of_three. destruct (comp x y), (comp y z), (comp x z); auto. Qed.

  Lemma introspective_ok : forall depth m f l, range m f l ->
    exists m', introspective_sort comp depth m f l = Ok m' /\ permutes m m' f l.
  Proof.
    induction depth as [|depth IH]; intros m f l [R1 R2]; cbn [introspective_sort].
    - destruct (threshold <? l - f) eqn:E.
      + destruct (partial_sort_ok m f l l) as [m' [-> [HP _]]]; [split; lia|lia|]. eauto.
      + exists m. split; [done|]. apply permutes_refl.
    - destruct (threshold <? l - f) eqn:E.
      2:{ exists m. split; [done|]. apply permutes_refl. }
      unfold threshold in E. apply Nat.ltb_lt in E.
      assert ((l - f) / 2 < l - f) as Hdiv by (apply Nat.div_lt; lia).
      destruct (rd_lt m f) as [x [Hx ->]]; [lia|].
      destruct (rd_lt m (f + (l - f) / 2)) as [y [Hy ->]]; [lia|].
      destruct (rd_lt m (l - 1)) as [z [Hz ->]]; [lia|]. cbn [rbind].
      set (p := median_of_three comp x y z).
      assert (exists i0, f <= i0 < l /\ m !! i0 = Some p) as [i0 [Hi0 Hp]].
      { unfold p. destruct (median_in x y z) as [-> |[-> | -> ]]; eexists; (split; [|eassumption]); lia. }
      clearbody p.
      destruct (partition_by_ok p f l (S (length m)) m f l) as [m1 [part [-> [Hpart [HP1 _]]]]].
      + split; lia.
      + lia.
      + lia.
      + lia.
      + lia.
      + exists i0, p. split; [done|]. split; [done|]. apply (swo_irrefl _ HW).
      + exists i0, p. split; [done|]. split; [done|]. apply (swo_irrefl _ HW).
      + lia.
      + lia.
      + cbn [rbind]. assert (HL1 : length m1 = length m) by apply HP1.
        destruct (IH m1 part l) as [m2 [-> HP2]]; [split; lia|]. cbn [rbind].
        assert (HL2 : length m2 = length m) by (rewrite (proj1 HP2); done).
        destruct (IH m2 f part) as [m3 [-> HP3]]; [split; lia|].
        exists m3. split; [done|].
        apply permutes_trans with m1; [done|].
        apply permutes_trans with m2; (eapply permutes_mono; [..|eassumption]; [split; lia|lia|lia|lia]).
  Qed.
  Lemma introspective_small depth m f l : l - f <= threshold -> introspective_sort comp depth m f l = Ok m.
  Proof.
    intros H. destruct depth; cbn [introspective_sort]; replace (threshold <? l - f) with false by (symmetry; by apply Nat.ltb_ge); done.
  Qed.

  Lemma sort_small_ok m f l : range m f l -> l - f <= 512 ->
    exists m', algo_sort_by comp m f l = Ok m' /\ permutes m m' f l /\ sorted comp (slice m' f l) /\
      stable_rearrangement comp (slice m f l) (slice m' f l).
  Proof.
    intros H Hn. unfold algo_sort_by. destruct (f =? l) eqn:E.
    - assert (f = l) as -> by lia. exists m. split; [done|]. split; [apply permutes_refl|]. rewrite slice_nil.
      split; [apply sorted_nil|apply stable_refl].
    - rewrite introspective_small by done. cbn [rbind]. unfold final_insertion_sort.
      replace (threshold <? l - f) with false by (symmetry; by apply Nat.ltb_ge). by apply insertion_sort_ok.
  Qed.

  (** ** what the unguarded insertion actually does: running maximum *)
  Lemma unguarded_cell (m : list A) i x y z fuel : 2 <= i -> m !! i = Some x -> m !! (i - 1) = Some y -> m !! (i - 2) = Some z ->
    comp y z = false -> 2 <= fuel ->
    unguarded_linear comp fuel m i (Cell i) = Ok (if comp x y then <[i := y]> m else m).
  Proof.
    intros Hi Hx Hy Hz Hyz Hf. destruct fuel as [|[|fuel]]; [lia|lia|].
    destruct i as [|[|i]]; [lia|lia|]. cbn [unguarded_linear deref].
    replace (S (S i) - 1) with (S i) in Hy by lia. replace (S (S i) - 2) with i in Hz by lia.
    assert (Hlt : S (S i) < length m) by (by eapply lookup_lt_Some).
    rewrite (rd_Ok _ _ _ Hx), (rd_Ok _ _ _ Hy). cbn [rbind]. destruct (comp x y) eqn:C.
    - rewrite wr_Ok by done. cbn [rbind].
      rewrite (rd_Ok _ (S (S i)) y) by (by apply list_lookup_insert).
      rewrite (rd_Ok _ i z) by (by rewrite list_lookup_insert_ne by lia). cbn [rbind]. rewrite Hyz.
      rewrite wr_Ok by (rewrite insert_length; lia). f_equal. apply list_insert_id.
      by rewrite list_lookup_insert_ne by lia.
    - rewrite wr_Ok by done. f_equal. by apply list_insert_id.
  Qed.
  Lemma unguarded_insertion_ok f l : forall fuel (m : list A) i, range m f l -> f + 2 <= i <= l -> l - i < fuel ->
    sorted comp (slice m f i) ->
    exists m', unguarded_insertion comp fuel m i l = Ok m' /\ length m' = length m /\
      (forall k, k < i \/ l <= k -> m' !! k = m !! k) /\ sorted comp (slice m' f l) /\
      (forall x, x ∈ slice m' f l -> x ∈ slice m f l).
  Proof.
    induction fuel as [|fuel IH]; intros m i [R1 R2] Hi Hf HS; [lia|]. cbn [unguarded_insertion].
    destruct (i =? l) eqn:E.
    - assert (i = l) as -> by lia. exists m. done.
    - destruct (lookup_lt_is_Some_2 m i) as [x Hx]; [lia|]. destruct (lookup_lt_is_Some_2 m (i - 1)) as [y Hy]; [lia|].
      destruct (lookup_lt_is_Some_2 m (i - 2)) as [z Hz]; [lia|].
      assert (Hyz : comp y z = false).
      { apply (HS (i - 2 - f) (i - 1 - f)); [lia|..]; rewrite slice_lookup by lia;
          [replace (f + (i - 2 - f)) with (i - 2) by lia|replace (f + (i - 1 - f)) with (i - 1) by lia]; done. }
      rewrite (unguarded_cell m i x y z) by (done || lia). cbn [rbind].
      assert (Hymax : forall w, w ∈ slice m f i -> comp y w = false).
      { intros w Hw. apply elem_of_slice in Hw as [k [Hk Hw]]. destruct (decide (k = i - 1)) as [->|Hne].
        - replace w with y by congruence. apply (swo_irrefl _ HW).
        - apply (HS (k - f) (i - 1 - f)); [lia|..]; rewrite slice_lookup by lia;
            [replace (f + (k - f)) with k by lia|replace (f + (i - 1 - f)) with (i - 1) by lia]; done. }
      set (m1 := if comp x y then <[i:=y]> m else m). set (v := if comp x y then y else x).
      assert (HL1 : length m1 = length m) by (unfold m1; destruct (comp x y); rewrite ?insert_length; done).
      assert (Hm1i : m1 !! i = Some v).
      { unfold m1, v. destruct (comp x y); [|done]. apply list_lookup_insert. lia. }
      assert (Hm1o : forall k, k <> i -> m1 !! k = m !! k).
      { intros k Hk. unfold m1. destruct (comp x y); [|done]. by rewrite list_lookup_insert_ne. }
      assert (Hpre : slice m1 f i = slice m f i).
      { apply list_eq. intros k. destruct (decide (k < i - f)).
        - rewrite !slice_lookup by done. apply Hm1o. lia.
        - rewrite !(proj2 (lookup_ge_None _ _)); [done| |]; rewrite slice_length; try lia; split; lia. }
      destruct (IH m1 (S i)) as [m2 [-> [HL2 [HF2 [HS2 HE2]]]]].
      + split; lia.
      + lia.
      + lia.
      + rewrite (slice_snoc m1 f i v) by (done || lia). rewrite Hpre. apply sorted_snoc. split; [done|].
        intros w Hw. unfold v. destruct (comp x y) eqn:C; [by apply Hymax|].
        apply (swo_le_trans _ HW) with y; [by apply Hymax|done].
      + exists m2. split; [done|]. split; [lia|]. split; [|split; [done|]].
        * intros k Hk. rewrite HF2 by lia. apply Hm1o. lia.
        * intros w Hw. apply HE2 in Hw. apply elem_of_slice in Hw as [k [Hk Hw]].
          destruct (decide (k = i)) as [->|Hki].
          -- replace w with v by congruence. unfold v. destruct (comp x y).
             ++ apply elem_of_slice. exists (i - 1). split; [lia|done].
             ++ apply elem_of_slice. exists i. split; [lia|done].
          -- rewrite Hm1o in Hw by done. apply elem_of_slice. exists k. split; [lia|done].
  Qed.

  (** every size: safe, terminating, sorted, nothing outside changed, no value invented *)
  Lemma sort_any_ok m f l : range m f l ->
    exists m', algo_sort_by comp m f l = Ok m' /\ length m' = length m /\
      (forall k, k < f \/ l <= k -> m' !! k = m !! k) /\ sorted comp (slice m' f l) /\
      (forall x, x ∈ slice m' f l -> x ∈ slice m f l).
  Proof.
    intros H. destruct (decide (l - f <= 512)) as [Hs|Hs].
    - destruct (sort_small_ok m f l H Hs) as [m' [-> [HP [HS _]]]]. exists m'. split; [done|]. split; [apply HP|].
      split; [apply HP|]. split; [done|]. intros x Hx. by rewrite (proj2 (proj2 HP)).
    - unfold algo_sort_by. destruct (f =? l) eqn:E; [lia|]. destruct H as [R1 R2].
      destruct (introspective_ok (lg (l - f) * 2) m f l) as [m1 [-> HP1]]; [split; lia|]. cbn [rbind].
      assert (HL1 : length m1 = length m) by apply HP1.
      assert (threshold = 512) as Ht by done.
      unfold final_insertion_sort. replace (threshold <? l - f) with true by (symmetry; apply Nat.ltb_lt; rewrite Ht; lia).
      rewrite Ht. clear Ht.
      destruct (insertion_sort_ok m1 f (f + 512)) as [m2 [-> [HP2 [HS2 _]]]]; [split; lia|]. cbn [rbind].
      assert (HL2 : length m2 = length m) by (rewrite (proj1 HP2); done).
      destruct (unguarded_insertion_ok f l (S (length m1)) m2 (f + 512)) as [m3 [-> [HL3 [HF3 [HS3 HE3]]]]];
        [split; lia|lia|lia|done|].
      exists m3. split; [done|]. split; [lia|].
      assert (HP12 : permutes m m2 f l).
      { eapply permutes_trans; [exact HP1|]. eapply permutes_mono; [..|exact HP2]; [split; lia|lia|lia|lia]. }
      split; [|split; [done|]].
      + intros k Hk. rewrite HF3 by lia. by apply (proj1 (proj2 HP12)).
      + intros x Hx. rewrite (proj2 (proj2 HP12)). auto.
  Qed.

  (** ** is_sorted(_until) *)
  Lemma sorted_until_loop_ok (m : list A) f l : range m f l -> forall fuel i, f <= i < l -> l - i <= fuel ->
    sorted comp (slice m f (S i)) ->
    exists r, sorted_until_loop comp fuel m i (S i) l = Ok r /\
      match r with
      | None => sorted comp (slice m f l)
      | Some j => i <= j /\ S j < l /\ sorted comp (slice m f (S j)) /\
          exists x y, m !! j = Some x /\ m !! S j = Some y /\ comp y x = true
      end.
  Proof.
    intros [R1 R2] fuel. induction fuel as [|fuel IH]; intros i Hi Hf HS; [lia|]. cbn [sorted_until_loop].
    destruct (S i =? l) eqn:E.
    - assert (S i = l) as <- by lia. exists None. done.
    - destruct (rd_lt m (S i)) as [y [Hy ->]]; [lia|]. destruct (rd_lt m i) as [x [Hx ->]]; [lia|]. cbn [rbind].
      destruct (comp y x) eqn:C.
      + eexists. split; [done|]. cbn. split; [lia|]. split; [lia|]. split; [done|]. eauto.
      + destruct (IH (S i)) as [r [-> HI]]; [lia|lia| |].
        * rewrite (slice_snoc m f (S i) y) by (done || lia). apply sorted_snoc. split; [done|].
          intros w Hw. apply (swo_le_trans _ HW) with x; [|done].
          rewrite (slice_snoc m f i x) in Hw, HS by (done || lia). apply sorted_snoc in HS as [_ HS].
          apply elem_of_app in Hw as [Hw|Hw]; [auto|]. apply elem_of_list_singleton in Hw as ->. apply (swo_irrefl _ HW).
        * exists r. split; [done|]. destruct r; [|done]. split; [lia|]. apply HI.
  Qed.
  (** [until] is [last] for a sorted range, otherwise the position of the last element of the longest
      sorted prefix *)
  Lemma is_sorted_until_ok (m : list A) f l : range m f l ->
    exists u, algo_is_sorted_until_by comp m f l = Ok u /\ f <= u <= l /\
      (u = l <-> sorted comp (slice m f l)) /\
      (u < l -> S u < l /\ sorted comp (slice m f (S u)) /\ ~ sorted comp (slice m f (S (S u)))).
  Proof.
    intros H. unfold algo_is_sorted_until_by. destruct (f =? l) eqn:E.
    - assert (f = l) as -> by lia. exists l. split; [done|]. split; [lia|]. rewrite slice_nil.
      split; [|lia]. split; [intros _; apply sorted_nil|done].
    - destruct H as [R1 R2]. destruct (lookup_lt_is_Some_2 m f) as [x Hx]; [lia|].
      destruct (sorted_until_loop_ok m f l ltac:(split; lia) (S (length m)) f) as [r [-> HI]]; [lia|lia| |].
      { rewrite (slice_cons m f (S f) x) by (done || lia). rewrite slice_nil. apply sorted_cons. split; [constructor|apply sorted_nil]. }
      cbn [rbind]. eexists. split; [done|]. destruct r as [j|].
      + destruct HI as [Hj [Hjl [HS [a [b [Ha [Hb Hc]]]]]]].
        assert (forall e, S j < e -> e <= l -> ~ sorted comp (slice m f e)) as Hns.
        { intros e He Hel Hsort. rewrite (Hsort (j - f) (S j - f) a b) in Hc; [done|lia|..];
            rewrite slice_lookup by lia; [replace (f + (j - f)) with j by lia|replace (f + (S j - f)) with (S j) by lia]; done. }
        split; [lia|]. split.
        * split; [lia|]. intros Hsort. exfalso. by apply (Hns l).
        * intros _. split; [lia|]. split; [done|]. apply Hns; lia.
      + split; [lia|]. split; [done|]. lia.
  Qed.
  Lemma is_sorted_ok (m : list A) f l : range m f l ->
    exists b, algo_is_sorted_by comp m f l = Ok b /\ (b = true <-> sorted comp (slice m f l)).
  Proof.
    intros H. unfold algo_is_sorted_by. destruct (is_sorted_until_ok m f l H) as [u [-> [Hu [Hiff _]]]]. cbn [rbind].
    exists (u =? l). split; [done|]. rewrite <- Hiff. apply Nat.eqb_eq.
  Qed.

  (** ** partial_sort_copy *)
  Lemma psc_copy_ok (m0 : list A) d0 l d_last : l <= length m0 -> d_last <= length m0 ->
    forall fuel i acc, i <= l -> l - i < fuel -> d0 + length acc <= d_last ->
      apart d0 d_last i l ->
      let k := (l - i) `min` (d_last - (d0 + length acc)) in
      psc_copy fuel (patch m0 d0 acc) i l (d0 + length acc) d_last (length acc)
      = Ok (patch m0 d0 (acc ++ slice m0 i (i + k)), i + k, d0 + length acc + k, length acc + k).
  Proof.
    intros Hl Hd fuel. induction fuel as [|fuel IH]; intros i acc Hi Hf Hacc Hap k; [lia|]. cbn [psc_copy].
    destruct ((i =? l) || (d0 + length acc =? d_last)) eqn:E.
    - assert (k = 0) as -> by (unfold k; lia). rewrite !Nat.add_0_r, slice_nil, app_nil_r. done.
    - apply orb_false_iff in E as [E1 E2].
      destruct (lookup_lt_is_Some_2 m0 i) as [x Hx]; [lia|].
      rewrite (rd_Ok _ i x) by (rewrite patch_lookup_out; unfold apart in *; (done || lia)). cbn [rbind].
      rewrite wr_Ok by (rewrite patch_length; lia). cbn [rbind]. rewrite patch_snoc by lia.
      replace (S (d0 + length acc)) with (d0 + length (acc ++ [x])) by (rewrite app_length; cbn; lia).
      replace (S (length acc)) with (length (acc ++ [x])) by (rewrite app_length; cbn; lia).
      rewrite IH; [|lia|lia|rewrite app_length; cbn; lia|unfold apart in *; lia].
      rewrite app_length. cbn [length].
      replace ((l - S i) `min` (d_last - (d0 + (length acc + 1)))) with (k - 1) by (unfold k; lia).
      rewrite <- app_assoc. cbn [app].
      rewrite (slice_cons m0 i (i + k) x) by (done || (unfold k; lia)).
      replace (S i + (k - 1)) with (i + k) by (unfold k; lia). f_equal. f_equal; [f_equal|]; unfold k; lia.
  Qed.

  Lemma slice_patch_same (m : list A) d h : d + length h <= length m -> slice (patch m d h) d (d + length h) = h.
  Proof.
    intros H. unfold slice, patch. rewrite drop_app_alt by (rewrite take_length; lia).
    replace (d + length h - d) with (length h) by lia. apply take_app.
  Qed.
  Lemma permutes_patch_inv (m : list A) d h m' : d + length h <= length m -> permutes (patch m d h) m' d (d + length h) ->
    exists h', Permutation h h' /\ m' = patch m d h' /\ length h' = length h /\ slice m' d (d + length h) = h'.
  Proof.
    intros Hd HP. exists (slice m' d (d + length h)).
    assert (Hperm : Permutation h (slice m' d (d + length h))).
    { rewrite <- (proj2 (proj2 HP)). by rewrite slice_patch_same. }
    pose proof (Permutation_length Hperm) as HL.
    split; [done|]. split; [|split; [lia|done]].
    etransitivity; [apply (permutes_patch (patch m d h) m' d (d + length h)); [|exact HP]|].
    - split; [lia|]. rewrite patch_length; lia.
    - apply patch_patch; lia.
  Qed.

  Lemma psc_select_ok (m0 : list A) f d n l : 0 < n -> d + n <= length m0 -> l <= length m0 -> apart d (d + n) f l ->
    forall fuel i h rest, f <= i <= l -> l - i < fuel -> length h = n ->
      max_heap comp h -> Permutation (slice m0 f i) (h ++ rest) ->
      (forall t y, h !! 0 = Some t -> y ∈ rest -> comp y t = false) ->
      exists h' rest', psc_select comp fuel (patch m0 d h) d (d + n) i l = Ok (patch m0 d h') /\ length h' = n /\
        max_heap comp h' /\ Permutation (slice m0 f l) (h' ++ rest') /\
        (forall t y, h' !! 0 = Some t -> y ∈ rest' -> comp y t = false).
  Proof.
    intros Hn Hd Hl Hap fuel. induction fuel as [|fuel IH]; intros i h rest Hi Hf Hlen HH HP HR; [lia|].
    cbn [psc_select]. destruct (i =? l) eqn:E.
    - assert (i = l) as -> by lia. exists h, rest. done.
    - destruct (lookup_lt_is_Some_2 m0 i) as [x Hx]; [lia|].
      destruct (lookup_lt_is_Some_2 h 0) as [t Ht]; [lia|].
      assert (HLp : length (patch m0 d h) = length m0) by (apply patch_length; lia).
      rewrite (rd_Ok _ i x) by (rewrite patch_lookup_out; unfold apart in *; (done || lia)).
      assert (Hdt : patch m0 d h !! d = Some t).
      { rewrite patch_lookup by lia. rewrite decide_True by lia. by rewrite Nat.sub_diag. }
      rewrite (rd_Ok _ d t Hdt). cbn [rbind].
      assert (Hsl : slice (patch m0 d h) d (d + n) = h) by (rewrite <- Hlen; apply slice_patch_same; lia).
      assert (HPx : Permutation (slice m0 f (S i)) (x :: h ++ rest)).
      { rewrite (slice_snoc m0 f i x) by (done || lia). rewrite HP. by rewrite Permutation_app_comm. }
      destruct (comp x t) eqn:C.
      + destruct (pop_heap_ok comp HW (patch m0 d h) d (d + n)) as [m1 [t' [-> [HP1 [HH1 [Ht' [Hm1 Hgr]]]]]]];
          [split; lia|lia|by rewrite Hsl|]. replace t' with t in * by congruence. clear t' Ht'. cbn [rbind].
        rewrite <- Hlen in HP1. apply permutes_patch_inv in HP1 as [h1 [Hh1 [Hm1e [Hl1 Hs1]]]]; [|lia].
        rewrite Hlen in Hs1. rewrite Hsl in Hgr.
        assert (Hrdi : rd m1 i = Ok x).
        { apply rd_Ok. rewrite Hm1e, patch_lookup_out; unfold apart in *; (done || lia). }
        rewrite Hrdi. cbn [rbind].
        (* h1 = g ++ [t] *)
        assert (Hh1t : h1 !! (n - 1) = Some t).
        { rewrite Hm1e, patch_lookup in Hm1 by lia. rewrite decide_True in Hm1 by lia.
          by replace (d + n - 1 - d) with (n - 1) in Hm1 by lia. }
        assert (exists g, h1 = g ++ [t] /\ length g = n - 1) as [g [Hg Hgl]].
        { exists (take (n - 1) h1). split; [|rewrite take_length; lia].
          rewrite <- (take_drop (n - 1) h1) at 1. f_equal. rewrite (drop_S _ _ _ Hh1t).
          replace (S (n - 1)) with n by lia. rewrite drop_ge by lia. done. }
        rewrite wr_Ok by (rewrite Hm1e, patch_length; lia). cbn [rbind].
        assert (Hm2 : <[d + n - 1:=x]> m1 = patch m0 d (g ++ [x])).
        { rewrite Hm1e, Hg. rewrite <- patch_snoc by lia. rewrite <- patch_snoc by lia.
          replace (d + n - 1) with (d + length g) by lia. by rewrite list_insert_insert. }
        rewrite Hm2.
        assert (Hgx : length (g ++ [x]) = n) by (rewrite app_length; cbn; lia).
        destruct (push_heap_ok comp HW (patch m0 d (g ++ [x])) d (d + n)) as [m3 [-> [HP3 HH3]]].
        { split; [lia|]. rewrite patch_length; lia. }
        { assert (slice (patch m0 d (g ++ [x])) d (d + n - 1) = slice m1 d (d + n - 1)) as ->; [|done].
          rewrite Hm1e, Hg. apply list_eq. intros k.
          destruct (decide (k < d + n - 1 - d)).
          - rewrite !slice_lookup by done. rewrite !patch_lookup by (rewrite ?app_length; cbn; lia).
            rewrite !decide_True by (rewrite app_length; cbn; lia). rewrite !lookup_app_l by lia. done.
          - rewrite !(proj2 (lookup_ge_None _ _)); [done| |]; rewrite slice_length; try lia;
              split; rewrite ?patch_length; rewrite ?app_length; cbn; lia. }
        cbn [rbind]. rewrite <- Hgx in HP3. apply permutes_patch_inv in HP3 as [h3 [Hh3 [Hm3e [Hl3 Hs3]]]]; [|lia].
        rewrite Hgx in Hs3. rewrite Hm3e. rewrite Hs3 in HH3.
        apply (IH (S i) h3 (t :: rest)).
        * lia.
        * lia.
        * lia.
        * done.
        * rewrite HPx. rewrite Hh1, Hg. rewrite <- Hh3. rewrite <- !app_assoc. cbn.
          apply Permutation_middle.
        * intros s y Hs Hy. assert (Hts : comp t s = false).
          { assert (s ∈ g ++ [x]) as Hsin by (rewrite Hh3; by eapply elem_of_list_lookup_2).
            apply elem_of_app in Hsin as [Hsin|Hsin].
            - apply Hgr. rewrite Hh1, Hg. set_solver.
            - apply elem_of_list_singleton in Hsin as ->. by apply swo_asym. }
          apply elem_of_cons in Hy as [->|Hy]; [done|]. apply (swo_le_trans _ HW) with t; [done|]. by apply HR.
      + apply (IH (S i) h (x :: rest)); [lia|lia|done|done| |].
        * rewrite HPx. by rewrite Permutation_middle.
        * intros s y Hs Hy. replace s with t by congruence. apply elem_of_cons in Hy as [->|Hy]; [done|]. by apply HR.
  Qed.

  Lemma partial_sort_copy_ok (m : list A) f l d dl : range m f l -> range m d dl -> apart d dl f l ->
    exists out rest, algo_partial_sort_copy_by comp m f l d dl = Ok (patch m d out, d + length out, length out) /\
      length out = (l - f) `min` (dl - d) /\ sorted comp out /\
      Permutation (slice m f l) (out ++ rest) /\ (forall x y, x ∈ out -> y ∈ rest -> comp y x = false).
  Proof.
    intros [R1 R2] [R3 R4] Hap. unfold algo_partial_sort_copy_by.
    destruct ((f =? l) || (d =? dl)) eqn:E.
    - exists [], (slice m f l). rewrite patch_nil. cbn [length app]. rewrite Nat.add_0_r. split; [done|]. split; [lia|].
      split; [apply sorted_nil|]. split; [done|]. intros x y Hx. by apply elem_of_nil in Hx.
    - pose proof (psc_copy_ok m d l dl R2 R4 (S (length m)) f []) as HC. cbn [length] in HC.
      rewrite patch_nil, Nat.add_0_r in HC. cbn zeta in HC. rewrite HC by (done || lia). clear HC. cbn [rbind].
      set (n := (l - f) `min` (dl - d)). assert (0 < n) as Hn by (unfold n; lia). cbn [app].
      set (s := slice m f (f + n)).
      assert (Hs : length s = n) by (unfold s; rewrite slice_length; unfold n; [lia|split; lia]).
      assert (Hdn : d + n <= length m) by (unfold n; lia).
      destruct (make_heap_ok comp HW (patch m d s) d (d + n)) as [m1 [-> [HP1 HH1]]].
      { split; [lia|]. rewrite patch_length; lia. }
      cbn [rbind]. rewrite <- Hs in HP1. apply permutes_patch_inv in HP1 as [h1 [Hh1 [-> [Hl1 Hs1]]]]; [|lia].
      rewrite Hs in Hs1. rewrite Hs1 in HH1.
      destruct (psc_select_ok m f d n l Hn Hdn R2) with (fuel := S (length m)) (i := f + n) (h := h1) (rest := @nil A)
        as [h2 [rest [-> [Hl2 [HH2 [HP2 HR2]]]]]].
      + unfold apart in *. unfold n in *. lia.
      + unfold n; lia.
      + lia.
      + lia.
      + done.
      + rewrite app_nil_r. done.
      + intros t y _ Hy. by apply elem_of_nil in Hy.
      + cbn [rbind]. assert (Hsl2 : slice (patch m d h2) d (d + n) = h2) by (rewrite <- Hl2; apply slice_patch_same; lia).
        destruct (sort_heap_ok comp HW (patch m d h2) d (d + n)) as [m3 [-> [HP3 HS3]]].
        { split; [lia|]. rewrite patch_length; lia. }
        { by rewrite Hsl2. }
        cbn [rbind]. rewrite <- Hl2 in HP3. apply permutes_patch_inv in HP3 as [h3 [Hh3 [-> [Hl3 Hs3]]]]; [|lia].
        rewrite Hl2 in Hs3. rewrite Hs3 in HS3.
        exists h3, rest. split; [repeat f_equal; lia|]. split; [lia|]. split; [done|]. split; [by rewrite HP2, Hh3|].
        intros x y Hx Hy. rewrite <- Hh3 in Hx.
        destruct (lookup_lt_is_Some_2 h2 0) as [t Ht]; [lia|].
        apply (swo_le_trans _ HW) with t; [|by apply HR2].
        apply elem_of_list_lookup in Hx as [k Hk].
        assert (heap_in comp h2 0 n 0) as Hin.
        { rewrite <- Hsl2 in HH2. rewrite Hsl2 in HH2. intros i j a b Hc _ Hj Ha Hb. eapply HH2; eauto. }
        apply (heap_root_greatest comp HW h2 0 n ltac:(lia) Hin k); [|done|done].
        apply lookup_lt_Some in Hk. lia.
  Qed.
End sort.
