(** AlgoSortAny.v — the sorting algorithms and the operations on two ranges with an arbitrary comparison function, on
    arbitrary ranges: what stays true without a strict weak order. *)
From Verif Require Import Base Spec Facts AlgoNonMod AlgoMod AlgoModProofs AlgoHeap AlgoHeapProofs AlgoHeapAny AlgoSort
  AlgoSortProofs AlgoOrd AlgoSetProofs.
From stdpp Require Import list.

Section any.
  Context {A : Type} (comp : A -> A -> bool).
  Implicit Types m : list A.

  Lemma linear_sort_any (pre s post : list A) v : s <> [] ->
    exists s', Permutation (s ++ [v]) s' /\
      linear_sort comp (pre ++ s ++ v :: post) (length pre) (length pre + length s) = Ok (pre ++ s' ++ post).
  Proof.
    intros Hne. unfold linear_sort. destruct s as [|a s]; [done|]. clear Hne.
    assert (rd (pre ++ (a :: s) ++ v :: post) (length pre + length (a :: s)) = Ok v) as ->.
    { rewrite app_assoc. apply rd_at. by rewrite app_length. }
    assert (rd (pre ++ (a :: s) ++ v :: post) (length pre) = Ok a) as -> by (by apply rd_at).
    cbn [rbind]. destruct (comp v a) eqn:E.
    - exists (v :: a :: s). split; [by rewrite <- Permutation_cons_append|].
      rewrite copy_backward_ok.
      + cbn [rbind fst]. replace (S (length pre + length (a :: s)) - (length pre + length (a :: s) - length pre))
          with (S (length pre)) by lia.
        assert (slice (pre ++ (a :: s) ++ v :: post) (length pre) (length pre + length (a :: s)) = a :: s) as ->
          by apply slice_app.
        replace (pre ++ (a :: s) ++ v :: post) with ((pre ++ [a]) ++ (s ++ [v]) ++ post) by (by applist).
        replace (S (length pre)) with (length (pre ++ [a])) by (rewrite app_length; cbn; lia).
        rewrite patch_app by (rewrite app_length; cbn; lia).
        replace ((pre ++ [a]) ++ (a :: s) ++ post) with (pre ++ a :: (a :: s) ++ post) by (by applist).
        by rewrite wr_at.
      + split; [lia|]. rewrite !app_length. cbn. lia.
      + rewrite !app_length. cbn. lia.
      + lia.
    - destruct (unguarded_linear_tmp comp v (a :: s) (S (length (pre ++ (a :: s) ++ v :: post))) pre v post a)
        as [s1 [y [s2 [Hs [Hy [H2 HE]]]]]].
      + rewrite !app_length. cbn. lia.
      + set_solver.
      + done.
      + exists (s1 ++ y :: v :: s2). split; [|rewrite HE; by applist].
        rewrite Hs, <- app_assoc. apply Permutation_app_head. cbn. constructor. by rewrite <- Permutation_cons_append.
  Qed.
  Lemma insertion_loop_any : forall (rest : list A) fuel (pre s post : list A), length rest < fuel -> s <> [] ->
    exists s', insertion_loop comp fuel (pre ++ s ++ rest ++ post) (length pre) (length pre + length s)
        (length pre + length s + length rest) = Ok (pre ++ s' ++ post) /\ Permutation (s ++ rest) s'.
  Proof.
    induction rest as [|v rest IH]; intros fuel pre s post Hf Hne; (destruct fuel as [|fuel]; [lia|]); cbn [insertion_loop].
    - cbn [length]. rewrite Nat.add_0_r, Nat.eqb_refl. exists s. by rewrite app_nil_r.
    - cbn [length] in *. rewrite (proj2 (Nat.eqb_neq _ _)) by lia.
      destruct (linear_sort_any pre s (rest ++ post) v Hne) as [s1 [Hp HE]]. cbn [app]. rewrite HE. cbn [rbind].
      assert (length s1 = S (length s)) as Hl1.
      { rewrite <- (Permutation_length Hp), app_length. cbn. lia. }
      destruct (IH fuel pre s1 post) as [s2 [HE2 Hp2]]; [lia|by destruct s1|].
      exists s2. split.
      + rewrite <- HE2. f_equal; lia.
      + rewrite <- Hp2, <- Hp. by rewrite <- app_assoc.
  Qed.
  Lemma insertion_sort_any m f l : range m f l -> exists m', insertion_sort comp m f l = Ok m' /\ permutes m m' f l.
  Proof.
    intros H. unfold insertion_sort. destruct (f =? l) eqn:E; [exists m; split; [done|apply permutes_refl]|].
    destruct (range_split m f l H) as [pre [s [post [Hm [Hf [Hl [Hs _]]]]]]].
    destruct s as [|a s]; [cbn in Hl; lia|].
    destruct (insertion_loop_any s (S (length m)) pre [a] post) as [s' [HE Hp]]; [rewrite Hm, !app_length; cbn; lia|done|].
    assert (length s' = length (a :: s)) as Hlen by (symmetry; apply (Permutation_length Hp)).
    assert (Hsl : slice (pre ++ s' ++ post) f l = s').
    { rewrite Hf. replace l with (length pre + length s') by lia. apply slice_app. }
    exists (pre ++ s' ++ post). split.
    - rewrite <- HE. rewrite Hm. f_equal; cbn; cbn in Hl; lia.
    - split; [rewrite Hm, !app_length; lia|]. split.
      + intros k Hk. rewrite Hm. destruct (decide (k < f)).
        * rewrite !lookup_app_l by lia. done.
        * rewrite !(lookup_app_r pre) by lia. rewrite !lookup_app_r by lia. f_equal. lia.
      + by rewrite Hsl, Hs.
  Qed.
  Lemma sort_small_any m f l : range m f l -> l - f <= 512 ->
    exists m', algo_sort_by comp m f l = Ok m' /\ permutes m m' f l.
  Proof.
    intros H Hn. unfold algo_sort_by. destruct (f =? l) eqn:E; [exists m; split; [done|apply permutes_refl]|].
    rewrite introspective_small by (unfold threshold; lia). cbn [rbind]. unfold final_insertion_sort.
    rewrite (proj2 (Nat.ltb_ge threshold (l - f))) by (unfold threshold; lia). by apply insertion_sort_any.
  Qed.

  (** a comparator that says "less" whatever it is asked runs past the end *)
  Lemma scan_up_all (m : list A) p : (forall x, comp x p = true) -> forall fuel i, i <= length m -> length m < i + fuel -> scan_up comp fuel m i p = UB.
  Proof.
    intros Hc. induction fuel as [|fuel IH]; intros i Hi Hf; cbn [scan_up]; [lia|]. unfold rd.
    destruct (m !! i) as [x|] eqn:E; [|done]. cbn [rbind]. rewrite Hc. apply lookup_lt_Some in E. apply IH; lia.
  Qed.

  Lemma partial_sort_loop_any f mid l : f < mid -> forall fuel m i, range m f l -> mid <= i <= l -> l - i < fuel ->
    exists m', partial_sort_loop comp fuel m f mid i l = Ok m' /\ permutes m m' f l.
  Proof.
    intros Hfm. induction fuel as [|fuel IH]; intros m i [R1 R2] Hi Hf; [lia|]. cbn [partial_sort_loop].
    destruct (i =? l) eqn:E; [exists m; split; [done|apply permutes_refl]|].
    destruct (rd_lt m i) as (x&Hx&->); [lia|]. destruct (rd_lt m f) as (y&Hy&->); [lia|]. cbn [rbind].
    destruct (comp x y).
    - destruct (pop_heap_any comp m f mid) as (m1&z&->&P1&_); [split; lia|lia|]. cbn [rbind].
      pose proof (permutes_mono m m1 f mid f l (conj R1 R2)) as Q1. specialize (Q1 ltac:(lia) ltac:(lia) ltac:(lia) P1).
      pose proof (proj1 Q1) as L1.
      destruct (swp_any m1 f (l - f) (mid - 1 - f) (i - f)) as (m2&HE2&P2); [lia|lia|lia|].
      replace (f + (mid - 1 - f)) with (mid - 1) in HE2 by lia. replace (f + (i - f)) with i in HE2 by lia. rewrite HE2. cbn [rbind].
      replace (f + (l - f)) with l in P2 by lia. pose proof (proj1 P2) as L2.
      destruct (push_heap_any comp m2 f mid) as (m3&->&P3); [split; lia|]. cbn [rbind].
      pose proof (permutes_mono m2 m3 f mid f l) as Q3. specialize (Q3 ltac:(split; lia) ltac:(lia) ltac:(lia) ltac:(lia) P3).
      pose proof (proj1 Q3) as L3.
      destruct (IH m3 (S i)) as (m4&->&P4); [split; lia|lia|lia|]. exists m4. split; [done|].
      eapply permutes_trans; [exact Q1|]. eapply permutes_trans; [exact P2|]. by eapply permutes_trans.
    - apply IH; [split; lia|lia|lia].
  Qed.
  Lemma partial_sort_any m f mid l : range m f l -> f <= mid <= l ->
    exists m', algo_partial_sort_by comp m f mid l = Ok m' /\ permutes m m' f l.
  Proof.
    intros [R1 R2] Hm. unfold algo_partial_sort_by. destruct (f =? mid) eqn:E; [exists m; split; [done|apply permutes_refl]|].
    destruct (make_heap_any comp m f mid) as (m1&->&P1); [split; lia|]. cbn [rbind].
    pose proof (permutes_mono m m1 f mid f l (conj R1 R2) ltac:(lia) ltac:(lia) ltac:(lia) P1) as Q1. pose proof (proj1 Q1) as L1.
    destruct (partial_sort_loop_any f mid l ltac:(lia) (S (length m)) m1 mid) as (m2&->&P2); [split; lia|lia|lia|]. cbn [rbind].
    pose proof (proj1 P2) as L2.
    destruct (sort_heap_any comp m2 f mid) as (m3&->&P3); [split; lia|]. exists m3. split; [done|].
    pose proof (permutes_mono m2 m3 f mid f l ltac:(split; lia) ltac:(lia) ltac:(lia) ltac:(lia) P3) as Q3.
    eapply permutes_trans; [exact Q1|]. by eapply permutes_trans.
  Qed.

  (** operations on two ranges *)
  Lemma zip_submseteq step c1 c2 : forall l1 l2 : list A, AlgoSetProofs.zip step c1 c2 l1 l2 ⊆+ l1 ++ l2.
  Proof.
    apply zip_ind2.
    - intros l2. rewrite zip_nil_l. destruct c2; [done|apply submseteq_nil_l].
    - intros x l1. rewrite zip_nil_r. rewrite app_nil_r. destruct c1; [done|apply submseteq_nil_l].
    - intros x l1 y l2 H1 H2 H3. rewrite zip_cons. destruct (step x y).
      + cbn. by apply submseteq_skip.
      + rewrite <- Permutation_middle. by apply submseteq_skip.
      + cbn. apply submseteq_skip. rewrite <- Permutation_middle. by apply submseteq_cons.
      + cbn. by apply submseteq_cons.
      + rewrite <- Permutation_middle. by apply submseteq_cons.
      + cbn. apply submseteq_cons. rewrite <- Permutation_middle. by apply submseteq_cons.
  Qed.
  Lemma zip_sublist_first step c1 : (forall x y, match step x y with Emit2_Adv2 => False | _ => True end) ->
    forall l1 l2 : list A, AlgoSetProofs.zip step c1 false l1 l2 `sublist_of` l1.
  Proof.
    intros Hs. apply zip_ind2.
    - intros l2. rewrite zip_nil_l. done.
    - intros x l1. rewrite zip_nil_r. destruct c1; [done|apply sublist_nil_l].
    - intros x l1 y l2 H1 H2 H3. rewrite zip_cons. specialize (Hs x y). destruct (step x y); try done.
      + by apply sublist_skip.
      + by apply sublist_skip.
      + by apply sublist_cons.
      + by apply sublist_cons.
  Qed.
End any.
