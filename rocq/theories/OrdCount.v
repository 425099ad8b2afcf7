(** OrdCount.v — how many comparisons the algorithms of AlgoOrd.v and the sortedness checks make. *)
From Verif Require Import Base Spec AlgoNonMod AlgoMod AlgoOrd AlgoSort AlgoCost DListCount HeapCount IntroCount.
From stdpp Require Import list.

Section counted.
  Context {A : Type} (comp : A -> A -> bool).
  Implicit Types m : list A.
  (** c_bsearch.c 48-60, 87-99: one comparison per round *)
  Fixpoint bsearch_loop_n (fuel : nat) (go : A -> bool) m (first count : nat) : res (nat * nat) :=
    match fuel with
    | 0 => NoFuel
    | S fuel' =>
      if count =? 0 then Ok (first, 0)
      else let step := count / 2 in
           let it := first + step in
           do x <- rd m it;
           if go x then do (r, c) <- bsearch_loop_n fuel' go m (S it) (count - (step + 1)); Ok (r, S c)
           else do (r, c) <- bsearch_loop_n fuel' go m first step; Ok (r, S c)
    end.
  (** c_bsearch.c 30-67 *)
  Definition algo_lower_bound_by_n m (first last : nat) (value : A) : res (nat * nat) :=
    bsearch_loop_n (S (length m)) (fun x => comp x value) m first (last - first).
  (** c_bsearch.c 69-106 *)
  Definition algo_upper_bound_by_n m (first last : nat) (value : A) : res (nat * nat) :=
    bsearch_loop_n (S (length m)) (fun x => negb (comp value x)) m first (last - first).
  (** c_bsearch.c 108-127 *)
  Definition algo_binary_search_by_n m (first last : nat) (value : A) : res (bool * nat) :=
    do (i, c) <- algo_lower_bound_by_n m first last value;
    if i =? last then Ok (false, c) else do x <- rd m i; Ok (negb (comp value x), S c).
  (** c_bsearch.c 129-146 *)
  Definition algo_equal_range_by_n m (first last : nat) (value : A) : res (nat * nat * nat) :=
    do (lo, c) <- algo_lower_bound_by_n m first last value;
    do (hi, d) <- algo_upper_bound_by_n m first last value;
    Ok (lo, hi, c + d).

  (** c_min_max.c 75-82 *)
  Fixpoint max_loop_n (fuel : nat) m (i last mx : nat) : res (nat * nat) :=
    match fuel with
    | 0 => NoFuel
    | S fuel' =>
      if i =? last then Ok (mx, 0)
      else if S i =? last then max_loop_n fuel' m (S i) last mx
           else do x <- rd m mx; do y <- rd m (S i);
                do (r, c) <- max_loop_n fuel' m (S i) last (if comp x y then S i else mx); Ok (r, S c)
    end.
  Definition algo_max_element_by_n m (first last : nat) : res (nat * nat) :=
    max_loop_n (S (length m)) m first last first.
  (** c_min_max.c 106-113 *)
  Fixpoint min_loop_n (fuel : nat) m (i last mn : nat) : res (nat * nat) :=
    match fuel with
    | 0 => NoFuel
    | S fuel' =>
      if i =? last then Ok (mn, 0)
      else if S i =? last then min_loop_n fuel' m (S i) last mn
           else do y <- rd m (S i); do x <- rd m mn;
                do (r, c) <- min_loop_n fuel' m (S i) last (if comp y x then S i else mn); Ok (r, S c)
    end.
  Definition algo_min_element_by_n m (first last : nat) : res (nat * nat) :=
    min_loop_n (S (length m)) m first last first.
  (** c_min_max.c 141-152 *)
  Fixpoint minmax_loop_n (fuel : nat) m (i last mn mx : nat) : res (nat * nat * nat) :=
    match fuel with
    | 0 => NoFuel
    | S fuel' =>
      if i =? last then Ok (mn, mx, 0)
      else if S i =? last then minmax_loop_n fuel' m (S i) last mn mx
           else do y <- rd m (S i); do x <- rd m mn; do z <- rd m mx;
                do (r, c) <- minmax_loop_n fuel' m (S i) last (if comp y x then S i else mn) (if comp z y then S i else mx); Ok (r, 2 + c)
    end.
  Definition algo_minmax_element_by_n m (first last : nat) : res (nat * nat * nat) :=
    minmax_loop_n (S (length m)) m first last first first.
  (** c_min_max.c 193-203 *)
  Fixpoint lex_loop_n (fuel : nat) m (i1 last1 i2 last2 : nat) : res (nat * nat * bool * nat) :=
    match fuel with
    | 0 => NoFuel
    | S fuel' =>
      if (i1 =? last1) || (i2 =? last2) then Ok (i1, i2, false, 0)
      else do x <- rd m i1; do y <- rd m i2;
           if comp x y then Ok (i1, i2, true, 1)
           else if comp y x then Ok (i1, i2, false, 2)
           else do (r, c) <- lex_loop_n fuel' m (S i1) last1 (S i2) last2; Ok (r, 2 + c)
    end.
  Definition algo_lexicographical_compare_by_n m (first1 last1 first2 last2 : nat) : res (bool * nat) :=
    do (i12r, c) <- lex_loop_n (S (length m)) m first1 last1 first2 last2;
    let '(i1, i2, ret) := i12r in
    Ok (if (i1 =? last1) && negb (i2 =? last2) then true else ret, c).

  (** the loops of c_set_op.c; [step] also gives the number of comparisons it made *)
  Fixpoint zip_loop_n (fuel : nat) (step : A -> A -> finger * nat) m (i1 last1 i2 last2 d n : nat)
      : res (list A * nat * nat * nat * nat * nat) :=
    match fuel with
    | 0 => NoFuel
    | S fuel' =>
      if (i1 =? last1) || (i2 =? last2) then Ok (m, i1, i2, d, n, 0)
      else do x <- rd m i1; do y <- rd m i2;
           let k := (step x y).2 in
           match (step x y).1 with
           | Emit1_Adv1 => do m' <- wr m d x; do (r, c) <- zip_loop_n fuel' step m' (S i1) last1 i2 last2 (S d) (S n); Ok (r, k + c)
           | Emit2_Adv2 => do m' <- wr m d y; do (r, c) <- zip_loop_n fuel' step m' i1 last1 (S i2) last2 (S d) (S n); Ok (r, k + c)
           | Emit1_AdvBoth => do m' <- wr m d x; do (r, c) <- zip_loop_n fuel' step m' (S i1) last1 (S i2) last2 (S d) (S n); Ok (r, k + c)
           | Skip1 => do (r, c) <- zip_loop_n fuel' step m (S i1) last1 i2 last2 d n; Ok (r, k + c)
           | Skip2 => do (r, c) <- zip_loop_n fuel' step m i1 last1 (S i2) last2 d n; Ok (r, k + c)
           | SkipBoth => do (r, c) <- zip_loop_n fuel' step m (S i1) last1 (S i2) last2 d n; Ok (r, k + c)
           end
    end.
  (** c_set_op.c 56-63 *)
  Definition merge_step_n (x y : A) : finger * nat := if comp x y then (Emit1_Adv1, 1) else (Emit2_Adv2, 1).
  (** c_set_op.c 137-146 *)
  Definition difference_step_n (x y : A) : finger * nat := if comp x y then (Emit1_Adv1, 1) else (SkipBoth, 1).
  (** c_set_op.c 180-192 *)
  Definition intersection_step_n (x y : A) : finger * nat :=
    if comp x y then (Skip1, 1) else if comp y x then (Skip2, 2) else (Emit1_AdvBoth, 2).
  (** c_set_op.c 224-239 *)
  Definition symdiff_step_n (x y : A) : finger * nat :=
    if comp x y then (Emit1_Adv1, 1) else if comp y x then (Emit2_Adv2, 2) else (SkipBoth, 2).
  (** c_set_op.c 274-292 *)
  Definition union_step_n (x y : A) : finger * nat :=
    if comp x y then (Emit1_Adv1, 1) else if comp y x then (Emit2_Adv2, 2) else (Emit1_AdvBoth, 2).
  (** copying what is left compares nothing: c_set_op.c 68-69, 149, 243-244, 296-297 *)
  Definition zip_then_copy_n (step : A -> A -> finger * nat) (copy1 copy2 : bool)
      m (first1 last1 first2 last2 d_first : nat) : res (list A * nat * nat * nat) :=
    do (mi12dn, c) <- zip_loop_n (S (2 * length m)) step m first1 last1 first2 last2 d_first 0;
    let '(m1, i1, i2, d, n) := mi12dn in
    do (m2d2, k2) <- (if copy1 then algo_copy m1 i1 last1 d else Ok (m1, d, 0));
    do (m3d3, k3) <- (if copy2 then algo_copy m2d2.1 i2 last2 m2d2.2 else Ok (m2d2.1, m2d2.2, 0));
    Ok (m3d3.1, m3d3.2, n + k2 + k3, c).
  (** c_set_op.c 31-73 *)
  Definition algo_merge_by_n := zip_then_copy_n merge_step_n true true.
  (** c_set_op.c 113-154 *)
  Definition algo_set_difference_by_n := zip_then_copy_n difference_step_n true false.
  (** c_set_op.c 156-198 *)
  Definition algo_set_intersection_by_n := zip_then_copy_n intersection_step_n false false.
  (** c_set_op.c 200-248 *)
  Definition algo_set_symmetric_difference_by_n := zip_then_copy_n symdiff_step_n true true.
  (** c_set_op.c 250-301 *)
  Definition algo_set_union_by_n := zip_then_copy_n union_step_n true true.
  (** c_set_op.c 93-104 *)
  Fixpoint includes_loop_n (fuel : nat) m (i1 last1 i2 last2 : nat) : res (nat * nat) :=
    match fuel with
    | 0 => NoFuel
    | S fuel' =>
      if (i1 =? last1) || (i2 =? last2) then Ok (i2, 0)
      else do x <- rd m i1; do y <- rd m i2;
           if comp y x then Ok (i2, 1)
           else if comp x y then do (r, c) <- includes_loop_n fuel' m (S i1) last1 i2 last2; Ok (r, 2 + c)
           else do (r, c) <- includes_loop_n fuel' m (S i1) last1 (S i2) last2; Ok (r, 2 + c)
    end.
  Definition algo_includes_by_n m (first1 last1 first2 last2 : nat) : res (bool * nat) :=
    if first2 =? last2 then Ok (true, 0)
    else do (i2, c) <- includes_loop_n (S (length m)) m first1 last1 first2 last2;
         Ok (i2 =? last2, c).
  (** c_sorting.c 331-338 *)
  Fixpoint sorted_until_loop_n (fuel : nat) m (i next last : nat) : res (option nat * nat) :=
    match fuel with
    | 0 => NoFuel
    | S fuel' =>
      if next =? last then Ok (None, 0)
      else do x <- rd m next; do y <- rd m i;
           if comp x y then Ok (Some i, 1) else do (r, c) <- sorted_until_loop_n fuel' m (S i) (S next) last; Ok (r, S c)
    end.
  Definition algo_is_sorted_until_by_n m (first last : nat) : res (nat * nat) :=
    if first =? last then Ok (last, 0)
    else do (r, c) <- sorted_until_loop_n (S (length m)) m first (S first) last;
         Ok (match r with None => last | Some i => i end, c).
  (** c_sorting.c 287-307 *)
  Definition algo_is_sorted_by_n m (first last : nat) : res (bool * nat) :=
    do (u, c) <- algo_is_sorted_until_by_n m first last; Ok (u =? last, c).

  (** ** these are the functions of the model *)
  Ltac rds := repeat match goal with |- context [rbind (rd ?m ?i)] => destruct (rd m i) as [?| |]; cbn [rbind erase]; [|done..] end.
  Ltac via L := rewrite <- L; match goal with |- context [rbind ?r] => destruct r as [[? ?]| |] end; cbn [rbind erase]; [|done..].
  Lemma erase_bsearch fuel go m : forall f c, erase (bsearch_loop_n fuel go m f c) = bsearch_loop fuel go m f c.
  Proof.
    induction fuel as [|fu IH]; intros *; cbn [bsearch_loop bsearch_loop_n]; [done|]. destruct (c =? 0); [done|]. rds.
    destruct (go _); by rewrite erase_then, IH.
  Qed.
  Lemma erase_alower m f l v : erase (algo_lower_bound_by_n m f l v) = algo_lower_bound_by comp m f l v.
  Proof. apply erase_bsearch. Qed.
  Lemma erase_aupper m f l v : erase (algo_upper_bound_by_n m f l v) = algo_upper_bound_by comp m f l v.
  Proof. apply erase_bsearch. Qed.
  Lemma erase_abinary m f l v : erase (algo_binary_search_by_n m f l v) = algo_binary_search_by comp m f l v.
  Proof.
    unfold algo_binary_search_by, algo_binary_search_by_n. rewrite <- erase_alower.
    destruct (algo_lower_bound_by_n m f l v) as [[i c]| |]; cbn [rbind erase]; [|done..]. destruct (i =? l); [done|]. by rds.
  Qed.
  Lemma erase_aequal m f l v : erase (algo_equal_range_by_n m f l v) = algo_equal_range_by comp m f l v.
  Proof.
    unfold algo_equal_range_by, algo_equal_range_by_n. rewrite <- erase_alower, <- erase_aupper.
    destruct (algo_lower_bound_by_n m f l v) as [[i c]| |]; cbn [rbind erase]; [|done..]. by destruct (algo_upper_bound_by_n m f l v) as [[j d]| |].
  Qed.
  Lemma erase_max m f l : erase (algo_max_element_by_n m f l) = algo_max_element_by comp m f l.
  Proof.
    unfold algo_max_element_by, algo_max_element_by_n.
    assert (forall fu i g, erase (max_loop_n fu m i l g) = max_loop comp fu m i l g) as H; [|apply H].
    induction fu as [|fu IH]; intros i g; cbn [max_loop max_loop_n]; [done|]. destruct (i =? l); [done|]. destruct (S i =? l); [apply IH|]. rds. by rewrite erase_then, IH.
  Qed.
  Lemma erase_min m f l : erase (algo_min_element_by_n m f l) = algo_min_element_by comp m f l.
  Proof.
    unfold algo_min_element_by, algo_min_element_by_n.
    assert (forall fu i g, erase (min_loop_n fu m i l g) = min_loop comp fu m i l g) as H; [|apply H].
    induction fu as [|fu IH]; intros i g; cbn [min_loop min_loop_n]; [done|]. destruct (i =? l); [done|]. destruct (S i =? l); [apply IH|]. rds. by rewrite erase_then, IH.
  Qed.
  Lemma erase_minmax_loop m l fu : forall i mn mx, erase (minmax_loop_n fu m i l mn mx) = minmax_loop comp fu m i l mn mx.
  Proof.
    induction fu as [|fu IH]; intros *; cbn [minmax_loop minmax_loop_n]; [done|]. destruct (i =? l); [done|]. destruct (S i =? l); [apply IH|]. rds. by rewrite erase_then, IH.
  Qed.
  Lemma erase_lex m f1 l1 f2 l2 : erase (algo_lexicographical_compare_by_n m f1 l1 f2 l2) = algo_lexicographical_compare_by comp m f1 l1 f2 l2.
  Proof.
    unfold algo_lexicographical_compare_by, algo_lexicographical_compare_by_n.
    assert (forall fu i1 i2, erase (lex_loop_n fu m i1 l1 i2 l2) = lex_loop comp fu m i1 l1 i2 l2) as H.
    { induction fu as [|fu IH]; intros *; cbn [lex_loop lex_loop_n]; [done|]. destruct (_ || _); [done|]. rds.
      destruct (comp _ _); [done|]. destruct (comp _ _); [done|]. by rewrite erase_then, IH. }
    rewrite <- H. by destruct (lex_loop_n _ _ _ _ _ _) as [[[[? ?] ?] ?]| |].
  Qed.
  Lemma erase_zip_loop stepn step (Hs : forall x y, (stepn x y).1 = step x y) fu : forall m i1 l1 i2 l2 d n,
    erase (zip_loop_n fu stepn m i1 l1 i2 l2 d n) = zip_loop fu step m i1 l1 i2 l2 d n.
  Proof.
    induction fu as [|fu IH]; intros *; cbn [zip_loop zip_loop_n]; [done|]. destruct (_ || _); [done|]. rds. rewrite Hs.
    destruct (step _ _); try (destruct (wr _ _ _) as [?| |]; cbn [rbind erase]; [|done..]); by rewrite erase_then, IH.
  Qed.
  Lemma erase_zip stepn step b1 b2 m f1 l1 f2 l2 d : (forall x y, (stepn x y).1 = step x y) ->
    erase (zip_then_copy_n stepn b1 b2 m f1 l1 f2 l2 d) = zip_then_copy step b1 b2 m f1 l1 f2 l2 d.
  Proof.
    intros Hs. unfold zip_then_copy, zip_then_copy_n. rewrite <- (erase_zip_loop stepn step Hs).
    destruct (zip_loop_n _ _ _ _ _ _ _ _ _) as [[[[[[m1 i1] i2] d1] n1] c]| |]; cbn [rbind erase]; [|done..].
    destruct (if b1 then _ else _) as [[p k]| |]; cbn [rbind erase]; [|done..]. by destruct (if b2 then _ else _) as [[p' k']| |].
  Qed.
  Lemma step_merge x y : (merge_step_n x y).1 = merge_step comp x y.
  Proof. unfold merge_step, merge_step_n. by destruct (comp x y). Qed.
  Lemma step_difference x y : (difference_step_n x y).1 = difference_step comp x y.
  Proof. unfold difference_step, difference_step_n. by destruct (comp x y). Qed.
  Lemma step_intersection x y : (intersection_step_n x y).1 = intersection_step comp x y.
  Proof. unfold intersection_step, intersection_step_n. destruct (comp x y); [done|]. by destruct (comp y x). Qed.
  Lemma step_symdiff x y : (symdiff_step_n x y).1 = symdiff_step comp x y.
  Proof. unfold symdiff_step, symdiff_step_n. destruct (comp x y); [done|]. by destruct (comp y x). Qed.
  Lemma step_union x y : (union_step_n x y).1 = union_step comp x y.
  Proof. unfold union_step, union_step_n. destruct (comp x y); [done|]. by destruct (comp y x). Qed.
  Lemma erase_includes m f1 l1 f2 l2 : erase (algo_includes_by_n m f1 l1 f2 l2) = algo_includes_by comp m f1 l1 f2 l2.
  Proof.
    unfold algo_includes_by, algo_includes_by_n. destruct (f2 =? l2); [done|].
    assert (forall fu i1 i2, erase (includes_loop_n fu m i1 l1 i2 l2) = includes_loop comp fu m i1 l1 i2 l2) as H.
    { induction fu as [|fu IH]; intros *; cbn [includes_loop includes_loop_n]; [done|]. destruct (_ || _); [done|]. rds.
      destruct (comp _ _); [done|]. destruct (comp _ _); by rewrite erase_then, IH. }
    rewrite <- H. by destruct (includes_loop_n _ _ _ _ _ _) as [[? ?]| |].
  Qed.
  Lemma erase_sorted_until m f l : erase (algo_is_sorted_until_by_n m f l) = algo_is_sorted_until_by comp m f l.
  Proof.
    unfold algo_is_sorted_until_by, algo_is_sorted_until_by_n. destruct (f =? l); [done|].
    assert (forall fu i n, erase (sorted_until_loop_n fu m i n l) = sorted_until_loop comp fu m i n l) as H.
    { induction fu as [|fu IH]; intros *; cbn [sorted_until_loop sorted_until_loop_n]; [done|]. destruct (n =? l); [done|]. rds.
      destruct (comp _ _); [done|]. by rewrite erase_then, IH. }
    rewrite <- H. by destruct (sorted_until_loop_n _ _ _ _ _) as [[? ?]| |].
  Qed.
  Lemma erase_is_sorted m f l : erase (algo_is_sorted_by_n m f l) = algo_is_sorted_by comp m f l.
  Proof.
    unfold algo_is_sorted_by, algo_is_sorted_by_n. rewrite <- erase_sorted_until. by destruct (algo_is_sorted_until_by_n _ _ _) as [[? ?]| |].
  Qed.

  (** ** bounds *)
  Ltac rec E := apply rbind_Ok in E as ([? ?]&E&[= <- <-]).
  Ltac one E := apply rbind_Ok in E as (?&_&E).
  (** log2 n + 1 for n > 0, and 0 for n = 0 *)
  Definition probes (n : nat) : nat := if n =? 0 then 0 else S (Nat.log2 n).
  Lemma probes_mono a b : a <= b -> probes a <= probes b.
  Proof.
    unfold probes. intros H. destruct (Nat.eqb_spec a 0), (Nat.eqb_spec b 0); try lia. pose proof (Nat.log2_le_mono a b H). lia.
  Qed.
  Lemma probes_half n : n <> 0 -> S (probes (n / 2)) = probes n.
  Proof.
    intros H. unfold probes. rewrite (proj2 (Nat.eqb_neq n 0)) by done. destruct (decide (n = 1)) as [->|]; [done|].
    pose proof (div2_le n). rewrite (proj2 (Nat.eqb_neq (n / 2) 0)) by lia. by rewrite (log2_half n) by lia.
  Qed.
  Lemma bsearch_n_bound go m : forall fu f c r n, bsearch_loop_n fu go m f c = Ok (r, n) -> n <= probes c.
  Proof.
    induction fu as [|fu IH]; intros * E; cbn [bsearch_loop_n] in E; [done|]. destruct (Nat.eqb_spec c 0) as [->|Hc]; [injection E as <- <-; lia|].
    cbv zeta in E. apply rbind_Ok in E as (x&_&E). pose proof (probes_half c Hc) as Hp. pose proof (div2_le c) as Hd.
    pose proof (probes_mono (c - (c / 2 + 1)) (c / 2) ltac:(lia)).
    destruct (go x); apply rbind_Ok in E as ([? ?]&E&[= <- <-]); apply IH in E; lia.
  Qed.
  Lemma max_n_bound m l : forall fu i mx r n, i <= l -> max_loop_n fu m i l mx = Ok (r, n) -> n <= l - i - 1.
  Proof.
    induction fu as [|fu IH]; intros * Hi E; cbn [max_loop_n] in E; [done|]. destruct (Nat.eqb_spec i l); [injection E as <- <-; lia|].
    destruct (Nat.eqb_spec (S i) l); [apply IH in E; lia|]. one E. one E. rec E. apply IH in E; lia.
  Qed.
  Lemma min_n_bound m l : forall fu i mx r n, i <= l -> min_loop_n fu m i l mx = Ok (r, n) -> n <= l - i - 1.
  Proof.
    induction fu as [|fu IH]; intros * Hi E; cbn [min_loop_n] in E; [done|]. destruct (Nat.eqb_spec i l); [injection E as <- <-; lia|].
    destruct (Nat.eqb_spec (S i) l); [apply IH in E; lia|]. one E. one E. rec E. apply IH in E; lia.
  Qed.
  Lemma minmax_n_bound m l : forall fu i mn mx r n, i <= l -> minmax_loop_n fu m i l mn mx = Ok (r, n) -> n <= 2 * (l - i - 1).
  Proof.
    induction fu as [|fu IH]; intros * Hi E; cbn [minmax_loop_n] in E; [done|]. destruct (Nat.eqb_spec i l); [injection E as <- <-; lia|].
    destruct (Nat.eqb_spec (S i) l); [apply IH in E; lia|]. one E. one E. one E. rec E. apply IH in E; lia.
  Qed.
  Lemma lex_n_bound m l1 l2 : forall fu i1 i2 r n, i1 <= l1 -> i2 <= l2 -> lex_loop_n fu m i1 l1 i2 l2 = Ok (r, n) ->
    n <= 2 * Nat.min (l1 - i1) (l2 - i2).
  Proof.
    induction fu as [|fu IH]; intros * H1 H2 E; cbn [lex_loop_n] in E; [done|].
    destruct (Nat.eqb_spec i1 l1); [injection E as <- <-; lia|]. destruct (Nat.eqb_spec i2 l2); [injection E as <- <-; lia|]. cbn [orb] in E.
    one E. one E. destruct (comp _ _); [injection E as <- <-; lia|]. destruct (comp _ _); [injection E as <- <-; lia|]. rec E. apply IH in E; lia.
  Qed.
  Lemma mul_step j k c e f : j <= k -> c <= k * e -> S e <= f -> j + c <= k * f.
  Proof. intros. transitivity (k * S e); [lia|]. by apply Nat.mul_le_mono_l. Qed.
  Lemma zip_n_bound step k l1 l2 (Hk : forall x y, (step x y).2 <= k) : forall fu m i1 i2 d n r c, i1 <= l1 -> i2 <= l2 ->
    zip_loop_n fu step m i1 l1 i2 l2 d n = Ok (r, c) -> c <= k * ((l1 - i1) + (l2 - i2) - 1).
  Proof.
    induction fu as [|fu IH]; intros * H1 H2 E; cbn [zip_loop_n] in E; [done|].
    destruct (Nat.eqb_spec i1 l1); [injection E as <- <-; apply Nat.le_0_l|].
    destruct (Nat.eqb_spec i2 l2); [rewrite orb_true_r in E; injection E as <- <-; apply Nat.le_0_l|].
    cbn [orb] in E. apply rbind_Ok in E as (x&_&E). apply rbind_Ok in E as (y&_&E). cbv zeta in E. pose proof (Hk x y) as Hxy.
    destruct (step x y).1.
    - one E. rec E. apply IH in E; [|lia..]. eapply mul_step; [done|exact E|lia].
    - one E. rec E. apply IH in E; [|lia..]. eapply mul_step; [done|exact E|lia].
    - one E. rec E. apply IH in E; [|lia..]. eapply mul_step; [done|exact E|lia].
    - rec E. apply IH in E; [|lia..]. eapply mul_step; [done|exact E|lia].
    - rec E. apply IH in E; [|lia..]. eapply mul_step; [done|exact E|lia].
    - rec E. apply IH in E; [|lia..]. eapply mul_step; [done|exact E|lia].
  Qed.
  Lemma zip_copy_n_bound step k b1 b2 m f1 l1 f2 l2 d r c : (forall x y, (step x y).2 <= k) -> f1 <= l1 -> f2 <= l2 ->
    zip_then_copy_n step b1 b2 m f1 l1 f2 l2 d = Ok (r, c) -> c <= k * ((l1 - f1) + (l2 - f2) - 1).
  Proof.
    intros Hk H1 H2 E. unfold zip_then_copy_n in E. apply rbind_Ok in E as ([[[[[m1 i1] i2] d1] n1] c1]&E1&E).
    apply rbind_Ok in E as ([? ?]&_&E). apply rbind_Ok in E as ([? ?]&_&E). injection E as <- <-. by eapply zip_n_bound.
  Qed.
  Lemma includes_n_bound m l1 l2 : forall fu i1 i2 r n, i1 <= l1 -> i2 <= l2 -> includes_loop_n fu m i1 l1 i2 l2 = Ok (r, n) -> n <= 2 * (l1 - i1).
  Proof.
    induction fu as [|fu IH]; intros * H1 H2 E; cbn [includes_loop_n] in E; [done|].
    destruct (Nat.eqb_spec i1 l1); [injection E as <- <-; lia|]. destruct (Nat.eqb_spec i2 l2); [injection E as <- <-; lia|]. cbn [orb] in E.
    one E. one E. destruct (comp _ _); [injection E as <- <-; lia|]. destruct (comp _ _); rec E; apply IH in E; lia.
  Qed.
  Lemma sorted_until_n_bound m l : forall fu i n r c, n <= l -> sorted_until_loop_n fu m i n l = Ok (r, c) -> c <= l - n.
  Proof.
    induction fu as [|fu IH]; intros * Hi E; cbn [sorted_until_loop_n] in E; [done|]. destruct (Nat.eqb_spec n l); [injection E as <- <-; lia|].
    one E. one E. destruct (comp _ _); [injection E as <- <-; lia|]. rec E. apply IH in E; lia.
  Qed.
End counted.
