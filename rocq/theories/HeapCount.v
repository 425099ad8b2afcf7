(** HeapCount.v — how many comparisons the heap algorithms and partial_sort make. *)
From Verif Require Import Base Spec Facts AlgoHeap AlgoHeapProofs AlgoHeapAny AlgoCost AlgoNonMod AlgoMod AlgoSort DListCount.
From stdpp Require Import list.

(** ** the functions of AlgoHeap.v and AlgoSort.v once more, also returning how often [comp] was called *)
Section counted.
  Context {A : Type} (comp : A -> A -> bool).
  Implicit Types m : list A.
  (** c_heap.c 45-95 *)
  Fixpoint percolate_down_n (fuel : nat) m (first len hole : nat) : res (list A * nat) :=
    match fuel with
    | 0 => NoFuel
    | S fuel' =>
      let left := get_left hole in
      do (sw1, c1) <- (if left <? len then
                   do h <- rd m (first + hole); do a <- rd m (first + left);
                   Ok (if comp h a then left else hole, 1)
                 else Ok (hole, 0));
      let right := get_right hole in
      do (sw2, c2) <- (if right <? len then
                   do s <- rd m (first + sw1); do b <- rd m (first + right);
                   Ok (if comp s b then right else sw1, 1)
                 else Ok (sw1, 0));
      if negb (sw2 =? hole) then
        do m' <- swp m (first + hole) (first + sw2);
        do (m'', n) <- percolate_down_n fuel' m' first len sw2; Ok (m'', c1 + c2 + n)
      else Ok (m, c1 + c2)
    end.
  (** c_heap.c 97-111 *)
  Fixpoint heapify_loop_n m (first len k : nat) : res (list A * nat) :=
    match k with
    | 0 => Ok (m, 0)
    | S hole => do (m', c) <- percolate_down_n (S (length m)) m first len hole;
                do (m'', n) <- heapify_loop_n m' first len hole; Ok (m'', c + n)
    end.
  (** c_heap.c 299-314 *)
  Definition algo_make_heap_by_n m (first last : nat) : res (list A * nat) :=
    if last - first <? 2 then Ok (m, 0)
    else heapify_loop_n m first (last - first) (S (get_parent (last - first - 1))).
  (** c_heap.c 207-217 *)
  Fixpoint push_heap_loop_n (fuel : nat) m (first hole : nat) (value : A) : res (list A * nat * nat) :=
    match fuel with
    | 0 => NoFuel
    | S fuel' =>
      if 0 <? hole then
        let parent := get_parent hole in
        do p <- rd m (first + parent);
        if comp p value then do m' <- wr m (first + hole) p; do (r, n) <- push_heap_loop_n fuel' m' first parent value; Ok (r, S n)
        else Ok (m, hole, 1)
      else Ok (m, hole, 0)
    end.
  (** c_heap.c 186-227 *)
  Definition algo_push_heap_by_n m (first last : nat) : res (list A * nat) :=
    if last - first <? 2 then Ok (m, 0)
    else do value <- rd m (last - 1);
         do (m', hole, n) <- push_heap_loop_n (S (length m)) m first (last - 1 - first) value;
         do m'' <- wr m' (first + hole) value; Ok (m'', n).
  (** c_heap.c 252-290 *)
  Fixpoint pop_heap_loop_n (fuel : nat) m (first last_index hole : nat) : res (list A * nat) :=
    match fuel with
    | 0 => NoFuel
    | S fuel' =>
      let left := get_left hole in
      let right := get_right hole in
      if left <? last_index then
        do h <- rd m (first + hole); do a <- rd m (first + left);
        if right <? last_index then
          do b <- rd m (first + right);
          if comp a b then
            if comp h b then
              do m' <- swp m (first + hole) (first + right);
              do (r, n) <- pop_heap_loop_n fuel' m' first last_index right; Ok (r, 2 + n)
            else Ok (m, 2)
          else
            if comp h a then
              do m' <- swp m (first + hole) (first + left);
              do (r, n) <- pop_heap_loop_n fuel' m' first last_index left; Ok (r, 2 + n)
            else Ok (m, 2)
        else
          if comp h a then
            do m' <- swp m (first + hole) (first + left);
            do (r, n) <- pop_heap_loop_n fuel' m' first last_index left; Ok (r, 1 + n)
          else Ok (m, 1)
      else Ok (m, 0)
    end.
  (** c_heap.c 229-297 *)
  Definition algo_pop_heap_by_n m (first last : nat) : res (list A * nat) :=
    if last - first <? 2 then Ok (m, 0)
    else do m' <- swp m first (last - 1);
         pop_heap_loop_n (S (length m)) m' first (last - 1 - first) 0.
  (** c_heap.c 328-331 *)
  Fixpoint sort_heap_loop_n (fuel : nat) m (first last : nat) : res (list A * nat) :=
    match fuel with
    | 0 => NoFuel
    | S fuel' =>
      if first =? last then Ok (m, 0)
      else do (m', c) <- algo_pop_heap_by_n m first last;
           do (m'', n) <- sort_heap_loop_n fuel' m' first (last - 1); Ok (m'', c + n)
    end.
  (** c_heap.c 316-334 *)
  Definition algo_sort_heap_by_n m (first last : nat) : res (list A * nat) :=
    if last - first <? 2 then Ok (m, 0) else sort_heap_loop_n (S (length m)) m first last.
  (** c_sorting.c 390-397 *)
  Fixpoint partial_sort_loop_n (fuel : nat) m (first middle i last : nat) : res (list A * nat) :=
    match fuel with
    | 0 => NoFuel
    | S fuel' =>
      if i =? last then Ok (m, 0)
      else do x <- rd m i; do y <- rd m first;
           if comp x y then
             do (m1, c1) <- algo_pop_heap_by_n m first middle;
             do m2 <- swp m1 (middle - 1) i;
             do (m3, c3) <- algo_push_heap_by_n m2 first middle;
             do (m4, n) <- partial_sort_loop_n fuel' m3 first middle (S i) last; Ok (m4, 1 + c1 + c3 + n)
           else do (m4, n) <- partial_sort_loop_n fuel' m first middle (S i) last; Ok (m4, S n)
    end.
  (** c_sorting.c 367-405 *)
  Definition algo_partial_sort_by_n m (first middle last : nat) : res (list A * nat) :=
    if first =? middle then Ok (m, 0)
    else do (m1, c1) <- algo_make_heap_by_n m first middle;
         do (m2, c2) <- partial_sort_loop_n (S (length m)) m1 first middle middle last;
         do (m3, c3) <- algo_sort_heap_by_n m2 first middle; Ok (m3, c1 + c2 + c3).

  (** c_sorting.c 448-455 *)
  Fixpoint psc_select_n (fuel : nat) m (d_first d i last : nat) : res (list A * nat) :=
    match fuel with
    | 0 => NoFuel
    | S fuel' =>
      if i =? last then Ok (m, 0)
      else do x <- rd m i; do y <- rd m d_first;
           if comp x y then
             do (m1, c1) <- algo_pop_heap_by_n m d_first d;
             do x' <- rd m1 i;
             do m2 <- wr m1 (d - 1) x';
             do (m3, c3) <- algo_push_heap_by_n m2 d_first d;
             do (m4, n) <- psc_select_n fuel' m3 d_first d (S i) last; Ok (m4, 1 + c1 + c3 + n)
           else do (m4, n) <- psc_select_n fuel' m d_first d (S i) last; Ok (m4, S n)
    end.
  (** c_sorting.c 431-468 *)
  Definition algo_partial_sort_copy_by_n m (first last d_first d_last : nat) : res (list A * nat * nat * nat) :=
    if (first =? last) || (d_first =? d_last) then Ok (m, d_first, 0, 0)
    else do (mid, n) <- psc_copy (S (length m)) m first last d_first d_last 0;
         let '(m1, i, d) := mid in
         do (m2, c2) <- algo_make_heap_by_n m1 d_first d;
         do (m3, c3) <- psc_select_n (S (length m)) m2 d_first d i last;
         do (m4, c4) <- algo_sort_heap_by_n m3 d_first d;
         Ok (m4, d, n, c2 + c3 + c4).

  (** these are the functions of the model *)
  Ltac er := repeat match goal with
    | |- context [rbind (rd ?m ?i)] => destruct (rd m i) as [?| |]; cbn [rbind erase]; [|done..]
    | |- context [rbind (swp ?m ?i ?j)] => destruct (swp m i j) as [?| |]; cbn [rbind erase]; [|done..]
    | |- context [rbind (wr ?m ?i ?j)] => destruct (wr m i j) as [?| |]; cbn [rbind erase]; [|done..]
    end.
  Lemma erase_then {B} (r : res (B * nat)) k : erase (do (x, n) <- r; Ok (x, k n)) = erase r.
  Proof. by destruct r as [[??]| |]. Qed.
  Lemma erase_perc fuel : forall m first len hole, erase (percolate_down_n fuel m first len hole) = percolate_down comp fuel m first len hole.
  Proof.
    induction fuel as [|f IH]; intros *; cbn [percolate_down percolate_down_n]; [done|].
    assert (Hgo : forall sw c, erase (if negb (sw =? hole) then
        do m' <- swp m (first + hole) (first + sw); do (m'', n) <- percolate_down_n f m' first len sw; Ok (m'', c + n) else Ok (m, c))
      = if negb (sw =? hole) then do m' <- swp m (first + hole) (first + sw); percolate_down comp f m' first len sw else Ok m).
    { intros sw c. destruct (negb (sw =? hole)); [|done]. er. by rewrite erase_then, IH. }
    destruct (get_left hole <? len); cbn [rbind]; er; (destruct (get_right hole <? len); cbn [rbind]; er; apply Hgo).
  Qed.
  Lemma erase_heapify first len k : forall m, erase (heapify_loop_n m first len k) = heapify_loop comp m first len k.
  Proof.
    induction k as [|k IH]; intros *; cbn [heapify_loop heapify_loop_n]; [done|]. rewrite <- erase_perc.
    destruct (percolate_down_n _ _ _ _ _) as [[m1 c]| |]; cbn [rbind erase]; [|done..]. by rewrite erase_then, IH.
  Qed.
  Lemma erase_make m f l : erase (algo_make_heap_by_n m f l) = algo_make_heap_by comp m f l.
  Proof. unfold algo_make_heap_by, algo_make_heap_by_n, heapify. destruct (l - f <? 2); [done|apply erase_heapify]. Qed.
  Lemma erase_push_loop fuel : forall m first hole v, erase (push_heap_loop_n fuel m first hole v) = push_heap_loop comp fuel m first hole v.
  Proof.
    induction fuel as [|f IH]; intros *; cbn [push_heap_loop push_heap_loop_n]; [done|]. destruct (0 <? hole); [|done]. er.
    destruct (comp _ v); [|done]. er. by rewrite erase_then, IH.
  Qed.
  Lemma erase_push m f l : erase (algo_push_heap_by_n m f l) = algo_push_heap_by comp m f l.
  Proof.
    unfold algo_push_heap_by, algo_push_heap_by_n. destruct (l - f <? 2); [done|]. er. rewrite <- erase_push_loop.
    destruct (push_heap_loop_n _ _ _ _ _) as [[[m1 h1] c]| |]; cbn [rbind erase]; [|done..]. by destruct (wr m1 (f + h1) _).
  Qed.
  Lemma erase_pop_loop fuel : forall m first len hole, erase (pop_heap_loop_n fuel m first len hole) = pop_heap_loop comp fuel m first len hole.
  Proof.
    induction fuel as [|f IH]; intros *; cbn [pop_heap_loop pop_heap_loop_n]; [done|]. destruct (get_left hole <? len); [|done]. er.
    destruct (get_right hole <? len); er; repeat match goal with |- context [if comp ?x ?y then _ else _] => destruct (comp x y) end;
      try done; er; by rewrite erase_then, IH.
  Qed.
  Lemma erase_pop m f l : erase (algo_pop_heap_by_n m f l) = algo_pop_heap_by comp m f l.
  Proof. unfold algo_pop_heap_by, algo_pop_heap_by_n. destruct (l - f <? 2); [done|]. er. apply erase_pop_loop. Qed.
  Lemma erase_sort_heap_loop fuel : forall m f l, erase (sort_heap_loop_n fuel m f l) = sort_heap_loop comp fuel m f l.
  Proof.
    induction fuel as [|fu IH]; intros *; cbn [sort_heap_loop sort_heap_loop_n]; [done|]. destruct (f =? l); [done|].
    rewrite <- erase_pop. destruct (algo_pop_heap_by_n m f l) as [[m1 c]| |]; cbn [rbind erase]; [|done..]. by rewrite erase_then, IH.
  Qed.
  Lemma erase_sort_heap m f l : erase (algo_sort_heap_by_n m f l) = algo_sort_heap_by comp m f l.
  Proof. unfold algo_sort_heap_by, algo_sort_heap_by_n. destruct (l - f <? 2); [done|apply erase_sort_heap_loop]. Qed.
  Lemma erase_ps_loop fuel : forall m f mid i l, erase (partial_sort_loop_n fuel m f mid i l) = partial_sort_loop comp fuel m f mid i l.
  Proof.
    induction fuel as [|fu IH]; intros *; cbn [partial_sort_loop partial_sort_loop_n]; [done|]. destruct (i =? l); [done|]. er.
    destruct (comp _ _).
    - rewrite <- erase_pop. destruct (algo_pop_heap_by_n m f mid) as [[m1 c]| |]; cbn [rbind erase]; [|done..]. er.
      rewrite <- erase_push. destruct (algo_push_heap_by_n _ f mid) as [[m3 c3]| |]; cbn [rbind erase]; [|done..]. by rewrite erase_then, IH.
    - by rewrite erase_then, IH.
  Qed.
  Lemma erase_partial_sort m f mid l : erase (algo_partial_sort_by_n m f mid l) = algo_partial_sort_by comp m f mid l.
  Proof.
    unfold algo_partial_sort_by, algo_partial_sort_by_n. destruct (f =? mid); [done|]. rewrite <- erase_make.
    destruct (algo_make_heap_by_n _ f mid) as [[m1 c1]| |]; cbn [rbind erase]; [|done..]. rewrite <- erase_ps_loop.
    destruct (partial_sort_loop_n _ _ _ _ _ _) as [[m2 c2]| |]; cbn [rbind erase]; [|done..]. rewrite <- erase_sort_heap.
    by destruct (algo_sort_heap_by_n _ f mid) as [[m3 c3]| |].
  Qed.
  Lemma erase_psc_select fuel : forall m f d i l, erase (psc_select_n fuel m f d i l) = psc_select comp fuel m f d i l.
  Proof.
    induction fuel as [|fu IH]; intros *; cbn [psc_select psc_select_n]; [done|]. destruct (i =? l); [done|]. er.
    destruct (comp _ _).
    - rewrite <- erase_pop. destruct (algo_pop_heap_by_n m f d) as [[m1 c]| |]; cbn [rbind erase]; [|done..]. er.
      rewrite <- erase_push. destruct (algo_push_heap_by_n _ f d) as [[m3 c3]| |]; cbn [rbind erase]; [|done..]. by rewrite erase_then, IH.
    - by rewrite erase_then, IH.
  Qed.
  Lemma erase_psc m f l d dl : erase (algo_partial_sort_copy_by_n m f l d dl) = algo_partial_sort_copy_by comp m f l d dl.
  Proof.
    unfold algo_partial_sort_copy_by, algo_partial_sort_copy_by_n. destruct (_ || _); [done|].
    destruct (psc_copy _ _ _ _ _ _ _) as [[[[m1 i] d'] n]| |]; cbn [rbind]; [|done..]. rewrite <- erase_make.
    destruct (algo_make_heap_by_n _ d d') as [[m2 c2]| |]; cbn [rbind erase]; [|done..]. rewrite <- erase_psc_select.
    destruct (psc_select_n _ _ _ _ _ _) as [[m3 c3]| |]; cbn [rbind erase]; [|done..]. rewrite <- erase_sort_heap.
    by destruct (algo_sort_heap_by_n _ d d') as [[m4 c4]| |].
  Qed.
End counted.

(** ** the numbers: a hole [i] of a heap of [n] elements is [log2 (n / (i + 1))] levels above the leaves *)
Fixpoint heights (n k : nat) : nat := match k with 0 => 0 | S i => Nat.log2 (n / S i) + heights n i end.
Lemma heights_ext n n' k : (forall i, i < k -> n / S i = n' / S i) -> heights n k = heights n' k.
Proof. induction k as [|k IH]; intros H; cbn [heights]; [done|]. rewrite (H k), IH by (intros; try apply H; lia). done. Qed.
Lemma log2_half q : 2 <= q -> Nat.log2 q = S (Nat.log2 (q / 2)).
Proof.
  intros H. pose proof (div2_le q) as Hd. apply Nat.log2_unique; [lia|].
  pose proof (Nat.log2_spec (q / 2) ltac:(lia)) as [H1 H2]. cbn [Nat.pow] in *. lia.
Qed.
Lemma heights_step n k : k <= n / 2 -> heights n k = k + heights (n / 2) k.
Proof.
  induction k as [|k IH]; intros Hk; cbn [heights]; [done|]. rewrite IH by lia.
  assert (2 <= n / S k) as H2. { apply Nat.div_le_lower_bound; [lia|]. pose proof (div2_le n). lia. }
  rewrite (log2_half (n / S k)) by done. rewrite (Nat.div_div n (S k) 2), (Nat.mul_comm (S k) 2), <- Nat.div_div by lia. lia.
Qed.
Lemma heights_zero n k : n / 2 <= k -> heights n k = heights n (n / 2).
Proof.
  induction k as [|k IH]; intros Hk. { by replace (n / 2) with 0 by lia. }
  destruct (decide (n / 2 = S k)) as [->|]; [done|]. cbn [heights]. rewrite IH by lia.
  assert (n / S k < 2) by (apply Nat.div_lt_upper_bound; [lia|]; pose proof (div2_le n); lia).
  assert (Nat.log2 (n / S k) = 0) as ->; [|done]. apply Nat.log2_null. lia.
Qed.
Lemma heights_le n k : heights n k <= n - 1.
Proof.
  assert (Hmain : forall n, heights n (n / 2) <= n - 1).
  { clear n k. intros n. induction (Wf_nat.lt_wf n) as [n _ IH]. destruct (decide (n < 2)) as [Hs|Hs].
    - destruct n as [|[|?]]; cbn; lia.
    - pose proof (div2_le n). rewrite heights_step by lia. rewrite (heights_zero (n / 2)) by (pose proof (div2_le (n / 2)); lia).
      specialize (IH (n / 2) ltac:(lia)). lia. }
  destruct (decide (n / 2 <= k)) as [H|H]; [by rewrite heights_zero|].
  etransitivity; [|apply Hmain]. assert (k <= n / 2) as Hk by lia. clear H. induction Hk as [|k' ? IH]; [done|].
  etransitivity; [exact IH|]. cbn [heights]. lia.
Qed.

Section bounds.
  Context {A : Type} (comp : A -> A -> bool).
  Implicit Types m : list A.
  Lemma perc_count f n d : forall fuel m hole m' c, n < S hole * 2 ^ S d -> percolate_down_n comp fuel m f n hole = Ok (m', c) -> c <= 2 * d.
  Proof.
    induction d as [|d IH]; intros fuel m hole m' c Hn E; (destruct fuel as [|fuel]; [done|]); cbn [percolate_down_n] in E.
    - cbn in Hn. unfold get_left, get_right in E. rewrite !(proj2 (Nat.ltb_ge _ _)) in E by lia. cbn [rbind] in E. rewrite Nat.eqb_refl in E.
      injection E as <- <-. lia.
    - apply rbind_Ok in E as ([sw1 c1]&E1&E). apply rbind_Ok in E as ([sw2 c2]&E2&E).
      assert (c1 <= 1 /\ hole <= sw1 /\ (sw1 <> hole -> sw1 = 2 * hole + 1)) as (Hc1&Hs1&Hs1').
      { unfold get_left in E1. destruct (_ <? n) in E1; [|injection E1 as <- <-; lia]. do 2 (apply rbind_Ok in E1 as (?&_&E1)).
        injection E1 as <- <-. destruct (comp _ _); lia. }
      assert (c2 <= 1 /\ hole <= sw2 /\ (sw2 <> hole -> 2 * hole + 1 <= sw2)) as (Hc2&Hs2&Hs2').
      { unfold get_right in E2. destruct (_ <? n) in E2; [|injection E2 as <- <-; lia]. do 2 (apply rbind_Ok in E2 as (?&_&E2)).
        injection E2 as <- <-. destruct (comp _ _); lia. }
      destruct (sw2 =? hole) eqn:Es; cbn [negb] in E; [injection E as <- <-; lia|]. apply Nat.eqb_neq in Es.
      apply rbind_Ok in E as (m1&_&E). apply rbind_Ok in E as ([m2 c3]&E3&E). injection E as <- <-.
      apply IH in E3; [lia|]. eapply Nat.lt_le_trans; [exact Hn|]. rewrite (Nat.pow_succ_r' 2 (S d)). specialize (Hs2' Es). nia.
  Qed.
  Lemma height_hole n i : n < S i * 2 ^ S (Nat.log2 (n / S i)).
  Proof.
    pose proof (Nat.div_mod n (S i) ltac:(lia)) as H. pose proof (Nat.mod_upper_bound n (S i) ltac:(lia)).
    assert (n / S i < 2 ^ S (Nat.log2 (n / S i))) as Hl.
    { generalize (n / S i). intros q. destruct q as [|q]; [cbn; lia|]. apply Nat.log2_spec. lia. }
    eapply Nat.lt_le_trans with (S i * S (n / S i)); [lia|]. apply Nat.mul_le_mono_l. lia.
  Qed.
  Lemma heapify_count f n k : forall m m' c, heapify_loop_n comp m f n k = Ok (m', c) -> c <= 2 * heights n k.
  Proof.
    induction k as [|k IH]; intros m m' c E; cbn [heapify_loop_n heights] in *; [injection E as <- <-; lia|].
    apply rbind_Ok in E as ([m1 c1]&E1&E). apply rbind_Ok in E as ([m2 c2]&E2&E). injection E as <- <-.
    apply IH in E2. apply (perc_count _ _ _ _ _ _ _ _ (height_hole n k)) in E1. lia.
  Qed.
  Lemma make_heap_count m f l m' c : algo_make_heap_by_n comp m f l = Ok (m', c) -> c <= 2 * (l - f - 1).
  Proof.
    unfold algo_make_heap_by_n. destruct (l - f <? 2) eqn:E; [by intros [= <- <-]; lia|]. intros E1%heapify_count.
    pose proof (heights_le (l - f) (S (get_parent (l - f - 1)))). lia.
  Qed.
  Lemma push_loop_count d : forall fuel m f hole v m' h' c, S hole < 2 ^ S d -> push_heap_loop_n comp fuel m f hole v = Ok (m', h', c) -> c <= d.
  Proof.
    induction d as [|d IH]; intros fuel m f hole v m' h' c Hn E; (destruct fuel as [|fuel]; [done|]); cbn [push_heap_loop_n] in E;
      (destruct (0 <? hole) eqn:E0; [apply Nat.ltb_lt in E0|injection E as <- <- <-; lia]).
    - cbn in Hn. lia.
    - apply rbind_Ok in E as (p&_&E). destruct (comp p v); [|injection E as <- <- <-; lia].
      apply rbind_Ok in E as (m1&_&E). apply rbind_Ok in E as ([[m2 h2] c2]&E2&E). injection E as <- <- <-.
      apply IH in E2; [lia|]. unfold get_parent. pose proof (div2_le (hole - 1)). rewrite (Nat.pow_succ_r' 2 (S d)) in Hn. lia.
  Qed.
  Lemma push_heap_count m f l m' c : algo_push_heap_by_n comp m f l = Ok (m', c) -> c <= Nat.log2 (l - f).
  Proof.
    unfold algo_push_heap_by_n. destruct (l - f <? 2) eqn:E; [by intros [= <- <-]; lia|]. intros H. apply Nat.ltb_ge in E.
    apply rbind_Ok in H as (v&_&H). apply rbind_Ok in H as ([[m1 h1] c1]&E1&H). apply rbind_Ok in H as (m2&_&H). injection H as <- <-.
    apply (push_loop_count (Nat.log2 (l - f))) in E1; [done|]. replace (S (l - 1 - f)) with (l - f) by lia. apply Nat.log2_spec. lia.
  Qed.
  Lemma pop_loop_count f n d : forall fuel m hole m' c, n < S hole * 2 ^ S d -> pop_heap_loop_n comp fuel m f n hole = Ok (m', c) -> c <= 2 * d.
  Proof.
    induction d as [|d IH]; intros fuel m hole m' c Hn E; (destruct fuel as [|fuel]; [done|]); cbn [pop_heap_loop_n] in E.
    - cbn in Hn. unfold get_left in E. rewrite (proj2 (Nat.ltb_ge _ _)) in E by lia. injection E as <- <-. lia.
    - destruct (get_left hole <? n); [|injection E as <- <-; lia]. apply rbind_Ok in E as (h&_&E). apply rbind_Ok in E as (a&_&E).
      assert (Hgo : forall ch k, 2 * hole + 1 <= ch -> k <= 2 ->
        (do m' <- swp m (f + hole) (f + ch); do (r, n0) <- pop_heap_loop_n comp fuel m' f n ch; Ok (r, k + n0)) = Ok (m', c) -> c <= 2 * S d).
      { intros ch k Hch Hk E'. apply rbind_Ok in E' as (m1&_&E'). apply rbind_Ok in E' as ([m2 c3]&E3&E'). injection E' as <- <-.
        apply IH in E3; [lia|]. eapply Nat.lt_le_trans; [exact Hn|]. rewrite (Nat.pow_succ_r' 2 (S d)). nia. }
      assert (2 * hole + 1 <= get_left hole /\ 2 * hole + 1 <= get_right hole) as [HL HR] by (unfold get_left, get_right; lia).
      destruct (get_right hole <? n).
      + apply rbind_Ok in E as (b&_&E). destruct (comp a b), (comp h b), (comp h a);
          first [injection E as <- <-; lia | eapply Hgo; [| |exact E]; lia].
      + destruct (comp h a); [|injection E as <- <-; lia]. eapply Hgo; [| |exact E]; lia.
  Qed.
  Lemma pop_heap_count m f l m' c : algo_pop_heap_by_n comp m f l = Ok (m', c) -> c <= 2 * Nat.log2 (l - f - 1).
  Proof.
    unfold algo_pop_heap_by_n. destruct (l - f <? 2) eqn:E; [by intros [= <- <-]; lia|]. intros H. apply Nat.ltb_ge in E.
    apply rbind_Ok in H as (m1&_&E1). apply (pop_loop_count f _ (Nat.log2 (l - f - 1))) in E1; [done|].
    rewrite Nat.mul_1_l. replace (l - 1 - f) with (l - f - 1) by lia. apply Nat.log2_spec. lia.
  Qed.
  Lemma sort_heap_loop_count f n : forall fuel m l m' c, l - f <= n -> sort_heap_loop_n comp fuel m f l = Ok (m', c) ->
    f <= l -> c <= (l - f) * (2 * Nat.log2 (n - 1)).
  Proof.
    induction fuel as [|fuel IH]; intros m l m' c Hn E Hf; cbn [sort_heap_loop_n] in E; [done|].
    destruct (f =? l) eqn:Ef; [injection E as <- <-; lia|]. apply Nat.eqb_neq in Ef.
    apply rbind_Ok in E as ([m1 c1]&E1&E). apply rbind_Ok in E as ([m2 c2]&E2&E). injection E as <- <-.
    apply IH in E2; [|lia|lia]. apply pop_heap_count in E1. pose proof (Nat.log2_le_mono (l - f - 1) (n - 1) ltac:(lia)).
    replace (l - f) with (S (l - 1 - f)) by lia. cbn [Nat.mul]. lia.
  Qed.
  Lemma sort_heap_count m f l m' c : algo_sort_heap_by_n comp m f l = Ok (m', c) -> c <= (l - f) * (2 * Nat.log2 (l - f - 1)).
  Proof.
    unfold algo_sort_heap_by_n. destruct (l - f <? 2) eqn:E; [by intros [= <- <-]; apply Nat.le_0_l|]. intros H. apply Nat.ltb_ge in E.
    eapply sort_heap_loop_count; [|exact H|]; lia.
  Qed.
  Lemma ps_loop_count f mid n l : forall fuel m i m' c, mid - f = n -> i <= l -> partial_sort_loop_n comp fuel m f mid i l = Ok (m', c) ->
    c <= (l - i) * (1 + 3 * Nat.log2 n).
  Proof.
    induction fuel as [|fuel IH]; intros m i m' c Hn Hi E; cbn [partial_sort_loop_n] in E; [done|].
    destruct (i =? l) eqn:Ef; [injection E as <- <-; lia|]. apply Nat.eqb_neq in Ef.
    apply rbind_Ok in E as (x&_&E). apply rbind_Ok in E as (y&_&E). replace (l - i) with (S (l - S i)) by lia. cbn [Nat.mul].
    destruct (comp x y).
    - apply rbind_Ok in E as ([m1 c1]&E1&E). apply rbind_Ok in E as (m2&_&E). apply rbind_Ok in E as ([m3 c3]&E3&E).
      apply rbind_Ok in E as ([m4 c4]&E4&E). injection E as <- <-. apply IH in E4; [|lia..].
      apply pop_heap_count in E1. apply push_heap_count in E3. pose proof (Nat.log2_le_mono (mid - f - 1) n ltac:(lia)).
      rewrite Hn in *. lia.
    - apply rbind_Ok in E as ([m4 c4]&E4&E). injection E as <- <-. apply IH in E4; [|lia..]. lia.
  Qed.
  Lemma partial_sort_count m f mid l m' c : mid <= l -> algo_partial_sort_by_n comp m f mid l = Ok (m', c) ->
    c <= 2 * (mid - f) + (l - mid) * (1 + 3 * Nat.log2 (mid - f)) + (mid - f) * (2 * Nat.log2 (mid - f)).
  Proof.
    intros Hl. unfold algo_partial_sort_by_n. destruct (f =? mid) eqn:Ef; [intros [= <- <-]; apply Nat.le_0_l|]. intros E.
    apply rbind_Ok in E as ([m1 c1]&E1&E). apply rbind_Ok in E as ([m2 c2]&E2&E). apply rbind_Ok in E as ([m3 c3]&E3&E). injection E as <- <-.
    apply make_heap_count in E1. apply (ps_loop_count _ _ (mid - f)) in E2; [|done..]. apply sort_heap_count in E3.
    pose proof (Nat.log2_le_mono (mid - f - 1) (mid - f) ltac:(lia)). nia.
  Qed.
  Lemma psc_select_count f d n l : forall fuel m i m' c, d - f = n -> i <= l -> psc_select_n comp fuel m f d i l = Ok (m', c) ->
    c <= (l - i) * (1 + 3 * Nat.log2 n).
  Proof.
    induction fuel as [|fuel IH]; intros m i m' c Hn Hi E; cbn [psc_select_n] in E; [done|].
    destruct (i =? l) eqn:Ef; [injection E as <- <-; lia|]. apply Nat.eqb_neq in Ef.
    apply rbind_Ok in E as (x&_&E). apply rbind_Ok in E as (y&_&E). replace (l - i) with (S (l - S i)) by lia. cbn [Nat.mul].
    destruct (comp x y).
    - apply rbind_Ok in E as ([m1 c1]&E1&E). apply rbind_Ok in E as (x'&_&E). apply rbind_Ok in E as (m2&_&E).
      apply rbind_Ok in E as ([m3 c3]&E3&E).
      apply rbind_Ok in E as ([m4 c4]&E4&E). injection E as <- <-. apply IH in E4; [|lia..].
      apply pop_heap_count in E1. apply push_heap_count in E3. pose proof (Nat.log2_le_mono (d - f - 1) n ltac:(lia)).
      rewrite Hn in *. lia.
    - apply rbind_Ok in E as ([m4 c4]&E4&E). injection E as <- <-. apply IH in E4; [|lia..]. lia.
  Qed.
  Lemma psc_copy_count (m : list A) fuel : forall i l d dl n m1 i1 d1 n1, psc_copy fuel m i l d dl n = Ok (m1, i1, d1, n1) -> i <= l -> i1 <= l /\ d1 - d = i1 - i /\ d <= d1 /\ i <= i1.
  Proof.
    revert m. induction fuel as [|fuel IH]; intros m i l d dl n m1 i1 d1 n1 E Hi; cbn [psc_copy] in E; [done|].
    destruct ((i =? l) || (d =? dl)) eqn:Eq; [injection E as <- <- <- <-; lia|]. apply orb_false_iff in Eq as [E1%Nat.eqb_neq _].
    apply rbind_Ok in E as (x&_&E). apply rbind_Ok in E as (m2&_&E). apply IH in E; lia.
  Qed.
  Lemma psc_count m f l d dl m' d' n c : f <= l -> algo_partial_sort_copy_by_n comp m f l d dl = Ok (m', d', n, c) ->
    let k := d' - d in c <= 2 * k + (l - f - k) * (1 + 3 * Nat.log2 k) + k * (2 * Nat.log2 k).
  Proof.
    intros Hl. unfold algo_partial_sort_copy_by_n. destruct (_ || _); [intros [= <- <- <- <-]; apply Nat.le_0_l|]. intros E.
    apply rbind_Ok in E as ([[[m1 i] d1] n1]&E0&E). apply rbind_Ok in E as ([m2 c2]&E2&E).
    apply rbind_Ok in E as ([m3 c3]&E3&E). apply rbind_Ok in E as ([m4 c4]&E4&E). injection E as <- <- <- <-. cbn zeta.
    apply psc_copy_count in E0 as (H1&H2&H3&H4); [|done].
    apply make_heap_count in E2. apply (psc_select_count _ _ (d1 - d)) in E3; [|done..]. apply sort_heap_count in E4.
    pose proof (Nat.log2_le_mono (d1 - d - 1) (d1 - d) ltac:(lia)). replace (l - f - (d1 - d)) with (l - i) by lia. nia.
  Qed.
End bounds.
