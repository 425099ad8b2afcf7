(** AlgoHeapAny.v — the heap algorithms with an arbitrary comparison function, on an arbitrary range: they stay
    inside the range and only permute it. *)
From Verif Require Import Base Spec Facts AlgoHeap AlgoHeapProofs.

Section any.
  Context {A : Type} (comp : A -> A -> bool).
  Implicit Types m : list A.

  Lemma swp_any m f n i j : f + n <= length m -> i < n -> j < n ->
    exists m', swp m (f + i) (f + j) = Ok m' /\ permutes m m' f (f + n).
  Proof.
    intros HL Hi Hj. destruct (permutes_swp m f (f + n) (f + i) (f + j)) as (m'&x&y&Hs&_&_&_&HP); [split; lia|lia|lia|].
    by exists m'.
  Qed.
  Lemma percolate_any f n : forall fuel m hole, f + n <= length m -> hole < n -> n - hole < fuel ->
    exists m', percolate_down comp fuel m f n hole = Ok m' /\ permutes m m' f (f + n).
  Proof.
    induction fuel as [|fuel IH]; intros m hole HL Hn Hf; [lia|]. cbn [percolate_down].
    set (left := get_left hole). set (right := get_right hole).
    assert (left = 2 * hole + 1) as Hleft by (unfold left, get_left; lia).
    assert (right = 2 * hole + 2) as Hright by (unfold right, get_right; lia).
    clearbody left right.
    assert (exists sw1, (if left <? n then do h <- rd m (f + hole); do a <- rd m (f + left); Ok (if comp h a then left else hole)
      else Ok hole) = Ok sw1 /\ hole <= sw1 < n) as (sw1&->&H1).
    { destruct (left <? n) eqn:E; [|by exists hole]. destruct (rd_lt m (f + hole)) as [h [_ ->]]; [lia|].
      destruct (rd_lt m (f + left)) as [a [_ ->]]; [lia|]. cbn [rbind]. eexists. split; [done|]. destruct (comp h a); lia. }
    cbn [rbind].
    assert (exists sw2, (if right <? n then do s <- rd m (f + sw1); do b <- rd m (f + right); Ok (if comp s b then right else sw1)
      else Ok sw1) = Ok sw2 /\ hole <= sw2 < n) as (sw2&->&H2).
    { destruct (right <? n) eqn:E; [|by exists sw1]. destruct (rd_lt m (f + sw1)) as [h [_ ->]]; [lia|].
      destruct (rd_lt m (f + right)) as [a [_ ->]]; [lia|]. cbn [rbind]. eexists. split; [done|]. destruct (comp h a); lia. }
    cbn [rbind]. destruct (sw2 =? hole) eqn:E; [exists m; split; [done|apply permutes_refl]|].
    destruct (swp_any m f n hole sw2 HL Hn ltac:(lia)) as (m1&->&HP). cbn [rbind].
    destruct (IH m1 sw2) as (m2&HE&HP2); [rewrite (proj1 HP); lia|lia|lia|].
    exists m2. split; [done|]. by eapply permutes_trans.
  Qed.
  Lemma heapify_any f n : forall k m, f + n <= length m -> k <= n ->
    exists m', heapify_loop comp m f n k = Ok m' /\ permutes m m' f (f + n).
  Proof.
    induction k as [|k IH]; intros m HL Hk; [exists m; split; [done|apply permutes_refl]|]. cbn [heapify_loop].
    destruct (percolate_any f n (S (length m)) m k) as (m1&->&HP); [lia..|]. cbn [rbind].
    destruct (IH m1) as (m2&HE&HP2); [rewrite (proj1 HP); lia|lia|]. exists m2. split; [done|]. by eapply permutes_trans.
  Qed.
  Lemma make_heap_any m f l : range m f l -> exists m', algo_make_heap_by comp m f l = Ok m' /\ permutes m m' f l.
  Proof.
    intros [H1 H2]. unfold algo_make_heap_by. destruct (l - f <? 2) eqn:E; [exists m; split; [done|apply permutes_refl]|].
    unfold heapify. destruct (heapify_any f (l - f) (S (get_parent (l - f - 1))) m) as (m'&->&HP); [lia| |].
    - unfold get_parent. pose proof (Nat.div_mod (l - f - 1 - 1) 2). lia.
    - exists m'. split; [done|]. by replace (f + (l - f)) with l in HP by lia.
  Qed.
  Lemma push_loop_any f n v : forall fuel m hole, f + n <= length m -> hole < n -> hole < fuel ->
    exists m' h', push_heap_loop comp fuel m f hole v = Ok (m', h') /\ h' < n /\ length m' = length m /\
      permutes (<[f + hole := v]> m) (<[f + h' := v]> m') f (f + n).
  Proof.
    induction fuel as [|fuel IH]; intros m hole HL Hn Hf; [lia|]. cbn [push_heap_loop].
    destruct (0 <? hole) eqn:E; [|exists m, hole; split; [done|split; [done|split; [done|apply permutes_refl]]]].
    set (parent := get_parent hole).
    assert (parent < hole) as Hph.
    { unfold parent, get_parent. pose proof (Nat.div_mod (hole - 1) 2). lia. }
    clearbody parent. destruct (rd_lt m (f + parent)) as [p [Hpv ->]]; [lia|]. cbn [rbind].
    destruct (comp p v); [|exists m, hole; split; [done|split; [done|split; [done|apply permutes_refl]]]].
    rewrite wr_Ok by lia. cbn [rbind].
    set (M := <[f + hole:=v]> m). set (M' := <[f + parent:=v]> (<[f + hole:=p]> m)).
    assert (HP : permutes M M' f (f + n)).
    { destruct (permutes_swp M f (f + n) (f + hole) (f + parent)) as [m2 [x [y [_ [Hx [Hy [Hm2 HP]]]]]]];
        [unfold M; split; rewrite ?insert_length; lia|lia|lia|].
      unfold M in Hx, Hy. rewrite list_lookup_insert in Hx by lia. rewrite list_lookup_insert_ne in Hy by lia.
      rewrite Hpv in Hy. injection Hx as <-. injection Hy as <-.
      replace M' with m2; [done|]. rewrite Hm2. unfold M, M'. by rewrite list_insert_insert. }
    destruct (IH (<[f + hole:=p]> m) parent) as (m2&h2&HE&Hh2&HL2&HP2); [rewrite insert_length; lia|lia|lia|].
    exists m2, h2. split; [done|]. split; [done|]. split; [by rewrite HL2, insert_length|]. by eapply permutes_trans.
  Qed.
  Lemma push_heap_any m f l : range m f l -> exists m', algo_push_heap_by comp m f l = Ok m' /\ permutes m m' f l.
  Proof.
    intros [H1 H2]. unfold algo_push_heap_by. destruct (l - f <? 2) eqn:E; [exists m; split; [done|apply permutes_refl]|].
    destruct (rd_lt m (l - 1)) as [v [Hv ->]]; [lia|]. cbn [rbind].
    assert (<[f + (l - 1 - f) := v]> m = m) as Hid.
    { apply list_insert_id. by replace (f + (l - 1 - f)) with (l - 1) by lia. }
    destruct (push_loop_any f (l - f) v (S (length m)) m (l - 1 - f)) as (m'&h'&->&Hh&HL&HP); [lia..|]. cbn [rbind].
    rewrite wr_Ok by lia. eexists. split; [done|]. rewrite Hid in HP. by replace (f + (l - f)) with l in HP by lia.
  Qed.
  Lemma pop_loop_any f n : forall fuel m hole, f + n <= length m -> (hole < n \/ hole = 0) -> n - hole < fuel ->
    exists m', pop_heap_loop comp fuel m f n hole = Ok m' /\ permutes m m' f (f + n).
  Proof.
    induction fuel as [|fuel IH]; intros m hole HL Hn Hf; [lia|].
    cbn [pop_heap_loop]. set (left := get_left hole). set (right := get_right hole).
    assert (left = 2 * hole + 1) as Hleft by (unfold left, get_left; lia).
    assert (right = 2 * hole + 2) as Hright by (unfold right, get_right; lia).
    clearbody left right.
    assert (exists m', Ok m = Ok m' /\ permutes m m' f (f + n)) as Hstop by (exists m; split; [done|apply permutes_refl]).
    assert (Hgo : forall c, hole < c -> c < n ->
      exists m', (do m' <- swp m (f + hole) (f + c); pop_heap_loop comp fuel m' f n c) = Ok m' /\ permutes m m' f (f + n)).
    { intros c Hc Hcn. destruct (swp_any m f n hole c HL ltac:(lia) Hcn) as (m1&->&HP). cbn [rbind].
      destruct (IH m1 c) as (m2&HE&HP2); [rewrite (proj1 HP); lia|lia|lia|]. exists m2. split; [done|]. by eapply permutes_trans. }
    destruct (left <? n) eqn:E1; [|done].
    destruct (rd_lt m (f + hole)) as [h [_ ->]]; [lia|]. destruct (rd_lt m (f + left)) as [a [_ ->]]; [lia|]. cbn [rbind].
    destruct (right <? n) eqn:E2.
    - destruct (rd_lt m (f + right)) as [b [_ ->]]; [lia|]. cbn [rbind].
      destruct (comp a b); [destruct (comp h b)|destruct (comp h a)]; [apply Hgo; lia|done|apply Hgo; lia|done].
    - destruct (comp h a); [apply Hgo; lia|done].
  Qed.
  Lemma pop_heap_any m f l : range m f l -> f < l ->
    exists m' x, algo_pop_heap_by comp m f l = Ok m' /\ permutes m m' f l /\ m !! f = Some x /\ m' !! (l - 1) = Some x.
  Proof.
    intros [H1 H2] Hlt. destruct (rd_lt m f) as (x&Hx&_); [lia|]. unfold algo_pop_heap_by. destruct (l - f <? 2) eqn:E.
    { exists m, x. split; [done|]. split; [apply permutes_refl|]. split; [done|]. by replace (l - 1) with f by lia. }
    destruct (permutes_swp m f l f (l - 1)) as (m1&x'&y&->&Hx'&Hy&Hm1&HP); [split; lia|lia|lia|]. cbn [rbind].
    rewrite Hx in Hx'. injection Hx' as <-.
    destruct (pop_loop_any f (l - 1 - f) (S (length m)) m1 0) as (m2&HE&HP2); [rewrite (proj1 HP); lia|lia|lia|].
    replace (f + (l - 1 - f)) with (l - 1) in HP2 by lia.
    exists m2, x. split; [done|]. split; [|split; [done|]].
    - eapply permutes_trans; [exact HP|]. eapply (permutes_mono m1 m2 f (l - 1) f l); [split; rewrite ?(proj1 HP); lia|lia|lia|lia|done].
    - destruct HP2 as (_&Hout&_). rewrite Hout by lia. rewrite Hm1. apply list_lookup_insert. rewrite insert_length. lia.
  Qed.
  Lemma sort_loop_any f l : forall fuel m e, range m f l -> f <= e <= l -> e - f < fuel ->
    exists m', sort_heap_loop comp fuel m f e = Ok m' /\ permutes m m' f l.
  Proof.
    induction fuel as [|fuel IH]; intros m e [H1 H2] He Hf; [lia|]. cbn [sort_heap_loop].
    destruct (f =? e) eqn:E; [exists m; split; [done|apply permutes_refl]|].
    destruct (pop_heap_any m f e) as (m1&x&->&HP&_); [split; lia|lia|]. cbn [rbind].
    assert (permutes m m1 f l) as HP' by (apply (permutes_mono m m1 f e f l); [split; lia|lia|lia|lia|done]).
    destruct (IH m1 (e - 1)) as (m2&HE&HP2); [split; rewrite ?(proj1 HP'); lia|lia|lia|].
    exists m2. split; [done|]. by eapply permutes_trans.
  Qed.
  Lemma sort_heap_any m f l : range m f l -> exists m', algo_sort_heap_by comp m f l = Ok m' /\ permutes m m' f l.
  Proof.
    intros [H1 H2]. unfold algo_sort_heap_by. destruct (l - f <? 2) eqn:E; [exists m; split; [done|apply permutes_refl]|].
    apply sort_loop_any; [split; lia|lia|lia].
  Qed.
End any.
