(** IterHeapLift.v — the programs of IterHeap.v on vectors and deques. *)
From stdpp Require Import list gmap.
From Verif Require Import Base Spec Iter IterFlat IterWp IterWorld SpecIter SpecIterOrd IterWorldProofs IterLift Facts AlgoNonMod AlgoNonModProofs
  AlgoMod AlgoModProofs AlgoHeap AlgoHeapProofs AlgoSortProofs IterNonMod IterNonModProofs IterMod IterModProofs IterModProofs2 IterModProofs3 IterNonModLift IterModLift
  IterOrdProofs IterOrdLift IterLocals IterHeap IterHeapProofs.
From stdpp Require Import list.

Section lifted.
  Context {A : Type} {CK : Checked} `{Inhabited A}.
  Implicit Types (M : cmem A) (S : gmap iid cpos) (q : cont * list cpos * list A).

  (** what a program that works in place on one vector or deque may assume about flat memory *)
  Record site q (L : layout) (m : list A) (s : gmap iid nat) : Prop := {
    si_rng : forall a c, a <= c -> c <= length q.2 -> rng L a c;
    si_wr : forall a, a <= length q.2 -> writable L a;
    si_cat : forall a, a <= length q.2 -> flat_cat L a = Ok RANDOM;
    si_over : checked = false -> forall a, a <= length q.2 -> over L a;
    si_len : length q.2 <= length m }.
  Lemma own_run M S q first last i j xs {R : Type} (p : prog A R) v vs' : own_range M S q first last i j -> cat_of q.1.1 = RANDOM -> at_all S q xs ->
    length vs' = length q.2 ->
    (forall L m s, site q L m s -> s !! first = Some i -> s !! last = Some j -> (forall x k, (x, k) ∈ xs -> s !! x = Some k) ->
       fwp L p (patch m 0 q.2) s (makes s v (patch m 0 vs'))) ->
    exists M', exec (cworld A) p (M, S) v (M', S) /\ becomes M [(q, vs')] M'.
  Proof.
    intros HS Hcat Hxs Hv Hp. destruct (open_own _ _ _ _ _ _ _ xs HS Hxs) as (L&m&s&b&JW&J&HRO&Hrange&Hj&Hij&Hlen&Hsl&Hr&Hw&Hc&Hf&Hl&Hout&Hx).
    pose proof (ro_open1 _ _ _ _ _ _ _ _ _ _ _ _ HRO) as HO1.
    assert (patch m 0 q.2 = m) as Hm.
    { rewrite <- (ro_whole1 _ _ _ _ _ _ _ _ _ _ _ _ HRO). apply patch_self. split; lia. }
    destruct (one_plain M S q false L m s b JW J p v (patch m 0 vs') HRO) as (M'&He&Hb).
    { rewrite <- Hm at 1. apply Hp; [|done..]. split.
      - intros a c H1 H2. by apply (op_rng _ _ _ _ _ _ _ HO1 a c).
      - intros a Ha. by apply (op_mut _ _ _ _ _ _ _ HO1 a).
      - intros a Ha. rewrite <- Hcat. by apply (op_cateq _ _ _ _ _ _ _ HO1 a).
      - intros HC a Ha. apply (op_over _ _ _ _ _ _ _ HO1 a); [done|]. unfold strays. by rewrite HC, Hcat.
      - done. }
    exists M'. split; [done|].
    assert (slice (patch m 0 vs') 0 (length q.2) = vs') as Hs; [|by rewrite Hs in Hb].
    rewrite <- Hv. apply (slice_patch_same m 0 vs'). lia.
  Qed.
  Lemma own_permutes M S q first last i j {R : Type} (p : prog A R) v vs' : own_range M S q first last i j -> cat_of q.1.1 = RANDOM ->
    permutes q.2 vs' i j ->
    (forall L m s, site q L m s -> s !! first = Some i -> s !! last = Some j -> fwp L p (patch m 0 q.2) s (makes s v (patch m 0 vs'))) ->
    Permutation (slice q.2 i j) (slice vs' i j) /\ changes M S q i (slice vs' i j) p v.
  Proof.
    intros HS Hcat Hpm Hp. pose proof HS as (HM&HR&Hmu). pose proof Hpm as (Hlen&_&HP). split; [done|].
    pose proof (at_le _ _ _ _ _ HM (proj1 (proj2 HR))) as Hj. destruct (range_at _ _ _ _ _ _ HR) as [_ Hij].
    destruct (own_run M S q first last i j [] p v vs' HS Hcat ltac:(constructor) Hlen) as (M'&He&Hb).
    { intros. by apply Hp. }
    exists M'. split; [done|]. by rewrite <- (permutes_patch q.2 vs' i j ltac:(split; lia) Hpm).
  Qed.
  Lemma site_view q L m s : site q L m s -> view_of (patch m 0) 0.
  Proof. intros _. apply view_patch. lia. Qed.
  Lemma site_home q L m s f l : site q L m s -> f <= l -> l <= length q.2 -> home L 0 f l.
  Proof. intros HS Hf Hl. split; [by apply (si_rng _ _ _ _ HS)|]. split; [apply (si_wr _ _ _ _ HS); cbn; lia|apply (si_cat _ _ _ _ HS); cbn; lia]. Qed.
  Lemma own_bounds M S q first last i j : own_range M S q first last i j -> range q.2 i j /\ i <= j /\ j <= length q.2.
  Proof.
    intros (HM&HR&Hmu). pose proof (at_le _ _ _ _ _ HM (proj1 (proj2 HR))) as Hj. destruct (range_at _ _ _ _ _ _ HR) as [_ Hij].
    split; [split; lia|]. by split.
  Qed.

  Lemma make_heap_run M S q (comp : A -> A -> bool) first last i j : checked = false -> StrictWeakOrder comp -> own_range M S q first last i j -> cat_of q.1.1 = RANDOM ->
    exists l, Permutation (slice q.2 i j) l /\ max_heap comp l /\ changes M S q i l (make_heap_by_p comp first last) tt.
  Proof.
    intros HC HW HS Hcat. destruct (own_bounds _ _ _ _ _ _ _ HS) as (Hrange&Hij&Hj).
    destruct (make_heap_ok comp HW q.2 i j Hrange) as (vs'&H1&H2&H3). exists (slice vs' i j).
    destruct (own_permutes M S q first last i j (make_heap_by_p comp first last) tt vs' HS Hcat H2) as [H4 H5]; [|done].
    intros L m s HL Hf Hl. eapply (make_heap_wp L comp (patch m 0) 0 (site_view _ _ _ _ HL) i j); [exact H1|by eapply site_home|apply (si_over _ _ _ _ HL HC); lia|done..].
  Qed.
  Lemma push_heap_run M S q (comp : A -> A -> bool) first last i j : StrictWeakOrder comp -> own_range M S q first last i j -> cat_of q.1.1 = RANDOM ->
    max_heap comp (slice q.2 i (j - 1)) ->
    exists l, Permutation (slice q.2 i j) l /\ max_heap comp l /\ changes M S q i l (push_heap_by_p comp first last) tt.
  Proof.
    intros HW HS Hcat Hh. destruct (own_bounds _ _ _ _ _ _ _ HS) as (Hrange&Hij&Hj).
    destruct (push_heap_ok comp HW q.2 i j Hrange Hh) as (vs'&H1&H2&H3). exists (slice vs' i j).
    destruct (own_permutes M S q first last i j (push_heap_by_p comp first last) tt vs' HS Hcat H2) as [H4 H5]; [|done].
    intros L m s HL Hf Hl. eapply (push_heap_wp L comp (patch m 0) 0 (site_view _ _ _ _ HL) i j); [exact H1|by eapply site_home|done..].
  Qed.
  Lemma pop_heap_run M S q (comp : A -> A -> bool) first last i j : StrictWeakOrder comp -> own_range M S q first last i j -> cat_of q.1.1 = RANDOM ->
    i < j -> max_heap comp (slice q.2 i j) ->
    exists l x, q.2 !! i = Some x /\ Permutation (slice q.2 i j) (l ++ [x]) /\ max_heap comp l /\ (forall y, y ∈ slice q.2 i j -> comp x y = false) /\
      changes M S q i (l ++ [x]) (pop_heap_by_p comp first last) tt.
  Proof.
    intros HW HS Hcat Hlt Hh. destruct (own_bounds _ _ _ _ _ _ _ HS) as (Hrange&Hij&Hj).
    destruct (pop_heap_ok comp HW q.2 i j Hrange Hlt Hh) as (vs'&x&H1&H2&H3&H4&H5&H6). exists (slice vs' i (j - 1)), x. split; [done|].
    pose proof (proj1 H2) as Hlen.
    assert (slice vs' i j = slice vs' i (j - 1) ++ [x]) as E.
    { replace j with (Datatypes.S (j - 1)) at 1 by lia. apply slice_snoc; [lia|done]. }
    destruct (own_permutes M S q first last i j (pop_heap_by_p comp first last) tt vs' HS Hcat H2) as [H7 H8]; [|by rewrite E in H7, H8].
    intros L m s HL Hf Hl. eapply (pop_heap_wp L comp (patch m 0) 0 (site_view _ _ _ _ HL) i j); [exact H1|by eapply site_home|done..].
  Qed.
  Lemma sort_heap_run M S q (comp : A -> A -> bool) first last i j : StrictWeakOrder comp -> own_range M S q first last i j -> cat_of q.1.1 = RANDOM ->
    max_heap comp (slice q.2 i j) ->
    exists l, Permutation (slice q.2 i j) l /\ sorted comp l /\ changes M S q i l (sort_heap_by_p comp first last) tt.
  Proof.
    intros HW HS Hcat Hh. destruct (own_bounds _ _ _ _ _ _ _ HS) as (Hrange&Hij&Hj).
    destruct (sort_heap_ok comp HW q.2 i j Hrange Hh) as (vs'&H1&H2&H3). exists (slice vs' i j).
    destruct (own_permutes M S q first last i j (sort_heap_by_p comp first last) tt vs' HS Hcat H2) as [H4 H5]; [|done].
    intros L m s HL Hf Hl. eapply (sort_heap_wp L comp (patch m 0) 0 (site_view _ _ _ _ HL) i j); [exact H1|by eapply site_home|done..].
  Qed.
  Ltac oread HM HR := destruct (open_read _ _ _ _ _ _ _ HM HR) as (L&m&s&HO);
    pose proof (od_reads _ _ _ _ _ _ _ _ _ _ HO) as HRD; pose proof (proj1 HRD) as HR1;
    pose proof (od_range _ _ _ _ _ _ _ _ _ _ HO) as Hrange; pose proof (od_j _ _ _ _ _ _ _ _ _ _ HO) as Hj;
    pose proof (od_rng _ _ _ _ _ _ _ _ _ _ HO) as Hrng; pose proof (od_cat _ _ _ _ _ _ _ _ _ _ HO) as Hcat;
    pose proof (od_first _ _ _ _ _ _ _ _ _ _ HO) as Hf; pose proof (od_last _ _ _ _ _ _ _ _ _ _ HO) as Hl;
    pose proof (od_slice _ _ _ _ _ _ _ _ _ _ HO) as Hsl; pose proof (od_out _ _ _ _ _ _ _ _ _ _ HO) as Hout;
    pose proof (od_m _ _ _ _ _ _ _ _ _ _ HO) as Hm; pose proof (fun pred k => boundary_at _ _ _ _ _ _ _ _ _ _ pred k HO) as Hbd.
  Lemma is_heap_run M S q (comp : A -> A -> bool) first last i j : shown M q -> range_in S q first last i j -> cat_of q.1.1 = RANDOM ->
    exists b, answers M S (is_heap_by_p comp first last) b /\ (b = true <-> max_heap comp (slice q.2 i j)).
  Proof.
    intros HM HR HC. oread HM HR. destruct (is_heap_ok comp m i j Hrange) as (b&Hb&Hi). rewrite Hsl in Hi by lia. exists b. split; [|done].
    apply HR1. eapply (is_heap_wp L comp id 0 view_id i j first last m b); [exact Hb|exact Hrng| |done..].
    rewrite <- HC. apply (od_cateq _ _ _ _ _ _ _ _ _ _ HO).
  Qed.
  Lemma is_heap_until_run M S q (comp : A -> A -> bool) first last i j o : shown M q -> range_in S q first last i j -> cat_of q.1.1 = RANDOM -> out_ok S q (Some o) ->
    exists u, i <= u <= j /\ max_heap comp (slice q.2 i u) /\ (u = j <-> max_heap comp (slice q.2 i j)) /\
      (u < j -> exists k x y, (k = 2 * (u - i) + 1 \/ k = 2 * (u - i) + 2) /\ k < j - i /\ q.2 !! u = Some x /\ q.2 !! (i + k) = Some y /\ comp x y = true) /\
      points M S q (Some o) u (is_heap_until_by_p comp first last (Some o)).
  Proof.
    intros HM HR HC Ho. oread HM HR. destruct (is_heap_until_ok comp m i j Hrange) as (u&Hu&Hb&Hh&Hi&Hlt). exists u. split; [done|].
    rewrite Hsl in Hh, Hi by lia. split; [done|]. split; [done|]. split.
    - intros Hl'. destruct (Hlt Hl') as (k&x&y&L1&L2&L3&L4&L5). exists k, x, y.
      rewrite (od_m _ _ _ _ _ _ _ _ _ _ HO) in L3, L4 by lia. done.
    - eapply reads_point; [done|lia|]. eapply (is_heap_until_wp L comp id 0 view_id i j); [exact Hu|exact Hrng| |done|done|by apply Hout].
      rewrite <- HC. apply (od_cateq _ _ _ _ _ _ _ _ _ _ HO).
  Qed.
End lifted.
