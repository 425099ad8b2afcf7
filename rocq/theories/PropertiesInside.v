(** PropertiesInside.v — splicing part of a list, or of a forward list, to a place inside that same part (C145, C146).
    The places outside the moved part are [C14_splice_within] and [C20_splice_within]. *)
From Verif Require Import Base Spec SpecSeq SpecListOps SpecSlistOps Facts DList Path SpecList DListCore DListProofs DListRun DListRunProofs
  Slist SpecSlist SlistCore SlistProofs SlistRun SlistRunProofs ListInsideProofs SlistInsideProofs PropertiesSelfMerge.
From Verif Require PropertiesList PropertiesSlist.
From stdpp Require Import list gmap.

(** ** C145 moving [m, n) of a list in front of its own element k, m <= k < n.  No step fails.  For m < k the list is
    left without the elements of the range; they stay allocated and no later call frees them *)
Theorem C145_inside_partial : forall A (h : heap A) s cs k m n p q r, is_list h s cs -> m < k < n -> n <= length cs ->
  position h s k = Ok p -> position h s m = Ok q -> position h s n = Ok r ->
  exists h', c_list_splice_range h p s q r = Ok h' /\
    is_list h' s (take m cs ++ drop n cs) /\ PropertiesList.list_reads h' s (take m cs ++ drop n cs).*2 /\
    vl h' = vl h /\ dead h' = dead h /\
    (* destroying the list does not reach them *)
    exists h'', c_list_destroy h' s = Ok h'' /\ dead h'' = dead h ++ (take m cs ++ drop n cs).*2 /\
      forall i x a, m <= i < n -> cs !! i = Some (x, a) -> value h'' x = Ok a.
Proof.
  intros A h s cs k m n p q r HL Hk Hn Hp Hq Hr.
  rewrite (position_ok _ _ _ m HL) in Hq by lia. injection Hq as <-. rewrite (position_ok _ _ _ n HL) in Hr by lia. injection Hr as <-.
  rewrite (position_ok _ _ _ k HL) in Hp by lia. injection Hp as <-.
  destruct (pos_split cs m k ltac:(lia)) as (E1&E2&E3). destruct (pos_split cs k n ltac:(lia)) as (F1&F2&F3).
  pose proof HL as HL1. rewrite E1, F2 in HL1.
  assert (forall c, c ∈ take (n - m) (drop m cs) -> c.1 ∉ nodes s (take m cs ++ drop n cs)) as Hout.
  { intros c Hc. pose proof HL as (Nd&_). rewrite (proj1 (pos_split cs m n ltac:(lia))) in Nd.
    assert (c.1 ∈ (take (n - m) (drop m cs)).*1) as Hc1 by by apply elem_of_list_fmap_1.
    pose proof (nodup_parts _ _ _ _ Nd _ Hc1) as Ho. unfold nodes. by rewrite fmap_app. }
  destruct (take (k - m) (drop m cs)) as [|[f a] d] eqn:Ed; [cbn in E3; lia|].
  destruct (take (n - k) (drop k cs)) as [|[z b] e] eqn:Ee; [cbn in F3; lia|].
  destruct (transfer_inside h s _ f a d z b e _ HL1) as (h'&E&H1&H2&H3).
  exists h'. rewrite E2, F2. cbn [app fmap list_fmap fst hd].
  unfold c_list_splice_range. rewrite (empty_ok _ _ _ HL). cbn [rbind]. rewrite bool_decide_eq_false_2 by (intros ->; cbn in Hn; lia).
  split; [exact E|]. split; [done|]. split; [by apply PropertiesList.reads_ok|]. split; [done|]. split; [done|].
  destruct (destroy_ok h' s _ H1) as (h2&G1&(G2&_)&G3). exists h2. split; [done|]. split; [by rewrite G3, H3|].
  intros i x c Hi Hx. apply value_ok.
  assert ((x, c) ∈ take (n - m) (drop m cs)) as Hin.
  { apply (elem_of_list_lookup_2 _ (i - m)). rewrite lookup_take by lia. rewrite lookup_drop. by replace (m + (i - m)) with i by lia. }
  destruct (G2 x (Hout _ Hin) ltac:(apply not_elem_of_nil)) as [-> _]. rewrite H2.
  destruct HL as (_&_&_&Hf). rewrite Forall_forall in Hf. apply (Hf (x, c)). by eapply elem_of_list_lookup_2.
Qed.
Print Assumptions C145_inside_partial.

(** for k = m (the range is moved in front of its own first element) the two directions disagree afterwards: forward the
    range is gone, backward it is still there — unless the range was at the front, where walking backward stops at the
    new begin *)
Theorem C145_onto_first_partial : forall A (h : heap A) s cs m n q r, is_list h s cs -> m < n <= length cs ->
  position h s m = Ok q -> position h s n = Ok r ->
  exists h', c_list_splice_range h q s q r = Ok h' /\ vl h' = vl h /\ dead h' = dead h /\
    c_list_traverse h' s = Ok (take m cs ++ drop n cs).*2 /\
    c_list_rtraverse h' s = Ok (rev (if m =? 0 then drop n cs else cs).*2).
Proof.
  intros A h s cs m n q r HL Hn Hq Hr.
  rewrite (position_ok _ _ _ m HL) in Hq by lia. injection Hq as <-. rewrite (position_ok _ _ _ n HL) in Hr by lia. injection Hr as <-.
  destruct (pos_split cs m n ltac:(lia)) as (E1&E2&E3).
  pose proof HL as HL1. rewrite E1 in HL1.
  unfold c_list_splice_range. rewrite (empty_ok _ _ _ HL). cbn [rbind]. rewrite bool_decide_eq_false_2 by (intros ->; cbn in Hn; lia).
  destruct (take (n - m) (drop m cs)) as [|[f a] d] eqn:Ed; [cbn in E3; lia|].
  destruct (transfer_onto_first h s _ f a d _ HL1) as (h'&g&E&H1&H2&H3&H4&H5&H6&H7).
  exists h'. rewrite E2. cbn [app fmap list_fmap fst hd]. split; [exact E|]. split; [done|]. split; [done|]. split.
  - rewrite (traverse_nx g h' s); [|done|congruence]. by apply traverse_ok.
  - unfold c_list_rtraverse. rewrite H4. cbn [rbind]. rewrite (rwalk_pv h h') by done.
    assert (fuel_of h' = fuel_of h) as -> by (unfold fuel_of; by rewrite H2).
    pose proof (fuel_enough _ _ _ HL) as Hfuel. destruct (Nat.eqb_spec m 0) as [->|Hm].
    + rewrite take_0 in *. cbn [app] in HL1 |- *. pose proof (rwalk_mid h s ((f, a) :: d) (drop n cs) [] (fuel_of h)) as HR.
      rewrite app_nil_r in HR. apply HR; [done|]. rewrite drop_length. lia.
    + pose proof (rwalk_mid h s [] cs [] (fuel_of h)) as HR. rewrite app_nil_r in HR. cbn [app fmap list_fmap hd] in HR.
      replace (hd s (take m cs ++ drop n cs).*1) with (hd s cs.*1); [by apply HR|].
      destruct cs as [|c cs']; [cbn in Hn; lia|]. destruct m as [|m]; [lia|]. done.
Qed.
Print Assumptions C145_onto_first_partial.

(** the calls that take a whole list or a tail, with the list itself as the other list: in front of element k > 0 of
    itself the list loses everything (from the start of the tail on); at its end nothing happens *)
Theorem C145_whole_partial : forall A (h : heap A) s cs k m p q, is_list h s cs -> 
  position h s k = Ok p -> position h s m = Ok q ->
  (k = length cs -> c_list_splice h p s = Ok h) /\
  (0 < k < length cs -> exists h', c_list_splice h p s = Ok h' /\ PropertiesList.list_reads h' s [] /\ vl h' = vl h) /\
  (m < k < length cs -> exists h', c_list_splice_from h p s q = Ok h' /\ PropertiesList.list_reads h' s (take m cs).*2 /\ vl h' = vl h).
Proof.
  intros A h s cs k m p q HL Hp Hq.
  assert (forall i x, i < length cs -> m < i -> position h s i = Ok x ->
    exists h', c_list_splice_from h x s q = Ok h' /\ PropertiesList.list_reads h' s (take m cs).*2 /\ vl h' = vl h) as Hfrom.
  { intros i x Hi Hm Hx. assert (position h s (length cs) = Ok s) as He by (rewrite (position_ok _ _ _ _ HL), drop_all by lia; done).
    destruct (C145_inside_partial A h s cs i m (length cs) x q s HL ltac:(lia) ltac:(lia) Hx Hq He) as (h'&E&H1&H2&H3&_).
    exists h'. rewrite drop_all, app_nil_r in H2. done. }
  split; [|split].
  - intros ->. rewrite (position_ok _ _ _ _ HL), drop_all in Hp by lia. injection Hp as <-. unfold c_list_splice.
    rewrite (empty_ok _ _ _ HL). cbn [rbind]. destruct (bool_decide (cs = [])); [done|]. rewrite (begin_ok _ _ _ HL). cbn [rbind].
    unfold transfer. by rewrite decide_True.
  - intros Hk. assert (position h s (length cs) = Ok s) as He by (rewrite (position_ok _ _ _ _ HL), drop_all by lia; done).
    assert (position h s 0 = Ok (hd s cs.*1)) as Hb by (by rewrite (position_ok _ _ _ _ HL) by lia).
    destruct (C145_inside_partial A h s cs k 0 (length cs) p _ s HL ltac:(lia) ltac:(lia) Hp Hb He) as (h'&E&H1&H2&H3&_).
    exists h'. rewrite drop_all, take_0 in H2. split; [|done]. revert E. unfold c_list_splice, c_list_splice_range.
    by rewrite (begin_ok _ _ _ HL).
  - intros Hk. apply (Hfrom k); [lia|lia|done].
Qed.
Print Assumptions C145_whole_partial.

(** the full claim, that a splice within one list only changes the order, fails for a list built through the API *)
Theorem C145_splice_keeps_elements_refuted : exists s p q r h' l, (ex_self [1; 2; 3; 4]).2 = [s] /\
  PropertiesList.list_reads (ex_self [1; 2; 3; 4]).1 s [1; 2; 3; 4] /\
  position (ex_self [1; 2; 3; 4]).1 s 2 = Ok p /\ position (ex_self [1; 2; 3; 4]).1 s 1 = Ok q /\ position (ex_self [1; 2; 3; 4]).1 s 3 = Ok r /\
  c_list_splice_range (ex_self [1; 2; 3; 4]).1 p s q r = Ok h' /\ c_list_traverse h' s = Ok l /\ ~ l ≡ₚ [1; 2; 3; 4].
Proof.
  destruct (ex_self_ok [1; 2; 3; 4] ltac:(done)) as (s&cs&E&HL&Hv). revert E HL. generalize (ex_self [1; 2; 3; 4]). intros w E HL.
  assert (length cs = 4) as Hlen by (rewrite <- (fmap_length snd cs), Hv; done).
  destruct (C145_inside_partial nat w.1 s cs 2 1 3 _ _ _ HL ltac:(lia) ltac:(lia) (position_ok _ _ _ 2 HL ltac:(lia))
    (position_ok _ _ _ 1 HL ltac:(lia)) (position_ok _ _ _ 3 HL ltac:(lia))) as (h'&G1&G2&(G3&_)&_).
  eexists s, _, _, _, h', _. split; [done|]. split; [rewrite <- Hv; by apply PropertiesList.reads_ok|].
  split; [exact (position_ok _ _ _ 2 HL ltac:(lia))|]. split; [exact (position_ok _ _ _ 1 HL ltac:(lia))|].
  split; [exact (position_ok _ _ _ 3 HL ltac:(lia))|]. split; [exact G1|]. split; [exact G3|].
  intros Hperm. apply Permutation_length in Hperm. rewrite fmap_app, fmap_take, fmap_drop, Hv in Hperm. done.
Qed.
Print Assumptions C145_splice_keeps_elements_refuted.
(** forward and backward traversal after [C145_onto_first_partial], and [C145_inside_partial], computed *)
Example C145_example :
  (let (h, env) := ex_self [1; 2; 3; 4] in do s <- handle env 0; do q <- position h s 1; do r <- position h s 3;
   do h <- c_list_splice_range h q s q r; do a <- c_list_traverse h s; do b <- c_list_rtraverse h s; Ok (a, b)) = Ok ([1; 4], [4; 3; 2; 1]) /\
  (let (h, env) := ex_self [1; 2; 3; 4] in do s <- handle env 0; do p <- position h s 2; do q <- position h s 1; do r <- position h s 3;
   do h <- c_list_splice_range h p s q r; do a <- c_list_traverse h s; do b <- c_list_rtraverse h s; Ok (a, b)) = Ok ([1; 4], [4; 1]) /\
  (* the range at the front moved onto its own first element: [clear] leaves the list with a begin that was freed *)
  (let (h, env) := ex_self [1; 2; 3; 4] in do s <- handle env 0; do q <- position h s 0; do r <- position h s 2;
   do h <- c_list_splice_range h q s q r; do h <- c_list_clear h s; c_list_traverse h s) = UB.
Proof. vm_compute. done. Qed.

(** ** C146 moving the elements [m, n) of a forward list after its own element k - 1, m < k <= n: the list is left without
    them, they stay allocated and no later call frees them *)
Theorem C146_inside_partial : forall A (h : sheap A) s cs k m n p q r, is_slist h s cs -> m < k <= n -> n <= length cs ->
  sposition h s k = Ok p -> sposition h s m = Ok q -> sposition h s (S n) = Ok r ->
  exists h', c_slist_splice_after_range h p s q r = Ok h' /\
    is_slist h' s (take m cs ++ drop n cs) /\ PropertiesSlist.slist_reads h' s (take m cs ++ drop n cs).*2 /\
    svl h' = svl h /\ sdead h' = sdead h /\
    exists h'', c_slist_destroy h' s = Ok h'' /\ sdead h'' = sdead h ++ (take m cs ++ drop n cs).*2 /\
      forall i x a, m <= i < n -> cs !! i = Some (x, a) -> svalue h'' x = Ok a.
Proof.
  intros A h s cs k m n p q r HL Hk Hn Hp Hq Hr.
  rewrite (sposition_ok _ _ _ m HL) in Hq by lia. injection Hq as <-. rewrite (selem_ok _ _ _ n HL) in Hr by lia. injection Hr as <-.
  rewrite (sposition_ok _ _ _ k HL) in Hp by lia. injection Hp as <-.
  destruct (pos_split cs m n ltac:(lia)) as (E1&E2&E3).
  pose proof HL as HL1. rewrite E1 in HL1.
  assert (forall c, c ∈ take (n - m) (drop m cs) -> c.1 ∉ snodes s (take m cs ++ drop n cs)) as Hout.
  { intros c Hc. pose proof HL1 as (Nd&_). unfold snodes in Nd. rewrite !fmap_app in Nd.
    assert (c.1 ∈ (take (n - m) (drop m cs)).*1) as Hc1 by by apply elem_of_list_fmap_1.
    pose proof (proj2 (nodup_sbypass (s.1 :: s.2 :: (take m cs).*1) _ _ Nd) _ Hc1) as Ho. unfold snodes. by rewrite fmap_app. }
  assert (lst s.1 (take k cs).*1 ∈ (take (n - m) (drop m cs)).*1) as Hpin.
  { destruct (lookup_lt_is_Some_2 cs (k - 1)) as [[z b] Hz]; [lia|]. replace k with (S (k - 1)) by lia.
    rewrite (take_S_r _ _ _ Hz), fmap_app. cbn [fmap list_fmap fst]. rewrite lst_snoc.
    apply elem_of_list_fmap. exists (z, b). split; [done|]. apply (elem_of_list_lookup_2 _ (k - 1 - m)).
    rewrite lookup_take by lia. rewrite lookup_drop. by replace (m + (k - 1 - m)) with (k - 1) by lia. }
  destruct (take (n - m) (drop m cs)) as [|[x0 a] d] eqn:Ed; [cbn in E3; lia|].
  destruct (stransfer_inside h s _ x0 a d _ _ HL1 Hpin) as (h'&E&H1&H2&H3).
  exists h'. unfold c_slist_splice_after_range, c_slist_empty.
  assert (snext h s.1 = Ok (hd s.2 cs.*1)) as -> by (destruct HL as (_&Hpa&_); destruct Hpa as [Hpa _]; by apply snext_ok).
  cbn [rbind]. rewrite bool_decide_eq_false_2.
  2:{ destruct cs as [|c cs]; [cbn in Hn; lia|]. cbn. intros Heq. destruct HL as (Nd&_). unfold snodes in Nd.
      apply NoDup_cons in Nd as [_ Nd]. apply NoDup_cons in Nd as [Nd _]. apply Nd. rewrite <- Heq. left. }
  split; [exact E|]. split; [done|]. split; [by apply PropertiesSlist.sreads_ok|]. split; [done|]. split; [done|].
  destruct (sdestroy_ok h' s _ H1) as (h2&G1&(G2&_)&G3). exists h2. split; [done|]. split; [by rewrite G3, H3|].
  intros i x c Hi Hx. apply svalue_ok.
  assert ((x, c) ∈ (x0, a) :: d) as Hin.
  { rewrite <- Ed. apply (elem_of_list_lookup_2 _ (i - m)). rewrite lookup_take by lia. rewrite lookup_drop. by replace (m + (i - m)) with i by lia. }
  destruct (G2 x (Hout _ Hin) ltac:(apply not_elem_of_nil)) as [-> _]. rewrite H2.
  destruct HL as (_&_&_&_&Hf). rewrite Forall_forall in Hf. apply (Hf (x, c)). by eapply elem_of_list_lookup_2.
Qed.
Print Assumptions C146_inside_partial.

(** the calls that take a whole list or a tail, with the list itself as the other list: after the before-begin position
    nothing happens; after an element of itself the list loses everything (from the start of the tail on) *)
Theorem C146_whole_partial : forall A (h : sheap A) s cs k m p q, is_slist h s cs -> k <= length cs ->
  sposition h s k = Ok p -> sposition h s m = Ok q ->
  (k = 0 -> c_slist_splice_after h p s = Ok h) /\
  (0 < k -> exists h', c_slist_splice_after h p s = Ok h' /\ PropertiesSlist.slist_reads h' s [] /\ svl h' = svl h) /\
  (m < k -> exists h', c_slist_splice_after_from h p s q = Ok h' /\ PropertiesSlist.slist_reads h' s (take m cs).*2 /\ svl h' = svl h).
Proof.
  intros A h s cs k m p q HL Hk Hp Hq.
  assert (sposition h s (S (length cs)) = Ok s.2) as He by (rewrite (selem_ok _ _ _ _ HL), drop_all by lia; done).
  split; [|split].
  - intros ->. rewrite (sposition_ok _ _ _ _ HL) in Hp by lia. injection Hp as <-. unfold c_slist_splice_after, c_slist_empty.
    assert (snext h s.1 = Ok (hd s.2 cs.*1)) as -> by (destruct HL as (_&Hpa&_); destruct Hpa as [Hpa _]; by apply snext_ok).
    cbn [rbind]. destruct (bool_decide _); [done|]. unfold stransfer. by rewrite decide_True.
  - intros H0. assert (sposition h s 0 = Ok s.1) as Hb by done.
    destruct (C146_inside_partial A h s cs k 0 (length cs) p _ s.2 HL ltac:(lia) ltac:(lia) Hp Hb He) as (h'&E&H1&H2&H3&_).
    exists h'. rewrite drop_all, take_0 in H2. done.
  - intros Hm. destruct (C146_inside_partial A h s cs k m (length cs) p q s.2 HL ltac:(lia) ltac:(lia) Hp Hq He) as (h'&E&H1&H2&H3&_).
    exists h'. rewrite drop_all, app_nil_r in H2. done.
Qed.
Print Assumptions C146_whole_partial.

Theorem C146_splice_keeps_elements_refuted : exists s p q r h' l, (ex_sself [1; 2; 3; 4]).2 = [s] /\
  PropertiesSlist.slist_reads (ex_sself [1; 2; 3; 4]).1 s [1; 2; 3; 4] /\
  sposition (ex_sself [1; 2; 3; 4]).1 s 2 = Ok p /\ sposition (ex_sself [1; 2; 3; 4]).1 s 1 = Ok q /\ sposition (ex_sself [1; 2; 3; 4]).1 s 4 = Ok r /\
  c_slist_splice_after_range (ex_sself [1; 2; 3; 4]).1 p s q r = Ok h' /\ c_slist_traverse h' s = Ok l /\ ~ l ≡ₚ [1; 2; 3; 4].
Proof.
  destruct (ex_sself_ok [1; 2; 3; 4] ltac:(done)) as (s&cs&E&HL&Hv). revert E HL. generalize (ex_sself [1; 2; 3; 4]). intros w E HL.
  assert (length cs = 4) as Hlen by (rewrite <- (fmap_length snd cs), Hv; done).
  destruct (C146_inside_partial nat w.1 s cs 2 1 3 _ _ _ HL ltac:(lia) ltac:(lia) (sposition_ok _ _ _ 2 HL ltac:(lia))
    (sposition_ok _ _ _ 1 HL ltac:(lia)) (selem_ok _ _ _ 3 HL ltac:(lia))) as (h'&G1&G2&(G3&_)&_).
  eexists s, _, _, _, h', _. split; [done|]. split; [rewrite <- Hv; by apply PropertiesSlist.sreads_ok|].
  split; [exact (sposition_ok _ _ _ 2 HL ltac:(lia))|]. split; [exact (sposition_ok _ _ _ 1 HL ltac:(lia))|].
  split; [exact (selem_ok _ _ _ 3 HL ltac:(lia))|]. split; [exact G1|]. split; [exact G3|].
  intros Hperm. apply Permutation_length in Hperm. rewrite fmap_app, fmap_take, fmap_drop, Hv in Hperm. done.
Qed.
Print Assumptions C146_splice_keeps_elements_refuted.
Example C146_example :
  (let (h, env) := ex_sself [1; 2; 3; 4] in do s <- shandle env 0; do p <- sposition h s 2; do q <- sposition h s 1; do r <- sposition h s 4;
   do h' <- c_slist_splice_after_range h p s q r; do a <- c_slist_traverse h' s; Ok (a, bool_decide (size (svl h') = size (svl h)))) = Ok ([1; 4], true).
Proof. vm_compute. done. Qed.
