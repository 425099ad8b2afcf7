(** PropertiesTreeRange.v — inserting a range given by tree iterators into a set, map, multiset or multimap (C138-C140).  The
    trees are those of any history ([thist_spec], SpecTreeOps.v); [tposition] is begin() advanced by an index; [back] means reverse
    iterators.  [insert_range_loop … fuel …] is the call's while loop given [fuel] rounds: [NoFuel] for every [fuel] means that
    the call never returns. *)
From Verif Require Import Base Spec SpecSeq SpecListOps SpecTreeOps SpecTreeRange Facts DList Tree SpecTree TreeRep TreeInsert TreeErase TreeIter
  TreeUnlink TreeApi TreeOps TreeLookup TreeMod TreeRun TreeRunProofs TreeRange TreeRangeProofs PropertiesTree.
From Verif Require DListRunProofs.
From stdpp Require Import list gmap.

(** the tree objects [env] are what the description [ts] says: comparison, key function, and contents by every way of reading *)
Definition trees_read {K V} (h : theap V) (env : list (tobj K V)) (ts : list (tmod K V)) : Prop :=
  length env = length ts /\
  forall j tm, ts !! j = Some tm -> exists u, env !! j = Some u /\ kcomp u = tm_comp tm /\ kov u = tm_key tm /\ tree_reads h u (tm_vals tm).

Section aux.
  Context {K V : Type}.
  Implicit Types (h : theap V) (t : tobj K V) (L : list (tobj K V * list (loc * V))).
  Lemma trees_read_world h L G : tworld (mem h) L G -> trees_read h L.*1 (tmods L).
  Proof.
    intros HW. split; [unfold tmods; by rewrite map_length, fmap_length|]. intros j tm (t&cs&Hj&->)%tmods_lookup. exists t. rewrite list_lookup_fmap, Hj.
    cbn [tm_comp tm_key tm_vals]. do 3 (split; [done|]). apply tree_reads_ok. by eapply tworld_in.
  Qed.
  Lemma world_upd h L G i t cs h' t' cs' gone : tworld (mem h) L G -> L !! i = Some (t, cs) -> tupd h t cs h' t' cs' gone ->
    tworld (mem h') (<[i := (t', cs')]> L) G.
  Proof.
    intros HW Hi (Ht&HB&Hs&Hd). destruct (DListRunProofs.list_at L i _ Hi) as [Hp Hp'].
    eapply (tworld_step (mem h) (mem h') L G [(t, cs)] [(t', cs')]); [done|exact Hp| | | |apply Hp'].
    - rewrite tall_one. by apply rb_ND in HB.
    - by apply Forall_singleton.
    - rewrite !tall_one. by rewrite Ht.
  Qed.
  Lemma world_read h L G i t cs h' t' cs' gone : tworld (mem h) L G -> L !! i = Some (t, cs) -> tupd h t cs h' t' cs' gone ->
    trees_read h' (<[i := t']> L.*1) (<[i := TMod (kcomp t) (kov t) cs'.*2]> (tmods L)).
  Proof.
    intros HW Hi HU. pose proof (trees_read_world _ _ _ (world_upd _ _ _ _ _ _ _ _ _ _ HW Hi HU)) as H.
    rewrite list_fmap_insert, tmods_insert in H. destruct HU as (->&_). exact H.
  Qed.
  Lemma world_apart h L G i j t cs u ds : tworld (mem h) L G -> L !! i = Some (t, cs) -> L !! j = Some (u, ds) -> i <> j -> apart t cs u ds.
  Proof.
    intros (HN&_) Hi Hj Hij. destruct (DListRunProofs.list_at L i _ Hi) as [Hp _]. apply NoDup_app in HN as (HN&_).
    assert (Hj' : (u, ds) ∈ delete i L).
    { apply elem_of_list_lookup. destruct (decide (j < i)).
      - exists j. by rewrite lookup_delete_lt.
      - exists (j - 1). rewrite lookup_delete_ge by lia. by replace (S (j - 1)) with j by lia. }
    intros z Hz Hz'. pose proof (tall_perm _ _ Hp) as Hq. change ((t, cs) :: delete i L) with ([(t, cs)] ++ delete i L) in Hq.
    rewrite tall_app, tall_one in Hq. rewrite Hq in HN. apply NoDup_app in HN as (_&HN&_). apply (HN z Hz'). apply tall_in. by exists (u, ds).
  Qed.
  Lemma cut_range (cs : list (loc * V)) k m : k <= m -> cs = take k cs ++ take (m - k) (drop k cs) ++ drop m cs /\ drop k cs = take (m - k) (drop k cs) ++ drop m cs.
  Proof.
    intros Hkm. assert (E : drop k cs = take (m - k) (drop k cs) ++ drop m cs).
    { rewrite <- (take_drop (m - k) (drop k cs)) at 1. rewrite drop_drop. by replace (k + (m - k)) with m by lia. }
    split; [|done]. rewrite <- E. by rewrite take_drop.
  Qed.
  Lemma cut_vals (cs : list (loc * V)) k m : (take (m - k) (drop k cs)).*2 = take (m - k) (drop k cs.*2).
  Proof. by rewrite fmap_take, fmap_drop. Qed.
End aux.

(** ** C138 the range is in another tree: exactly its elements are inserted, in the order of the range, and every other tree --
    the one the range comes from included -- is unchanged *)
Theorem C138_range_of_another_tree : forall K V (alloc : gmap loc (tnode V) -> loc), tmalloc_ok alloc ->
  forall (os : list (tree_op K V)) ts gone, Forall top_order os -> thist_spec [] os = Some (ts, gone) ->
  exists h env, thist_run alloc (theap0, []) os = Ok (h, env) /\ trees_read h env ts /\
  forall (unique : bool) i j ti tj k m, i <> j -> ts !! i = Some ti -> ts !! j = Some tj -> k <= m <= length (tm_vals tj) ->
  exists t u p q, env !! i = Some t /\ env !! j = Some u /\ tposition h u k = Ok p /\ tposition h u m = Ok q /\
    let range := take (m - k) (drop k (tm_vals tj)) in
    let filled vs := <[i := tm_set ti (put_all (tm_comp ti) (tm_key ti) unique vs (tm_vals ti))]> ts in
    forall fuel, m - k < fuel ->
    (exists h' t', insert_range_loop alloc unique false fuel t h p q = Ok (h', t') /\
       trees_read h' (<[i := t']> env) (filled range) /\ tdead h' = tdead h) /\
    (exists h' t', insert_range_loop alloc unique true fuel t h q p = Ok (h', t') /\
       trees_read h' (<[i := t']> env) (filled (rev range)) /\ tdead h' = tdead h).
Proof.
  intros K V alloc Ha os ts gone Ho Hs. destruct (thist_ok alloc Ha os theap0 [] [] ts gone tworld0 Ho Hs) as (h&L&G&E&HW&<-&_&_).
  exists h, L.*1. split; [done|]. split; [by eapply trees_read_world|]. intros unique i j ti tj k m Hij (t&cs&Hi&->)%tmods_lookup (u&ds&Hj&->)%tmods_lookup Hkm.
  cbn [tm_comp tm_key tm_vals tm_set] in *. rewrite fmap_length in Hkm. pose proof (tworld_in _ _ _ _ _ _ HW Hi) as HB. pose proof (tworld_in _ _ _ _ _ _ HW Hj) as HU.
  pose proof (world_apart _ _ _ _ _ _ _ _ _ HW Hi Hj Hij) as HA. destruct (cut_range ds k m) as [Hcut Hd]; [lia|].
  eexists t, u, _, _. rewrite !list_lookup_fmap, Hi, Hj. split; [done|]. split; [done|].
  split; [apply (tposition_ok h u ds k HU); lia|]. split; [apply (tposition_ok h u ds m HU); lia|].
  cbv zeta. intros fuel Hf. rewrite Hcut in HU, HA. rewrite <- cut_vals.
  assert (Hlen : length (take (m - k) (drop k ds)) < fuel) by (rewrite take_length; lia). split.
  - destruct (forward_other alloc Ha unique u (drop m ds) _ (take k ds) t h cs fuel HB HU HA Hlen) as (h'&t'&cs'&E'&HU'&Hc').
    rewrite <- Hd in E'. exists h', t'. split; [exact E'|]. unfold tm_set. cbn [tm_comp tm_key tm_vals]. rewrite <- Hc'. split; [by eapply world_read|]. destruct HU' as (_&_&_&->). by rewrite app_nil_r.
  - destruct (backward_other alloc Ha unique u (take k ds) _ (drop m ds) t h cs fuel HB HU HA Hlen) as (h'&t'&cs'&E'&HU'&Hc').
    rewrite <- Hd in E'. exists h', t'. split; [exact E'|]. unfold tm_set. cbn [tm_comp tm_key tm_vals]. rewrite <- Hc'. split; [by eapply world_read|]. destruct HU' as (_&_&_&->). by rewrite app_nil_r.
Qed.
Print Assumptions C138_range_of_another_tree.
Definition ex_two : list (tree_op nat nat) :=
  [TCreate Nat.ltb id; TInsertUniqueAll 0 [5; 1; 9]; TCreate Nat.ltb (fun v => v / 10); TInsertEqualAll 1 [30; 12; 11; 25; 13; 31]].
Example ex_two_spec : thist_spec [] ex_two = Some ([TMod Nat.ltb id [1; 5; 9]; TMod Nat.ltb (fun v => v / 10) [12; 11; 13; 25; 30; 31]], []).
Proof. reflexivity. Qed.
Lemma ex_two_order : Forall top_order ex_two.
Proof. repeat (apply Forall_cons; split; [first [exact nat_swo|exact I]|]). by apply Forall_nil. Qed.
(** run a range insertion of tree [j]'s positions [k], [m] into tree [i] *)
Definition try_range (unique back : bool) (i j k m fuel : nat) : res (list nat * list nat) :=
  do (h, env) <- thist_run ex_talloc (theap0, []) ex_two; do t <- thandle env i; do u <- thandle env j;
  do p <- tposition h u k; do q <- tposition h u m;
  do (h, t) <- (if back then insert_range_loop ex_talloc unique true fuel t h q p else insert_range_loop ex_talloc unique false fuel t h p q);
  do a <- c_tree_walk t h; do b <- c_tree_walk (if i =? j then t else u) h; Ok (a.*2, b.*2).
Example C138_example :
  try_range true false 0 1 1 4 9 = Ok ([1; 5; 9; 11; 13; 25], [12; 11; 13; 25; 30; 31]) /\
  try_range false true 1 0 0 3 9 = Ok ([9; 5; 1; 12; 11; 13; 25; 30; 31], [1; 5; 9]).
Proof. split; vm_compute; reflexivity. Qed.

(** ** C139 the range is in the tree itself and duplicates are rejected: the call returns and nothing changes *)
Theorem C139_own_range_unique : forall K V (alloc : gmap loc (tnode V) -> loc), tmalloc_ok alloc ->
  forall (os : list (tree_op K V)) ts gone, Forall top_order os -> thist_spec [] os = Some (ts, gone) ->
  exists h env, thist_run alloc (theap0, []) os = Ok (h, env) /\
  forall i ti k m, ts !! i = Some ti -> k <= m <= length (tm_vals ti) ->
  exists t p q, env !! i = Some t /\ tposition h t k = Ok p /\ tposition h t m = Ok q /\
    forall fuel, m - k < fuel ->
    insert_range_loop alloc true false fuel t h p q = Ok (h, t) /\ insert_range_loop alloc true true fuel t h q p = Ok (h, t).
Proof.
  intros K V alloc Ha os ts gone Ho Hs. destruct (thist_ok alloc Ha os theap0 [] [] ts gone tworld0 Ho Hs) as (h&L&G&E&HW&<-&_&_).
  exists h, L.*1. split; [done|]. intros i ti k m (t&cs&Hi&->)%tmods_lookup Hkm. cbn [tm_vals] in Hkm. rewrite fmap_length in Hkm.
  pose proof (tworld_in _ _ _ _ _ _ HW Hi) as HB. destruct (cut_range cs k m) as [Hcut Hd]; [lia|].
  eexists t, _, _. rewrite list_lookup_fmap, Hi. split; [done|]. split; [apply (tposition_ok h t cs k HB); lia|]. split; [apply (tposition_ok h t cs m HB); lia|].
  intros fuel Hf. rewrite Hcut in HB. rewrite Hd. assert (Hlen : length (take (m - k) (drop k cs)) < fuel) by (rewrite take_length; lia).
  split; [by eapply forward_own_unique|by eapply backward_own_unique].
Qed.
Print Assumptions C139_own_range_unique.
Example C139_example : try_range true false 1 1 1 5 9 = Ok ([12; 11; 13; 25; 30; 31], [12; 11; 13; 25; 30; 31]).
Proof. vm_compute. reflexivity. Qed.

(** ** C140 the range is in the tree itself and duplicates are kept.  "The call returns and one copy of each element of the range has
    been inserted" is false: each copy goes behind the elements with its key, in front of the iterator. *)
(** the whole multiset (or multimap) into itself: the call never returns *)
Theorem C140_own_range_refuted : forall K V (alloc : gmap loc (tnode V) -> loc), tmalloc_ok alloc ->
  forall (os : list (tree_op K V)) ts gone, Forall top_order os -> thist_spec [] os = Some (ts, gone) ->
  exists h env, thist_run alloc (theap0, []) os = Ok (h, env) /\
  forall i ti, ts !! i = Some ti -> tm_vals ti <> [] ->
  exists t p, env !! i = Some t /\ c_tree_begin t h = Ok p /\
    forall fuel, insert_range_loop alloc false false fuel t h p (c_tree_end t) = NoFuel.
Proof.
  intros K V alloc Ha os ts gone Ho Hs. destruct (thist_ok alloc Ha os theap0 [] [] ts gone tworld0 Ho Hs) as (h&L&G&E&HW&<-&_&_).
  exists h, L.*1. split; [done|]. intros i ti (t&cs&Hi&->)%tmods_lookup Hne. cbn [tm_vals] in Hne.
  pose proof (tworld_in _ _ _ _ _ _ HW Hi) as HB. destruct cs as [|[y w] cs]; [done|]. exists t, (Some y). rewrite list_lookup_fmap, Hi. split; [done|].
  split; [unfold c_tree_begin; rewrite (rb_left _ _ _ HB); by rewrite first_loc_cons|]. intros fuel. pose proof HB as (HW1&_&_&HS).
  destruct (run_split t w cs HW1) as (R1&R2&->&H1&H2); [by apply (ksorted_app t [(y, w)])|].
  apply (forward_own_chase alloc Ha fuel t h [] y w R1 R2 []); [by rewrite app_nil_r|done|by rewrite app_nil_r].
Qed.
Print Assumptions C140_own_range_refuted.
(** exactly when it returns (positions [k < m]): iff the element at the last position has the key of the one at the first; then one
    copy of each element of the range has been inserted *)
Theorem C140_forward_exact_partial : forall K V (alloc : gmap loc (tnode V) -> loc), tmalloc_ok alloc ->
  forall (os : list (tree_op K V)) ts gone, Forall top_order os -> thist_spec [] os = Some (ts, gone) ->
  exists h env, thist_run alloc (theap0, []) os = Ok (h, env) /\
  forall i ti k m a, ts !! i = Some ti -> tm_vals ti !! k = Some a -> k < m <= length (tm_vals ti) ->
  exists t p q, env !! i = Some t /\ tposition h t k = Ok p /\ tposition h t m = Ok q /\
    let same := match tm_vals ti !! m with Some b => tm_comp ti (tm_key ti a) (tm_key ti b) = false | None => False end in
    (~ same -> forall fuel, insert_range_loop alloc false false fuel t h p q = NoFuel) /\
    (same -> forall fuel, m - k < fuel -> exists h' t', insert_range_loop alloc false false fuel t h p q = Ok (h', t') /\
       trees_read h' (<[i := t']> env)
         (<[i := tm_set ti (put_all (tm_comp ti) (tm_key ti) false (take (m - k) (drop k (tm_vals ti))) (tm_vals ti))]> ts)).
Proof.
  intros K V alloc Ha os ts gone Ho Hs. destruct (thist_ok alloc Ha os theap0 [] [] ts gone tworld0 Ho Hs) as (h&L&G&E&HW&<-&_&_).
  exists h, L.*1. split; [done|]. intros i ti k m a (t&cs&Hi&->)%tmods_lookup Hk Hkm. cbn [tm_comp tm_key tm_vals tm_set] in *. rewrite fmap_length in Hkm.
  pose proof (tworld_in _ _ _ _ _ _ HW Hi) as HB. destruct (cut_range cs k m) as [Hcut Hd]; [lia|].
  rewrite list_lookup_fmap in Hk. destruct (cs !! k) as [[y w]|] eqn:Ey; [|done]. injection Hk as ->.
  eexists t, _, _. rewrite list_lookup_fmap, Hi. split; [done|]. split; [apply (tposition_ok h t cs k HB); lia|]. split; [apply (tposition_ok h t cs m HB); lia|].
  assert (Hdk : drop k cs = (y, a) :: take (m - k - 1) (drop (S k) cs) ++ drop m cs).
  { rewrite (drop_S _ _ _ Ey). f_equal. rewrite <- (take_drop (m - k - 1) (drop (S k) cs)) at 1. rewrite drop_drop. by replace (S k + (m - k - 1)) with m by lia. }
  set (es := take (m - k - 1) (drop (S k) cs)) in *. assert (HB2 : is_rbtree (mem h) t (take k cs ++ (y, a) :: es ++ drop m cs)) by (by rewrite <- Hdk, take_drop).
  pose proof HB2 as (HW1&_&_&HS). cbv zeta. split.
  - intros Hns fuel. rewrite Hdk, first_loc_cons.
    assert (HSt : ksorted t (es ++ drop m cs)) by (by apply ksorted_app, (ksorted_app t [(y, a)]) in HS).
    assert (Hab : above t a (drop m cs)).
    { destruct (drop m cs) as [|[z b] R] eqn:Ed; [intros c Hc; by apply elem_of_nil in Hc|].
      assert (Hb : cs.*2 !! m = Some b). { rewrite list_lookup_fmap. assert (cs !! m = Some (z, b)) as ->; [|done].
        replace m with (m + 0) by lia. rewrite <- lookup_drop. by rewrite Ed. }
      rewrite Hb in Hns. apply ksorted_app in HSt. refine (lt_all_after t z b R a HW1 HSt _). by apply not_false_iff_true. }
    destruct (run_split t a es HW1) as (R1&R2&Ees&H1&H2); [by apply ksorted_app_l in HSt|].
    apply (forward_own_chase alloc Ha fuel t h (take k cs) y a R1 R2 (drop m cs)); [by rewrite (app_assoc R1), <- Ees|done|].
    intros c [Hc|Hc]%elem_of_app; [by apply H2|by apply Hab].
  - intros Hsame fuel Hf. destruct (cs.*2 !! m) as [b|] eqn:Eb; [|done].
    rewrite list_lookup_fmap in Eb. destruct (cs !! m) as [[z b']|] eqn:Em; [|done]. injection Eb as ->.
    rewrite (drop_S _ _ _ Em) in *. rewrite Hdk, !first_loc_cons.
    assert (HSb : ksorted t (((y, a) :: es) ++ [(z, b)])).
    { apply ksorted_app in HS. apply (ksorted_app_l t _ (drop (S m) cs)). by rewrite <- app_assoc. }
    destruct (forward_own_run alloc Ha b ((y, a) :: es) t h (take k cs) z (drop (S m) cs) fuel HB2) as (h'&t'&cs'&E'&HU'&Hc').
    { intros c Hc. eapply (swo_le_trans _ HW1); [|]; [exact Hsame|]. apply elem_of_list_lookup in Hc as [n Hn]. destruct n as [|n]; [injection Hn as <-; apply (swo_irrefl _ HW1)|].
      refine (HSb 0 (S n) _ _ _ _ _); [lia|done|]. rewrite !list_lookup_fmap. rewrite lookup_app_l by (by eapply lookup_lt_Some). by rewrite Hn. }
    { unfold es. cbn [length]. rewrite take_length. lia. }
    exists h', t'. split; [exact E'|].
    assert (Ecs : take k cs ++ ((y, a) :: es) ++ (z, b) :: drop (S m) cs = cs) by (change (((y, a) :: es) ++ (z, b) :: drop (S m) cs) with ((y, a) :: es ++ (z, b) :: drop (S m) cs); by rewrite <- Hdk, take_drop).
    rewrite Ecs in HU', Hc'.
    assert (Er : ((y, a) :: es).*2 = take (m - k) (drop k cs.*2)).
    { rewrite <- cut_vals. f_equal. rewrite Hdk. replace (m - k) with (S (m - k - 1)) by lia. cbn [take]. f_equal. rewrite take_app_le; [|unfold es; rewrite take_length; rewrite drop_length; apply lookup_lt_Some in Em; lia].
      unfold es. rewrite take_take. by rewrite Nat.min_id. }
    rewrite <- Er. unfold tm_set. cbn [tm_comp tm_key tm_vals]. rewrite <- Hc'. by eapply world_read.
Qed.
Print Assumptions C140_forward_exact_partial.
(** with reverse iterators it always returns, but an element that is the last with its key is copied twice *)
Theorem C140_backward_exact_partial : forall K V (alloc : gmap loc (tnode V) -> loc), tmalloc_ok alloc ->
  forall (os : list (tree_op K V)) ts gone, Forall top_order os -> thist_spec [] os = Some (ts, gone) ->
  exists h env, thist_run alloc (theap0, []) os = Ok (h, env) /\
  forall i ti k m, ts !! i = Some ti -> k <= m <= length (tm_vals ti) ->
  exists t p q, env !! i = Some t /\ tposition h t k = Ok p /\ tposition h t m = Ok q /\
    let copies := backward_copies (tm_comp ti) (tm_key ti) (rev (take (m - k) (drop k (tm_vals ti)))) (tm_vals ti !! m) in
    forall fuel, 2 * (m - k) < fuel -> exists h' t', insert_range_loop alloc false true fuel t h q p = Ok (h', t') /\
      trees_read h' (<[i := t']> env) (<[i := tm_set ti (put_all (tm_comp ti) (tm_key ti) false copies (tm_vals ti))]> ts).
Proof.
  intros K V alloc Ha os ts gone Ho Hs. destruct (thist_ok alloc Ha os theap0 [] [] ts gone tworld0 Ho Hs) as (h&L&G&E&HW&<-&_&_).
  exists h, L.*1. split; [done|]. intros i ti k m (t&cs&Hi&->)%tmods_lookup Hkm. cbn [tm_comp tm_key tm_vals tm_set] in *. rewrite fmap_length in Hkm.
  pose proof (tworld_in _ _ _ _ _ _ HW Hi) as HB. destruct (cut_range cs k m) as [Hcut Hd]; [lia|].
  eexists t, _, _. rewrite list_lookup_fmap, Hi. split; [done|]. split; [apply (tposition_ok h t cs k HB); lia|]. split; [apply (tposition_ok h t cs m HB); lia|].
  cbv zeta. intros fuel Hf. rewrite Hcut in HB. rewrite <- cut_vals.
  destruct (backward_own_equal alloc Ha (take k cs) (take (m - k) (drop k cs)) t h (drop m cs) fuel HB) as (h'&t'&cs'&E'&HU'&Hc'); [rewrite take_length, drop_length; lia|].
  rewrite <- Hd in E'. exists h', t'. split; [exact E'|]. rewrite <- Hcut in HU', Hc'. unfold tm_set. cbn [tm_comp tm_key tm_vals].
  assert (Eh : head (drop m cs).*2 = cs.*2 !! m).
  { rewrite fmap_drop. destruct (cs.*2 !! m) as [b|] eqn:Eb; [by rewrite (drop_S _ _ _ Eb)|]. by rewrite drop_ge by (by apply lookup_ge_None). }
  rewrite Eh in Hc'. rewrite <- Hc'. by eapply world_read.
Qed.
Print Assumptions C140_backward_exact_partial.
Example C140_example :
  (* 12, 11, 13 have the same key: the range [12, 11) and the range [12, 13) *)
  try_range false false 1 1 0 1 50 = Ok ([12; 11; 13; 12; 25; 30; 31], [12; 11; 13; 12; 25; 30; 31]) /\
  try_range false false 1 1 0 2 50 = Ok ([12; 11; 13; 12; 11; 25; 30; 31], [12; 11; 13; 12; 11; 25; 30; 31]) /\
  (* [13, 25), [begin, end): never *)
  try_range false false 1 1 2 3 50 = NoFuel /\ try_range false false 1 1 0 6 50 = NoFuel /\
  (* backwards *)
  try_range false true 1 1 1 4 50 = Ok ([12; 11; 13; 13; 13; 11; 25; 25; 25; 30; 31], [12; 11; 13; 13; 13; 11; 25; 25; 25; 30; 31]).
Proof. repeat (split; [vm_compute; reflexivity|]). vm_compute. reflexivity. Qed.
