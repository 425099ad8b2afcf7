(** PropertiesTreeTime.v — how often the loops of insertion, erasure, ++ and -- in trees go round (C153),
    /repo/container/c_tree.c.  The functions ending in [_within f] (TreeTime.v) are those of the model, except that each loop fails
    when it is about to go round more than [f] times: the descent, the fix-up loops after insertion and erasure, the searches
    for the first and last node of a subtree, and the climbs of ++ and --.  The code outside these loops has no loops. *)
From Verif Require Import Base Spec SpecSeq SpecListOps SpecTreeOps Facts DList Tree SpecTree TreeRep TreeInsert TreeErase TreeIter
  TreeUnlink TreeApi TreeOps TreeLookup TreeMod TreeCheck TreeRun TreeRunProofs TreeTime PropertiesTree.
From stdpp Require Import list gmap.

(** two runs of the same code with different budgets: if both succeed, they agree *)
Ltac same := repeat first
  [ progress cbn [rbind]
  | match goal with
    | |- rbind ?e _ = Ok _ -> rbind ?e _ = Ok _ -> _ => destruct e as [?| |]; cbn [rbind]; [|discriminate|discriminate]
    | |- (if ?c then _ else _) = Ok _ -> _ => destruct c
    | |- (let (_, _) := ?p in _) = Ok _ -> _ => destruct p
    | |- Ok _ = Ok _ -> Ok _ = Ok _ -> _ => congruence
    | |- UB = Ok _ -> _ => discriminate
    end ].
Section agree.
  Context {V : Type}.
  Notation M := (gmap loc (tnode V)).
  Implicit Types (m : M).
  Lemma insert_loop_agree f : forall f' m hd x a b, insert_loop f m hd x = Ok a -> insert_loop f' m hd x = Ok b -> a = b.
  Proof.
    induction f as [|f IH]; intros [|f'] m hd x a b; [done|done|done|]. cbn [insert_loop]. same; by apply IH.
  Qed.
  Lemma erase_loop_agree f : forall f' m hd x y a b, erase_loop f m hd x y = Ok a -> erase_loop f' m hd x y = Ok b -> a = b.
  Proof.
    induction f as [|f IH]; intros [|f'] m hd x y a b; [done|done|done|]. cbn [erase_loop]. same; by apply IH.
  Qed.
  Lemma min_loop_agree f : forall f' m x a b, min_loop f m x = Ok a -> min_loop f' m x = Ok b -> a = b.
  Proof.
    induction f as [|f IH]; intros [|f'] m x a b; [done|done|done|]. cbn [min_loop]. destruct (left m x) as [[y|]| |]; cbn [rbind]; [apply IH|congruence|done|done].
  Qed.
  Lemma max_loop_agree f : forall f' m x a b, max_loop f m x = Ok a -> max_loop f' m x = Ok b -> a = b.
  Proof.
    induction f as [|f IH]; intros [|f'] m x a b; [done|done|done|]. cbn [max_loop]. destruct (right m x) as [[y|]| |]; cbn [rbind]; [apply IH|congruence|done|done].
  Qed.
  Lemma minimum_agree f m p a b : minimum_within f m p = Ok a -> minimum m p = Ok b -> a = b.
  Proof. destruct p as [x|]; cbn; [apply min_loop_agree|congruence]. Qed.
  Lemma maximum_agree f m p a b : maximum_within f m p = Ok a -> maximum m p = Ok b -> a = b.
  Proof. destruct p as [x|]; cbn; [apply max_loop_agree|congruence]. Qed.
  Lemma rebalance_insert_agree f m hd x a b : rebalance_insert_within f m hd x = Ok a -> rebalance_insert m hd x = Ok b -> a = b.
  Proof.
    unfold rebalance_insert_within, rebalance_insert. intros (m1&E1&H1)%rbind_Ok (m2&E2&H2)%rbind_Ok.
    pose proof (insert_loop_agree _ _ _ _ _ _ _ E1 E2) as ->. congruence.
  Qed.
  Lemma unlink_one_agree f m hd x q a b : unlink_one_within f m hd x q = Ok a -> unlink_one m hd x q = Ok b -> a = b.
  Proof.
    unfold unlink_one_within, unlink_one. destruct (relink m hd x q) as [m0| |]; cbn [rbind]; [|done|done].
    destruct (left m0 (Some hd)) as [lm| |]; cbn [rbind]; [|done|done].
    intros (m1&E1&H1)%rbind_Ok (m2&E2&H2)%rbind_Ok. assert (m1 = m2) as <-.
    { destruct (decide (lm = x)); [|congruence]. destruct q as [y|]; [|congruence].
      apply rbind_Ok in E1 as (p1&E1&E1'), E2 as (p2&E2&E2'). pose proof (minimum_agree _ _ _ _ _ E1 E2) as ->. congruence. }
    destruct (right m1 (Some hd)) as [rm| |]; cbn [rbind] in *; [|done|done].
    apply rbind_Ok in H1 as (m3&E3&H3), H2 as (m4&E4&H4). assert (m3 = m4) as <-; [|congruence].
    destruct (decide (rm = x)); [|congruence]. destruct q as [y|]; [|congruence].
    apply rbind_Ok in E3 as (p1&E3&E3'), E4 as (p2&E4&E4'). pose proof (maximum_agree _ _ _ _ _ E3 E4) as ->. congruence.
  Qed.
  Lemma rebalance_erase_agree f m hd x a b : rebalance_erase_within f m hd x = Ok a -> rebalance_erase m hd x = Ok b -> a = b.
  Proof.
    unfold rebalance_erase_within, rebalance_erase. destruct (has_left m x) as [hl| |]; cbn [rbind]; [|done|done].
    intros ([en rn]&E1&H1)%rbind_Ok ([en' rn']&E2&H2)%rbind_Ok. assert ((en, rn) = (en', rn')) as [= <- <-].
    { destruct hl; cbn [negb] in *; [|congruence]. destruct (has_right m x) as [[]| |]; cbn [rbind negb] in *; [|congruence|done|done].
      destruct (right m x) as [r| |]; cbn [rbind] in *; [|done|done]. apply rbind_Ok in E1 as (p1&E1&E1'), E2 as (p2&E2&E2').
      pose proof (minimum_agree _ _ _ _ _ E1 E2) as ->. congruence. }
    apply rbind_Ok in H1 as ([m1 rp]&H1&H3), H2 as ([m2 rp']&H2&H4). assert ((m1, rp) = (m2, rp')) as [= <- <-].
    { destruct (decide (en = x)); [by eapply unlink_one_agree|congruence]. }
    destruct (is_black m1 x) as [[]| |]; cbn [rbind] in *; [|congruence|done|done].
    apply rbind_Ok in H3 as ([m3 r3]&H3&H5), H4 as ([m4 r4]&H4&H6).
    pose proof (erase_loop_agree _ _ _ _ _ _ _ _ H3 H4) as [= <- <-]. congruence.
  Qed.
End agree.
Section api.
  Context {K V : Type} (alloc : gmap loc (tnode V) -> loc) (Ha : tmalloc_ok alloc).
  Notation M := (gmap loc (tnode V)).
  Implicit Types (m : M) (h : theap V) (t : tobj K V) (cs : list (loc * V)).
  Lemma descend_agree f : forall f' t m y x c v a b, descend f t m y x c v = Ok a -> descend f' t m y x c v = Ok b -> a = b.
  Proof using.
    induction f as [|f IH]; intros [|f'] t m y x c v a b; [done|done|done|]. cbn [descend]. destruct x as [x|]; [|congruence].
    destruct (vkey t m v) as [k| |]; cbn [rbind]; [|done|done]. destruct (nkey t m (Some x)) as [nk| |]; cbn [rbind]; [|done|done].
    destruct (kcomp t k nk).
    - destruct (left m (Some x)) as [x'| |]; cbn [rbind]; [|done|done]. apply IH.
    - destruct (right m (Some x)) as [x'| |]; cbn [rbind]; [|done|done]. apply IH.
  Qed.
  Lemma insert_node_agree f t h hint p v a b : insert_node_within alloc f t h hint p v = Ok a -> insert_node alloc t h hint p v = Ok b -> a = b.
  Proof using.
    unfold insert_node_within, insert_node. destruct (create_node alloc (mem h) v) as [[m x]| |]; cbn [rbind]; [|done|done].
    intros (g&E1&H1)%rbind_Ok (g'&E2&H2)%rbind_Ok. rewrite E1 in E2. injection E2 as <-.
    apply rbind_Ok in H1 as (m1&E1'&H1), H2 as (m2&E2'&H2). rewrite E1' in E2'. injection E2' as <-.
    apply rbind_Ok in H1 as (m3&E3&H1), H2 as (m4&E4&H2). rewrite E3 in E4. injection E4 as <-.
    apply rbind_Ok in H1 as (m5&E5&H1), H2 as (m6&E6&H2). pose proof (rebalance_insert_agree _ _ _ _ _ _ E5 E6) as <-. congruence.
  Qed.
  Lemma insert_node_within_eq f t h hint k v a : is_tree (mem h) (hdr t) (plug k Lf) -> valued (mem h) v a -> side_ok t hint a k ->
    length k < f -> insert_node_within alloc f t h hint (Some (cpar (hdr t) k)) v = insert_node alloc t h hint (Some (cpar (hdr t) k)) v.
  Proof.
    intros HT Hv Hs Hf. destruct (insert_node_within_ok alloc Ha f t h hint k v a HT Hv Hs Hf) as (m1&T1&E1&_).
    destruct (insert_node_ok alloc Ha t h hint k v a HT Hv Hs) as (m2&T2&E2&_). rewrite E1, E2. f_equal. by eapply insert_node_agree.
  Qed.
  Lemma descend_within f t h T v a : StrictWeakOrder (kcomp t) -> is_tree (mem h) (hdr t) T -> ksorted t (cells T) -> valued (mem h) v a ->
    height T < f -> exists k, plug k Lf = T /\ splits (le_key t (kov t a)) k /\ length k < f /\ root_of (mem h) (hdr t) = Ok (root T) /\
      descend f t (mem h) (Some (hdr t)) (root T) true v = Ok (Some (cpar (hdr t) k), cside k) /\
      descend (tfuel (mem h)) t (mem h) (Some (hdr t)) (root T) true v = Ok (Some (cpar (hdr t) k), cside k).
  Proof using.
    intros HW HT HS Hv Hf. pose proof HT as [HR _]. destruct (root_descend t (mem h) T v a HW HT HS Hv) as (k&E&HkT&Hk).
    rewrite (Rep_root _ _ _ _ _ HR) in E |- *. cbn [rbind] in E. exists k. split; [done|]. split; [done|].
    split. { pose proof (height_plug k Lf) as Hp. rewrite HkT in Hp. cbn [height] in Hp. lia. }
    split; [done|]. split; [|done].
    destruct (descend_ok t (mem h) (hdr t) _ _ v a HW Hv T [] f HR HS Hf (splits_nil _)) as (k'&E'&_). cbn [cpar cside] in E'.
    rewrite E'. f_equal. by eapply descend_agree.
  Qed.
  Lemma equal_value_within f t h v a cs : is_rbtree (mem h) t cs -> valued (mem h) v a -> 2 * Nat.log2 (length cs + 1) < f ->
    c_tree_insert_equal_value_within alloc f t h v = c_tree_insert_equal_value alloc t h v.
  Proof.
    intros (HW&(T&HT&<-)&Hc&HS) Hv Hf. pose proof (height_log _ _ _ HT) as Hh.
    destruct (descend_within f t h T v a HW HT HS Hv ltac:(lia)) as (k&HkT&Hk&Hkf&Er&E1&E2).
    unfold c_tree_insert_equal_value_within, c_tree_insert_equal_value. rewrite Er. cbn [rbind]. rewrite E1, E2. cbn [rbind].
    apply (insert_node_within_eq f t h None k v a); [by rewrite HkT|done|by eapply (splits_side alloc)|done].
  Qed.
  Lemma unique_value_within f t h v a cs : is_rbtree (mem h) t cs -> valued (mem h) v a -> 2 * Nat.log2 (length cs + 1) < f ->
    c_tree_insert_unique_value_within alloc f t h v = c_tree_insert_unique_value alloc t h v.
  Proof.
    intros (HW&(T&HT&<-)&Hc&HS) Hv Hf. pose proof (height_log _ _ _ HT) as Hh.
    destruct (descend_within f t h T v a HW HT HS Hv ltac:(lia)) as (k&HkT&Hk&Hkf&Er&E1&E2).
    unfold c_tree_insert_unique_value_within, c_tree_insert_unique_value. rewrite Er. cbn [rbind]. rewrite E1, E2. cbn [rbind].
    assert (Hin : insert_node_within alloc f t h None (Some (cpar (hdr t) k)) v = insert_node alloc t h None (Some (cpar (hdr t) k)) v).
    { apply (insert_node_within_eq f t h None k v a); [by rewrite HkT|done|by eapply (splits_side alloc)|done]. }
    rewrite Hin. pose proof HT as [HR [n Hn]]. pose proof HR as (Hhd&_). rewrite (left_ok _ _ _ Hhd). cbn [rbind nleft].
    destruct (andb _ _) eqn:Eb; [done|]. destruct (cside k) eqn:Ec; [|done]. cbn [andb] in Eb. apply bool_decide_eq_false in Eb.
    destruct k as [|[c x w rr|c l x w] k]; [|clear Ec|done].
    { destruct Eb. cbn [plug cpar] in *. by rewrite <- HkT. }
    cbn [plug cpar] in *. subst T. assert (Hne : lcells k ++ cells (Lf (V := V)) <> []).
    { cbn [cells]. rewrite app_nil_r. intros E. apply Eb. rewrite cells_plug, E. done. }
    rewrite (decrement_within_ok f _ _ _ _ _ _ _ _ _ _ HR); [|by eapply root_black|done|lia].
    rewrite (decrement_ok _ _ _ _ _ _ _ _ _ _ HR); [done|by eapply root_black|done].
  Qed.
  Lemma increment_within_eq f t h cs x w : is_rbtree (mem h) t cs -> (x, w) ∈ cs -> 2 * Nat.log2 (length cs + 1) < f ->
    exists y, increment_within f (mem h) (Some x) = Ok y /\ increment (mem h) (Some x) = Ok y.
  Proof using.
    intros (HW&(T&HT&<-)&Hc&HS) (k&c&l&r&->)%find_at Hf. pose proof (height_log _ _ _ HT) as Hh. destruct HT as [HR _].
    eexists. split; [apply (increment_within_ok f _ _ _ _ _ _ _ _ _ _ HR); lia|by apply (increment_ok _ _ _ _ _ _ _ _ _ _ HR)].
  Qed.
  Lemma decrement_within_eq f t h c0 cs x w : is_rbtree (mem h) t (c0 :: cs) -> (x, w) ∈ cs -> 2 * Nat.log2 (length (c0 :: cs) + 1) < f ->
    exists y, decrement_within f (mem h) (Some x) = Ok y /\ decrement (mem h) (Some x) = Ok y.
  Proof using.
    intros (HW&(T&HT&Hcs)&Hc&HS) Hx Hf. pose proof (height_log _ _ _ HT) as Hh. rewrite Hcs in Hh.
    apply elem_of_list_split in Hx as (L&R&->). pose proof (is_tree_ND _ _ _ HT) as HN. apply NoDup_cons in HN as [_ HN].
    destruct (split_at T (c0 :: L) x w R Hcs HN) as (k&c&l&r&->&El&_). destruct HT as [HR [n Hn]].
    assert (lcells k ++ cells l <> []) by by rewrite <- El.
    eexists. split; [apply (decrement_within_ok f _ _ _ _ _ _ _ _ _ _ HR); [by eapply root_black|done|lia]|].
    apply (decrement_ok _ _ _ _ _ _ _ _ _ _ HR); [by eapply root_black|done].
  Qed.
  Lemma erase_within_eq f t h cs x w : is_rbtree (mem h) t cs -> (x, w) ∈ cs -> 2 * Nat.log2 (length cs + 1) < f ->
    c_tree_erase_within f t h (Some x) = c_tree_erase t h (Some x).
  Proof using.
    intros HB Hx Hf. destruct (increment_within_eq f t h cs x w HB Hx Hf) as (y&E1&E2).
    destruct HB as (HW&(T&HT&<-)&Hc&HS). apply find_at in Hx as (k&c&l&r&->). pose proof (height_log _ _ _ HT) as Hh.
    unfold c_tree_erase_within, c_tree_erase. rewrite E1, E2. cbn [rbind].
    destruct (rebalance_erase_within_ok f _ _ _ _ _ _ _ _ HT ltac:(lia)) as (m1&T1&E3&_).
    destruct (rebalance_erase_ok _ _ _ _ _ _ _ _ HT) as (m2&T2&E4&_). pose proof (rebalance_erase_agree _ _ _ _ _ _ E3 E4) as E. by rewrite E3, E4, E.
  Qed.
End api.

(** ** C153: in a tree of n elements, no loop of these operations goes round more than 2 log2(n+1) + 1 times *)
Theorem C153_insert : forall K V (alloc : gmap loc (tnode V) -> loc), tmalloc_ok alloc ->
  forall (h : theap V) (t : tobj K V) cs v a, is_rbtree (mem h) t cs -> vderef (mem h) v = Ok a ->
  let f := 2 * Nat.log2 (length cs + 1) + 1 in
  (exists r, c_tree_insert_unique_value alloc t h v = Ok r /\ c_tree_insert_unique_value_within alloc f t h v = Ok r) /\
  (exists r, c_tree_insert_equal_value alloc t h v = Ok r /\ c_tree_insert_equal_value_within alloc f t h v = Ok r).
Proof.
  intros K V alloc Ha h t cs v a HB Hv f.
  rewrite (unique_value_within alloc Ha f t h v a cs HB Hv ltac:(unfold f; lia)), (equal_value_within alloc Ha f t h v a cs HB Hv ltac:(unfold f; lia)). split.
  - destruct (insert_unique_value_ok alloc Ha t h v a cs HB Hv) as [(?&?&?&_&_&_&_&E&_)|(?&?&_&_&E)]; eexists; split; exact E.
  - destruct (equal_value_ok alloc Ha t h cs v a HB Hv) as (?&?&E&_). eexists. split; exact E.
Qed.
Print Assumptions C153_insert.
(** erasing the element of any node [x] of the tree *)
Theorem C153_erase : forall K V (h : theap V) (t : tobj K V) cs x w, is_rbtree (mem h) t cs -> (x, w) ∈ cs ->
  let f := 2 * Nat.log2 (length cs + 1) + 1 in
  exists r, c_tree_erase t h (Some x) = Ok r /\ c_tree_erase_within f t h (Some x) = Ok r.
Proof.
  intros K V h t cs x w HB Hx f. rewrite (erase_within_eq f t h cs x w HB Hx ltac:(unfold f; lia)).
  apply elem_of_list_split in Hx as (L&R&->). destruct (erase_ok t h L x w R HB) as (m'&E&_). eexists. split; exact E.
Qed.
Print Assumptions C153_erase.
(** one step of an iterator: forwards from any element, backwards from any element but the first and from the end *)
Theorem C153_step : forall K V (h : theap V) (t : tobj K V) cs i x, is_rbtree (mem h) t cs -> cs.*1 !! i = Some x ->
  let f := 2 * Nat.log2 (length cs + 1) + 1 in
  (exists y, increment (mem h) (Some x) = Ok y /\ increment_within f (mem h) (Some x) = Ok y) /\
  (0 < i -> exists y, decrement (mem h) (Some x) = Ok y /\ decrement_within f (mem h) (Some x) = Ok y) /\
  (exists y, decrement (mem h) (c_tree_end t) = Ok y /\ decrement_within f (mem h) (c_tree_end t) = Ok y).
Proof.
  intros K V h t cs i x HB Hi f. rewrite list_lookup_fmap in Hi. destruct (cs !! i) as [[x0 w]|] eqn:E; [|done]. injection Hi as ->.
  split; [|split].
  - destruct (increment_within_eq f t h cs x w HB ltac:(by eapply elem_of_list_lookup_2) ltac:(unfold f; lia)) as (y&E1&E2). by exists y.
  - intros H0. destruct cs as [|c0 cs]; [done|]. destruct i as [|i]; [lia|]. cbn in E.
    destruct (decrement_within_eq f t h c0 cs x w HB ltac:(by eapply elem_of_list_lookup_2) ltac:(unfold f; lia)) as (y&E1&E2). by exists y.
  - destruct HB as (_&(T&[HR _]&HT)&_). assert (T <> Lf) as Hne. { intros ->. cbn in HT. by subst cs. }
    pose proof (decrement_hd _ _ _ _ _ HR Hne) as E1. eexists. split; [exact E1|]. rewrite <- E1. unfold c_tree_end, decrement_within, decrement.
    unfold decrement in E1. destruct (is_header (mem h) (Some (hdr t))) as [[]| |] eqn:Eh; cbn [rbind] in *; [done| |done|done]. exfalso.
    destruct HR as (Hhd&Hrep&_). unfold is_header in Eh. rewrite (parent_ok _ _ _ Hhd) in Eh. cbn [rbind npar] in Eh.
    destruct T as [|c l y v r]; [done|]. cbn [root] in Eh. cbn [rep] in Hrep. destruct Hrep as (Hy&_). rewrite (parent_ok _ _ _ Hy) in Eh. cbn [rbind npar] in Eh.
    rewrite decide_True in Eh by done. rewrite (color_ok _ _ _ Hhd) in Eh. cbn in Eh. done.
Qed.
Print Assumptions C153_step.
(** ** C153: for every tree of every history *)
Theorem C153_history : forall K V (alloc : gmap loc (tnode V) -> loc), tmalloc_ok alloc ->
  forall (os : list (tree_op K V)) ts gone h env, Forall top_order os -> thist_spec [] os = Some (ts, gone) ->
  thist_run alloc (theap0, []) os = Ok (h, env) ->
  forall i t (a : V), env !! i = Some t ->
    let f := 2 * Nat.log2 (c_tree_size t + 1) + 1 in
    (exists r, c_tree_insert_unique_value alloc t h (RVal a) = Ok r /\ c_tree_insert_unique_value_within alloc f t h (RVal a) = Ok r) /\
    (exists r, c_tree_insert_equal_value alloc t h (RVal a) = Ok r /\ c_tree_insert_equal_value_within alloc f t h (RVal a) = Ok r) /\
    forall j, j < c_tree_size t -> exists p, tposition h t j = Ok p /\
      (exists r, c_tree_erase t h p = Ok r /\ c_tree_erase_within f t h p = Ok r) /\
      (exists y, increment (mem h) p = Ok y /\ increment_within f (mem h) p = Ok y).
Proof.
  intros K V alloc Ha os ts gone h env Ho Hs Hr i t a Hi. destruct (C21_history K V alloc Ha os ts gone Ho Hs) as (h'&env'&E&Hlen&H).
  rewrite Hr in E. injection E as <- <-. destruct (lookup_lt_is_Some_2 ts i) as [tm Htm]; [rewrite <- Hlen; by eapply lookup_lt_Some|].
  destruct (H i tm Htm) as (t'&cs&Hi'&HB&_). rewrite Hi in Hi'. injection Hi' as <-. pose proof HB as (_&_&Hc&_). cbv zeta.
  unfold c_tree_size. rewrite Hc. destruct (C153_insert K V alloc Ha h t cs (RVal a) a HB eq_refl) as [I1 I2]. split; [exact I1|]. split; [exact I2|].
  intros j Hj. destruct (lookup_lt_is_Some_2 cs j Hj) as [[x w] Hx]. exists (Some x). split.
  { rewrite (tposition_ok h t cs j HB) by lia. by rewrite (drop_S _ _ _ Hx). }
  split; [by eapply (C153_erase K V h t cs x w HB), elem_of_list_lookup_2|].
  refine (proj1 (C153_step K V h t cs j x HB _)). by rewrite list_lookup_fmap, Hx.
Qed.
Print Assumptions C153_history.
(** a tree with five elements: five rounds are always enough *)
Example C153_example : exists (t : tobj nat nat) cs, is_rbtree (mem ex_tree.1) t cs /\ length cs = 5 /\
  (exists r, c_tree_insert_equal_value_within ex_talloc 5 t ex_tree.1 (RVal 13) = Ok r) /\
  forall x w, (x, w) ∈ cs -> exists r, c_tree_erase_within 5 t ex_tree.1 (Some x) = Ok r.
Proof.
  destruct ex_tree_ok as (t&cs&_&HB&Hcs&_). pose proof (f_equal length Hcs) as Hl. rewrite fmap_length in Hl. cbn [length] in Hl.
  exists t, cs. split; [done|]. split; [done|].
  destruct (C153_insert _ _ ex_talloc ex_talloc_ok _ t cs (RVal 13) 13 HB eq_refl) as [_ (r&_&E)]. rewrite Hl in E. split; [by exists r|].
  intros x w Hx. destruct (C153_erase _ _ _ t cs x w HB Hx) as (r'&_&E'). rewrite Hl in E'. by exists r'.
Qed.
(** one round is not enough: the budget is really spent *)
Example C153_example_run :
  (do t <- thandle ex_tree.2 0; c_tree_insert_equal_value_within ex_talloc 2 t ex_tree.1 (RVal 13)) = NoFuel.
Proof. vm_compute. reflexivity. Qed.
