(** PropertiesTree.v — the property theorems about /repo/container/c_tree.c (C21-C30, C74-C79).
    Every theorem quantifies over the allocator: [tmalloc_ok alloc] says only that malloc returns a location not
    in use.  [is_rbtree m t cs] (SpecTree.v) says the tree object [t] is a well-formed red-black tree, sorted by
    key, whose nodes in order, with the values they hold, are [cs]; an iterator is the node it points to, so [cs]
    lists the iterators from begin() to end() with the elements they dereference to.  [C21_history] shows that
    every tree the API can build satisfies it.  [Ok] means the call terminates and follows only links of
    allocated nodes. *)
From Verif Require Import Base Spec SpecSeq SpecListOps SpecTreeOps Facts DList Tree SpecTree TreeRep TreeInsert TreeErase TreeIter
  TreeUnlink TreeApi TreeOps TreeLookup TreeMod TreeCheck TreeRun TreeRunProofs TreeVerify.
From Verif Require DListRunProofs.
From stdpp Require Import list gmap.

(** all the ways of reading a tree give the sequence [l] *)
Definition tree_reads {K V} (h : theap V) (t : tobj K V) (l : list V) : Prop :=
  (exists ps, c_tree_walk t h = Ok ps /\ ps.*2 = l) /\ c_tree_rtraverse t h = Ok (rev l) /\ c_tree_size t = length l /\
  c_tree_empty t = (length l =? 0) /\
  (forall k x, l !! k = Some x -> exists p, tposition h t k = Ok p /\ valof (mem h) p = Ok x) /\
  tposition h t (length l) = Ok (c_tree_end t).
Lemma tree_reads_ok {K V} (h : theap V) (t : tobj K V) cs : is_rbtree (mem h) t cs -> tree_reads h t cs.*2.
Proof.
  intros HB. pose proof HB as (_&(T&HT&HcT)&Hc&_). refine (conj _ (conj _ (conj _ (conj _ (conj _ _))))).
  - eexists. split; [by apply rb_walk_ok|]. rewrite <- list_fmap_compose. by apply list_fmap_ext.
  - by apply rb_rtraverse_ok.
  - unfold c_tree_size. by rewrite fmap_length.
  - unfold c_tree_empty. by rewrite Hc, fmap_length.
  - intros k x Hk. rewrite list_lookup_fmap in Hk. destruct (cs !! k) as [[p b]|] eqn:E; [|done]. injection Hk as ->.
    exists (Some p). rewrite (tposition_ok h t cs k HB) by (apply lookup_lt_Some in E; lia). rewrite (drop_S _ _ _ E). split; [done|].
    eapply val_ok; [exact HT|]. rewrite HcT. by eapply elem_of_list_lookup_2.
  - rewrite fmap_length, (tposition_ok h t cs _ HB) by done. by rewrite drop_all.
Qed.
(** an allocator for the examples *)
Definition ex_talloc {V} (m : gmap loc (tnode V)) : loc := infinite_fresh (map fst (map_to_list m)).
Lemma ex_talloc_ok {V} : tmalloc_ok (V := V) ex_talloc.
Proof.
  intros m. destruct (m !! ex_talloc m) as [v|] eqn:E; [|done]. exfalso.
  apply (infinite_is_fresh (map fst (map_to_list m))). apply elem_of_list_fmap.
  exists (ex_talloc m, v). split; [done|]. by apply elem_of_map_to_list.
Qed.
Lemma nat_swo : StrictWeakOrder Nat.ltb.
Proof. split; intros *; rewrite ?Nat.ltb_lt, ?Nat.ltb_ge; lia. Qed.

(** ** C21 every history, over any number of trees.  [thist_spec] (SpecTreeOps.v) is the meaning of a history on
    sequences; it is [None] when a position or tree does not exist. *)
Theorem C21_history : forall K V (alloc : gmap loc (tnode V) -> loc), tmalloc_ok alloc ->
  forall (os : list (tree_op K V)) ts gone, Forall top_order os -> thist_spec [] os = Some (ts, gone) ->
  exists h env, thist_run alloc (theap0, []) os = Ok (h, env) /\ length env = length ts /\
    forall i tm, ts !! i = Some tm -> exists t cs, env !! i = Some t /\ is_rbtree (mem h) t cs /\
      kcomp t = tm_comp tm /\ kov t = tm_key tm /\ cs.*2 = tm_vals tm /\ tree_reads h t (tm_vals tm).
Proof.
  intros K V alloc Ha os ts gone Ho Hs. destruct (thist_ok alloc Ha os theap0 [] [] ts gone tworld0 Ho Hs) as (h&L&G&E&HW&<-&Hd&_).
  exists h, L.*1. split; [done|]. split; [unfold tmods; by rewrite map_length, fmap_length|].
  intros i tm (t&cs&Hi&->)%tmods_lookup. exists t, cs. rewrite list_lookup_fmap, Hi. cbn [tm_comp tm_key tm_vals].
  pose proof (tworld_in _ _ _ _ _ _ HW Hi). split; [done|]. split; [done|]. do 3 (split; [done|]). by apply tree_reads_ok.
Qed.
Print Assumptions C21_history.
(** what [is_rbtree] gives, spelled out on the memory: sorted traversal, red-black rules, links both ways, the
    recorded first and last elements *)
Theorem C21_invariant : forall K V (alloc : gmap loc (tnode V) -> loc), tmalloc_ok alloc ->
  forall (os : list (tree_op K V)) ts gone h env, Forall top_order os -> thist_spec [] os = Some (ts, gone) ->
  thist_run alloc (theap0, []) os = Ok (h, env) ->
  forall i t, env !! i = Some t -> exists T n, rbt BLACK n T /\ rep (mem h) (hdr t) T /\ NoDup (hdr t :: locs T) /\
    root_of (mem h) (hdr t) = Ok (root T) /\
    c_tree_begin t h = Ok (first_loc (hdr t) (cells T)) /\ right (mem h) (Some (hdr t)) = Ok (last_loc (hdr t) (cells T)) /\
    sorted (kcomp t) (kov t <$> (cells T).*2) /\ cnt t = length (cells T).
Proof.
  intros K V alloc Ha os ts gone h env Ho Hs Hr i t Hi. destruct (C21_history K V alloc Ha os ts gone Ho Hs) as (h'&env'&E&Hlen&H).
  rewrite Hr in E. injection E as <- <-. destruct (lookup_lt_is_Some_2 ts i) as [tm Htm]; [rewrite <- Hlen; by eapply lookup_lt_Some|].
  destruct (H i tm Htm) as (t'&cs&Hi'&HB&_). rewrite Hi in Hi'. injection Hi' as <-. pose proof HB as (HW&(T&HT&<-)&Hc&HS).
  pose proof HT as [(Hh&Hrp&HN) (n&Hn)]. exists T, n. split; [done|]. split; [done|]. split; [done|].
  split; [by apply (Rep_root _ _ _ _ _ (proj1 HT))|]. split; [by apply begin_ok|]. split; [|done]. by rewrite (right_ok _ _ _ Hh).
Qed.
Print Assumptions C21_invariant.
Definition ex_thist : list (tree_op nat nat) :=
  [TCreate Nat.ltb id; TInsertUnique 0 (AVal 7); TInsertUnique 0 (AVal 3); TInsertUnique 0 (AVal 9); TInsertUnique 0 (AVal 3);
   TInsertUniqueAll 0 [1; 2; 4; 5; 6; 8; 10; 1]; TInsertUniqueAt 0 2 (AVal 11); TCreate Nat.ltb (fun v => v / 2);
   TInsertEqualAll 1 [4; 5; 2; 8; 5; 3]; TInsertEqual 1 (AElem 0 4); TInsertEqualAt 1 0 (AVal 3); TErase 0 4; TErase 0 0;
   TEraseKey 1 (AKeyOf 1 3); TSwap 0 1; TEraseRange 1 2 5; TInsertEqual 0 (AElem 1 0)].
Example C21_example_spec : thist_spec [] ex_thist =
  Some ([TMod Nat.ltb (fun v => v / 2) [3; 2; 3; 2; 8]; TMod Nat.ltb id [2; 3; 8; 9; 10; 11]], [5; 1; 4; 5; 5; 5; 4; 6; 7]).
Proof. vm_compute. reflexivity. Qed.
Example C21_example_run :
  (do (h, env) <- thist_run ex_talloc (theap0, []) ex_thist;
   do t <- thandle env 0; do u <- thandle env 1; do f <- c_tree_walk t h; do b <- c_tree_rtraverse u h;
   do ok <- c_tree_rb_verify u h; Ok (f.*2, b, cnt u, ok, size (mem h)))
  = Ok ([3; 2; 3; 2; 8], [11; 10; 9; 8; 3; 2], 6, true, 13).
Proof. vm_compute. reflexivity. Qed.
Example C21_example_order : Forall top_order ex_thist.
Proof. repeat (apply Forall_cons; split; [first [exact nat_swo|exact I]|]). by apply Forall_nil. Qed.
(** a tree for the examples below: five elements with duplicate keys *)
Definition ex_tree : theap nat * list (tobj nat nat) :=
  match thist_run ex_talloc (theap0, []) [TCreate Nat.ltb (fun v => v / 2); TInsertEqualAll 0 [4; 5; 2; 8; 3]] with
  | Ok st => st | _ => (theap0, []) end.
Lemma ex_tree_ok : exists t cs, ex_tree.2 = [t] /\ is_rbtree (mem ex_tree.1) t cs /\ cs.*2 = [2; 3; 4; 5; 8] /\
  kcomp t = Nat.ltb /\ kov t = (fun v => v / 2).
Proof.
  destruct (C21_history nat nat ex_talloc ex_talloc_ok [TCreate Nat.ltb (fun v => v / 2); TInsertEqualAll 0 [4; 5; 2; 8; 3]]
    [TMod Nat.ltb (fun v => v / 2) [2; 3; 4; 5; 8]] []) as (h&env&E&Hlen&H).
  { apply Forall_cons; split; [exact nat_swo|]. apply Forall_cons; split; [exact I|]. by apply Forall_nil. }
  { vm_compute. reflexivity. }
  destruct (H 0 _ eq_refl) as (t&cs&Ht&HB&Hk&Hv&Hcs&_). exists t, cs. unfold ex_tree. rewrite E. cbn [fst snd].
  clear E. refine (conj _ (conj HB (conj Hcs (conj Hk Hv)))). destruct env as [|t0 [|]]; [done| |done]. cbn in Ht. by injection Ht as ->.
Qed.

(** ** C22 unique insertion *)
Definition keys_distinct {K V} (comp : K -> K -> bool) (key : V -> K) (l : list V) : Prop :=
  forall i j x y, i <> j -> l !! i = Some x -> l !! j = Some y -> comp (key x) (key y) = false -> comp (key y) (key x) = false -> False.
Lemma present_spec {K V} (comp : K -> K -> bool) (key : V -> K) k l : present comp key k l = true <->
  exists w, w ∈ l /\ comp k (key w) = false /\ comp (key w) k = false.
Proof.
  unfold present. rewrite existsb_exists. split; intros (w&Hw&H); exists w.
  - unfold same_key, equivb in H. apply andb_true_iff in H as [H1%negb_true_iff H2%negb_true_iff]. split; [by apply elem_of_list_In|done].
  - split; [by apply elem_of_list_In|]. unfold same_key, equivb. destruct H as [-> ->]. done.
Qed.
(** the element is added iff no equivalent key is present; the returned iterator points to the element with that
    key; nothing else changes *)
Theorem C22_insert_unique : forall K V (alloc : gmap loc (tnode V) -> loc), tmalloc_ok alloc ->
  forall (h : theap V) (t : tobj K V) cs v a, is_rbtree (mem h) t cs -> vderef (mem h) v = Ok a ->
  (* an equivalent key is present *)
  ((exists w, w ∈ cs.*2 /\ kcomp t (kov t a) (kov t w) = false /\ kcomp t (kov t w) (kov t a) = false) ->
   exists x w, c_tree_insert_unique_value alloc t h v = Ok (h, t, Some x) /\ (x, w) ∈ cs /\
     kcomp t (kov t a) (kov t w) = false /\ kcomp t (kov t w) (kov t a) = false) /\
  (* no equivalent key is present *)
  (~ (exists w, w ∈ cs.*2 /\ kcomp t (kov t a) (kov t w) = false /\ kcomp t (kov t w) (kov t a) = false) ->
   exists h' t' x L R, c_tree_insert_unique_value alloc t h v = Ok (h', t', Some x) /\ cs = L ++ R /\
     (forall c, c ∈ L -> kcomp t (kov t c.2) (kov t a) = true) /\ (forall c, c ∈ R -> kcomp t (kov t a) (kov t c.2) = true) /\
     mem h !! x = None /\ tupd h t cs h' t' (L ++ (x, a) :: R) [] /\ tree_reads h' t' (L.*2 ++ a :: R.*2)).
Proof.
  intros K V alloc Ha h t cs v a HB Hv. rewrite <- present_spec.
  destruct (insert_unique_value_ok alloc Ha t h v a cs HB Hv) as [(L&R&m'&Hcs&HL&HR&Hne&E&HB'&Hs)|(x&w&Hx&Hw&E)].
  - split; intros Hp.
    + exfalso. apply not_true_iff_false in Hp; [done|]. by apply present_false.
    + eexists _, _, _, L, R. split; [exact E|]. split; [done|]. split.
      { intros c Hc. assert (c ∈ cs) as Hcc by (rewrite Hcs; apply elem_of_app; by left). specialize (Hne c Hcc). specialize (HL c Hc).
        unfold eq_key, equivb in Hne. unfold le_key in HL. rewrite HL in Hne. cbn in Hne. by apply negb_false_iff. }
      split. { intros c Hc. specialize (HR c Hc). unfold le_key in HR. by apply negb_false_iff. }
      split; [apply Ha|]. split.
      * assert (inc t = sized t (length (L ++ (alloc (mem h), a) :: R))) as Hi.
        { unfold inc, sized. f_equal. destruct HB as (_&_&->&_). rewrite Hcs, !app_length. cbn. lia. }
        split; [exact Hi|]. split; [done|]. split; [done|]. by rewrite app_nil_r.
      * pose proof (tree_reads_ok (THeap m' (tdead h)) _ _ HB') as Hr. by rewrite fmap_app in Hr.
  - split; intros Hp.
    + exists x, w. split; [done|]. split; [done|]. unfold eq_key, equivb in Hw. by apply andb_true_iff in Hw as [?%negb_true_iff ?%negb_true_iff].
    + exfalso. apply Hp. by eapply present_true.
Qed.
Print Assumptions C22_insert_unique.
(** a tree filled by unique insertions only never holds two equivalent keys *)
Lemma lookup_insert_cases {X} (l : list X) i a j x : i <= length l -> seq_insert i [a] l !! j = Some x ->
  (j = i /\ x = a) \/ (exists j', l !! j' = Some x /\ j' = (if j <? i then j else j - 1) /\ j <> i).
Proof.
  intros Hi H. unfold seq_insert in H. destruct (Nat.lt_total j i) as [Hj|[->|Hj]].
  - right. exists j. rewrite lookup_app_l in H by (rewrite take_length; lia). rewrite lookup_take in H by done.
    split; [done|]. rewrite (proj2 (Nat.ltb_lt _ _) Hj). split; [done|lia].
  - left. rewrite lookup_app_r in H by (rewrite take_length; lia). rewrite take_length in H. replace (i - i `min` length l) with 0 in H by lia.
    by injection H as ->.
  - right. exists (j - 1). rewrite lookup_app_r in H by (rewrite take_length; lia). rewrite take_length in H.
    rewrite lookup_app_r in H by (cbn [length]; lia). rewrite lookup_drop in H. cbn [length] in H.
    replace (i + (j - i `min` length l - 1)) with (j - 1) in H by lia. split; [done|].
    assert ((j <? i) = false) as -> by (apply Nat.ltb_ge; lia). split; [done|lia].
Qed.
Lemma distinct_put {K V} (comp : K -> K -> bool) (key : V -> K) a l : keys_distinct comp key l -> keys_distinct comp key (put_unique comp key a l).
Proof.
  intros Hd. unfold put_unique. destruct (present comp key (key a) l) eqn:Ep; [done|].
  assert (Hn : forall w, w ∈ l -> comp (key a) (key w) = false -> comp (key w) (key a) = false -> False).
  { intros w Hw H1 H2. apply not_true_iff_false in Ep. apply Ep, present_spec. by exists w. }
  assert (upper_index comp key (key a) l <= length l) as Hi by apply List_filter_length.
  intros i j x y Hij Hx Hy H1 H2. unfold put_equal in Hx, Hy.
  apply lookup_insert_cases in Hx as [[-> ->]|(i'&Hx&Hi'&Hi2)]; [| |done]; apply lookup_insert_cases in Hy as [[-> ->]|(j'&Hy&Hj'&Hj2)]; try done.
  - apply (Hn y); [by eapply elem_of_list_lookup_2|done..].
  - apply (Hn x); [by eapply elem_of_list_lookup_2|done..].
  - apply (Hd i' j' x y); [|done..]. subst i' j'. destruct (Nat.ltb_spec i (upper_index comp key (key a) l)), (Nat.ltb_spec j (upper_index comp key (key a) l)); lia.
Qed.
Lemma distinct_sub {K V} (comp : K -> K -> bool) (key : V -> K) (l l' : list V) : l' `sublist_of` l -> keys_distinct comp key l -> keys_distinct comp key l'.
Proof.
  assert (forall l, keys_distinct comp key l <-> ForallOrdPairs (fun x y => comp (key x) (key y) = false -> comp (key y) (key x) = false -> False) l) as Heq.
  { clear. intros l. split.
    - induction l as [|z l IH]; intros Hd; [constructor|]. constructor.
      + apply Forall_forall. intros w Hw H1 H2. apply elem_of_list_lookup_1 in Hw as (j&Hj). apply (Hd 0 (S j) z w); [lia|done..].
      + apply IH. intros i j x y Hij Hx Hy. apply (Hd (S i) (S j)); [lia|done..].
    - induction 1 as [|z l Hz _ IH]; intros i j x y Hij Hx Hy H1 H2; [done|].
      rewrite <- elem_of_list_Forall in Hz || rewrite Forall_forall in Hz.
      destruct i as [|i], j as [|j]; cbn in Hx, Hy; [done| | |].
      + injection Hx as ->. apply (Hz y); [by eapply elem_of_list_lookup_2|done..].
      + injection Hy as ->. apply (Hz x); [by eapply elem_of_list_lookup_2|done..].
      + apply (IH i j x y); [lia|done..]. }
  rewrite !Heq. clear. intros Hs. induction Hs as [|z l1 l2 Hs IH|z l1 l2 Hs IH]; intros H; [done| |].
  - inversion H as [|? ? Hz Hr]; subst. constructor; [|by apply IH]. rewrite Forall_forall in Hz |- *. intros w Hw. apply Hz.
    eapply elem_of_submseteq; [exact Hw|by apply sublist_submseteq].
  - inversion H; subst. by apply IH.
Qed.
Definition op_unique {K V} (o : tree_op K V) : Prop :=
  match o with TInsertEqual _ _ | TInsertEqualAt _ _ _ | TInsertEqualAll _ _ => False | _ => True end.
Definition tm_distinct {K V} (tm : tmod K V) : Prop := keys_distinct (tm_comp tm) (tm_key tm) (tm_vals tm).
Lemma filter_sublist {X} (p : X -> bool) l : List.filter p l `sublist_of` l.
Proof. induction l as [|x l IH]; cbn; [done|]. destruct (p x); [by apply sublist_skip|by apply sublist_cons]. Qed.
Lemma delete_sublist {X} (i j : nat) (l : list X) : i <= j -> seq_delete i j l `sublist_of` l.
Proof.
  intros H. unfold seq_delete. rewrite <- (take_drop i l) at 3. apply sublist_app; [done|].
  replace j with (i + (j - i)) by lia. rewrite <- drop_drop. apply sublist_drop.
Qed.
Lemma op_distinct {K V} (ts ts' : list (tmod K V)) o gone : Forall tm_distinct ts -> op_unique o -> top_spec ts o = Some (ts', gone) -> Forall tm_distinct ts'.
Proof.
  intros HF Ho Hs.
  assert (Hin : forall i t, ts !! i = Some t -> tm_distinct t) by (intros i t Hi; rewrite Forall_lookup in HF; by eapply HF).
  assert (Hset : forall i t l, keys_distinct (tm_comp t) (tm_key t) l -> Forall tm_distinct (<[i := tm_set t l]> ts)) by (intros i t l Hl; by apply Forall_insert).
  destruct o; cbn [top_spec op_unique] in *; try done; repeat (apply bind_Some in Hs as (?&?&Hs)); try (injection Hs as <- <-).
  - apply Forall_app. split; [done|]. apply Forall_singleton. by intros ? ? ? ? _ ?.
  - by apply Forall_delete.
  - apply Forall_insert; [apply Forall_insert; [done|by eapply Hin]|by eapply Hin].
  - apply Hset. by intros ? ? ? ? _ ?.
  - apply Hset, distinct_put. by eapply Hin.
  - apply Hset, distinct_put. by eapply Hin.
  - apply Hset. apply Hin in H. unfold tm_distinct in H. revert H. generalize (tm_vals x). clear. induction vs as [|v vs IH]; intros l Hl; cbn; [done|].
    by apply IH, distinct_put.
  - apply Hset. eapply distinct_sub; [apply delete_sublist; lia|]. by eapply Hin.
  - apply DListRunProofs.check_Some, andb_true_iff in H0 as [H0%Nat.leb_le _]. apply Hset. eapply distinct_sub; [by apply delete_sublist|]. by eapply Hin.
  - apply Hset. eapply distinct_sub; [apply filter_sublist|]. by eapply Hin.
Qed.
Theorem C22_keys_distinct : forall K V (os : list (tree_op K V)) ts gone, Forall op_unique os -> thist_spec [] os = Some (ts, gone) ->
  forall i tm, ts !! i = Some tm -> keys_distinct (tm_comp tm) (tm_key tm) (tm_vals tm).
Proof.
  intros K V os ts gone Ho Hs. assert (Forall tm_distinct ts) as HF.
  { assert (Forall (tm_distinct (K := K) (V := V)) []) as H0 by done. revert Hs H0 ts gone || (revert ts gone Hs; revert H0).
    generalize ([] : list (tmod K V)). induction os as [|o os IH]; intros ts0 H0 ts gone Hs; cbn [thist_spec] in Hs; [by injection Hs as <- <-|].
    apply bind_Some in Hs as ([t1 g1]&H1&Hs). apply bind_Some in Hs as ([t2 g2]&H2&Hs). injection Hs as <- <-.
    apply Forall_cons in Ho as [Ho Hos]. apply (IH Hos t1) with (gone := g2); [|done]. by eapply op_distinct. }
  intros i tm Hi. rewrite Forall_lookup in HF. by eapply HF.
Qed.
Print Assumptions C22_keys_distinct.
Example C22_example : exists (t : tobj nat nat) cs, is_rbtree (mem ex_tree.1) t cs /\
  (exists w, w ∈ cs.*2 /\ kcomp t (kov t 4) (kov t w) = false /\ kcomp t (kov t w) (kov t 4) = false) /\
  ~ (exists w, w ∈ cs.*2 /\ kcomp t (kov t 7) (kov t w) = false /\ kcomp t (kov t w) (kov t 7) = false).
Proof.
  destruct ex_tree_ok as (t&cs&_&HB&Hcs&Hk&Hv). exists t, cs. split; [done|]. rewrite <- !present_spec, Hcs, Hk, Hv. done.
Qed.

(** ** C23 equal insertion: always added, after all elements that are not greater, before all that are *)
Theorem C23_insert_equal : forall K V (alloc : gmap loc (tnode V) -> loc), tmalloc_ok alloc ->
  forall (h : theap V) (t : tobj K V) cs v a, is_rbtree (mem h) t cs -> vderef (mem h) v = Ok a ->
  exists h' t' x L R, c_tree_insert_equal_value alloc t h v = Ok (h', t', Some x) /\ cs = L ++ R /\
    (forall c, c ∈ L -> kcomp t (kov t a) (kov t c.2) = false) /\ (forall c, c ∈ R -> kcomp t (kov t a) (kov t c.2) = true) /\
    mem h !! x = None /\ tupd h t cs h' t' (L ++ (x, a) :: R) [] /\ tree_reads h' t' (L.*2 ++ a :: R.*2).
Proof.
  intros K V alloc Ha h t cs v a HB Hv.
  destruct (insert_equal_value_ok alloc Ha t h v a cs HB Hv) as (L&R&m'&Hcs&HL&HR&E&HB'&Hs).
  eexists _, _, _, L, R. split; [exact E|]. split; [done|].
  split. { intros c Hc. specialize (HL c Hc). unfold le_key in HL. by apply negb_true_iff. }
  split. { intros c Hc. specialize (HR c Hc). unfold le_key in HR. by apply negb_false_iff. }
  split; [apply Ha|]. split.
  - assert (inc t = sized t (length (L ++ (alloc (mem h), a) :: R))) as Hi.
    { unfold inc, sized. f_equal. destruct HB as (_&_&->&_). rewrite Hcs, !app_length. cbn. lia. }
    split; [exact Hi|]. split; [done|]. split; [done|]. by rewrite app_nil_r.
  - pose proof (tree_reads_ok (THeap m' (tdead h)) _ _ HB') as Hr. by rewrite fmap_app in Hr.
Qed.
Print Assumptions C23_insert_equal.
(** inserting a sequence into an empty tree: equivalent elements appear in insertion order *)
Theorem C23_insertion_order : forall K V (alloc : gmap loc (tnode V) -> loc), tmalloc_ok alloc ->
  forall (h : theap V) (t : tobj K V) vs, is_rbtree (mem h) t [] ->
  exists h' t' l, c_tree_insert_equal_range alloc t h vs = Ok (h', t') /\ tree_reads h' t' l /\
    sorted (kcomp t) (kov t <$> l) /\ (forall k, with_key (kcomp t) (kov t) k l = with_key (kcomp t) (kov t) k vs) /\ l ≡ₚ vs.
Proof.
  intros K V alloc Ha h t vs HB. destruct (equal_range_insert_ok alloc Ha vs t h [] HB) as (h'&t'&cs'&E&(->&HB'&_)&Hv).
  exists h', (sized t (length cs')), cs'.*2. split; [done|]. split; [by apply tree_reads_ok|]. pose proof HB' as (HW&_&_&HS). split; [done|].
  rewrite Hv. clear - HW. cbn in HW. cbn [fmap list_fmap].
  assert (forall l, sorted (kcomp t) (kov t <$> l) -> let r := fold_left (fun l a => put_equal (kcomp t) (kov t) a l) vs l in
    (forall k, with_key (kcomp t) (kov t) k r = with_key (kcomp t) (kov t) k (l ++ vs)) /\ r ≡ₚ l ++ vs) as H.
  2: { apply (H []). by intros ? ? ? ? _ ?. }
  induction vs as [|v vs IH]; intros l HS; cbn [fold_left]; [by rewrite app_nil_r|].
  set (i := upper_index (kcomp t) (kov t) (kov t v) l).
  assert (Hsp : (forall w, w ∈ take i l -> kcomp t (kov t v) (kov t w) = false) /\ (forall w, w ∈ drop i l -> kcomp t (kov t v) (kov t w) = true)).
  { subst i. clear IH. induction l as [|w l IH]; [split; intros ? H; by apply elem_of_nil in H|].
    change (kov t <$> w :: l) with (kov t w :: (kov t <$> l)) in HS. apply (sorted_cons (kcomp t)) in HS as [Hw HS].
    unfold upper_index. cbn [List.filter]. destruct (kcomp t (kov t v) (kov t w)) eqn:Ec; cbn [negb].
    - assert (List.filter (fun w0 : V => negb (kcomp t (kov t v) (kov t w0))) l = []) as ->.
      { apply filter_none. intros u Hu. apply negb_false_iff. eapply (swo_lt_le_trans (kcomp t) HW); [exact Ec|].
        rewrite Forall_forall in Hw. apply Hw, elem_of_list_fmap. by exists u. }
      cbn. split; [intros ? H; by apply elem_of_nil in H|]. intros u [->|Hu]%elem_of_cons; [done|].
      eapply (swo_lt_le_trans (kcomp t) HW); [exact Ec|]. rewrite Forall_forall in Hw. apply Hw, elem_of_list_fmap. by exists u.
    - destruct (IH HS) as [I1 I2]. cbn [length take drop]. split; [|done]. intros u [->|Hu]%elem_of_cons; [done|]. by apply I1. }
  destruct (IH (put_equal (kcomp t) (kov t) v l)) as [H1 H2].
  - unfold put_equal, seq_insert. fold i. rewrite !fmap_app. rewrite <- (take_drop i l), fmap_app in HS.
    apply (sorted_app (kcomp t)) in HS as (S1&S2&S3). apply (sorted_app (kcomp t)). split; [done|]. split.
    + apply (sorted_app (kcomp t)). split; [|split; [done|]].
      * apply (sorted_cons (kcomp t)). split; [by apply Forall_nil|apply sorted_nil].
      * intros x y ->%elem_of_list_singleton (w&->&Hw)%elem_of_list_fmap. apply (swo_asym (kcomp t) HW). by apply (proj2 Hsp).
    + intros x y (u&->&Hu)%elem_of_list_fmap [->%elem_of_list_singleton|Hy]%elem_of_app; [by apply (proj1 Hsp)|].
      apply S3; [|done]. apply elem_of_list_fmap. by exists u.
  - split.
    + intros k. rewrite H1. unfold with_key. rewrite !List.filter_app. unfold put_equal, seq_insert. fold i. rewrite !List.filter_app.
      assert (List.filter (same_key (kcomp t) (kov t) k) l = List.filter (same_key (kcomp t) (kov t) k) (take i l) ++ List.filter (same_key (kcomp t) (kov t) k) (drop i l)) as ->
        by (by rewrite <- List.filter_app, take_drop).
      cbn [List.filter]. destruct (same_key (kcomp t) (kov t) k v) eqn:Ek; [|by rewrite <- !app_assoc].
      assert (List.filter (same_key (kcomp t) (kov t) k) (drop i l) = []) as ->; [|by rewrite !app_nil_r, <- app_assoc].
      apply filter_none. intros w Hw. apply (proj2 Hsp) in Hw. unfold same_key, equivb in *. apply andb_true_iff in Ek as [E1%negb_true_iff E2%negb_true_iff].
      assert (kcomp t k (kov t w) = true) as ->; [|done]. by eapply (swo_le_lt_trans (kcomp t) HW).
    + rewrite H2. unfold put_equal, seq_insert. fold i. rewrite <- (take_drop i l) at 3. solve_Permutation.
Qed.
Print Assumptions C23_insertion_order.

(** ** C24 erase removes exactly the designated element, returns the next position, and every other iterator
    still refers to its element *)
Theorem C24_erase : forall K V (h : theap V) (t : tobj K V) cs k p, is_rbtree (mem h) t cs -> k < length cs -> tposition h t k = Ok p ->
  exists x a h' t' q, cs !! k = Some (x, a) /\ p = Some x /\ c_tree_erase t h p = Ok (h', t', q) /\ tposition h' t' k = Ok q /\
    tupd h t cs h' t' (seq_delete k (S k) cs) [a] /\ tree_reads h' t' (seq_delete k (S k) cs.*2) /\
    mem h' !! x = None /\
    (forall y b, (y, b) ∈ cs -> y <> x -> valof (mem h) (Some y) = Ok b /\ valof (mem h') (Some y) = Ok b).
Proof.
  intros K V h t cs k p HB Hk Hp. rewrite (tposition_ok _ _ _ _ HB) in Hp by lia. injection Hp as <-.
  destruct (lookup_lt_is_Some_2 cs k Hk) as [[x a] Ek]. pose proof (take_drop_middle _ _ _ Ek) as Hcs.
  destruct (erase_upd t h (take k cs) x a (drop (S k) cs)) as (h'&t'&E&HU); [by rewrite Hcs|]. rewrite Hcs in HU.
  exists x, a, h', t', (first_loc (hdr t) (drop (S k) cs)). rewrite (drop_S _ _ _ Ek). cbn [first_loc head fmap option_fmap option_map default fst].
  split; [done|]. split; [done|]. split; [done|]. pose proof HU as (Ht&HB'&(Hs1&Hs2&Hs3)&Hd).
  assert (length (take k cs ++ drop (S k) cs) = length cs - 1) as Hlen by (rewrite app_length, take_length, drop_length; lia).
  split. { rewrite (tposition_ok _ _ _ k HB') by lia. rewrite Ht. cbn [sized hdr]. do 2 f_equal.
    rewrite drop_app_alt; [done|]. rewrite take_length. lia. }
  split; [done|].
  split. { pose proof (tree_reads_ok _ _ _ HB') as Hr. rewrite fmap_app, fmap_take, fmap_drop in Hr. done. }
  pose proof HB as (_&(T&HT&HcT)&_). pose proof HB' as (_&(T'&HT'&HcT')&_).
  assert (HN : NoDup (hdr t :: cs.*1)) by (pose proof (is_tree_ND _ _ _ HT) as HN; by rewrite <- HcT).
  split.
  - apply Hs2; [unfold tnodes; right; apply elem_of_list_fmap; exists (x, a); split; [done|by eapply elem_of_list_lookup_2]|].
    apply NoDup_cons in HN as [HN1 HN]. rewrite <- Hcs, fmap_app in HN. cbn [fmap list_fmap] in HN. apply NoDup_app in HN as (_&HN2&HN3).
    apply NoDup_cons in HN3 as [HN3 _]. unfold tnodes. rewrite fmap_app. intros [Hx|[Hx|Hx]%elem_of_app]%elem_of_cons.
    + apply HN1. rewrite <- Hx. apply elem_of_list_fmap. exists (x, a). split; [done|by eapply elem_of_list_lookup_2].
    + apply (HN2 _ Hx). by left.
    + done.
  - intros y b Hy Hne. split; [eapply val_ok; [exact HT|by rewrite HcT]|]. eapply val_ok; [exact HT'|]. rewrite HcT'.
    rewrite <- Hcs in Hy. apply elem_of_app in Hy as [Hy|[Hy|Hy]%elem_of_cons]; [apply elem_of_app; by left|by injection Hy as -> ->|apply elem_of_app; by right].
Qed.
Print Assumptions C24_erase.
(** insertion keeps every iterator valid too *)
Theorem C24_insert_keeps_iterators : forall K V (alloc : gmap loc (tnode V) -> loc), tmalloc_ok alloc ->
  forall (h : theap V) (t : tobj K V) cs v a, is_rbtree (mem h) t cs -> vderef (mem h) v = Ok a ->
  exists h' t' x h2 t2 x2, c_tree_insert_equal_value alloc t h v = Ok (h', t', Some x) /\ c_tree_insert_unique_value alloc t h v = Ok (h2, t2, Some x2) /\
    forall y b, (y, b) ∈ cs -> valof (mem h) (Some y) = Ok b /\ valof (mem h') (Some y) = Ok b /\ valof (mem h2) (Some y) = Ok b.
Proof.
  intros K V alloc Ha h t cs v a HB Hv.
  assert (Hval : forall m (t0 : tobj K V) ds y b, is_rbtree m t0 ds -> (y, b) ∈ ds -> valof m (Some y) = Ok b).
  { intros m t0 ds y b (_&(T&HT&<-)&_) Hy. by eapply val_ok. }
  destruct (C23_insert_equal K V alloc Ha h t cs v a HB Hv) as (h'&t'&x&L&R&E&Hcs&_&_&_&(_&HB'&_)&_).
  destruct (unique_value_ok alloc Ha t h cs v a HB Hv) as [(_&h2&x2&E2&_&(_&HB2&_))|(x2&w&_&_&E2)].
  - exists h', t', x, h2, (sized t (S (length cs))), x2. split; [done|]. split; [done|]. intros y b Hy. split; [by eapply Hval|].
    split; (eapply Hval; [done|]).
    + rewrite Hcs in Hy. apply elem_of_app in Hy as [Hy|Hy]; apply elem_of_app; [by left|right; by right].
    + unfold seq_insert. rewrite <- (take_drop (upper_index (kcomp t) (kov t) (kov t a) cs.*2) cs) in Hy.
      apply elem_of_app in Hy as [Hy|Hy]; apply elem_of_app; [by left|right; by right].
  - exists h', t', x, h, t, x2. split; [done|]. split; [done|]. intros y b Hy. split; [by eapply Hval|]. split; [|by eapply Hval].
    eapply Hval; [done|]. rewrite Hcs in Hy. apply elem_of_app in Hy as [Hy|Hy]; apply elem_of_app; [by left|right; by right].
Qed.
Print Assumptions C24_insert_keeps_iterators.
Example C24_example : exists (t : tobj nat nat) cs, is_rbtree (mem ex_tree.1) t cs /\ 2 < length cs.
Proof. destruct ex_tree_ok as (t&cs&_&HB&Hcs&_). exists t, cs. split; [done|]. apply (f_equal length) in Hcs. rewrite fmap_length in Hcs. rewrite Hcs. cbn. lia. Qed.

(** ** C25 lookups: positions are indices from begin() *)
Lemma lower_index_spec {K V} (comp : K -> K -> bool) (key : V -> K) k l : StrictWeakOrder comp -> sorted comp (key <$> l) ->
  forall i w, l !! i = Some w -> (i < lower_index comp key k l <-> comp (key w) k = true).
Proof.
  intros HW. induction l as [|u l IH]; intros HS i w Hi; [done|]. change (key <$> u :: l) with (key u :: (key <$> l)) in HS.
  apply (sorted_cons comp) in HS as [Hu HS]. unfold lower_index. cbn [List.filter]. rewrite Forall_forall in Hu.
  destruct (comp (key u) k) eqn:Eu; cbn [length].
  - destruct i as [|i]; cbn in Hi; [injection Hi as ->; split; [done|lia]|]. rewrite <- (IH HS i w Hi). unfold lower_index. lia.
  - assert (List.filter (fun w0 => comp (key w0) k) l = []) as ->.
    { apply filter_none. intros w' Hw'. destruct (comp (key w') k) eqn:E; [|done]. rewrite <- Eu. symmetry.
      eapply (swo_le_lt_trans comp HW); [|exact E]. apply Hu, elem_of_list_fmap. by exists w'. }
    cbn. split; [lia|]. intros Hc. exfalso. destruct i as [|i]; cbn in Hi; [congruence|].
    assert (comp (key u) k = true); [|congruence]. eapply (swo_le_lt_trans comp HW); [|exact Hc]. apply Hu, elem_of_list_fmap. exists w.
    split; [done|by eapply elem_of_list_lookup_2].
Qed.
Lemma upper_index_spec {K V} (comp : K -> K -> bool) (key : V -> K) k l : StrictWeakOrder comp -> sorted comp (key <$> l) ->
  forall i w, l !! i = Some w -> (i < upper_index comp key k l <-> comp k (key w) = false).
Proof.
  intros HW. induction l as [|u l IH]; intros HS i w Hi; [done|]. change (key <$> u :: l) with (key u :: (key <$> l)) in HS.
  apply (sorted_cons comp) in HS as [Hu HS]. unfold upper_index. cbn [List.filter]. rewrite Forall_forall in Hu.
  destruct (comp k (key u)) eqn:Eu; cbn [length negb].
  - assert (List.filter (fun w0 => negb (comp k (key w0))) l = []) as ->.
    { apply filter_none. intros w' Hw'. apply negb_false_iff. eapply (swo_lt_le_trans comp HW); [exact Eu|]. apply Hu, elem_of_list_fmap. by exists w'. }
    cbn. split; [lia|]. intros Hc. exfalso. destruct i as [|i]; cbn in Hi; [congruence|].
    assert (comp k (key w) = true); [|congruence]. eapply (swo_lt_le_trans comp HW); [exact Eu|]. apply Hu, elem_of_list_fmap. exists w.
    split; [done|by eapply elem_of_list_lookup_2].
  - destruct i as [|i]; cbn in Hi; [injection Hi as ->; split; [done|lia]|]. rewrite <- (IH HS i w Hi). unfold upper_index. lia.
Qed.
(** elements before the returned position are exactly those less than (not greater than) the key *)
Theorem C25_bounds : forall K V (h : theap V) (t : tobj K V) cs key k, is_rbtree (mem h) t cs -> kderef t (mem h) key = Ok k ->
  exists i j p q, i <= j <= length cs /\ tposition h t i = Ok p /\ tposition h t j = Ok q /\
    c_tree_lower_bound t h key = Ok p /\ c_tree_upper_bound t h key = Ok q /\ c_tree_equal_range t h key = Ok (p, q) /\
    (forall n x w, cs !! n = Some (x, w) -> (n < i <-> kcomp t (kov t w) k = true)) /\
    (forall n x w, cs !! n = Some (x, w) -> (n < j <-> kcomp t k (kov t w) = false)) /\
    (forall n x w, cs !! n = Some (x, w) -> (i <= n < j <-> kcomp t k (kov t w) = false /\ kcomp t (kov t w) k = false)) /\
    c_tree_count t h key = Ok (j - i).
Proof.
  intros K V h t cs key k HB Hk. pose proof HB as (HW&_&_&HS).
  set (i := lower_index (kcomp t) (kov t) k cs.*2). set (j := upper_index (kcomp t) (kov t) k cs.*2).
  pose proof (lower_le t k cs) as Hi. pose proof (upper_le t k cs) as Hj. destruct (TreeMod.between t cs k HW HS) as (Hij&_&Hw).
  assert (forall n x w, cs !! n = Some (x, w) -> cs.*2 !! n = Some w) as Hn by (intros n x w E; by rewrite list_lookup_fmap, E).
  exists i, j, (first_loc (hdr t) (drop i cs)), (first_loc (hdr t) (drop j cs)).
  split; [lia|]. split; [by apply tposition_ok|]. split; [by apply tposition_ok|]. split; [by apply lower_bound_ok|]. split; [by apply upper_bound_ok|].
  split; [by apply equal_range_ok|].
  assert (H1 : forall n x w, cs !! n = Some (x, w) -> (n < i <-> kcomp t (kov t w) k = true)) by (intros n x w E; apply lower_index_spec; [done|done|by eapply Hn]).
  assert (H2 : forall n x w, cs !! n = Some (x, w) -> (n < j <-> kcomp t k (kov t w) = false)) by (intros n x w E; apply upper_index_spec; [done|done|by eapply Hn]).
  split; [done|]. split; [done|]. split.
  - intros n x w E. rewrite <- (H2 n x w E), <- not_true_iff_false, <- (H1 n x w E). lia.
  - rewrite (count_ok t h cs key k HB Hk). f_equal. rewrite <- Hw, take_length, drop_length, fmap_length. fold i j. lia.
Qed.
Print Assumptions C25_bounds.
Theorem C25_find : forall K V (h : theap V) (t : tobj K V) cs key k, is_rbtree (mem h) t cs -> kderef t (mem h) key = Ok k ->
  (exists x w, c_tree_find t h key = Ok (Some x) /\ (x, w) ∈ cs /\ x <> hdr t /\ kcomp t k (kov t w) = false /\ kcomp t (kov t w) k = false) \/
  (c_tree_find t h key = Ok (c_tree_end t) /\ forall x w, (x, w) ∈ cs -> ~ (kcomp t k (kov t w) = false /\ kcomp t (kov t w) k = false)).
Proof.
  intros K V h t cs key k HB Hk. destruct (find_ok t h cs key k HB Hk) as [(x&w&E&Hx&Hw)|[E Hn]].
  - left. exists x, w. split; [done|]. split; [done|]. split.
    { destruct HB as (_&(T&HT&<-)&_). by eapply cell_ne. }
    unfold eq_key, equivb in Hw. by apply andb_true_iff in Hw as [?%negb_true_iff ?%negb_true_iff].
  - right. split; [done|]. intros x w Hx [H1 H2]. specialize (Hn _ Hx). unfold eq_key, equivb in Hn. cbn in Hn. by rewrite H1, H2 in Hn.
Qed.
Print Assumptions C25_find.
Example C25_example : exists (t : tobj nat nat) cs, is_rbtree (mem ex_tree.1) t cs /\ kderef t (mem ex_tree.1) (KVal 2) = Ok 2 /\ cs.*2 = [2; 3; 4; 5; 8].
Proof. destruct ex_tree_ok as (t&cs&_&HB&Hcs&_). by exists t, cs. Qed.
Example C25_example_run :
  (do t <- thandle ex_tree.2 0; do l <- c_tree_lower_bound t ex_tree.1 (KVal 2); do u <- c_tree_upper_bound t ex_tree.1 (KVal 2);
   do b <- c_tree_begin t ex_tree.1; do i <- tree_distance (mem ex_tree.1) b l; do j <- tree_distance (mem ex_tree.1) b u;
   do n <- c_tree_count t ex_tree.1 (KVal 2); do f <- c_tree_find t ex_tree.1 (KVal 3); Ok (i, j, n, bool_decide (f = c_tree_end t)))
  = Ok (2, 4, 2, true).
Proof. vm_compute. reflexivity. Qed.

(** ** C26 iteration *)
Theorem C26_iteration : forall K V (h : theap V) (t : tobj K V) cs, is_rbtree (mem h) t cs ->
  tposition h t 0 = c_tree_begin t h /\ tposition h t (length cs) = Ok (c_tree_end t) /\
  (exists ps, c_tree_walk t h = Ok ps /\ ps = prod_map Some id <$> cs) /\ c_tree_rtraverse t h = Ok (rev cs.*2) /\
  (* ++ and -- move to the neighbouring position and undo each other *)
  (forall k x a p q, cs !! k = Some (x, a) -> tposition h t k = Ok p -> tposition h t (S k) = Ok q ->
     p = Some x /\ valof (mem h) p = Ok a /\ increment (mem h) p = Ok q /\ decrement (mem h) q = Ok p) /\
  (* distinct positions are distinct iterators *)
  (forall i j, i <= length cs -> j <= length cs -> tposition h t i = tposition h t j -> i = j) /\
  (forall i j p q, i <= length cs -> j <= length cs -> tposition h t i = Ok p -> tposition h t j = Ok q ->
     tree_advance (mem h) p (Z.of_nat j - Z.of_nat i) = Ok q /\ (i <= j -> tree_distance (mem h) p q = Ok (j - i))).
Proof.
  intros K V h t cs HB. pose proof HB as (HW&(T&HT&HcT)&Hc&HS).
  assert (HN : NoDup (hdr t :: cs.*1)) by (pose proof (is_tree_ND _ _ _ HT) as HN; by rewrite <- HcT).
  refine (conj _ (conj _ (conj _ (conj _ (conj _ (conj _ _)))))).
  - rewrite (tposition_ok _ _ _ 0 HB) by lia. by rewrite (begin_ok _ _ _ HB).
  - rewrite (tposition_ok _ _ _ _ HB) by lia. by rewrite drop_all.
  - eexists. split; [by apply rb_walk_ok|done].
  - by apply rb_rtraverse_ok.
  - intros k x a p q Hk Hp Hq. pose proof (lookup_lt_Some _ _ _ Hk) as Hlt. pose proof (take_drop_middle _ _ _ Hk) as Hcs.
    rewrite (tposition_ok _ _ _ _ HB) in Hp by lia. injection Hp as <-. rewrite (tposition_ok _ _ _ _ HB) in Hq by lia. injection Hq as <-.
    rewrite (drop_S _ _ _ Hk), first_loc_cons. split; [done|]. split; [|split].
    + eapply val_ok; [exact HT|]. rewrite HcT. by eapply elem_of_list_lookup_2.
    + eapply next_ok; [exact HT|]. by rewrite HcT.
    + eapply prev_at; [exact HT|]. by rewrite HcT.
  - intros i j Hi Hj H. rewrite !(tposition_ok _ _ _ _ HB) in H by done. injection H as H.
    assert (Hat : forall k, k <= length cs -> (cs.*1 ++ [hdr t]) !! k = Some (default (hdr t) (fst <$> head (drop k cs)))).
    { intros k Hk. destruct (decide (k = length cs)) as [->|Hne].
      - rewrite drop_all. rewrite lookup_app_r by (rewrite fmap_length; lia). by rewrite fmap_length, Nat.sub_diag.
      - destruct (lookup_lt_is_Some_2 cs k) as [[x a] E]; [lia|]. rewrite (drop_S _ _ _ E). cbn.
        rewrite lookup_app_l by (rewrite fmap_length; lia). by rewrite list_lookup_fmap, E. }
    assert (HN2 : NoDup (cs.*1 ++ [hdr t])) by (eapply NoDup_perm; [exact HN|apply Permutation_cons_append]).
    eapply NoDup_lookup; [exact HN2|by apply Hat|]. rewrite H. by apply Hat.
  - intros i j p q Hi Hj Hp Hq. rewrite (tposition_ok _ _ _ _ HB) in Hp by lia. injection Hp as <-. rewrite (tposition_ok _ _ _ _ HB) in Hq by lia. injection Hq as <-.
    split; [by apply (advance_ok t h cs)|]. intros Hij. by apply (rb_distance_ok t h cs).
Qed.
Print Assumptions C26_iteration.
(** [C21_example_run] and [ex_tree_ok] show trees with many elements *)

(** more iterations do not change the result *)
Lemma lower_mono {K V} (t : tobj K V) m key r : forall f f' y x, lower_loop f t m y x key = Ok r -> f <= f' -> lower_loop f' t m y x key = Ok r.
Proof.
  induction f as [|f IH]; intros f' y x H Hf; [done|]. destruct f' as [|f']; [lia|]. cbn [lower_loop] in *. destruct x as [x|]; [|done].
  destruct (nkey t m (Some x)); cbn [rbind] in *; [|done..]. destruct (kderef t m key); cbn [rbind] in *; [|done..].
  destruct (negb _); [destruct (left m (Some x))|destruct (right m (Some x))]; cbn [rbind] in *; try done; apply IH; try done; lia.
Qed.
Lemma upper_mono {K V} (t : tobj K V) m key r : forall f f' y x, upper_loop f t m y x key = Ok r -> f <= f' -> upper_loop f' t m y x key = Ok r.
Proof.
  induction f as [|f IH]; intros f' y x H Hf; [done|]. destruct f' as [|f']; [lia|]. cbn [upper_loop] in *. destruct x as [x|]; [|done].
  destruct (kderef t m key); cbn [rbind] in *; [|done..]. destruct (nkey t m (Some x)); cbn [rbind] in *; [|done..].
  destruct (kcomp t _ _); [destruct (left m (Some x))|destruct (right m (Some x))]; cbn [rbind] in *; try done; apply IH; try done; lia.
Qed.
Lemma find_mono {K V} (t : tobj K V) m key r : forall f f' x, find_loop f t m x key = Ok r -> f <= f' -> find_loop f' t m x key = Ok r.
Proof.
  induction f as [|f IH]; intros f' x H Hf; [done|]. destruct f' as [|f']; [lia|]. cbn [find_loop] in *. destruct x as [x|]; [|done].
  destruct (kderef t m key); cbn [rbind] in *; [|done..]. destruct (nkey t m (Some x)); cbn [rbind] in *; [|done..].
  destruct (kcomp t _ _); [destruct (left m (Some x)); cbn [rbind] in *; try done; apply IH; try done; lia|].
  destruct (negb _); [done|]. destruct (right m (Some x)); cbn [rbind] in *; try done; apply IH; try done; lia.
Qed.
(** ** C27 height, and the number of loop iterations of a lookup.  [lower_loop], [upper_loop], [find_loop] and
    [descend] are the search loops of lower_bound, upper_bound, find and insertion; their first argument bounds
    the number of iterations, at most two comparisons each. *)
Theorem C27_logarithmic : forall K V (h : theap V) (t : tobj K V) cs, is_rbtree (mem h) t cs ->
  exists T, is_tree (mem h) (hdr t) T /\ cells T = cs /\ height T <= 2 * Nat.log2 (length cs + 1) /\
  forall fuel, 2 * Nat.log2 (length cs + 1) < fuel ->
    (forall key k, kderef t (mem h) key = Ok k ->
      (do r <- root_of (mem h) (hdr t); lower_loop fuel t (mem h) (Some (hdr t)) r key) = c_tree_lower_bound t h key /\
      (do r <- root_of (mem h) (hdr t); upper_loop fuel t (mem h) (Some (hdr t)) r key) = c_tree_upper_bound t h key /\
      (do r <- root_of (mem h) (hdr t); find_loop fuel t (mem h) r key) = c_tree_find t h key) /\
    (forall v a, vderef (mem h) v = Ok a -> exists y c,
      (do r <- root_of (mem h) (hdr t); descend fuel t (mem h) (Some (hdr t)) r true v) = Ok (y, c)).
Proof.
  intros K V h t cs HB. pose proof HB as (HW&(T&HT&HcT)&Hc&HS). exists T. split; [done|]. split; [done|].
  pose proof (height_log _ _ _ HT) as Hh. rewrite HcT in Hh. split; [done|]. intros fuel Hf. pose proof HT as [HR _].
  rewrite (Rep_root _ _ _ _ _ HR). cbn [rbind]. rewrite <- HcT in HS. pose proof (root_fuel _ _ _ HT) as Htf.
  assert (Hagree : forall (F : nat -> res ptr), (forall f r f', F f = Ok r -> f <= f' -> F f' = Ok r) ->
    (exists r, F fuel = Ok r) -> (exists r, F (tfuel (mem h)) = Ok r) -> F fuel = F (tfuel (mem h))).
  { intros F Hm [r Hr] [r' Hr']. destruct (Nat.le_ge_cases fuel (tfuel (mem h))) as [Hl|Hl].
    - by rewrite Hr, (Hm _ _ _ Hr Hl).
    - by rewrite Hr', (Hm _ _ _ Hr' Hl). }
  split.
  - intros key k Hk. unfold c_tree_lower_bound, c_tree_upper_bound, c_tree_find. rewrite (Rep_root _ _ _ _ _ HR). cbn [rbind].
    assert (HL : forall f, height T < f -> exists r, lower_loop f t (mem h) (Some (hdr t)) (root T) key = Ok r).
    { intros f Hff. destruct (lower_loop_ok t (mem h) (hdr t) _ _ key k HW Hk T [] f HR HS Hff) as (k'&E&_); [apply splits_nil|]. eexists. exact E. }
    assert (HU : forall f, height T < f -> exists r, upper_loop f t (mem h) (Some (hdr t)) (root T) key = Ok r).
    { intros f Hff. destruct (upper_loop_ok t (mem h) (hdr t) _ _ key k HW Hk T [] f HR HS Hff) as (k'&E&_); [apply splits_nil|]. eexists. exact E. }
    assert (HFd : forall f, height T < f -> exists r, find_loop f t (mem h) (root T) key = Ok r).
    { intros f Hff. destruct (find_loop_ok t (mem h) _ _ key k HW Hk T [] f HR HS Hff) as [(x&w&E&_)|(E&_)]; eexists; exact E. }
    split; [|split].
    + apply (Hagree (fun f => lower_loop f t (mem h) (Some (hdr t)) (root T) key)); [intros; by eapply lower_mono|apply HL; lia|by apply HL].
    + apply (Hagree (fun f => upper_loop f t (mem h) (Some (hdr t)) (root T) key)); [intros; by eapply upper_mono|apply HU; lia|by apply HU].
    + destruct (c_tree_empty t) eqn:Ee.
      * unfold c_tree_empty in Ee. apply Nat.eqb_eq in Ee. rewrite Hc in Ee. destruct cs; [|done].
        assert (root T = None) as -> by by apply root_cells. destruct fuel; [lia|done].
      * apply (Hagree (fun f => find_loop f t (mem h) (root T) key)); [intros; by eapply find_mono|apply HFd; lia|by apply HFd].
  - intros v a Hv. destruct (descend_ok t (mem h) (hdr t) _ _ v a HW Hv T [] fuel HR HS) as (k'&E&_); [lia|apply splits_nil|].
    eexists _, _. exact E.
Qed.
Print Assumptions C27_logarithmic.
(** the bound for every tree of every history *)
Theorem C27_history : forall K V (alloc : gmap loc (tnode V) -> loc), tmalloc_ok alloc ->
  forall (os : list (tree_op K V)) ts gone h env, Forall top_order os -> thist_spec [] os = Some (ts, gone) ->
  thist_run alloc (theap0, []) os = Ok (h, env) ->
  forall i t, env !! i = Some t -> exists T, is_tree (mem h) (hdr t) T /\ height T <= 2 * Nat.log2 (c_tree_size t + 1).
Proof.
  intros K V alloc Ha os ts gone h env Ho Hs Hr i t Hi. destruct (C21_history K V alloc Ha os ts gone Ho Hs) as (h'&env'&E&Hlen&H).
  rewrite Hr in E. injection E as <- <-. destruct (lookup_lt_is_Some_2 ts i) as [tm Htm]; [rewrite <- Hlen; by eapply lookup_lt_Some|].
  destruct (H i tm Htm) as (t'&cs&Hi'&HB&_). rewrite Hi in Hi'. injection Hi' as <-. pose proof HB as (HW&(T&HT&HcT)&Hc&HS).
  exists T. split; [done|]. unfold c_tree_size. rewrite Hc, <- HcT. by eapply height_log.
Qed.
Print Assumptions C27_history.

(** ** C28 hints.  With any valid hint (any position [k], end() included) unique insertion gives the contents of
    the unhinted call; equal insertion gives the same elements, sorted: before the hint when that keeps the order,
    otherwise where the unhinted call puts it. *)
Theorem C28_hinted_unique : forall K V (alloc : gmap loc (tnode V) -> loc), tmalloc_ok alloc ->
  forall (h : theap V) (t : tobj K V) cs k p v a, is_rbtree (mem h) t cs -> k <= length cs -> tposition h t k = Ok p -> vderef (mem h) v = Ok a ->
  exists h1 t1 x1 h2 t2 x2 cs1 cs2, c_tree_insert_unique alloc t h p v = Ok (h1, t1, Some x1) /\ c_tree_insert_unique_value alloc t h v = Ok (h2, t2, Some x2) /\
    tupd h t cs h1 t1 cs1 [] /\ tupd h t cs h2 t2 cs2 [] /\ cs1.*2 = cs2.*2 /\
    tree_reads h1 t1 (put_unique (kcomp t) (kov t) a cs.*2) /\
    (exists w, (x1, w) ∈ cs1 /\ kcomp t (kov t a) (kov t w) = false /\ kcomp t (kov t w) (kov t a) = false).
Proof.
  intros K V alloc Ha h t cs k p v a HB Hk Hp Hv. rewrite (tposition_ok _ _ _ _ HB Hk) in Hp. injection Hp as <-.
  pose proof HB as (HW&_).
  assert (Hone : forall r, unique_post h t cs a r -> exists h1 t1 x1 cs1, r = Ok (h1, t1, Some x1) /\ tupd h t cs h1 t1 cs1 [] /\
    cs1.*2 = put_unique (kcomp t) (kov t) a cs.*2 /\ exists w, (x1, w) ∈ cs1 /\ kcomp t (kov t a) (kov t w) = false /\ kcomp t (kov t w) (kov t a) = false).
  { intros r [(Hpr&h'&x&E&_&HU)|(x&w&Hx&Hw&E)].
    - exists h', (sized t (S (length cs))), x, (seq_insert (upper_index (kcomp t) (kov t) (kov t a) cs.*2) [(x, a)] cs).
      split; [done|]. split; [done|]. split; [rewrite put_snd; unfold put_unique; by rewrite Hpr|].
      exists a. split; [apply elem_of_app; right; by left|]. by rewrite (swo_irrefl _ HW).
    - exists h, t, x, cs. split; [done|]. split; [by apply tupd_refl|]. split.
      + unfold put_unique. by rewrite (present_true t (kov t a) cs x w Hx Hw).
      + exists w. split; [done|]. unfold eq_key, equivb in Hw. by apply andb_true_iff in Hw as [?%negb_true_iff ?%negb_true_iff]. }
  destruct (Hone _ (insert_unique_ok alloc Ha t h cs k v a HB Hk Hv)) as (h1&t1&x1&cs1&E1&HU1&Hv1&Hx1).
  destruct (Hone _ (unique_value_ok alloc Ha t h cs v a HB Hv)) as (h2&t2&x2&cs2&E2&HU2&Hv2&_).
  exists h1, t1, x1, h2, t2, x2, cs1, cs2. split; [done|]. split; [done|]. split; [done|]. split; [done|]. split; [congruence|].
  split; [|done]. rewrite <- Hv1. apply tree_reads_ok. by destruct HU1 as (_&?&_).
Qed.
Print Assumptions C28_hinted_unique.
Theorem C28_hinted_equal : forall K V (alloc : gmap loc (tnode V) -> loc), tmalloc_ok alloc ->
  forall (h : theap V) (t : tobj K V) cs k p v a, is_rbtree (mem h) t cs -> k <= length cs -> tposition h t k = Ok p -> vderef (mem h) v = Ok a ->
  exists h1 t1 x1 h2 t2 x2 cs1 cs2, c_tree_insert_equal alloc t h p v = Ok (h1, t1, Some x1) /\ c_tree_insert_equal_value alloc t h v = Ok (h2, t2, Some x2) /\
    tupd h t cs h1 t1 cs1 [] /\ tupd h t cs h2 t2 cs2 [] /\ cs1.*2 ≡ₚ cs2.*2 /\ (x1, a) ∈ cs1 /\
    tree_reads h1 t1 cs1.*2 /\ sorted (kcomp t) (kov t <$> cs1.*2) /\
    (sorted (kcomp t) (kov t <$> seq_insert k [a] cs.*2) -> cs1 = seq_insert k [(x1, a)] cs) /\
    (~ sorted (kcomp t) (kov t <$> seq_insert k [a] cs.*2) -> cs1.*2 = cs2.*2).
Proof.
  intros K V alloc Ha h t cs k p v a HB Hk Hp Hv. rewrite (tposition_ok _ _ _ _ HB Hk) in Hp. injection Hp as <-.
  destruct (insert_equal_ok alloc Ha t h cs k v a HB Hk Hv) as (h1&x1&E1&_&HU1).
  destruct (equal_value_ok alloc Ha t h cs v a HB Hv) as (h2&x2&E2&_&HU2).
  eexists h1, _, x1, h2, _, x2, _, _. split; [exact E1|]. split; [exact E2|]. split; [exact HU1|]. split; [exact HU2|]. rewrite !put_snd.
  assert (Hperm : forall i, seq_insert i [a] cs.*2 ≡ₚ a :: cs.*2).
  { intros i. unfold seq_insert. rewrite <- (take_drop i cs.*2) at 3. solve_Permutation. }
  split; [by rewrite !Hperm|]. split; [apply elem_of_app; right; by left|]. pose proof HU1 as (_&HB1&_).
  split; [rewrite <- (put_snd cs _ x1); by apply tree_reads_ok|]. pose proof HB1 as (_&_&_&HS1). rewrite put_snd in HS1. split; [done|].
  assert (Hfit : sorted (kcomp t) (kov t <$> seq_insert k [a] cs.*2) <-> fits (kcomp t) (kov t) k a cs.*2 = true).
  { pose proof HB as (HW&_&_&HS). rewrite fits_spec. unfold seq_insert. rewrite <- fmap_take, <- fmap_drop, !fmap_app.
    rewrite <- (take_drop k cs), !fmap_app in HS. apply (sorted_app (kcomp t)) in HS as (S1&S2&S3).
    rewrite !(sorted_app (kcomp t)). split.
    - intros (_&(_&_&H2)&H3). split; intros c Hc.
      + apply H3; [|apply elem_of_app; left; by left]. apply elem_of_list_fmap. exists c.2. split; [done|]. apply elem_of_list_fmap. by exists c.
      + apply H2; [by left|]. apply elem_of_list_fmap. exists c.2. split; [done|]. apply elem_of_list_fmap. by exists c.
    - intros [H1 H2]. split; [done|]. split; [split; [|split; [done|]]|].
      + apply (sorted_cons (kcomp t)). split; [by apply Forall_nil|apply sorted_nil].
      + intros x y ->%elem_of_list_singleton (w&->&(c&->&Hc)%elem_of_list_fmap)%elem_of_list_fmap. by apply H2.
      + intros x y Hx [->%elem_of_list_singleton|Hy]%elem_of_app; [|by apply S3].
        apply elem_of_list_fmap in Hx as (w&->&(c&->&Hc)%elem_of_list_fmap). by apply H1. }
  rewrite Hfit. unfold equal_index. destruct (fits (kcomp t) (kov t) k a cs.*2); split; intros Hc; done.
Qed.
Print Assumptions C28_hinted_equal.

(** ** C29 erase_key, erase_range and clear *)
Theorem C29_erase_key : forall K V (h : theap V) (t : tobj K V) cs key k, is_rbtree (mem h) t cs -> kderef t (mem h) key = Ok k ->
  let same w := negb (kcomp t k (kov t w)) && negb (kcomp t (kov t w) k) in
  exists h' t', c_tree_erase_key t h key = Ok (h', t', length (List.filter same cs.*2)) /\
    tupd h t cs h' t' (List.filter (fun c => negb (same c.2)) cs)
      (if length (List.filter same cs.*2) =? length cs then rev (List.filter same cs.*2) else List.filter same cs.*2) /\
    tree_reads h' t' (List.filter (fun w => negb (same w)) cs.*2).
Proof.
  intros K V h t cs key k HB Hk same. destruct (erase_key_ok t h cs key k HB Hk) as (h'&t'&cs'&E&Hc&Hv&HU).
  exists h', t'. split; [exact E|].
  assert (cs' = List.filter (fun c => negb (same c.2)) cs) as <-.
  { rewrite Hc. pose proof HB as (HW&_&_&HS). clear - HW HS.
    set (i := lower_index (kcomp t) (kov t) k cs.*2). set (j := upper_index (kcomp t) (kov t) k cs.*2).
    destruct (TreeMod.between t cs k HW HS) as (Hij&_&_). fold i j in Hij.
    pose proof (lower_index_spec (kcomp t) (kov t) k cs.*2 HW HS) as Hl. pose proof (upper_index_spec (kcomp t) (kov t) k cs.*2 HW HS) as Hu. fold i in Hl. fold j in Hu.
    assert (Hat : forall n c, cs !! n = Some c -> same c.2 = bool_decide (i <= n < j)).
    { intros n c Hn. assert (cs.*2 !! n = Some c.2) as Hn2 by by rewrite list_lookup_fmap, Hn.
      specialize (Hl n _ Hn2). specialize (Hu n _ Hn2). unfold same. destruct (kcomp t k (kov t c.2)), (kcomp t (kov t c.2) k); cbn; symmetry;
        first [apply bool_decide_true|apply bool_decide_false]; destruct Hl, Hu; intuition lia. }
    rewrite <- (take_drop i cs) at 2. rewrite List.filter_app. unfold seq_delete. f_equal.
    - symmetry. apply filter_all. intros c Hc. apply elem_of_list_lookup in Hc as (n&Hn). apply lookup_take_Some in Hn as [Hn Hni].
      rewrite (Hat n c Hn). rewrite bool_decide_false by lia. done.
    - rewrite <- (take_drop (j - i) (drop i cs)), List.filter_app, drop_drop. replace (i + (j - i)) with j by lia.
      rewrite filter_none; [symmetry; apply filter_all|].
      + intros c Hc. apply elem_of_list_lookup in Hc as (n&Hn). rewrite lookup_drop in Hn. rewrite (Hat _ c Hn). by rewrite bool_decide_false by lia.
      + intros c Hc. apply elem_of_list_lookup in Hc as (n&Hn). apply lookup_take_Some in Hn as [Hn Hni]. rewrite lookup_drop in Hn.
        rewrite (Hat _ c Hn). by rewrite bool_decide_true by lia. }
  split; [exact HU|]. pose proof HU as (_&HB'&_). apply tree_reads_ok in HB'. rewrite Hv in HB'. exact HB'.
Qed.
Print Assumptions C29_erase_key.
Theorem C29_erase_range_clear : forall K V (h : theap V) (t : tobj K V) cs, is_rbtree (mem h) t cs ->
  (forall i j p q, i <= j <= length cs -> tposition h t i = Ok p -> tposition h t j = Ok q ->
     exists h' t', c_tree_erase_range t h p q = Ok (h', t') /\
       tupd h t cs h' t' (take i cs ++ drop j cs) (if (i =? 0) && (j =? length cs) then rev cs.*2 else (take (j - i) (drop i cs)).*2) /\
       tree_reads h' t' (take i cs.*2 ++ drop j cs.*2)) /\
  (exists h' t', c_tree_clear t h = Ok (h', t') /\ tupd h t cs h' t' [] (rev cs.*2) /\ tree_reads h' t' []).
Proof.
  intros K V h t cs HB. split.
  - intros i j p q Hij Hp Hq. rewrite (tposition_ok _ _ _ _ HB) in Hp by lia. injection Hp as <-. rewrite (tposition_ok _ _ _ _ HB) in Hq by lia. injection Hq as <-.
    destruct (erase_range_upd t h cs i j HB Hij) as (h'&t'&E&HU). exists h', t'. split; [done|]. split; [exact HU|].
    pose proof HU as (_&HB'&_). apply tree_reads_ok in HB'. unfold seq_delete in HB'. by rewrite fmap_app, fmap_take, fmap_drop in HB'.
  - destruct (clear_upd t h cs HB) as (h'&t'&E&HU). exists h', t'. split; [done|]. split; [done|]. pose proof HU as (_&HB'&_). by apply tree_reads_ok in HB'.
Qed.
Print Assumptions C29_erase_range_clear.
Example C29_example_run :
  (do t <- thandle ex_tree.2 0; do (h, t', n) <- c_tree_erase_key t ex_tree.1 (KVal 2); do ps <- c_tree_walk t' h; Ok (n, ps.*2, tdead h))
  = Ok (2, [2; 3; 8], [4; 5]).
Proof. vm_compute. reflexivity. Qed.

(** ** C30 the self-check accepts every tree the API builds *)
Theorem C30_verify_accepts : forall K V (alloc : gmap loc (tnode V) -> loc), tmalloc_ok alloc ->
  forall (os : list (tree_op K V)) ts gone h env, Forall top_order os -> thist_spec [] os = Some (ts, gone) ->
  thist_run alloc (theap0, []) os = Ok (h, env) ->
  forall i t, env !! i = Some t -> c_tree_rb_verify t h = Ok true.
Proof.
  intros K V alloc Ha os ts gone h env Ho Hs Hr i t Hi. destruct (C21_history K V alloc Ha os ts gone Ho Hs) as (h'&env'&E&Hlen&H).
  rewrite Hr in E. injection E as <- <-. destruct (lookup_lt_is_Some_2 ts i) as [tm Htm]; [rewrite <- Hlen; by eapply lookup_lt_Some|].
  destruct (H i tm Htm) as (t'&cs&Hi'&HB&_). rewrite Hi in Hi'. injection Hi' as <-. by eapply rb_verify_ok.
Qed.
Print Assumptions C30_verify_accepts.

(** ** C74 ownership *)
Definition live {K V} (ts : list (tmod K V)) : list V := concat (tm_vals <$> ts).
Lemma live_set {K V} (ts : list (tmod K V)) i t l g l' : ts !! i = Some t -> tm_vals t ++ l ≡ₚ l' ++ g ->
  live ts ++ l ≡ₚ live (<[i := tm_set t l']> ts) ++ g.
Proof.
  intros Hi Hp. unfold live. rewrite list_fmap_insert. cbn [tm_vals tm_set].
  assert ((tm_vals <$> ts) !! i = Some (tm_vals t)) as Hi' by by rewrite list_lookup_fmap, Hi.
  revert Hi' Hp. generalize (tm_vals t) (tm_vals <$> ts). clear. intros v ls Hi Hp.
  rewrite insert_take_drop by by eapply lookup_lt_Some. rewrite <- (take_drop_middle _ _ _ Hi) at 1. rewrite !concat_app. cbn [concat].
  transitivity (concat (take i ls) ++ concat (drop (S i) ls) ++ (v ++ l)); [solve_Permutation|]. rewrite Hp. solve_Permutation.
Qed.
Lemma put_equal_perm {K V} (comp : K -> K -> bool) (key : V -> K) a l : put_equal comp key a l ≡ₚ a :: l.
Proof. unfold put_equal, seq_insert. generalize (upper_index comp key (key a) l). intros i. rewrite <- (take_drop i l) at 3. solve_Permutation. Qed.
Lemma filter_two {X} (p : X -> bool) l : l ≡ₚ List.filter (fun x => negb (p x)) l ++ List.filter p l.
Proof. induction l as [|x l IH]; cbn; [done|]. destruct (p x); cbn; [by rewrite <- Permutation_middle, <- IH|by rewrite <- IH]. Qed.
Lemma top_conserve {K V} (ts ts' : list (tmod K V)) o gone : top_spec ts o = Some (ts', gone) -> live ts ++ top_added ts o ≡ₚ live ts' ++ gone.
Proof.
  intros Hs. destruct o; cbn [top_spec top_added] in *.
  - injection Hs as <- <-. unfold live. rewrite fmap_app, concat_app. cbn. by rewrite !app_nil_r.
  - apply bind_Some in Hs as (t&Hi&Hs). injection Hs as <- <-. rewrite app_nil_r. unfold live. rewrite list_fmap_delete.
    assert ((tm_vals <$> ts) !! i = Some (tm_vals t)) as Hi' by by rewrite list_lookup_fmap, Hi.
    revert Hi'. generalize (tm_vals t) (tm_vals <$> ts). clear. intros v ls Hi. rewrite delete_take_drop.
    rewrite <- (take_drop_middle _ _ _ Hi) at 1. rewrite !concat_app. cbn [concat]. rewrite <- (Permutation_rev v). solve_Permutation.
  - apply bind_Some in Hs as (t&Hi&Hs). apply bind_Some in Hs as (t'&Hj&Hs). injection Hs as <- <-. rewrite !app_nil_r. unfold live.
    assert (<[j:=t]> (<[i:=t']> ts) ≡ₚ ts) as HP.
    { destruct (decide (i = j)) as [<-|Hij].
      - rewrite Hi in Hj. injection Hj as <-. by rewrite list_insert_insert, list_insert_id.
      - destruct (DListRunProofs.two_at ts i j _ _ Hij Hi Hj) as (r&Hr&Hr'). rewrite Hr', Hr. solve_Permutation. }
    assert (forall l l' : list (list V), l ≡ₚ l' -> concat l ≡ₚ concat l') as Hc.
    { clear. induction 1 as [|x l l' _ IH|x y l|]; cbn; [done|by rewrite IH|solve_Permutation|by etrans]. }
    apply Hc. by rewrite HP.
  - apply bind_Some in Hs as (t&Hi&Hs). injection Hs as <- <-. apply live_set with (1 := Hi). rewrite app_nil_r. apply Permutation_rev.
  - apply bind_Some in Hs as (t&Hi&Hs). apply bind_Some in Hs as (a&Hv&Hs). injection Hs as <- <-. rewrite Hv, Hi. apply live_set with (1 := Hi).
    unfold put_unique. destruct (present _ _ _ _); [done|]. rewrite put_equal_perm, app_nil_r. symmetry. apply Permutation_cons_append.
  - apply bind_Some in Hs as (t&Hi&Hs). apply bind_Some in Hs as (a&Hv&Hs). injection Hs as <- <-. rewrite Hv. apply live_set with (1 := Hi).
    rewrite put_equal_perm, app_nil_r. symmetry. apply Permutation_cons_append.
  - apply bind_Some in Hs as (t&Hi&Hs). apply bind_Some in Hs as (a&Hv&Hs). apply bind_Some in Hs as ([]&_&Hs). injection Hs as <- <-.
    rewrite Hv, Hi. apply live_set with (1 := Hi).
    unfold put_unique. destruct (present _ _ _ _); [done|]. rewrite put_equal_perm, app_nil_r. symmetry. apply Permutation_cons_append.
  - apply bind_Some in Hs as (t&Hi&Hs). apply bind_Some in Hs as (a&Hv&Hs). apply bind_Some in Hs as ([]&_&Hs). injection Hs as <- <-.
    rewrite Hv. apply live_set with (1 := Hi). rewrite app_nil_r. unfold put_equal_at. destruct (fits _ _ _ _ _).
    + unfold seq_insert. rewrite <- (take_drop k (tm_vals t)) at 1. solve_Permutation.
    + rewrite put_equal_perm. symmetry. apply Permutation_cons_append.
  - apply bind_Some in Hs as (t&Hi&Hs). injection Hs as <- <-. rewrite Hi. apply live_set with (1 := Hi). rewrite app_nil_r. clear Hi.
    assert (forall l g, let s := fold_left (fun (s : list V * list V) a => if present (tm_comp t) (tm_key t) (tm_key t a) s.1 then s
                       else (put_equal (tm_comp t) (tm_key t) a s.1, s.2 ++ [a])) vs (l, g) in
      s.1 = fold_left (fun l a => put_unique (tm_comp t) (tm_key t) a l) vs l /\ l ++ s.2 ≡ₚ s.1 ++ g) as H.
    { induction vs as [|v vs IH]; intros l g; cbn [fold_left]; [done|]. cbn [fst snd]. unfold put_unique at 2.
      destruct (present (tm_comp t) (tm_key t) (tm_key t v) l); [apply IH|].
      destruct (IH (put_equal (tm_comp t) (tm_key t) v l) (g ++ [v])) as [H1 H2]. split; [done|].
      revert H2. generalize (fold_left (fun (s : list V * list V) a => if present (tm_comp t) (tm_key t) (tm_key t a) s.1 then s
                       else (put_equal (tm_comp t) (tm_key t) a s.1, s.2 ++ [a])) vs (put_equal (tm_comp t) (tm_key t) v l, g ++ [v])).
      intros s H2. apply (Permutation_cons_inv (a := v)). transitivity (s.1 ++ g ++ [v]); [rewrite <- H2, put_equal_perm; done|solve_Permutation]. }
    destruct (H (tm_vals t) []) as [H1 H2]. rewrite app_nil_r in H2. rewrite H2. by rewrite H1.
  - apply bind_Some in Hs as (t&Hi&Hs). injection Hs as <- <-. apply live_set with (1 := Hi). rewrite app_nil_r. clear Hi.
    revert t. assert (forall (t : tmod K V) l, l ++ vs ≡ₚ fold_left (fun l a => put_equal (tm_comp t) (tm_key t) a l) vs l) as H; [|intros t; apply H].
    intros t. induction vs as [|v vs IH]; intros l; cbn [fold_left]; [by rewrite app_nil_r|]. rewrite <- IH, put_equal_perm. solve_Permutation.
  - apply bind_Some in Hs as (t&Hi&Hs). apply bind_Some in Hs as (a&Hk&Hs). injection Hs as <- <-. apply live_set with (1 := Hi). rewrite app_nil_r.
    unfold seq_delete. rewrite <- (take_drop_middle _ _ _ Hk) at 1. solve_Permutation.
  - apply bind_Some in Hs as (t&Hi&Hs). apply bind_Some in Hs as ([]&Hc&Hs). injection Hs as <- <-. apply live_set with (1 := Hi). rewrite app_nil_r.
    apply DListRunProofs.check_Some, andb_true_iff in Hc as [Hc1%Nat.leb_le Hc2%Nat.leb_le]. unfold seq_delete.
    destruct ((k =? 0) && (m =? length (tm_vals t))) eqn:E.
    + apply andb_true_iff in E as [->%Nat.eqb_eq ->%Nat.eqb_eq]. rewrite drop_all. cbn. apply Permutation_rev.
    + rewrite (DListRunProofs.seq_seg (tm_vals t) k m Hc1) at 1. solve_Permutation.
  - apply bind_Some in Hs as (t&Hi&Hs). apply bind_Some in Hs as (a&Hk&Hs). injection Hs as <- <-. apply live_set with (1 := Hi). rewrite app_nil_r.
    unfold with_key, without_key. destruct (_ =? _); [rewrite <- Permutation_rev|]; apply filter_two.
Qed.
Lemma thist_conserve {K V} (os : list (tree_op K V)) : forall ts ts' gone, thist_spec ts os = Some (ts', gone) ->
  live ts ++ thist_added ts os ≡ₚ live ts' ++ gone.
Proof.
  induction os as [|o os IH]; intros ts ts' gone Hs; cbn [thist_spec thist_added] in *; [by injection Hs as <- <-|].
  apply bind_Some in Hs as ([l1 g1]&H1&Hs). apply bind_Some in Hs as ([l2 g2]&H2&Hs). injection Hs as <- <-.
  rewrite H1. pose proof (top_conserve _ _ _ _ H1) as Hc. pose proof (IH _ _ _ H2) as Hc2.
  cbn [fst snd] in *. rewrite app_assoc, Hc. rewrite <- app_assoc, (Permutation_app_comm g1), app_assoc, Hc2. solve_Permutation.
Qed.
(** every element a history creates is held by exactly one tree or has been destroyed exactly once; the memory
    in use is the nodes of the live trees, their headers, and one leaked header per destroyed tree *)
Theorem C74_ownership : forall K V (alloc : gmap loc (tnode V) -> loc), tmalloc_ok alloc ->
  forall (os : list (tree_op K V)) ts gone, Forall top_order os -> thist_spec [] os = Some (ts, gone) ->
  exists h env, thist_run alloc (theap0, []) os = Ok (h, env) /\ length env = length ts /\ tdead h = gone /\
    thist_added [] os ≡ₚ concat (tm_vals <$> ts) ++ tdead h /\
    size (mem h) = length (concat (tm_vals <$> ts)) + length ts + destroys os.
Proof.
  intros K V alloc Ha os ts gone Ho Hs. destruct (thist_ok alloc Ha os theap0 [] [] ts gone tworld0 Ho Hs) as (h&L&G&E&(HN&HF&HD)&<-&Hd&HG).
  cbn in Hd, HG. exists h, L.*1. split; [done|]. split; [unfold tmods; by rewrite map_length, fmap_length|]. split; [done|]. split.
  { rewrite Hd. apply (thist_conserve os [] _ _ Hs). }
  rewrite <- (size_dom (D := gset loc) (mem h)). assert (dom (D := gset loc) (mem h) = list_to_set (tall L ++ G)) as ->.
  { apply set_eq. intros x. by rewrite elem_of_dom, HD, elem_of_list_to_set. }
  rewrite size_list_to_set by done. rewrite app_length, HG. f_equal. unfold tmods, tall. clear. induction L as [|[t cs] L IH]; [done|].
  cbn [map concat fmap list_fmap length fst snd tm_vals]. rewrite !app_length, IH. unfold tnodes at 1. cbn [length]. rewrite !fmap_length. lia.
Qed.
Print Assumptions C74_ownership.
(** destroying every tree does not give back all the memory: refuted *)
Theorem C75_no_leak_refuted : exists (os : list (tree_op nat nat)) gone h, Forall top_order os /\ thist_spec [] os = Some ([], gone) /\
  thist_run ex_talloc (theap0, []) os = Ok (h, []) /\ mem h <> ∅.
Proof.
  destruct (C74_ownership nat nat ex_talloc ex_talloc_ok [TCreate Nat.ltb id; TInsertUnique 0 (AVal 7); TDestroy 0] [] [7]) as (h&env&E&Hlen&_&_&Hsz).
  { apply Forall_cons; split; [exact nat_swo|]. repeat (apply Forall_cons; split; [exact I|]). by apply Forall_nil. }
  { vm_compute. reflexivity. }
  destruct env; [|discriminate Hlen].
  exists [TCreate Nat.ltb id; TInsertUnique 0 (AVal 7); TDestroy 0], [7], h. split.
  { apply Forall_cons; split; [exact nat_swo|]. repeat (apply Forall_cons; split; [exact I|]). by apply Forall_nil. }
  split; [vm_compute; reflexivity|]. split; [exact E|]. clear E. intros He. rewrite He, map_size_empty in Hsz. discriminate Hsz.
Qed.
Print Assumptions C75_no_leak_refuted.
(** Missing: the header (refuted).  All elements and their nodes are released: what remains is exactly one header
    node per destroyed tree. *)
Theorem C75_no_leak_partial : forall K V (alloc : gmap loc (tnode V) -> loc), tmalloc_ok alloc ->
  forall (os : list (tree_op K V)) gone, Forall top_order os -> thist_spec [] os = Some ([], gone) ->
  exists h, thist_run alloc (theap0, []) os = Ok (h, []) /\ tdead h ≡ₚ thist_added [] os /\ size (mem h) = destroys os.
Proof.
  intros K V alloc Ha os gone Ho Hs. destruct (C74_ownership K V alloc Ha os [] gone Ho Hs) as (h&env&E&Hlen&_&Hp&Hsz).
  destruct env; [|done]. exists h. split; [done|]. split; [by rewrite Hp|]. rewrite Hsz. done.
Qed.
Print Assumptions C75_no_leak_partial.
Example C74_example : thist_added [] ex_thist = [7; 3; 9; 1; 2; 4; 5; 6; 8; 10; 11; 4; 5; 2; 8; 5; 3; 5; 3; 2].
Proof. vm_compute. reflexivity. Qed.

(** ** C76 erase_from: removes exactly the elements whose key is listed (sets: key and value are the same object) *)
Lemma fold_without {K V} (comp : K -> K -> bool) (key : V -> K) ks : forall l,
  fold_left (fun l a => without_key comp key a l) ks l =
  List.filter (fun w => forallb (fun k => comp k (key w) || comp (key w) k) ks) l.
Proof.
  induction ks as [|k ks IH]; intros l; cbn [fold_left forallb]; [by rewrite (filter_all _ l)|]. rewrite IH. unfold without_key. clear IH.
  induction l as [|w l IH]; cbn [List.filter]; [done|]. unfold same_key at 1, equivb at 1. rewrite negb_andb, !negb_involutive.
  destruct (comp k (key w) || comp (key w) k); cbn [List.filter andb]; [destruct (forallb _ ks)|]; by rewrite IH.
Qed.
Theorem C76_erase_from_set : forall K V (h : theap V) (t : tobj K V) cs ks sz, is_rbtree (mem h) t cs -> 0 < sz ->
  exists h' t' cs' gone, c_tree_erase_from t h ks sz sz = Ok (h', t') /\ tupd h t cs h' t' cs' gone /\
    tree_reads h' t' (List.filter (fun w => forallb (fun k => kcomp t k (kov t w) || kcomp t (kov t w) k) ks) cs.*2).
Proof.
  intros K V h t cs ks sz HB Hsz. destruct (erase_from_ok t h cs ks sz HB Hsz) as (h'&t'&cs'&gone&E&HU&Hv).
  exists h', t', cs', gone. split; [done|]. split; [done|]. rewrite <- fold_without, <- Hv. apply tree_reads_ok. by destruct HU as (_&?&_).
Qed.
Print Assumptions C76_erase_from_set.
Example C76_example :
  (do t <- thandle ex_tree.2 0; do (h, t') <- c_tree_erase_from t ex_tree.1 [4; 1; 7] 4 4; do ps <- c_tree_walk t' h; Ok ps.*2) = Ok [4; 5].
Proof. vm_compute. reflexivity. Qed.

(** ** C77 erase_from on a map (values larger than keys): refuted *)
Definition ex_map : theap (nat * nat) * list (tobj nat (nat * nat)) :=
  match thist_run ex_talloc (theap0, []) [TCreate Nat.ltb fst; TInsertUniqueAll 0 [(1, 10); (2, 20); (3, 30)]] with
  | Ok st => st | _ => (theap0, []) end.
(** two listed keys: the second is not erased; one listed key: reads past the array *)
Theorem C77_erase_from_map_refuted :
  (do t <- thandle ex_map.2 0; do (h, t') <- c_tree_erase_from t ex_map.1 [1; 2] 4 8; do ps <- c_tree_walk t' h; Ok ps.*2) = Ok [(2, 20); (3, 30)] /\
  (do t <- thandle ex_map.2 0; c_tree_erase_from t ex_map.1 [1] 4 8) = UB.
Proof. split; vm_compute; reflexivity. Qed.
Print Assumptions C77_erase_from_map_refuted.
(** Missing: what was intended.  When a value is [q] keys long: every [q]-th listed key is erased if [q] divides their
    number, otherwise the call reads past the end of the array. *)
Theorem C77_erase_from_map_partial : forall K V (h : theap V) (t : tobj K V) cs ks q ksize, is_rbtree (mem h) t cs -> 0 < q -> 0 < ksize ->
  (length ks mod q = 0 -> exists h' t' cs' gone, c_tree_erase_from t h ks ksize (q * ksize) = Ok (h', t') /\ tupd h t cs h' t' cs' gone /\
    tree_reads h' t' (List.filter (fun w => forallb (fun k => kcomp t k (kov t w) || kcomp t (kov t w) k)
      (omap (fun i => ks !! (i * q)) (seq 0 (length ks / q)))) cs.*2)) /\
  (length ks mod q <> 0 -> c_tree_erase_from t h ks ksize (q * ksize) = UB).
Proof.
  intros K V h t cs ks q ksize HB Hq Hk. destruct (erase_from_stride q ksize ks t h cs Hq Hk HB) as [H1 H2]. split; [|done].
  intros Hm. destruct (H1 Hm) as (h'&t'&cs'&gone&E&HU&Hv). exists h', t', cs', gone. split; [done|]. split; [done|].
  fold (strided q ks). rewrite <- fold_without, <- Hv. apply tree_reads_ok. by destruct HU as (_&?&_).
Qed.
Print Assumptions C77_erase_from_map_partial.

(** ** C78 the verdict of the self-check, exactly, on every well-linked tree.  [leaves_at], [child_sorted],
    [no_red_red] are in TreeVerify.v. *)
Theorem C78_verify_exact : forall K V (h : theap V) (t : tobj K V) T,
  Rep (mem h) (hdr t) (first_loc (hdr t) (cells T)) (last_loc (hdr t) (cells T)) T -> cnt t <> 0 -> T <> Lf ->
  exists b, c_tree_rb_verify t h = Ok b /\
    (b = true <-> colour T = BLACK /\ no_red_red T /\ child_sorted (kcomp t) (kov t) T /\ leaves_at (left_blacks T) T).
Proof. intros K V h t T. exact (rb_verify_exact t h T). Qed.
Print Assumptions C78_verify_exact.
(** ** C79 the self-check rejects every ill-formed tree: refuted by a well-linked tree that is neither sorted (20 is
    below 5, on the left of 10) nor red-black (15 is red and has a single, black, child 17) *)
Definition bad_tree : tree nat :=
  Nd BLACK (Nd BLACK Lf 2%positive 5 (Nd RED Lf 3%positive 20 Lf)) 1%positive 10 (Nd RED Lf 4%positive 15 (Nd BLACK Lf 5%positive 17 Lf)).
Definition bad_mem : gmap loc (tnode nat) :=
  list_to_map [(9%positive, TNode RED (Some 1%positive) (Some 2%positive) (Some 5%positive) None);
    (1%positive, TNode BLACK (Some 9%positive) (Some 2%positive) (Some 4%positive) (Some 10));
    (2%positive, TNode BLACK (Some 1%positive) None (Some 3%positive) (Some 5));
    (3%positive, TNode RED (Some 2%positive) None None (Some 20));
    (4%positive, TNode RED (Some 1%positive) None (Some 5%positive) (Some 15));
    (5%positive, TNode BLACK (Some 4%positive) None None (Some 17))].
Theorem C79_verify_rejects_refuted :
  let t := TObj 9%positive 5 Nat.ltb id in let h := THeap bad_mem [] in
  Rep (mem h) (hdr t) (first_loc (hdr t) (cells bad_tree)) (last_loc (hdr t) (cells bad_tree)) bad_tree /\ cnt t = length (cells bad_tree) /\
  c_tree_rb_verify t h = Ok true /\ ~ sorted Nat.ltb (cells bad_tree).*2 /\ ~ (exists n, rbt BLACK n bad_tree).
Proof.
  cbv zeta. split; [|split; [reflexivity|split; [vm_compute; reflexivity|split]]].
  - split; [vm_compute; reflexivity|]. split; [|apply (bool_decide_unpack (NoDup _)); vm_compute; exact I].
    repeat (split; [vm_compute; reflexivity|]). repeat split; vm_compute; reflexivity.
  - intros H. specialize (H 1 2 20 10). discriminate (H ltac:(lia) eq_refl eq_refl).
  - intros [n H]. inversion H as [| |n0 c1 c2 l x v r Hl Hr]; subst. inversion Hr as [|n0' l x v r H1 H2|]; subst. inversion H2; subst. inversion H1.
Qed.
Print Assumptions C79_verify_rejects_refuted.
(** Missing: sortedness between non-adjacent levels and the black depth of single-child nodes (refuted).  What an
    accepted tree does satisfy: *)
Theorem C79_verify_rejects_partial : forall K V (h : theap V) (t : tobj K V) T,
  Rep (mem h) (hdr t) (first_loc (hdr t) (cells T)) (last_loc (hdr t) (cells T)) T -> cnt t <> 0 -> T <> Lf ->
  c_tree_rb_verify t h = Ok true ->
  colour T = BLACK /\ no_red_red T /\ child_sorted (kcomp t) (kov t) T /\ exists n, leaves_at n T.
Proof.
  intros K V h t T HR Hc HT Hv. destruct (rb_verify_exact t h T HR Hc HT) as (b&E&Hb). rewrite Hv in E. injection E as <-.
  destruct (proj1 Hb eq_refl) as (H1&H2&H3&H4). split; [done|]. split; [done|]. split; [done|]. by exists (left_blacks T).
Qed.
Print Assumptions C79_verify_rejects_partial.
