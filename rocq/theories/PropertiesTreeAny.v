(** PropertiesTreeAny.v — C132: the trees of /repo/container/c_tree.c (and so sets and maps) with a comparator that
    need not be an order.  [any_tree m t cs] (TreeAny.v): the header of [t] heads a well-formed red-black tree whose
    nodes, in iteration order, with their values, are [cs], and size() is their number; it says nothing about the
    order of the elements.  [aupd]: the call turned one such tree into another, allocated and freed only the nodes
    that differ, and destroyed exactly the given values. *)
From Verif Require Import Base Spec SpecSeq SpecListOps SpecTreeOps Facts DList Tree SpecTree TreeRep TreeInsert TreeErase TreeIter
  TreeUnlink TreeApi TreeOps TreeLookup TreeMod TreeCheck TreeRun TreeRunProofs TreeVerify TreeAny PropertiesTree.
From stdpp Require Import list gmap.

Lemma any_reads {K V} (h : theap V) (t : tobj K V) cs : any_tree (mem h) t cs -> tree_reads h t cs.*2.
Proof. intros HB. exact (tree_reads_ok h (loose t) cs (any_loose _ _ _ HB)). Qed.
Lemma any_position {K V} (h : theap V) (t : tobj K V) cs k : any_tree (mem h) t cs -> k <= length cs ->
  tposition h t k = Ok (first_loc (hdr t) (drop k cs)).
Proof. intros HB. exact (tposition_ok h (loose t) cs k (any_loose _ _ _ HB)). Qed.

(** ** C132: one call.  Any comparator whatever: insertion without a hint, insertion of duplicates with a hint,
    erasure by position, clear, and all lookups *)
Theorem C132_partial : forall K V (alloc : gmap loc (tnode V) -> loc), tmalloc_ok alloc ->
  forall (h : theap V) (t : tobj K V) cs, any_tree (mem h) t cs ->
  tree_reads h t cs.*2 /\
  (* insert_equal: the new element is somewhere, all the others are where they were *)
  (forall v a, vderef (mem h) v = Ok a -> exists h' t' x L R, c_tree_insert_equal_value alloc t h v = Ok (h', t', Some x) /\
     cs = L ++ R /\ mem h !! x = None /\ aupd h t cs h' t' (L ++ (x, a) :: R) []) /\
  (forall v a i p, vderef (mem h) v = Ok a -> i <= length cs -> tposition h t i = Ok p ->
     exists h' t' x L R, c_tree_insert_equal alloc t h p v = Ok (h', t', Some x) /\
     cs = L ++ R /\ mem h !! x = None /\ aupd h t cs h' t' (L ++ (x, a) :: R) []) /\
  (* insert_unique: added, or nothing changes and the result is an element not before the new one *)
  (forall v a, vderef (mem h) v = Ok a ->
     (exists h' t' x L R, c_tree_insert_unique_value alloc t h v = Ok (h', t', Some x) /\
        cs = L ++ R /\ mem h !! x = None /\ aupd h t cs h' t' (L ++ (x, a) :: R) []) \/
     (exists x w, c_tree_insert_unique_value alloc t h v = Ok (h, t, Some x) /\ (x, w) ∈ cs /\ kcomp t (kov t w) (kov t a) = false)) /\
  (* erase, erase_range, clear *)
  (forall L x w R, cs = L ++ (x, w) :: R -> exists h' t', c_tree_erase t h (Some x) = Ok (h', t', first_loc (hdr t) R) /\
     aupd h t cs h' t' (L ++ R) [w]) /\
  (forall i j p q, i <= j <= length cs -> tposition h t i = Ok p -> tposition h t j = Ok q ->
     exists h' t' gone, c_tree_erase_range t h p q = Ok (h', t') /\ aupd h t cs h' t' (seq_delete i j cs) gone /\
       gone ≡ₚ (take (j - i) (drop i cs)).*2) /\
  (exists h' t', c_tree_clear t h = Ok (h', t') /\ aupd h t cs h' t' [] (rev cs.*2)) /\
  (* lookups terminate, change nothing, and give positions of this tree; what find finds, the comparator does not
     distinguish from the key; count counts such elements only *)
  (forall key a, kderef t (mem h) key = Ok a ->
     (exists i, i <= length cs /\ c_tree_lower_bound t h key = tposition h t i) /\
     (exists i, i <= length cs /\ c_tree_upper_bound t h key = tposition h t i) /\
     ((exists x w, c_tree_find t h key = Ok (Some x) /\ (x, w) ∈ cs /\ kcomp t a (kov t w) = false /\ kcomp t (kov t w) a = false) \/
      c_tree_find t h key = Ok (c_tree_end t)) /\
     (exists n, c_tree_count t h key = Ok n /\
        n <= length (List.filter (fun w => negb (kcomp t a (kov t w)) && negb (kcomp t (kov t w) a)) cs.*2))).
Proof.
  intros K V alloc Ha h t cs HB.
  assert (Hadd : forall i a r, i <= length cs -> aadded h t cs i a r ->
    exists h' t' x L R, r = Ok (h', t', Some x) /\ cs = L ++ R /\ mem h !! x = None /\ aupd h t cs h' t' (L ++ (x, a) :: R) []).
  { intros i a r Hi (h'&x&E&Hx&HU). exists h', (sized t (S (length cs))), x, (take i cs), (drop i cs). split; [done|]. by rewrite take_drop. }
  split; [by apply any_reads|]. split.
  { intros v a Hv. destruct (aequal_value_ok alloc Ha t h cs v a HB Hv) as (i&Hi&H). by apply (Hadd i). }
  split.
  { intros v a i p Hv Hi Hp. rewrite (any_position _ _ _ _ HB Hi) in Hp. injection Hp as <-.
    destruct (ainsert_equal_ok alloc Ha t h cs i v a HB Hi Hv) as (j&Hj&H). by apply (Hadd j). }
  split.
  { intros v a Hv. destruct (aunique_value_ok alloc Ha t h cs v a HB Hv) as [(i&Hi&H)|(x&w&Hx&Hw&E)]; [left; by apply (Hadd i)|right; by exists x, w]. }
  split. { intros L x w R ->. by apply aerase_ok. }
  split.
  { intros i j p q Hij Hp Hq. rewrite (any_position _ _ _ _ HB) in Hp by lia. rewrite (any_position _ _ _ _ HB) in Hq by lia. injection Hp as <-. injection Hq as <-.
    destruct (aerase_range_ok t h cs i j HB Hij) as (h'&t'&E&HU). eexists h', t', _. split; [exact E|]. split; [exact HU|].
    destruct ((i =? 0) && (j =? length cs)) eqn:Eb; [|done]. apply andb_true_iff in Eb as [->%Nat.eqb_eq ->%Nat.eqb_eq].
    rewrite drop_0, Nat.sub_0_r, firstn_all. by rewrite <- Permutation_rev. }
  split; [by apply aclear_ok|].
  intros key a Hk. split; [|split; [|split]].
  - destruct (alower_ok t h cs key a HB Hk) as (i&Hi&E). exists i. split; [done|]. by rewrite (any_position _ _ _ _ HB Hi).
  - destruct (aupper_ok t h cs key a HB Hk) as (i&Hi&E). exists i. split; [done|]. by rewrite (any_position _ _ _ _ HB Hi).
  - destruct (afind_ok alloc Ha t h cs key a HB Hk) as [(x&w&E&Hx&Hw)|E]; [left|by right]. exists x, w. split; [done|]. split; [done|].
    unfold eq_key, equivb in Hw. by apply andb_true_iff in Hw as [H1%negb_true_iff H2%negb_true_iff].
  - apply (acount_ok t h cs key a HB Hk).
Qed.
Print Assumptions C132_partial.
(** The remaining functions, insertion of unique elements with a hint and erasure by key, need a comparator that does
    not say of two elements that each comes before the other (no transitivity is needed). *)
Theorem C132_asymmetric_partial : forall K V (alloc : gmap loc (tnode V) -> loc), tmalloc_ok alloc ->
  forall (h : theap V) (t : tobj K V) cs, any_tree (mem h) t cs ->
  (forall x y, kcomp t x y = true -> kcomp t y x = false) ->
  (forall v a i p, vderef (mem h) v = Ok a -> i <= length cs -> tposition h t i = Ok p ->
     (exists h' t' x L R, c_tree_insert_unique alloc t h p v = Ok (h', t', Some x) /\
        cs = L ++ R /\ mem h !! x = None /\ aupd h t cs h' t' (L ++ (x, a) :: R) []) \/
     (exists x w, c_tree_insert_unique alloc t h p v = Ok (h, t, Some x) /\ (x, w) ∈ cs /\ kcomp t (kov t w) (kov t a) = false)) /\
  (forall key a, kderef t (mem h) key = Ok a -> exists i j, i <= j <= length cs /\
     c_tree_lower_bound t h key = tposition h t i /\ c_tree_upper_bound t h key = tposition h t j /\
     exists h' t' gone, c_tree_erase_key t h key = Ok (h', t', j - i) /\ aupd h t cs h' t' (seq_delete i j cs) gone /\
       gone ≡ₚ (take (j - i) (drop i cs)).*2).
Proof.
  intros K V alloc Ha h t cs HB Has. split.
  - intros v a i p Hv Hi Hp. rewrite (any_position _ _ _ _ HB Hi) in Hp. injection Hp as <-.
    destruct (ainsert_unique_ok alloc Ha t h cs i v a Has HB Hi Hv) as [(j&Hj&h'&x&E&Hx&HU)|(x&w&Hx&Hw&E)]; [left|right; by exists x, w].
    exists h', (sized t (S (length cs))), x, (take j cs), (drop j cs). split; [done|]. by rewrite take_drop.
  - intros key a Hk. destruct (abounds_ok t h cs key a Has HB Hk) as (i&j&Hij&E1&E2).
    exists i, j. split; [done|]. rewrite !(any_position _ _ _ _ HB) by lia. split; [done|]. split; [done|].
    unfold c_tree_erase_key. rewrite E1, E2. cbn [rbind].
    pose proof (rb_distance_ok (loose t) h cs i j (any_loose _ _ _ HB) Hij) as Ed. cbn [hdr loose] in Ed. rewrite Ed. cbn [rbind].
    destruct (aerase_range_ok t h cs i j HB Hij) as (h'&t'&E&HU). rewrite E. cbn [rbind]. eexists h', t', _. split; [done|]. split; [exact HU|].
    destruct ((i =? 0) && (j =? length cs)) eqn:Eb; [|done]. apply andb_true_iff in Eb as [->%Nat.eqb_eq ->%Nat.eqb_eq].
    rewrite drop_0, Nat.sub_0_r, firstn_all. by rewrite <- Permutation_rev.
Qed.
Print Assumptions C132_asymmetric_partial.

(** ** C132: histories of one tree.  [any_allowed comp n o]: the operation [o] may be applied to the tree when its
    size() is [n]: the positions it uses are in the tree, the values and keys are not in it, and hinted unique
    insertion and erasure by key need the comparator to be asymmetric *)
Definition any_allowed {K V} (comp : K -> K -> bool) (n : nat) (o : tree_op K V) : Prop :=
  match o with
  | TInsertUnique 0 (AVal _) | TInsertEqual 0 (AVal _) | TClear 0 | TInsertEqualAll 0 _ => True
  | TInsertEqualAt 0 k (AVal _) => k <= n
  | TErase 0 k => k < n
  | TEraseRange 0 k m => k <= m <= n
  | TInsertUniqueAt 0 k (AVal _) => k <= n /\ asymmetric comp
  | TEraseKey 0 (AKey _) => asymmetric comp
  | _ => False
  end.
Fixpoint any_history {K V} (alloc : gmap loc (tnode V) -> loc) (comp : K -> K -> bool) (st : theap V * list (tobj K V)) (os : list (tree_op K V)) : Prop :=
  match os with
  | [] => True
  | o :: os' => (forall t, st.2 !! 0 = Some t -> any_allowed comp (c_tree_size t) o) /\
                (forall st', top_run alloc st o = Ok st' -> any_history alloc comp st' os')
  end.
(** the values a history offers to the tree, and whether all of them must be taken *)
Definition offers {K V} (o : tree_op K V) : list V :=
  match o with
  | TInsertUnique _ (AVal a) | TInsertEqual _ (AVal a) | TInsertEqualAt _ _ (AVal a) | TInsertUniqueAt _ _ (AVal a) => [a]
  | TInsertEqualAll _ vs => vs
  | _ => []
  end.
Definition takes_all {K V} (o : tree_op K V) : Prop := match o with TInsertUnique _ _ | TInsertUniqueAt _ _ _ => False | _ => True end.

Lemma any_step {K V} (alloc : gmap loc (tnode V) -> loc) (Ha : tmalloc_ok alloc) (h : theap V) (t : tobj K V) cs o :
  any_tree (mem h) t cs -> any_allowed (kcomp t) (c_tree_size t) o ->
  exists h' t' cs' gone, top_run alloc (h, [t]) o = Ok (h', [t']) /\ aupd h t cs h' t' cs' gone /\
    (cs'.*2 ++ gone ⊆+ cs.*2 ++ offers o) /\ (takes_all o -> cs'.*2 ++ gone ≡ₚ cs.*2 ++ offers o).
Proof.
  intros HB Ho. pose proof HB as [_ Hc]. unfold c_tree_size in Ho. rewrite Hc in Ho.
  assert (Hadd : forall i a r, aadded h t cs i a r -> exists h' t' cs' x,
    r = Ok (h', t', x) /\ aupd h t cs h' t' cs' [] /\ cs'.*2 ++ [] ≡ₚ cs.*2 ++ [a]).
  { intros i a r (h'&x&E&_&HU). eexists h', (sized t (S (length cs))), _, (Some x). split; [done|]. split; [exact HU|].
    rewrite put_snd, app_nil_r. unfold seq_insert. cbn [app]. rewrite <- (take_drop i cs.*2) at 3. solve_Permutation. }
  assert (Hdel : forall i j gone, i <= j <= length cs -> gone ≡ₚ (take (j - i) (drop i cs)).*2 -> (seq_delete i j cs).*2 ++ gone ≡ₚ cs.*2 ++ []).
  { intros i j gone Hij ->. rewrite app_nil_r. unfold seq_delete.
    assert (Ec : cs = take i cs ++ take (j - i) (drop i cs) ++ drop j cs).
    { rewrite <- (take_drop i cs) at 1. f_equal. rewrite <- (take_drop (j - i) (drop i cs)) at 1. f_equal. rewrite drop_drop. f_equal. lia. }
    transitivity ((take i cs ++ take (j - i) (drop i cs) ++ drop j cs).*2); [|by rewrite <- Ec]. rewrite !fmap_app. solve_Permutation. }
  assert (Hboth : forall h' t' cs' gone l, top_run alloc (h, [t]) o = Ok (h', [t']) -> aupd h t cs h' t' cs' gone -> offers o = l ->
    cs'.*2 ++ gone ≡ₚ cs.*2 ++ l -> exists h' t' cs' gone, top_run alloc (h, [t]) o = Ok (h', [t']) /\ aupd h t cs h' t' cs' gone /\
    (cs'.*2 ++ gone ⊆+ cs.*2 ++ offers o) /\ (takes_all o -> cs'.*2 ++ gone ≡ₚ cs.*2 ++ offers o)).
  { intros h' t' cs' gone l E HU <- HP. exists h', t', cs', gone. split; [done|]. split; [done|]. split; [by rewrite HP|done]. }
  assert (Hrange : forall i j gone, gone = (if (i =? 0) && (j =? length cs) then rev cs.*2 else (take (j - i) (drop i cs)).*2) -> gone ≡ₚ (take (j - i) (drop i cs)).*2).
  { intros i j gone ->. destruct ((i =? 0) && (j =? length cs)) eqn:Eb; [|done]. apply andb_true_iff in Eb as [->%Nat.eqb_eq ->%Nat.eqb_eq].
    rewrite drop_0, Nat.sub_0_r, firstn_all. by rewrite <- Permutation_rev. }
  destruct o as [| | |[|]|[|] [a|]|[|] [a|]|[|] k [a|]|[|] k [a|]| |[|] vs|[|] k|[|] k m|[|] [a|]]; try contradiction; cbn [any_allowed] in Ho;
    cbn [top_run ton targ_ref karg_ref]; unfold ton; cbn [thandle lookup list_lookup rbind targ_ref karg_ref].
  - (* clear *) destruct (aclear_ok t h cs HB) as (h'&t'&E&HU). apply (Hboth h' t' [] (rev cs.*2) []); [|done|done|].
    + cbn [top_run]. unfold ton. cbn [thandle lookup list_lookup rbind]. by rewrite E.
    + rewrite app_nil_r. cbn [fmap list_fmap app]. by rewrite <- Permutation_rev.
  - destruct (aunique_value_ok alloc Ha t h cs (RVal a) a HB eq_refl) as [(i&Hi&H)|(x&w&Hx&Hw&E)].
    + destruct (Hadd _ _ _ H) as (h'&t'&cs'&y&E&HU&HP). apply (Hboth h' t' cs' [] [a]); [|done|done|done].
      cbn [top_run targ_ref]. unfold ton. cbn [thandle lookup list_lookup rbind targ_ref]. by rewrite E.
    + exists h, t, cs, []. cbn [rbind]. rewrite E. cbn [rbind]. split; [by cbn|]. split; [by apply aupd_refl|]. split; [|done].
      rewrite app_nil_r. cbn [offers]. apply submseteq_inserts_r. done.
  - destruct (aequal_value_ok alloc Ha t h cs (RVal a) a HB eq_refl) as (i&Hi&H).
    destruct (Hadd _ _ _ H) as (h'&t'&cs'&y&E&HU&HP). apply (Hboth h' t' cs' [] [a]); [|done|done|done].
    cbn [top_run targ_ref]. unfold ton. cbn [thandle lookup list_lookup rbind targ_ref]. by rewrite E.
  - destruct Ho as [Hk Has]. destruct (ainsert_unique_ok alloc Ha t h cs k (RVal a) a Has HB Hk eq_refl) as [(i&Hi&H)|(x&w&Hx&Hw&E)].
    + destruct (Hadd _ _ _ H) as (h'&t'&cs'&y&E&HU&HP). apply (Hboth h' t' cs' [] [a]); [|done|done|done].
      cbn [top_run targ_ref]. unfold ton. cbn [thandle lookup list_lookup rbind targ_ref]. rewrite (any_position _ _ _ _ HB Hk). cbn [rbind]. by rewrite E.
    + exists h, t, cs, []. rewrite (any_position _ _ _ _ HB Hk). cbn [rbind]. rewrite E. cbn [rbind]. split; [by cbn|]. split; [by apply aupd_refl|]. split; [|done].
      rewrite app_nil_r. cbn [offers]. apply submseteq_inserts_r. done.
  - destruct (ainsert_equal_ok alloc Ha t h cs k (RVal a) a HB Ho eq_refl) as (i&Hi&H).
    destruct (Hadd _ _ _ H) as (h'&t'&cs'&y&E&HU&HP). apply (Hboth h' t' cs' [] [a]); [|done|done|done].
    cbn [top_run targ_ref]. unfold ton. cbn [thandle lookup list_lookup rbind targ_ref]. rewrite (any_position _ _ _ _ HB Ho). cbn [rbind]. by rewrite E.
  - destruct (aequal_range_insert_ok alloc Ha vs t h cs HB) as (h'&t'&cs'&E&HU&HP). apply (Hboth h' t' cs' [] vs); [|done|done|by rewrite app_nil_r].
    cbn [top_run]. unfold ton. cbn [thandle lookup list_lookup rbind]. by rewrite E.
  - destruct (lookup_lt_is_Some_2 cs k) as [[x w] Hx]; [lia|]. pose proof (take_drop_middle cs k _ Hx) as Em. pose proof HB as HB'. rewrite <- Em in HB'.
    destruct (aerase_ok t h _ x w _ HB') as (h'&t'&E&HU). rewrite Em in HU.
    apply (Hboth h' t' (take k cs ++ drop (S k) cs) [w] []); [|exact HU|done|].
    + cbn [top_run]. unfold ton. cbn [thandle lookup list_lookup rbind]. rewrite (any_position _ _ _ _ HB) by lia. cbn [rbind].
      rewrite (drop_S _ _ _ Hx), first_loc_cons, E. done.
    + rewrite app_nil_r. transitivity ((take k cs ++ (x, w) :: drop (S k) cs).*2); [|by rewrite Em]. rewrite !fmap_app. cbn. solve_Permutation.
  - destruct (aerase_range_ok t h cs k m HB Ho) as (h'&t'&E&HU). eapply (Hboth h' t' _ _ []); [|exact HU|done|].
    + cbn [top_run]. unfold ton. cbn [thandle lookup list_lookup rbind]. rewrite !(any_position _ _ _ _ HB) by lia. cbn [rbind]. by rewrite E.
    + apply Hdel; [done|]. by apply Hrange.
  - destruct (aerase_key_ok t h cs (KVal a) a Ho HB eq_refl) as (i&j&h'&t'&Hij&E&HU). eapply (Hboth h' t' _ _ []); [|exact HU|done|].
    + cbn [top_run karg_ref]. unfold ton. cbn [thandle lookup list_lookup rbind karg_ref]. by rewrite E.
    + apply Hdel; [done|]. by apply Hrange.
Qed.
Lemma any_hist {K V} (alloc : gmap loc (tnode V) -> loc) (Ha : tmalloc_ok alloc) os : forall (h : theap V) (t : tobj K V) cs,
  any_tree (mem h) t cs -> any_history alloc (kcomp t) (h, [t]) os ->
  exists h' t' cs' gone, thist_run alloc (h, [t]) os = Ok (h', [t']) /\ aupd h t cs h' t' cs' gone /\
    (cs'.*2 ++ gone ⊆+ cs.*2 ++ concat (map offers os)) /\ (Forall takes_all os -> cs'.*2 ++ gone ≡ₚ cs.*2 ++ concat (map offers os)).
Proof.
  induction os as [|o os IH]; intros h t cs HB Ho; cbn [thist_run].
  - exists h, t, cs, []. split; [done|]. split; [by apply aupd_refl|]. by rewrite !app_nil_r.
  - destruct Ho as [Ho Hos]. destruct (any_step alloc Ha h t cs o HB (Ho t eq_refl)) as (h1&t1&c1&g1&E1&HU1&HS1&HP1).
    specialize (Hos _ E1). rewrite E1. cbn [rbind]. pose proof HU1 as (Et&HB1&_&_). 
    replace (kcomp t) with (kcomp t1) in Hos by (by rewrite Et).
    destruct (IH h1 t1 c1 HB1 Hos) as (h2&t2&c2&g2&E2&HU2&HS2&HP2). exists h2, t2, c2, (g1 ++ g2). split; [done|].
    split; [by eapply aupd_trans|]. cbn [map concat]. split.
    + assert (c2.*2 ++ g1 ++ g2 ≡ₚ g1 ++ c2.*2 ++ g2) as -> by solve_Permutation.
      etrans; [apply submseteq_skips_l, HS2|]. rewrite app_assoc.
      assert (g1 ++ c1.*2 ≡ₚ c1.*2 ++ g1) as -> by solve_Permutation. etrans; [apply submseteq_skips_r, HS1|]. by rewrite app_assoc.
    + intros [H1 H2]%Forall_cons. assert (c2.*2 ++ g1 ++ g2 ≡ₚ g1 ++ c2.*2 ++ g2) as -> by solve_Permutation. rewrite (HP2 H2). rewrite app_assoc.
      assert (g1 ++ c1.*2 ≡ₚ c1.*2 ++ g1) as -> by solve_Permutation. rewrite (HP1 H1). by rewrite app_assoc.
Qed.
(** Every history of calls on a tree with any comparator: no undefined behaviour, the tree is well formed, every
    value offered is in the tree or was destroyed (or was refused by a unique insertion), none twice, and exactly
    the nodes of the tree are allocated *)
Theorem C132_history_partial : forall K V (alloc : gmap loc (tnode V) -> loc), tmalloc_ok alloc ->
  forall (comp : K -> K -> bool) (key : V -> K) os st0,
  thist_run alloc (theap0, []) [TCreate comp key] = Ok st0 -> any_history alloc comp st0 os ->
  exists h t cs, thist_run alloc (theap0, []) (TCreate comp key :: os) = Ok (h, [t]) /\ any_tree (mem h) t cs /\ tree_reads h t cs.*2 /\
    (cs.*2 ++ tdead h ⊆+ concat (map offers os)) /\ (Forall takes_all os -> cs.*2 ++ tdead h ≡ₚ concat (map offers os)) /\
    (forall z, is_Some (mem h !! z) <-> z ∈ hdr t :: cs.*1).
Proof.
  intros K V alloc Ha comp key os st0 E0 Hos. cbn [thist_run top_run c_tree_create rbind] in *. injection E0 as <-. cbn [mem theap0 tdead app] in *.
  set (h0 := THeap _ _) in *. set (t0 := TObj _ _ _ _) in *.
  assert (HB : any_tree (mem h0) t0 []).
  { split; [|done]. exists Lf. split; [|done]. apply is_tree_nil. cbn [mem h0 hdr t0]. apply lookup_insert. }
  destruct (any_hist alloc Ha os h0 t0 [] HB Hos) as (h'&t'&cs'&gone&E&HU&HS&HP). exists h', t', cs'. pose proof HU as (Et&HB'&Hst&Hd).
  cbn [tdead h0 app] in Hd. split; [done|]. split; [done|]. split; [by apply any_reads|]. rewrite Hd. split; [exact HS|]. split; [exact HP|].
  assert (Eh : hdr t' = hdr t0) by by rewrite Et. rewrite Eh.
  intros z. split.
  - intros [n Hn]. destruct (decide (z ∈ hdr t0 :: cs'.*1)) as [?|Hz]; [done|]. exfalso. destruct Hst as (H1&H2&H3).
    destruct (decide (z = hdr t0)) as [->|Hz0]; [apply Hz; by left|].
    rewrite H1 in Hn; [|unfold tnodes; cbn; by apply not_elem_of_cons; split; [|apply not_elem_of_nil]|done].
    cbn [mem h0] in Hn. rewrite lookup_insert_ne in Hn by (intros <-; done). done.
  - intros Hz. destruct HB' as [HH _]. apply holds_nodes in HH as [_ HH]. apply HH. by rewrite Eh.
Qed.
Print Assumptions C132_history_partial.

(** ** examples and refutations *)
(** rock, paper, scissors: asymmetric, not transitive *)
Definition rps (x y : nat) : bool := Nat.eqb ((x + 1) mod 3) (y mod 3).
Lemma rps_asymmetric : asymmetric rps.
Proof.
  intros x y. unfold rps. intros H%Nat.eqb_eq. apply Nat.eqb_neq. intros H'.
  rewrite (Nat.add_mod x), (Nat.add_mod y) in * by done. rewrite <- H in H'. revert H'.
  assert (x mod 3 < 3) as Hx by by apply Nat.mod_upper_bound. destruct (x mod 3) as [|[|[|]]]; [done..|lia].
Qed.
Example C132_example :
  (do (h, env) <- thist_run ex_talloc (theap0, []) [TCreate rps id; TInsertEqualAll 0 [3; 1; 2; 5; 4; 6]; TInsertUnique 0 (AVal 7); TErase 0 2;
     TInsertUniqueAt 0 3 (AVal 8); TEraseKey 0 (AKey 4)];
   do t <- thandle env 0; do f <- c_tree_walk t h; do b <- c_tree_rtraverse t h; Ok (f.*2, b, cnt t, size (mem h), tdead h))
  = Ok ([2; 5; 6], [6; 5; 2], 3, 4, [3; 1; 4]).
Proof. vm_compute. reflexivity. Qed.
Definition after_ops (os : list (tree_op nat nat)) : theap nat * list (tobj nat nat) :=
  match thist_run ex_talloc (theap0, []) os with Ok st => st | _ => (theap0, []) end.
Lemma after_next os o st : thist_run ex_talloc (theap0, []) os = Ok (after_ops os) -> top_run ex_talloc (after_ops os) o = Ok st ->
  st = after_ops (os ++ [o]) /\ thist_run ex_talloc (theap0, []) (os ++ [o]) = Ok st.
Proof.
  intros H1 H2. assert (H : thist_run ex_talloc (theap0, []) (os ++ [o]) = Ok st).
  { revert H1 H2. generalize (after_ops os) as s1. generalize (@theap0 nat, @nil (tobj nat nat)) as s0.
    induction os as [|o1 os IH]; intros s0 s1 H1 H2; cbn [thist_run app] in *.
    - injection H1 as ->. by rewrite H2.
    - destruct (top_run ex_talloc s0 o1) as [s2| |]; cbn [rbind] in *; [|done|done]. by eapply IH. }
  split; [|done]. unfold after_ops. by rewrite H.
Qed.
Example C132_example_allowed : any_history ex_talloc Nat.leb (after_ops [TCreate Nat.leb id])
  [TInsertUnique 0 (AVal 2); TInsertUnique 0 (AVal 2); TInsertEqualAt 0 1 (AVal 1); TErase 0 2; TClear 0].
Proof.
  assert (Hn : forall n o l, n <= l -> (c_tree_size <$> (after_ops o).2 !! 0) = Some l -> forall t, (after_ops o).2 !! 0 = Some t -> n <= c_tree_size t).
  { intros n o l Hl Ho t Ht. rewrite Ht in Ho. cbn in Ho. by injection Ho as ->. }
  assert (H0 : thist_run ex_talloc (theap0, []) [TCreate Nat.leb id] = Ok (after_ops [TCreate Nat.leb id])) by done.
  split; [done|]. intros s1 H1. destruct (after_next _ _ _ H0 H1) as [-> R1]. clear H1. cbn [app] in *.
  split; [done|]. intros s2 H2. destruct (after_next _ _ _ R1 H2) as [-> R2]. clear H2. cbn [app] in *.
  split; [cbn [any_allowed]; apply (Hn 1 _ 2); [lia|vm_compute; reflexivity]|]. intros s3 H3. destruct (after_next _ _ _ R2 H3) as [-> R3]. clear H3. cbn [app] in *.
  split; [cbn [any_allowed]; apply (Hn 3 _ 3); [lia|vm_compute; reflexivity]|]. intros s4 H4. destruct (after_next _ _ _ R3 H4) as [-> R4]. clear H4. cbn [app] in *.
  split; [done|]. done.
Qed.
(** less-or-equal sets of the given elements *)
Definition ex_leb (vs : list nat) : theap nat * tobj nat nat :=
  match thist_run ex_talloc (theap0, []) (TCreate Nat.leb id :: map (fun a => TInsertUnique 0 (AVal a)) vs) with
  | Ok (h, [t]) => (h, t) | _ => (theap0, TObj 1%positive 0 Nat.leb id) end.
Lemma ex_leb_history vs : forall st, any_history (K := nat) (V := nat) ex_talloc Nat.leb st (map (fun a => TInsertUnique 0 (AVal a)) vs).
Proof. induction vs as [|a vs IH]; intros st; [done|]. split; [done|]. intros st' _. apply IH. Qed.
Lemma ex_leb_ok vs : exists cs, any_tree (mem (ex_leb vs).1) (ex_leb vs).2 cs.
Proof.
  destruct (C132_history_partial nat nat ex_talloc ex_talloc_ok Nat.leb id (map (fun a => TInsertUnique 0 (AVal a)) vs)
    (let (h, t) := c_tree_create ex_talloc theap0 Nat.leb id in (h, [t])) eq_refl (ex_leb_history vs _)) as (h&t&cs&E&HB&_).
  exists cs. unfold ex_leb. rewrite E. done.
Qed.
(** with less-or-equal, inserting an equal element into a set with a hint overwrites a link: of the two elements 1
    and 2, one is lost: size() is 3 but only two elements are met going forwards, going backwards follows a null
    pointer, and clear leaves one node behind *)
Definition ex_overwritten : theap nat * tobj nat nat * ptr :=
  match c_tree_insert_unique ex_talloc (ex_leb [2; 1]).2 (ex_leb [2; 1]).1 (c_tree_end (ex_leb [2; 1]).2) (RVal 2) with
  | Ok r => r | _ => (theap0, (ex_leb [2; 1]).2, None) end.
Theorem C132_hint_refuted : exists h t cs h' t' x,
  any_tree (mem h) t cs /\ cs.*2 = [1; 2] /\ kcomp t = Nat.leb /\ kov t = id /\
  c_tree_insert_unique ex_talloc t h (c_tree_end t) (RVal 2) = Ok (h', t', x) /\ c_tree_size t' = 3 /\
  (exists ps, c_tree_walk t' h' = Ok ps /\ ps.*2 = [1; 2]) /\ c_tree_rtraverse t' h' = UB /\
  (forall cs', ~ any_tree (mem h') t' cs') /\
  exists h'' t'', c_tree_clear t' h' = Ok (h'', t'') /\ size (mem h'') = 2.
Proof.
  destruct (ex_leb_ok [2; 1]) as (cs&HB). pose proof (any_reads _ _ _ HB) as ((ps&E&Hps)&_).
  assert (Hcs : cs.*2 = [1; 2]).
  { assert ((do ps <- c_tree_walk (ex_leb [2; 1]).2 (ex_leb [2; 1]).1; Ok ps.*2) = Ok [1; 2]) as Ew by (vm_compute; reflexivity).
    rewrite E in Ew. cbn [rbind] in Ew. congruence. }
  assert (Hi : c_tree_insert_unique ex_talloc (ex_leb [2; 1]).2 (ex_leb [2; 1]).1 (c_tree_end (ex_leb [2; 1]).2) (RVal 2) = Ok ex_overwritten).
  { assert (match c_tree_insert_unique ex_talloc (ex_leb [2; 1]).2 (ex_leb [2; 1]).1 (c_tree_end (ex_leb [2; 1]).2) (RVal 2) with Ok _ => true | _ => false end = true) as Eb by (vm_compute; reflexivity).
    unfold ex_overwritten. by destruct (c_tree_insert_unique _ _ _ _ _). }
  exists (ex_leb [2; 1]).1, (ex_leb [2; 1]).2, cs, ex_overwritten.1.1, ex_overwritten.1.2, ex_overwritten.2.
  split; [done|]. split; [done|]. split; [vm_compute; reflexivity|]. split; [vm_compute; reflexivity|].
  split; [rewrite Hi; by destruct ex_overwritten as [[? ?] ?]|]. split; [vm_compute; reflexivity|].
  assert (Hw : (do ps <- c_tree_walk ex_overwritten.1.2 ex_overwritten.1.1; Ok ps.*2) = Ok [1; 2]) by (vm_compute; reflexivity).
  assert (Hr : c_tree_rtraverse ex_overwritten.1.2 ex_overwritten.1.1 = UB) by (vm_compute; reflexivity).
  assert (Hc : (do (h, _) <- c_tree_clear ex_overwritten.1.2 ex_overwritten.1.1; Ok (size (mem h))) = Ok 2) by (vm_compute; reflexivity).
  split. { apply rbind_Ok in Hw as (ps'&H1&H2). exists ps'. split; [done|]. by injection H2. }
  split; [done|]. split. { intros cs' HB'. apply any_reads in HB' as (_&E'&_). congruence. }
  apply rbind_Ok in Hc as ([h'' t'']&H1&H2). exists h'', t''. split; [done|]. by injection H2.
Qed.
Print Assumptions C132_hint_refuted.
(** with less-or-equal, the lower bound lies behind the upper bound: erasing a key from a set of one element follows
    a null pointer, and from a set of two elements it never ends *)
Lemma distance_cycle {V} (m : gmap loc (tnode V)) x y u : increment m x = Ok y -> increment m y = Ok x -> x <> u -> y <> u ->
  forall fuel, distance_loop fuel m x u = NoFuel /\ distance_loop fuel m y u = NoFuel.
Proof.
  intros Hx Hy H1 H2 fuel. induction fuel as [|fuel [IH1 IH2]]; [done|]. cbn [distance_loop]. rewrite !decide_False by done.
  rewrite Hx, Hy. cbn [rbind]. by rewrite IH1, IH2.
Qed.
Theorem C132_erase_key_refuted :
  (exists h t cs, any_tree (mem h) t cs /\ cs.*2 = [1] /\ kcomp t = Nat.leb /\ kov t = id /\ c_tree_erase_key t h (KVal 1) = UB) /\
  (exists h t cs l u, any_tree (mem h) t cs /\ cs.*2 = [1; 2] /\ kcomp t = Nat.leb /\ kov t = id /\
     c_tree_lower_bound t h (KVal 1) = Ok l /\ c_tree_upper_bound t h (KVal 1) = Ok u /\
     forall fuel, distance_loop fuel (mem h) l u = NoFuel).
Proof.
  split.
  - destruct (ex_leb_ok [1]) as (cs&HB). exists (ex_leb [1]).1, (ex_leb [1]).2, cs.
    pose proof (any_reads _ _ _ HB) as ((ps&E&Hps)&_). split; [done|].
    split.
    { assert ((do ps <- c_tree_walk (ex_leb [1]).2 (ex_leb [1]).1; Ok ps.*2) = Ok [1]) as Ew by (vm_compute; reflexivity).
      rewrite E in Ew. cbn [rbind] in Ew. congruence. }
    split; [done|]. split; [done|]. vm_compute. reflexivity.
  - destruct (ex_leb_ok [1; 2]) as (cs&HB). exists (ex_leb [1; 2]).1, (ex_leb [1; 2]).2, cs, (Some 3%positive), (Some 2%positive).
    pose proof (any_reads _ _ _ HB) as ((ps&E&Hps)&_). split; [done|].
    split.
    { assert ((do ps <- c_tree_walk (ex_leb [1; 2]).2 (ex_leb [1; 2]).1; Ok ps.*2) = Ok [1; 2]) as Ew by (vm_compute; reflexivity).
      rewrite E in Ew. cbn [rbind] in Ew. congruence. }
    split; [done|]. split; [done|]. split; [vm_compute; reflexivity|]. split; [vm_compute; reflexivity|].
    intros fuel. apply (distance_cycle _ (Some 3%positive) (Some 1%positive)); [vm_compute; reflexivity|vm_compute; reflexivity|done|done].
Qed.
Print Assumptions C132_erase_key_refuted.
