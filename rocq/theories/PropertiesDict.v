(** PropertiesDict.v — theorems about pairs, sets, multisets, maps and multimaps (Pair.v, Dict.v); the specifications are in
    SpecPair.v and SpecDict.v. *)
From Verif Require Import Base Spec SpecSeq SpecListOps SpecTreeOps SpecDict SpecPair Facts DList Tree SpecTree TreeRep TreeInsert TreeErase
  TreeIter TreeUnlink TreeApi TreeOps TreeLookup TreeMod TreeCheck TreeRun TreeRunProofs Dict DictProofs Pair PairProofs PropertiesTree.
From Verif Require DListRunProofs.
From stdpp Require Import list gmap.

(** ** C58 comparison of pairs *)
Theorem C58_pair_less : forall A (m : gmap loc (option A)) x y t1 t2 p q,
  p_type1 x = Some t1 -> p_type2 x = Some t2 -> pair_vals m x = Ok p -> pair_vals m y = Ok q ->
  c_pair_less m x y = Ok (lex (ti_less t1) (ti_less t2) p q) /\
  c_pair_equal m x y = Ok (both (ti_equal t1) (ti_equal t2) p q).
Proof.
  intros A m x y t1 t2 p q E1 E2 Hx Hy. unfold pair_vals in *. apply rbind_Ok in Hx as (x1&R1&Hx). apply rbind_Ok in Hx as (x2&R2&Hx). injection Hx as <-.
  apply rbind_Ok in Hy as (y1&S1&Hy). apply rbind_Ok in Hy as (y2&S2&Hy). injection Hy as <-.
  unfold c_pair_less, c_pair_equal, lex, both. rewrite E1, E2. cbn [nonnull rbind fst snd]. rewrite R1, S1. cbn [rbind]. rewrite R2, S2. cbn [rbind]. split.
  - destruct (ti_less t1 x1 y1); [done|]. by destruct (ti_less t1 y1 x1).
  - by destruct (ti_equal t1 x1 y1).
Qed.
Print Assumptions C58_pair_less.
(** lexicographic comparison is a strict weak order if the components' comparisons are *)
Theorem C58_pair_order : forall A B (lt1 : A -> A -> bool) (lt2 : B -> B -> bool), StrictWeakOrder lt1 -> StrictWeakOrder lt2 ->
  StrictWeakOrder (lex lt1 lt2) /\
  forall p q, (lex lt1 lt2 p q = false /\ lex lt1 lt2 q p = false) <->
    (lt1 p.1 q.1 = false /\ lt1 q.1 p.1 = false) /\ (lt2 p.2 q.2 = false /\ lt2 q.2 p.2 = false).
Proof.
  intros A B lt1 lt2 H1 H2. split; [by apply lex_swo|]. intros [a b] [c d]. unfold lex. cbn [fst snd].
  destruct (lt1 a c) eqn:E1, (lt1 c a) eqn:E2; naive_solver.
Qed.
Print Assumptions C58_pair_order.
Definition ex_int : tinfo nat := TInfo 0 Nat.ltb Nat.eqb.
Definition ex_cells : gmap loc (option nat) := list_to_map [(1%positive, Some 3); (2%positive, Some 7); (3%positive, Some 3); (4%positive, Some 5)].
Example C58_example : let x := c_make_pair ex_int ex_int (Some 1%positive) (Some 2%positive) in
  let y := c_make_pair ex_int ex_int (Some 3%positive) (Some 4%positive) in
  pair_vals ex_cells x = Ok (3, 7) /\ pair_vals ex_cells y = Ok (3, 5) /\ c_pair_less ex_cells x y = Ok false /\ c_pair_less ex_cells y x = Ok true /\
  c_pair_equal ex_cells x y = Ok false.
Proof. vm_compute. done. Qed.

(** ** C98 pairs are values *)
(** copying: a new pair with the same values in memory of its own; nothing else changes *)
Theorem C98_copy : forall A (alloc : gmap loc (option A) -> option loc), palloc_fresh alloc -> palloc_total alloc ->
  forall m src t1 t2 p, p_type1 src = Some t1 -> p_type2 src = Some t2 -> pair_vals m src = Ok p ->
  exists m' x y, c_pair_copy alloc m zeroed src = Ok (m', PBlock (Some t1) (Some t2) (Some x) (Some y)) /\
    x <> y /\ m !! x = None /\ m !! y = None /\ m' = <[x := Some p.1]> (<[y := Some p.2]> m).
Proof.
  intros A alloc Hf Ht m src t1 t2 p E1 E2 Hs. unfold pair_vals in Hs. apply rbind_Ok in Hs as (u&R1&Hs). apply rbind_Ok in Hs as (v&R2&Hs). injection Hs as <-.
  destruct (alloc2 alloc Hf m Ht) as (x&y&A1&A2&Hne&Nx&Ny).
  unfold c_pair_copy, zeroed. rewrite E1, E2. cbn [p_first p_second is_null assert_ rbind nonnull]. rewrite A1, A2. cbn [is_null orb].
  unfold pc_copy, pc_read in *. destruct (p_first src) as [sx|]; [|done]. destruct (p_second src) as [sy|]; [|done]. cbn [nonnull rbind] in *.
  destruct (m !! sx) as [[u'|]|] eqn:Ex; try done. injection R1 as ->. destruct (m !! sy) as [[v'|]|] eqn:Ey; try done. injection R2 as ->.
  assert (x <> sx /\ x <> sy /\ y <> sx /\ y <> sy) as (?&?&?&?) by (repeat split; intros ->; congruence).
  rewrite !(lookup_insert_ne _ _ sx), Ex by done. cbn [rbind]. rewrite (lookup_insert_ne _ y x), lookup_insert by done. cbn [rbind].
  rewrite !(lookup_insert_ne _ _ sy), Ey by done. cbn [rbind]. rewrite lookup_insert_ne, lookup_insert by done. cbn [rbind].
  eexists _, x, y. split; [reflexivity|]. split; [done|]. split; [done|]. split; [done|]. cbn [fst snd]. apply map_eq. intros z.
  destruct (decide (z = x)) as [->|]; [|destruct (decide (z = y)) as [->|]]; simplify_map_eq; done.
Qed.
Print Assumptions C98_copy.
(** any history of creating, copying, assigning, changing and destroying pairs: every pair reads as the specification
    says (so no two share a component), and the memory in use is two components per live pair *)
Theorem C98_pairs_are_values : forall A (alloc : gmap loc (option A) -> option loc), palloc_fresh alloc -> palloc_total alloc ->
  forall t1 t2 (os : list (pair_op A)) ps, phist_spec (ti_new t1) (ti_new t2) [] os = Some ps ->
  exists m env, phist_run alloc t1 t2 (∅, []) os = Ok (m, env) /\ Forall2 (fun b p => pair_vals m b = Ok p) env ps /\ size m = 2 * length ps.
Proof.
  intros A alloc Hf Ht t1 t2 os ps Hs. destruct (phist_ok alloc Hf t1 t2 os ∅ [] ps Ht) as (m&L&E&HW&<-).
  { split; [constructor|done]. }
  { exact Hs. }
  exists m, (envof t1 t2 L). split; [exact E|]. split; [by apply world_vals|]. rewrite (world_size m L HW). unfold valsof. by rewrite map_length.
Qed.
Print Assumptions C98_pairs_are_values.
Definition ex_palloc {A} (m : gmap loc (option A)) : option loc := Some (fresh (dom m)).
Lemma ex_palloc_ok {A} : palloc_fresh (A := A) ex_palloc /\ palloc_total (A := A) ex_palloc.
Proof. split; [|done]. intros m x [= <-]. apply not_elem_of_dom. apply is_fresh. Qed.
Example C98_example : phist_spec 0 0 [] [PCopyOf 1 2; PCreate; PCopy 0; PSetFirst 0 9; PAssign 1 0; PSetSecond 1 4; PDestroy 0] = Some [(9, 4); (1, 2)].
Proof. reflexivity. Qed.

(** ** C99 the memory a pair is copied into *)
Definition types_of {A} (src : pblock A) t1 t2 : Prop := p_type1 src = Some t1 /\ p_type2 src = Some t2.
(** it must contain null component pointers: otherwise the copy aborts *)
Theorem C99_copy_exact : forall A (alloc : gmap loc (option A) -> option loc), palloc_fresh alloc -> palloc_total alloc ->
  forall m dst src t1 t2 p, types_of src t1 t2 -> pair_vals m src = Ok p ->
  (p_first dst = None /\ p_second dst = None -> exists m' b, c_pair_copy alloc m dst src = Ok (m', b) /\ pair_vals m' b = Ok p) /\
  (p_first dst <> None \/ p_second dst <> None -> c_pair_copy alloc m dst src = UB).
Proof.
  intros A alloc Hf Ht m dst src t1 t2 p [E1 E2] Hs. split.
  - intros [F1 F2]. destruct (C98_copy A alloc Hf Ht m src t1 t2 p E1 E2 Hs) as (m'&x&y&E&Hne&Nx&Ny&->). eexists _, _. split.
    + rewrite <- E. unfold c_pair_copy, zeroed. cbn [p_first p_second]. by rewrite F1, F2.
    + unfold pair_vals, pc_read. cbn [p_first p_second nonnull rbind]. rewrite lookup_insert. cbn [rbind]. rewrite lookup_insert_ne, lookup_insert by done. cbn [rbind]. by destruct p.
  - unfold c_pair_copy. destruct (p_first dst); [done|]. destruct (p_second dst); [done|]. by intros [].
Qed.
Print Assumptions C99_copy_exact.
(** the block of a destroyed pair, reused as it is, always makes the next copy abort: destroy leaves the dangling
    component pointers in it *)
Theorem C99_reused_block : forall A (alloc : gmap loc (option A) -> option loc) m b m' b' m2 src,
  c_pair_destroy m b = Ok (m', b') -> b' = b /\ p_first b' <> None /\ c_pair_copy alloc m2 b' src = UB.
Proof.
  intros A alloc m b m' b' m2 src E. unfold c_pair_destroy in E. applist. apply rbind_Ok in E as (?&_&E). apply rbind_Ok in E as (m1&E1&E). apply rbind_Ok in E as (?&_&E).
  apply rbind_Ok in E as (?&_&E). apply rbind_Ok in E as (?&_&E). apply rbind_Ok in E as (?&_&E). injection E as <- <-. unfold pc_destroy in E1.
  split; [done|]. unfold c_pair_copy. destruct (p_first b); [done|]. done.
Qed.
Print Assumptions C99_reused_block.
Example C99_example : let b := c_make_pair ex_int ex_int (Some 1%positive) (Some 2%positive) in
  exists m', c_pair_destroy ex_cells b = Ok (m', b) /\ c_pair_copy ex_palloc m' b (c_make_pair ex_int ex_int (Some 3%positive) (Some 4%positive)) = UB.
Proof. eexists. split; vm_compute; reflexivity. Qed.

(** ** C102 running out of memory for the second component while copying a pair: nothing leaks, but the pair left
    behind refers to the released first component and destroying it is a double free *)
Theorem C102_copy_out_of_memory : forall A (alloc : gmap loc (option A) -> option loc), palloc_fresh alloc ->
  forall m src t1 t2 x, types_of src t1 t2 -> alloc m = Some x -> alloc (<[x := None]> m) = None ->
  exists b, c_pair_copy alloc m zeroed src = Ok (m, b) /\ p_first b = Some x /\ m !! x = None /\ c_pair_destroy m b = UB.
Proof.
  intros A alloc Hf m src t1 t2 x [E1 E2] Ax Ay. pose proof (Hf _ _ Ax) as Nx. exists (PBlock (Some t1) (Some t2) (Some x) None).
  split; [|split; [done|split; [done|]]].
  - unfold c_pair_copy, zeroed, pc_allocate. rewrite E1, E2, Ax. cbn [p_first p_second is_null assert_ rbind nonnull]. rewrite Ay. cbn [is_null orb].
    unfold pc_deallocate. rewrite lookup_insert. cbn [rbind]. by rewrite delete_insert.
  - unfold c_pair_destroy, pc_destroy. cbn [p_type1 p_first nonnull rbind]. by rewrite Nx.
Qed.
Print Assumptions C102_copy_out_of_memory.
(** a heap with room for five cells *)
Example C102_example : let alloc := fun m : gmap loc (option nat) => if size m <? 5 then ex_palloc m else None in
  palloc_fresh alloc /\ exists x, alloc ex_cells = Some x /\ alloc (<[x := None]> ex_cells) = None.
Proof.
  split.
  - intros m x. destruct (size m <? 5); [apply ex_palloc_ok|done].
  - eexists. split; vm_compute; reflexivity.
Qed.

(** ** C100 sets, C101 multisets *)
(** a set created by the API behaves as a finite set of keys: whatever the history of insertions (with and without
    hints, single and bulk), erasures, clears, swaps and destructions, the observers show the specified contents *)
Theorem C100_set : forall K (alloc : gmap loc (tnode K) -> loc), tmalloc_ok alloc ->
  forall (os : list (dop K K)) ds, Forall dop_order os -> dhist_spec id false [] os = Some ds ->
  exists h env, dhist_run (set_api alloc) (theap0, []) os = Ok (h, env) /\ Forall2 (dict_sees (set_api alloc) id h) env ds.
Proof. intros K alloc Ha os ds Ho Hs. exact (dict_hist_ok alloc Ha id false os ds Ho Hs). Qed.
Print Assumptions C100_set.
(** ... and a multiset as a finite multiset, equivalent keys in insertion order *)
Theorem C101_multiset : forall K (alloc : gmap loc (tnode K) -> loc), tmalloc_ok alloc ->
  forall (os : list (dop K K)) ds, Forall dop_order os -> dhist_spec id true [] os = Some ds ->
  exists h env, dhist_run (multiset_api alloc) (theap0, []) os = Ok (h, env) /\ Forall2 (dict_sees (multiset_api alloc) id h) env ds.
Proof. intros K alloc Ha os ds Ho Hs. exact (dict_hist_ok alloc Ha id true os ds Ho Hs). Qed.
Print Assumptions C101_multiset.
Definition ex_dops : list (dop nat nat) :=
  [DCreate Nat.ltb; DInsert 0 5; DInsertAll 0 [3; 5; 9; 3]; DEraseKey 0 9; DCreate Nat.ltb; DInsert 1 3; DSwap 0 1; DInsert 1 8; DClear 0].
Example C100_example : Forall dop_order ex_dops /\
  match dhist_spec id false [] (ex_dops ++ [DInsertHint 1 5 4; DEraseFound 1 5]) with Some ds => (fun d => (fun k => length (d_at d k)) <$> [3; 4; 5; 8; 9]) <$> ds | None => [] end
    = [[0; 0; 0; 0; 0]; [1; 1; 0; 1; 0]] /\
  match dhist_spec id true [] ex_dops with Some ds => (fun d => (fun k => length (d_at d k)) <$> [3; 4; 5; 8; 9]) <$> ds | None => [] end
    = [[0; 0; 0; 0; 0]; [2; 0; 2; 1; 0]].
Proof.
  split; [|split; reflexivity]. unfold ex_dops. apply Forall_cons; split; [exact nat_swo|]. do 3 (apply Forall_cons; split; [exact I|]).
  apply Forall_cons; split; [exact nat_swo|]. repeat (apply Forall_cons; split; [exact I|]). by apply Forall_nil.
Qed.

(** ** C59 maps *)
Section mhist.
  Context {K V : Type} (api : dict_api K V) (clean : nat -> bool).
  Lemma mhist_ok os : forall st st', dhist_run api st os = Ok st' -> forall n,
    (exists n', mhist_run api clean (n, st) os = Ok (n', st') /\ n <= n' /\ forall i, n <= i < n' -> clean i = true) \/
    (mhist_run api clean (n, st) os = UB /\ exists i, n <= i /\ clean i = false).
  Proof.
    induction os as [|o os IH]; intros st st' E n; cbn [dhist_run mhist_run] in *.
    - injection E as <-. left. exists n. split; [done|]. split; [done|]. lia.
    - apply rbind_Ok in E as (st1&E1&E). set (k := pairs_made o st.2 st1.2).
      assert (mop_run api clean (n, st) o = if forallb clean (seq n k) then Ok (n + k, st1) else UB) as -> by (unfold mop_run; cbn [fst snd]; by rewrite E1).
      destruct (forallb clean (seq n k)) eqn:Ec.
      + cbn [rbind]. rewrite forallb_forall in Ec. destruct (IH st1 st' E (n + k)) as [(n'&->&Hle&Hall)|(->&i&Hi&Hci)].
        * left. exists n'. split; [done|]. split; [lia|]. intros i Hi. destruct (decide (n + k <= i)); [apply Hall; lia|]. apply Ec, in_seq. lia.
        * right. split; [done|]. exists i. split; [lia|done].
      + right. split; [done|]. apply not_true_iff_false in Ec. rewrite forallb_forall in Ec.
        destruct (decide (Exists (fun i => clean i = false) (seq n k))) as [He|He].
        * apply Exists_exists in He as (i&Hi&Hc). exists i. split; [|done]. apply elem_of_list_In, in_seq in Hi. lia.
        * exfalso. apply Ec. intros i Hi. destruct (clean i) eqn:Hc; [done|]. exfalso. apply He, Exists_exists. exists i. split; [by apply elem_of_list_In|done].
  Qed.
End mhist.
(** a map does not survive a history in which malloc hands out recycled memory: insert (1,10), erase 1, insert (2,20)
    aborts when the second pair's block is the one the erased pair left behind (see C99_reused_block) *)
Definition ex_recycle : list (dop nat (nat * nat)) := [DCreate Nat.ltb; DInsert 0 (1, 10); DEraseKey 0 1; DInsert 0 (2, 20)].
Theorem C59_map_refuted : exists (clean : nat -> bool) (os : list (dop nat (nat * nat))) ds,
  Forall dop_order os /\ dhist_spec fst false [] os = Some ds /\ clean 0 = true /\
  mhist_run (map_api ex_talloc) clean (0, (theap0, [])) os = UB.
Proof.
  exists (fun n => n =? 0), ex_recycle. eexists. split; [|split; [reflexivity|split; [done|vm_compute; reflexivity]]].
  apply Forall_cons; split; [exact nat_swo|]. repeat (apply Forall_cons; split; [exact I|]). by apply Forall_nil.
Qed.
Print Assumptions C59_map_refuted.
(** Missing: the aborts (refuted).  Whatever malloc returns, a map either aborts in pair copying or behaves as a
    finite map; it behaves as one if every block malloc returns for a pair has null component pointers. *)
Theorem C59_map_partial : forall K T (alloc : gmap loc (tnode (K * T)) -> loc), tmalloc_ok alloc ->
  forall (clean : nat -> bool) (os : list (dop K (K * T))) ds, Forall dop_order os -> dhist_spec fst false [] os = Some ds ->
  (exists n h env, mhist_run (map_api alloc) clean (0, (theap0, [])) os = Ok (n, (h, env)) /\ Forall2 (dict_sees (map_api alloc) fst h) env ds) \/
  (mhist_run (map_api alloc) clean (0, (theap0, [])) os = UB /\ exists n, clean n = false).
Proof.
  intros K T alloc Ha clean os ds Ho Hs. destruct (dict_hist_ok alloc Ha fst false os ds Ho Hs) as (h&env&E&HF).
  destruct (mhist_ok (map_api alloc) clean os _ _ E 0) as [(n&E'&_)|(E'&i&_&Hi)]; [left; by exists n, h, env|right; split; [done|by exists i]].
Qed.
Print Assumptions C59_map_partial.
Example C59_example : Forall dop_order ex_recycle /\
  match dhist_spec fst false [] (ex_recycle ++ [DInsert 0 (2, 21)]) with Some ds => (fun d => d_at d <$> [1; 2]) <$> ds | None => [] end = [[[]; [(2, 20)]]].
Proof.
  split; [|reflexivity]. apply Forall_cons; split; [exact nat_swo|]. repeat (apply Forall_cons; split; [exact I|]). by apply Forall_nil.
Qed.

(** ** C60 multisets and multimaps count multiplicities *)
(** over all containers of a client that use the same order: the counts of [k] add up to the insertions minus the removals
    of elements equivalent to [k] *)
Definition same_order {K V} (comp : K -> K -> bool) (key : V -> K) (o : tree_op K V) : Prop :=
  match o with TCreate c f => c = comp /\ f = key | _ => True end.
Definition how_many {K V} (comp : K -> K -> bool) (key : V -> K) (k : K) (l : list V) : nat :=
  length (List.filter (fun w => equivb comp k (key w)) l).
Lemma how_many_app {K V} comp (key : V -> K) k l l' : how_many comp key k (l ++ l') = how_many comp key k l + how_many comp key k l'.
Proof. unfold how_many. by rewrite List.filter_app, app_length. Qed.
Lemma how_many_perm {K V} comp (key : V -> K) k l l' : l ≡ₚ l' -> how_many comp key k l = how_many comp key k l'.
Proof.
  unfold how_many. induction 1 as [|a l l' _ IH|a b l|l1 l2 l3 _ IH1 _ IH2]; cbn [List.filter]; [done| | |by etrans].
  - destruct (equivb _ _ _); cbn; by rewrite IH.
  - destruct (equivb comp k (key a)), (equivb comp k (key b)); done.
Qed.
Lemma same_order_kept {K V} comp (key : V -> K) os : forall (ts ts' : list (tmod K V)) gone,
  Forall (fun t => tm_comp t = comp /\ tm_key t = key) ts -> Forall (same_order comp key) os -> thist_spec ts os = Some (ts', gone) ->
  Forall (fun t => tm_comp t = comp /\ tm_key t = key) ts'.
Proof.
  induction os as [|o os IH]; intros ts ts' gone HF Ho Hs; cbn [thist_spec] in Hs; [by injection Hs as <- _|].
  apply Forall_cons in Ho as [Ho Hos]. apply bind_Some in Hs as ([l1 g1]&H1&Hs). apply bind_Some in Hs as ([l2 g2]&H2&Hs). injection Hs as <- _. cbn [fst] in *.
  refine (IH l1 _ _ _ Hos H2).
  assert (forall i t (l : list V), ts !! i = Some t -> Forall (fun t => tm_comp t = comp /\ tm_key t = key) (<[i := tm_set t l]> ts)) as Hset.
  { intros i t l Hi. apply Forall_insert; [done|]. rewrite Forall_forall in HF. apply (HF t). by eapply elem_of_list_lookup_2. }
  destruct o; cbn [top_spec] in H1;
    repeat match goal with H : mbind _ _ = Some _ |- _ => apply bind_Some in H as (?&?&H) end; injection H1 as <- _; eauto.
  - apply Forall_app. split; [done|]. by apply Forall_singleton.
  - by apply Forall_delete.
  - rewrite Forall_forall in HF. apply Forall_insert; [apply Forall_insert; [by apply Forall_forall|]|]; eapply HF, elem_of_list_lookup_2; eassumption.
Qed.
Lemma ledger {K V} (alloc : gmap loc (tnode V) -> loc) (Ha : tmalloc_ok alloc) comp (key : V -> K) os ts gone k : StrictWeakOrder comp ->
  Forall (same_order comp key) os -> thist_spec [] os = Some (ts, gone) ->
  exists h env counts, thist_run alloc (theap0, []) os = Ok (h, env) /\ Forall2 (fun t n => c_tree_count t h (KVal k) = Ok n) env counts /\
    sum_list counts + how_many comp key k (tdead h) = how_many comp key k (thist_added [] os).
Proof.
  intros HW Ho Hs. pose proof (same_order_kept comp key os [] ts gone (Forall_nil_2 _) Ho Hs) as Hts.
  assert (Forall top_order os) as Ho'.
  { eapply Forall_impl; [exact Ho|]. intros []; cbn; try done. by intros [-> _]. }
  destruct (thist_ok alloc Ha os theap0 [] [] ts gone tworld0 Ho' Hs) as (h&L&G&E&HT&Hm&Hd&_). cbn in Hd.
  pose proof (thist_conserve os [] _ _ Hs) as Hc. cbn in Hc.
  exists h, L.*1, (map (fun t => how_many comp key k (tm_vals t)) ts). split; [done|]. split.
  - rewrite <- Hm. apply Forall2_same_length_lookup_2; [unfold tmods; by rewrite fmap_length, !map_length|].
    intros i t n Hi Hn. rewrite list_lookup_fmap in Hi. destruct (L !! i) as [[t' cs]|] eqn:El; [|done]. injection Hi as ->.
    change (map ?f ?l) with (f <$> l) in Hn. rewrite list_lookup_fmap, (tmods_lookup' _ _ _ _ El) in Hn. injection Hn as <-.
    pose proof (tworld_in _ _ _ _ _ _ HT El) as HB. rewrite (count_ok t h cs (KVal k) k HB eq_refl).
    rewrite <- Hm, Forall_forall in Hts. destruct (Hts (TMod (kcomp t) (kov t) cs.*2)) as [E1 E2]; [eapply elem_of_list_lookup_2; by apply tmods_lookup'|].
    cbn in E1, E2. by rewrite E1, E2.
  - rewrite (how_many_perm _ _ _ _ _ Hc), how_many_app, Hd. f_equal. clear. unfold live. induction ts as [|t ts IH]; [done|].
    cbn [map sum_list fmap list_fmap concat]. rewrite how_many_app. by rewrite IH.
Qed.
Theorem C60_multiset_ledger : forall K (alloc : gmap loc (tnode K) -> loc), tmalloc_ok alloc ->
  forall comp (os : list (tree_op K K)) ts gone k, StrictWeakOrder comp -> Forall (same_order comp id) os -> thist_spec [] os = Some (ts, gone) ->
  exists h env counts, thist_run alloc (theap0, []) os = Ok (h, env) /\ Forall2 (fun t n => c_multiset_count t h (KVal k) = Ok n) env counts /\
    sum_list counts + how_many comp id k (tdead h) = how_many comp id k (thist_added [] os).
Proof. intros K alloc Ha comp os ts gone k HW Ho Hs. exact (ledger alloc Ha comp id os ts gone k HW Ho Hs). Qed.
Print Assumptions C60_multiset_ledger.
(** each container separately *)
Theorem C60_multiset_count : forall K (alloc : gmap loc (tnode K) -> loc), tmalloc_ok alloc ->
  forall (os : list (dop K K)) ds, Forall dop_order os -> dhist_spec id true [] os = Some ds ->
  exists h env, dhist_run (multiset_api alloc) (theap0, []) os = Ok (h, env) /\
    Forall2 (fun t d => forall k, c_multiset_count t h (KVal k) = Ok (length (d_at d k))) env ds.
Proof.
  intros K alloc Ha os ds Ho Hs. destruct (C101_multiset K alloc Ha os ds Ho Hs) as (h&env&E&HF). exists h, env. split; [done|].
  eapply Forall2_impl; [exact HF|]. by intros t d (_&Hc&_).
Qed.
Print Assumptions C60_multiset_count.
(** multimaps store pairs and fail like maps *)
Theorem C60_multimap_refuted : exists (clean : nat -> bool) (os : list (dop nat (nat * nat))) ds,
  Forall dop_order os /\ dhist_spec fst true [] os = Some ds /\ clean 0 = true /\
  mhist_run (multimap_api ex_talloc) clean (0, (theap0, [])) os = UB.
Proof.
  exists (fun n => n =? 0), ex_recycle. eexists. split; [|split; [reflexivity|split; [done|vm_compute; reflexivity]]].
  apply Forall_cons; split; [exact nat_swo|]. repeat (apply Forall_cons; split; [exact I|]). by apply Forall_nil.
Qed.
Print Assumptions C60_multimap_refuted.
(** Missing: the aborts of multimaps (refuted) *)
Theorem C60_multimap_partial : forall K T (alloc : gmap loc (tnode (K * T)) -> loc), tmalloc_ok alloc ->
  forall (clean : nat -> bool) (os : list (dop K (K * T))) ds, Forall dop_order os -> dhist_spec fst true [] os = Some ds ->
  (exists n h env, mhist_run (multimap_api alloc) clean (0, (theap0, [])) os = Ok (n, (h, env)) /\
     Forall2 (dict_sees (multimap_api alloc) fst h) env ds) \/
  (mhist_run (multimap_api alloc) clean (0, (theap0, [])) os = UB /\ exists n, clean n = false).
Proof.
  intros K T alloc Ha clean os ds Ho Hs. destruct (dict_hist_ok alloc Ha fst true os ds Ho Hs) as (h&env&E&HF).
  destruct (mhist_ok (multimap_api alloc) clean os _ _ E 0) as [(n&E'&_)|(E'&i&_&Hi)]; [left; by exists n, h, env|right; split; [done|by exists i]].
Qed.
Print Assumptions C60_multimap_partial.
Example C60_example : exists ts gone, thist_spec [] ([TCreate Nat.ltb id; TInsertEqual 0 (AVal 4); TInsertEqualAll 0 [4; 2; 4; 7]; TErase 0 1; TInsertEqual 0 (AElem 0 0)] : list (tree_op nat nat)) = Some (ts, gone) /\
  how_many Nat.ltb id 4 gone = 1 /\ (tm_vals <$> ts) = [[2; 2; 4; 4; 7]].
Proof. eexists _, _. split; [reflexivity|]. done. Qed.

(** ** C111 bounds, ranges and reverse iteration of sets, multisets, maps and multimaps *)
(** [dict_bounds] (Dict.v): reverse iteration lists the elements backwards; for every key, lower_bound, upper_bound and
    equal_range are the positions that separate the smaller, the equivalent and the greater elements.  Histories include
    erasing the ranges found that way, and arrays (SpecDict.v). *)
Theorem C111_set : forall K (alloc : gmap loc (tnode K) -> loc), tmalloc_ok alloc ->
  forall (os : list (dop K K)) ds, Forall dop_order os -> dhist_spec id false [] os = Some ds ->
  exists h env, dhist_run (set_api alloc) (theap0, []) os = Ok (h, env) /\ Forall2 (dict_bounds (set_api alloc) id h) env ds.
Proof. intros K alloc Ha os ds Ho Hs. exact (dict_hist_bounds alloc Ha id false os ds Ho Hs). Qed.
Print Assumptions C111_set.
Theorem C111_multiset : forall K (alloc : gmap loc (tnode K) -> loc), tmalloc_ok alloc ->
  forall (os : list (dop K K)) ds, Forall dop_order os -> dhist_spec id true [] os = Some ds ->
  exists h env, dhist_run (multiset_api alloc) (theap0, []) os = Ok (h, env) /\ Forall2 (dict_bounds (multiset_api alloc) id h) env ds.
Proof. intros K alloc Ha os ds Ho Hs. exact (dict_hist_bounds alloc Ha id true os ds Ho Hs). Qed.
Print Assumptions C111_multiset.
(** maps and multimaps: after every history that pair copying does not abort *)
Theorem C111_map : forall K T (alloc : gmap loc (tnode (K * T)) -> loc), tmalloc_ok alloc ->
  forall (clean : nat -> bool) (os : list (dop K (K * T))) ds n h env, Forall dop_order os -> dhist_spec fst false [] os = Some ds ->
  mhist_run (map_api alloc) clean (0, (theap0, [])) os = Ok (n, (h, env)) -> Forall2 (dict_bounds (map_api alloc) fst h) env ds.
Proof.
  intros K T alloc Ha clean os ds n h env Ho Hs E. destruct (dict_hist_bounds alloc Ha fst false os ds Ho Hs) as (h'&env'&E'&HF).
  destruct (mhist_ok (map_api alloc) clean os _ _ E' 0) as [(n'&E2&_)|(E2&_)]; rewrite E in E2; [|done]. by injection E2 as <- <- <-.
Qed.
Print Assumptions C111_map.
Theorem C111_multimap : forall K T (alloc : gmap loc (tnode (K * T)) -> loc), tmalloc_ok alloc ->
  forall (clean : nat -> bool) (os : list (dop K (K * T))) ds n h env, Forall dop_order os -> dhist_spec fst true [] os = Some ds ->
  mhist_run (multimap_api alloc) clean (0, (theap0, [])) os = Ok (n, (h, env)) -> Forall2 (dict_bounds (multimap_api alloc) fst h) env ds.
Proof.
  intros K T alloc Ha clean os ds n h env Ho Hs E. destruct (dict_hist_bounds alloc Ha fst true os ds Ho Hs) as (h'&env'&E'&HF).
  destruct (mhist_ok (multimap_api alloc) clean os _ _ E' 0) as [(n'&E2&_)|(E2&_)]; rewrite E in E2; [|done]. by injection E2 as <- <- <-.
Qed.
Print Assumptions C111_multimap.
Definition ex_ranges : list (dop nat (nat * nat)) :=
  [DCreate Nat.ltb; DInsertFrom 0 [(5, 0); (3, 1); (9, 2); (3, 3); (7, 4); (1, 5); (8, 6)]; DEraseEqual 0 9; DEraseBetween 0 4 6; DInsert 0 (7, 7);
   DInsert 0 (6, 9); DInsertHint 0 7 (7, 8); DEraseAbove 0 7; DEraseFrom 0 [2; 1] 3].
Example C111_example : Forall dop_order ex_ranges /\
  match dhist_spec fst true [] ex_ranges with Some ds => (fun d => d_at d <$> [1; 3; 5; 6; 7; 8; 9]) <$> ds | None => [] end
    = [[[]; [(3, 1); (3, 3)]; []; [(6, 9)]; [(7, 8); (7, 4); (7, 7)]; []; []]] /\
  match mhist_run (multimap_api ex_talloc) (fun _ => true) (0, (theap0, [])) ex_ranges with
  | Ok (_, (h, [t])) => (a_rwalk (multimap_api ex_talloc) t h,
      do (p, q) <- c_multimap_equal_range t h (KVal 7); do m <- a_between t h p q; do b <- c_multimap_begin t h; do l <- a_between t h b p; Ok (l, m))
  | _ => (UB, UB) end
    = (Ok [(7, 7); (7, 4); (7, 8); (6, 9); (3, 3); (3, 1)], Ok ([(3, 1); (3, 3); (6, 9)], [(7, 8); (7, 4); (7, 7)])).
Proof.
  split; [|split; [reflexivity|vm_compute; reflexivity]]. unfold ex_ranges. apply Forall_cons; split; [exact nat_swo|].
  repeat (apply Forall_cons; split; [exact I|]). by apply Forall_nil.
Qed.
