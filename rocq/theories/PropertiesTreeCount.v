(** PropertiesTreeCount.v — how many comparisons lookups and insertions make (C151), /repo/container/c_tree.c.
    The functions ending in [_n] (TreeCount.v) are those of the model, also returning how often they called the
    comparison of the keys. *)
From Verif Require Import Base Spec SpecSeq SpecListOps SpecTreeOps Facts DList Tree SpecTree TreeRep TreeInsert TreeErase TreeIter
  TreeUnlink TreeApi TreeOps TreeLookup TreeMod TreeCheck TreeRun TreeRunProofs TreeVerify TreeSteps DListCount HeapCount IntroCount TreeCount PropertiesTree.
From stdpp Require Import list gmap.

(** the call succeeds, with at most [b] comparisons *)
Definition within {A} (r : res (A * nat)) (b : nat) : Prop := exists x n, r = Ok (x, n) /\ n <= b.

(** ** C151: forgetting the counts, the counting functions are those of the model *)
Theorem C151_counting_is_model : forall K V (alloc : gmap loc (tnode V) -> loc) (t : tobj K V) (h : theap V) key v hint,
  let drop A (r : res (A * nat)) := match r with Ok (x, _) => Ok x | UB => UB | NoFuel => NoFuel end in
  drop _ (c_tree_find_n t h key) = c_tree_find t h key /\
  drop _ (c_tree_count_n t h key) = c_tree_count t h key /\
  drop _ (c_tree_lower_bound_n t h key) = c_tree_lower_bound t h key /\
  drop _ (c_tree_upper_bound_n t h key) = c_tree_upper_bound t h key /\
  drop _ (c_tree_equal_range_n t h key) = c_tree_equal_range t h key /\
  drop _ (c_tree_erase_key_n t h key) = c_tree_erase_key t h key /\
  drop _ (c_tree_insert_unique_value_n alloc t h v) = c_tree_insert_unique_value alloc t h v /\
  drop _ (c_tree_insert_equal_value_n alloc t h v) = c_tree_insert_equal_value alloc t h v /\
  drop _ (c_tree_insert_unique_n alloc t h hint v) = c_tree_insert_unique alloc t h hint v /\
  drop _ (c_tree_insert_equal_n alloc t h hint v) = c_tree_insert_equal alloc t h hint v.
Proof.
  intros K V alloc t h key v hint. cbv zeta.
  split; [exact (erase_find t h key)|]. split; [exact (erase_count t h key)|]. split; [exact (erase_lower t h key)|].
  split; [exact (erase_upper t h key)|]. split; [exact (erase_equal_range t h key)|]. split; [exact (erase_erase_key t h key)|].
  split; [exact (erase_insert_unique_value alloc t h v)|]. split; [exact (erase_insert_equal_value alloc t h v)|].
  split; [exact (erase_insert_unique alloc t h hint v)|exact (erase_insert_equal alloc t h hint v)].
Qed.
Print Assumptions C151_counting_is_model.

(** ** C151: the lookups. [a] is the key looked for; counting is linear in the number of elements with the key only *)
Theorem C151_lookup : forall K V (h : theap V) (t : tobj K V) cs key a, is_rbtree (mem h) t cs -> kderef t (mem h) key = Ok a ->
  within (c_tree_find_n t h key) (4 * Nat.log2 (length cs + 1)) /\
  within (c_tree_lower_bound_n t h key) (2 * Nat.log2 (length cs + 1)) /\
  within (c_tree_upper_bound_n t h key) (2 * Nat.log2 (length cs + 1)) /\
  within (c_tree_equal_range_n t h key) (4 * Nat.log2 (length cs + 1)) /\
  within (c_tree_erase_key_n t h key) (4 * Nat.log2 (length cs + 1)) /\
  within (c_tree_count_n t h key) (2 * length (with_key (kcomp t) (kov t) a cs.*2) + 8 * Nat.log2 (length cs + 1)).
Proof.
  intros K V h t cs key a HB Hk.
  destruct (erase_Ok (c_tree_lower_bound_n t h key) _ ltac:(rewrite erase_lower; by apply (lower_bound_ok t h cs key a HB))) as (i&Ei).
  destruct (erase_Ok (c_tree_upper_bound_n t h key) _ ltac:(rewrite erase_upper; by apply (upper_bound_ok t h cs key a HB))) as (j&Ej).
  assert (i <= 2 * Nat.log2 (length cs + 1)) as Hi by by eapply lower_n_bound.
  assert (j <= 2 * Nat.log2 (length cs + 1)) as Hj by by eapply upper_n_bound.
  split.
  { assert (exists p, c_tree_find t h key = Ok p) as [p Ep].
    { destruct (find_ok t h cs key a HB Hk) as [(x&w&E&_)|[E _]]; by eexists. }
    destruct (erase_Ok (c_tree_find_n t h key) p ltac:(by rewrite erase_find)) as (n&En). exists p, n. split; [done|]. by eapply find_n_bound. }
  split; [by eexists _, i|]. split; [by eexists _, j|].
  split. { eexists _, (i + j). unfold c_tree_equal_range_n. rewrite Ei. cbn [rbind]. rewrite Ej. cbn [rbind]. split; [done|lia]. }
  split.
  { destruct (erase_key_ok t h cs key a HB Hk) as (h'&t'&cs'&E&_). rewrite <- erase_erase_key in E. apply erase_Ok in E as [n E].
    eexists _, n. split; [exact E|]. unfold c_tree_erase_key_n in E. rewrite Ei in E. cbn [rbind] in E. rewrite Ej in E. cbn [rbind] in E.
    apply rbind_Ok in E as (?&_&E). apply rbind_Ok in E as ([? ?]&_&E). injection E as _ _ _ <-. lia. }
  pose proof (count_ok t h cs key a HB Hk) as E. rewrite <- erase_count in E. apply erase_Ok in E as [n E].
  eexists _, n. split; [exact E|]. by eapply count_n_bound.
Qed.
Print Assumptions C151_lookup.

(** ** C151: the insertions, without a hint and with the hint at any position [i] *)
Theorem C151_insert : forall K V (alloc : gmap loc (tnode V) -> loc), tmalloc_ok alloc ->
  forall (h : theap V) (t : tobj K V) cs v a i, is_rbtree (mem h) t cs -> vderef (mem h) v = Ok a -> i <= length cs ->
  exists hint, tposition h t i = Ok hint /\
  within (c_tree_insert_unique_value_n alloc t h v) (2 * Nat.log2 (length cs + 1) + 2) /\
  within (c_tree_insert_equal_value_n alloc t h v) (2 * Nat.log2 (length cs + 1) + 1) /\
  within (c_tree_insert_unique_n alloc t h hint v) (2 * Nat.log2 (length cs + 1) + 4) /\
  within (c_tree_insert_equal_n alloc t h hint v) (2 * Nat.log2 (length cs + 1) + 3).
Proof.
  intros K V alloc Ha h t cs v a i HB Hv Hi. exists (first_loc (hdr t) (drop i cs)). split; [by apply (tposition_ok _ _ _ _ HB)|].
  assert (Hu : forall r, unique_post h t cs a r -> exists x, r = Ok x).
  { intros r [(_&?&?&E&_)|(?&?&_&_&E)]; by eexists. }
  destruct (Hu _ (unique_value_ok alloc Ha t h cs v a HB Hv)) as [x1 E1]. destruct (Hu _ (insert_unique_ok alloc Ha t h cs i v a HB Hi Hv)) as [x3 E3].
  destruct (equal_value_ok alloc Ha t h cs v a HB Hv) as (?&?&E2&_). destruct (insert_equal_ok alloc Ha t h cs i v a HB Hi Hv) as (?&?&E4&_).
  rewrite <- erase_insert_unique_value in E1. rewrite <- erase_insert_equal_value in E2. rewrite <- erase_insert_unique in E3. rewrite <- erase_insert_equal in E4.
  apply erase_Ok in E1 as [n1 E1], E2 as [n2 E2], E3 as [n3 E3], E4 as [n4 E4].
  split; [eexists _, n1; split; [exact E1|by eapply unique_value_n_bound]|]. split; [eexists _, n2; split; [exact E2|by eapply equal_value_n_bound]|].
  split; [eexists _, n3; split; [exact E3|by eapply unique_hint_n_bound]|]. eexists _, n4; split; [exact E4|by eapply equal_hint_n_bound].
Qed.
Print Assumptions C151_insert.
(** with a hint just after where the element belongs, three comparisons are enough whatever the size *)
Theorem C151_good_hint : forall K V (alloc : gmap loc (tnode V) -> loc), tmalloc_ok alloc ->
  forall (h : theap V) (t : tobj K V) cs v a i, is_rbtree (mem h) t cs -> vderef (mem h) v = Ok a -> i <= length cs ->
  exists hint, tposition h t i = Ok hint /\
  ((forall j w, cs.*2 !! j = Some w -> (j < i -> kcomp t (kov t w) (kov t a) = true) /\ (i <= j -> kcomp t (kov t a) (kov t w) = true)) ->
   within (c_tree_insert_unique_n alloc t h hint v) 3) /\
  ((forall j w, cs.*2 !! j = Some w -> (j < i -> kcomp t (kov t a) (kov t w) = false) /\ (i <= j -> kcomp t (kov t w) (kov t a) = false)) ->
   within (c_tree_insert_equal_n alloc t h hint v) 3).
Proof.
  intros K V alloc Ha h t cs v a i HB Hv Hi. exists (first_loc (hdr t) (drop i cs)). split; [by apply (tposition_ok _ _ _ _ HB)|].
  assert (HT : forall c, c ∈ take i cs -> exists j, cs.*2 !! j = Some c.2 /\ j < i).
  { intros c (j&Hj)%elem_of_list_lookup_1. apply lookup_take_Some in Hj as [Hj Hl]. exists j. by rewrite list_lookup_fmap, Hj. }
  assert (HD : forall c, c ∈ drop i cs -> exists j, cs.*2 !! j = Some c.2 /\ i <= j).
  { intros c (j&Hj)%elem_of_list_lookup_1. rewrite lookup_drop in Hj. exists (i + j). rewrite list_lookup_fmap, Hj. split; [done|lia]. }
  rewrite <- (take_drop i cs) in HB.
  split; intros H.
  - pose proof (insert_unique_ok alloc Ha t h _ i v a HB ltac:(by rewrite take_drop) Hv) as Hu. rewrite take_drop in Hu.
    assert (exists x, c_tree_insert_unique alloc t h (first_loc (hdr t) (drop i cs)) v = Ok x) as [x E].
    { destruct Hu as [(_&?&?&E&_)|(?&?&_&_&E)]; by eexists. }
    rewrite <- erase_insert_unique in E. apply erase_Ok in E as [n E]. eexists _, n. split; [exact E|].
    refine (unique_good_hint alloc t h _ _ v a x n HB Hv _ _ E).
    + intros c (j&Hj&Hl)%HT. by apply (H j).
    + intros c (j&Hj&Hl)%HD. by apply (H j).
  - pose proof (insert_equal_ok alloc Ha t h _ i v a HB ltac:(by rewrite take_drop) Hv) as (?&?&E&_). rewrite take_drop in E.
    rewrite <- erase_insert_equal in E. apply erase_Ok in E as [n E]. eexists _, n. split; [exact E|].
    refine (equal_good_hint alloc t h _ _ v a _ n HB Hv _ _ E).
    + intros c (j&Hj&Hl)%HT. by apply (H j).
    + intros c (j&Hj&Hl)%HD. by apply (H j).
Qed.
Print Assumptions C151_good_hint.

(** ** C151: for every tree of every history, keys and values given from outside *)
Theorem C151_history : forall K V (alloc : gmap loc (tnode V) -> loc), tmalloc_ok alloc ->
  forall (os : list (tree_op K V)) ts gone h env, Forall top_order os -> thist_spec [] os = Some (ts, gone) ->
  thist_run alloc (theap0, []) os = Ok (h, env) ->
  forall i t (k : K) (a : V), env !! i = Some t ->
    let lg := Nat.log2 (c_tree_size t + 1) in
    within (c_tree_find_n t h (KVal k)) (4 * lg) /\
    within (c_tree_lower_bound_n t h (KVal k)) (2 * lg) /\
    within (c_tree_upper_bound_n t h (KVal k)) (2 * lg) /\
    within (c_tree_equal_range_n t h (KVal k)) (4 * lg) /\
    within (c_tree_erase_key_n t h (KVal k)) (4 * lg) /\
    (exists r n, c_tree_count_n t h (KVal k) = Ok (r, n) /\ n <= 2 * r + 8 * lg) /\
    within (c_tree_insert_unique_value_n alloc t h (RVal a)) (2 * lg + 2) /\
    within (c_tree_insert_equal_value_n alloc t h (RVal a)) (2 * lg + 1).
Proof.
  intros K V alloc Ha os ts gone h env Ho Hs Hr i t k a Hi. destruct (C21_history K V alloc Ha os ts gone Ho Hs) as (h'&env'&E&Hlen&H).
  rewrite Hr in E. injection E as <- <-. destruct (lookup_lt_is_Some_2 ts i) as [tm Htm]; [rewrite <- Hlen; by eapply lookup_lt_Some|].
  destruct (H i tm Htm) as (t'&cs&Hi'&HB&_). rewrite Hi in Hi'. injection Hi' as <-. pose proof HB as (_&_&Hc&_). cbv zeta.
  unfold c_tree_size. rewrite Hc. destruct (C151_lookup K V h t cs (KVal k) k HB eq_refl) as (L1&L2&L3&L4&L5&(r&n&L6&L7)).
  destruct (C151_insert K V alloc Ha h t cs (RVal a) a 0 HB eq_refl ltac:(lia)) as (_&_&I1&I2&_).
  do 5 (split; [done|]). split; [|done]. exists r, n. split; [done|].
  pose proof (count_ok t h cs (KVal k) k HB eq_refl) as E. rewrite <- erase_count, L6 in E. cbn [erase] in E. injection E as ->. exact L7.
Qed.
Print Assumptions C151_history.

(** a tree with five elements, keys 1 1 2 2 4: looking up 2 takes at most 8 comparisons; and the actual counts *)
Example C151_example : exists (t : tobj nat nat) cs, is_rbtree (mem ex_tree.1) t cs /\ length cs = 5 /\
  within (c_tree_find_n t ex_tree.1 (KVal 2)) 8 /\ within (c_tree_insert_unique_value_n ex_talloc t ex_tree.1 (RVal 13)) 6.
Proof.
  destruct ex_tree_ok as (t&cs&_&HB&Hcs&_). pose proof (f_equal length Hcs) as Hl. rewrite fmap_length in Hl. cbn [length] in Hl.
  exists t, cs. split; [done|]. split; [done|].
  destruct (C151_lookup _ _ _ t cs (KVal 2) 2 HB eq_refl) as (H&_). rewrite Hl in H. split; [exact H|].
  destruct (C151_insert _ _ ex_talloc ex_talloc_ok _ t cs (RVal 13) 13 0 HB eq_refl ltac:(lia)) as (_&_&I&_). rewrite Hl in I. exact I.
Qed.
Example C151_example_run :
  (do t <- thandle ex_tree.2 0; do (p, i) <- c_tree_find_n t ex_tree.1 (KVal 2); do (c, j) <- c_tree_count_n t ex_tree.1 (KVal 2);
   do (r, k) <- c_tree_insert_equal_value_n ex_talloc t ex_tree.1 (RVal 13);
   do hint <- tposition ex_tree.1 t 5; do (r', l) <- c_tree_insert_equal_n ex_talloc t ex_tree.1 hint (RVal 13); Ok (i, c, j, k, l))
  = Ok (2, 2, 9, 4, 2).
Proof. vm_compute. reflexivity. Qed.
(** hints that are right exist: the end for a value with a larger key *)
Example C151_example_hint : exists (t : tobj nat nat) cs, is_rbtree (mem ex_tree.1) t cs /\ length cs = 5 /\
  forall j w, cs.*2 !! j = Some w -> (j < 5 -> kcomp t (kov t w) (kov t 13) = true) /\ (5 <= j -> kcomp t (kov t 13) (kov t w) = true).
Proof.
  destruct ex_tree_ok as (t&cs&_&HB&Hcs&Hk&Hv). pose proof (f_equal length Hcs) as Hl. rewrite fmap_length in Hl. cbn [length] in Hl.
  exists t, cs. split; [done|]. split; [done|]. rewrite Hk, Hv, Hcs. intros j w Hj.
  do 5 (destruct j as [|j]; [injection Hj as <-; split; [done|lia]|]). done.
Qed.
