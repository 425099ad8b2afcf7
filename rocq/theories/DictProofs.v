(** DictProofs.v — proofs about Dict.v. *)
From Verif Require Import Base Spec SpecSeq SpecListOps SpecTreeOps SpecDict Facts DList Tree SpecTree TreeRep TreeInsert TreeErase TreeIter
  TreeUnlink TreeApi TreeOps TreeLookup TreeMod TreeCheck TreeRun TreeRunProofs Dict PropertiesTree.
From Verif Require DListRunProofs.
From stdpp Require Import list gmap.

(** ** sequences sorted by key *)
Lemma filter_mono_length {V} (P Q : V -> bool) l : (forall w, P w = true -> Q w = true) -> length (List.filter P l) <= length (List.filter Q l).
Proof. intros H. induction l as [|w l IH]; [done|]. cbn [List.filter]. destruct (P w) eqn:E; [rewrite (H w E); cbn; lia|]. destruct (Q w); cbn; lia. Qed.
Section seqs.
  Context {K V : Type} (comp : K -> K -> bool) (key : V -> K) (HW : StrictWeakOrder comp).
  Notation cls k l := (with_key comp key k l).
  Lemma same_sym (k k' : K) : equivb comp k k' = equivb comp k' k.
  Proof. unfold equivb. apply andb_comm. Qed.
  Lemma upper_split (v : K) (l : list V) : sorted comp (key <$> l) -> let i := upper_index comp key v l in
    (forall w, w ∈ take i l -> comp v (key w) = false) /\ (forall w, w ∈ drop i l -> comp v (key w) = true).
  Proof.
    intros HS i. subst i. induction l as [|w l IH]; [split; intros ? H; by apply elem_of_nil in H|].
    change (key <$> w :: l) with (key w :: (key <$> l)) in HS. apply (sorted_cons comp) in HS as [Hw HS].
    unfold upper_index. cbn [List.filter]. destruct (comp v (key w)) eqn:Ec; cbn [negb].
    - assert (List.filter (fun w0 : V => negb (comp v (key w0))) l = []) as ->.
      { apply filter_none. intros u Hu. apply negb_false_iff. eapply (swo_lt_le_trans comp HW); [exact Ec|].
        rewrite Forall_forall in Hw. apply Hw, elem_of_list_fmap. by exists u. }
      cbn. split; [intros ? H; by apply elem_of_nil in H|]. intros u [->|Hu]%elem_of_cons; [done|].
      eapply (swo_lt_le_trans comp HW); [exact Ec|]. rewrite Forall_forall in Hw. apply Hw, elem_of_list_fmap. by exists u.
    - destruct (IH HS) as [I1 I2]. cbn [length take drop]. split; [|done]. intros u [->|Hu]%elem_of_cons; [done|]. by apply I1.
  Qed.
  Lemma cls_put_equal k v l : sorted comp (key <$> l) ->
    cls k (put_equal comp key v l) = if equivb comp k (key v) then cls k l ++ [v] else cls k l.
  Proof.
    intros HS. unfold put_equal, seq_insert, with_key. set (i := upper_index comp key (key v) l).
    destruct (upper_split (key v) l HS) as [_ H2]. fold i in H2.
    assert (List.filter (same_key comp key k) l = List.filter (same_key comp key k) (take i l) ++ List.filter (same_key comp key k) (drop i l)) as ->
      by (by rewrite <- List.filter_app, take_drop).
    rewrite !List.filter_app. cbn [List.filter]. change (same_key comp key k v) with (equivb comp k (key v)).
    destruct (equivb comp k (key v)) eqn:Ek; [|done].
    assert (List.filter (same_key comp key k) (drop i l) = []) as ->; [|by rewrite !app_nil_r].
    apply filter_none. intros w Hw. apply H2 in Hw. unfold same_key, equivb in *. apply andb_true_iff in Ek as [E1%negb_true_iff E2%negb_true_iff].
    assert (comp k (key w) = true) as ->; [|done]. by eapply (swo_le_lt_trans comp HW).
  Qed.
  Lemma present_cls k l : present comp key k l = match cls k l with [] => false | _ => true end.
  Proof.
    unfold present, with_key. induction l as [|w l IH]; [done|]. cbn [existsb List.filter].
    destruct (same_key comp key k w); [done|]. cbn. exact IH.
  Qed.
  Lemma cls_equiv k k' l : equivb comp k k' = true -> cls k l = cls k' l.
  Proof.
    intros E. unfold with_key. apply List.filter_ext. intros w. unfold same_key.
    unfold equivb in *. apply andb_true_iff in E as [E1%negb_true_iff E2%negb_true_iff].
    destruct (comp k (key w)) eqn:A1.
    { assert (comp k' (key w) = true) as ->; [|done]. by eapply (swo_le_lt_trans comp HW). }
    destruct (comp (key w) k) eqn:A2.
    { assert (comp (key w) k' = true) as ->; [|by destruct (comp k' (key w))]. by eapply (swo_lt_le_trans comp HW). }
    rewrite (swo_incomp_trans comp HW k' k (key w)) by done. rewrite (swo_le_trans comp HW k' k (key w)) by done. done.
  Qed.
  Lemma cls_put_unique k v l : sorted comp (key <$> l) ->
    cls k (put_unique comp key v l) =
    if equivb comp k (key v) then match cls k l with [] => [v] | l' => l' end else cls k l.
  Proof.
    intros HS. unfold put_unique. rewrite present_cls. destruct (equivb comp k (key v)) eqn:E.
    - rewrite <- (cls_equiv _ _ l E). destruct (cls k l) eqn:El; [|done].
      rewrite cls_put_equal, E, El by done. done.
    - destruct (cls (key v) l); [|done]. by rewrite cls_put_equal, E by done.
  Qed.
  Lemma cls_without k k' l : cls k' (without_key comp key k l) = if equivb comp k k' then [] else cls k' l.
  Proof.
    destruct (equivb comp k k') eqn:E.
    - rewrite <- (cls_equiv _ _ _ E). unfold with_key, without_key. induction l as [|w l IH]; [done|]. cbn [List.filter].
      destruct (same_key comp key k w) eqn:Ew; cbn [negb List.filter]; [done|]. by rewrite Ew.
    - unfold with_key, without_key. induction l as [|w l IH]; [done|]. cbn [List.filter].
      destruct (same_key comp key k w) eqn:Ew; cbn [negb List.filter].
      + rewrite IH. destruct (same_key comp key k' w) eqn:Ew'; [|done]. exfalso. unfold same_key, equivb in *.
        apply andb_true_iff in Ew as [A1%negb_true_iff A2%negb_true_iff]. apply andb_true_iff in Ew' as [B1%negb_true_iff B2%negb_true_iff].
        rewrite (swo_incomp_trans comp HW k (key w) k'), (swo_incomp_trans comp HW k' (key w) k) in E by done. done.
      + by rewrite IH.
  Qed.
  Lemma put_equal_sorted' v l : sorted comp (key <$> l) -> sorted comp (key <$> put_equal comp key v l).
  Proof.
    intros HS. destruct (upper_split (key v) l HS) as [H1 H2]. unfold put_equal, seq_insert. set (i := upper_index comp key (key v) l) in *.
    rewrite !fmap_app. rewrite <- (take_drop i l), fmap_app in HS.
    apply (sorted_app comp) in HS as (S1&S2&S3). apply (sorted_app comp). split; [done|]. split.
    - apply (sorted_app comp). split; [|split; [done|]].
      + apply (sorted_cons comp). split; [by apply Forall_nil|apply sorted_nil].
      + intros x y ->%elem_of_list_singleton (w&->&Hw)%elem_of_list_fmap. apply (swo_asym comp HW). by apply H2.
    - intros x y (u&->&Hu)%elem_of_list_fmap [->%elem_of_list_singleton|Hy]%elem_of_app; [by apply H1|].
      apply S3; [|done]. apply elem_of_list_fmap. by exists u.
  Qed.
  Lemma put_unique_sorted' v l : sorted comp (key <$> l) -> sorted comp (key <$> put_unique comp key v l).
  Proof. intros HS. unfold put_unique. destruct (present _ _ _ _); [done|by apply put_equal_sorted']. Qed.
  Lemma lower_split (v : K) (l : list V) : sorted comp (key <$> l) -> let i := lower_index comp key v l in
    (forall w, w ∈ take i l -> comp (key w) v = true) /\ (forall w, w ∈ drop i l -> comp (key w) v = false).
  Proof.
    intros HS i. subst i. induction l as [|w l IH]; [split; intros ? H; by apply elem_of_nil in H|].
    change (key <$> w :: l) with (key w :: (key <$> l)) in HS. apply (sorted_cons comp) in HS as [Hw HS].
    unfold lower_index. cbn [List.filter]. destruct (comp (key w) v) eqn:Ec.
    - destruct (IH HS) as [I1 I2]. cbn [length take drop]. split; [|done]. intros u [->|Hu]%elem_of_cons; [done|]. by apply I1.
    - assert (forall u, u ∈ l -> comp (key u) v = false) as Hu.
      { intros u Hu. apply (swo_le_trans comp HW _ (key w)); [done|]. rewrite Forall_forall in Hw. apply Hw, elem_of_list_fmap. by exists u. }
      assert (List.filter (fun w0 : V => comp (key w0) v) l = []) as -> by by apply filter_none.
      cbn. split; [intros ? H; by apply elem_of_nil in H|]. intros u [->|Hin]%elem_of_cons; [done|by apply Hu].
  Qed.
  (** inserting at the front of the class *)
  Lemma front_fits v k l : sorted comp (key <$> l) -> equivb comp k (key v) = true -> fits comp key (lower_index comp key k l) v l = true.
  Proof.
    intros HS E. destruct (lower_split k l HS) as [H1 H2]. unfold equivb in E. apply andb_true_iff in E as [E1%negb_true_iff E2%negb_true_iff].
    unfold fits. apply andb_true_iff. split; apply forallb_forall; intros w Hw%elem_of_list_In; apply negb_true_iff.
    - apply H1 in Hw. apply (swo_asym comp HW). by eapply (swo_lt_le_trans comp HW).
    - apply H2 in Hw. by eapply (swo_le_trans comp HW).
  Qed.
  Lemma cls_front k k' v l : sorted comp (key <$> l) -> equivb comp k (key v) = true ->
    cls k' (seq_insert (lower_index comp key k l) [v] l) = if equivb comp k' (key v) then v :: cls k' l else cls k' l.
  Proof.
    intros HS Ek. destruct (lower_split k l HS) as [H1 _]. set (i := lower_index comp key k l) in *. unfold seq_insert, with_key.
    assert (List.filter (same_key comp key k') l = List.filter (same_key comp key k') (take i l) ++ List.filter (same_key comp key k') (drop i l)) as ->
      by (by rewrite <- List.filter_app, take_drop).
    rewrite !List.filter_app. cbn [List.filter]. change (same_key comp key k' v) with (equivb comp k' (key v)).
    destruct (equivb comp k' (key v)) eqn:Ek'; [|done].
    assert (List.filter (same_key comp key k') (take i l) = []) as ->; [|done].
    apply filter_none. intros w Hw. apply H1 in Hw. unfold same_key, equivb in *.
    apply andb_true_iff in Ek as [E1%negb_true_iff E2%negb_true_iff]. apply andb_true_iff in Ek' as [E3%negb_true_iff E4%negb_true_iff].
    assert (comp (key w) k' = true) as ->; [|by rewrite andb_false_r].
    eapply (swo_lt_le_trans comp HW); [exact Hw|]. by apply (swo_le_trans comp HW _ (key v)).
  Qed.
  (** erasing the elements between two positions *)
  Lemma cls_range (f : V -> bool) i j k l : i <= j <= length l ->
    (forall n w, l !! n = Some w -> (i <= n < j <-> f w = true)) -> cls k (seq_delete i j l) = List.filter (fun w => negb (f w)) (cls k l).
  Proof.
    intros Hij Hf. unfold seq_delete, with_key.
    assert (forall n, n <= length l -> forall P : V -> bool, List.filter P l = List.filter P (take n l) ++ List.filter P (drop n l)) as Hsp.
    { intros n Hn P. by rewrite <- List.filter_app, take_drop. }
    assert (l = take i l ++ take (j - i) (drop i l) ++ drop j l) as Hl.
    { rewrite <- (take_drop i l) at 1. f_equal. rewrite <- (take_drop (j - i) (drop i l)) at 1. f_equal. rewrite drop_drop. f_equal. lia. }
    rewrite Hl at 3. rewrite !List.filter_app. rewrite (filter_none (fun w => negb (f w)) (List.filter _ (take (j - i) (drop i l)))).
    - cbn [app]. f_equal; symmetry; apply filter_all; intros w Hw; apply elem_of_list_In, filter_In in Hw as [Hw _];
        apply elem_of_list_In, elem_of_list_lookup in Hw as (n&Hn).
      + apply lookup_take_Some in Hn as [Hn Hlt]. apply negb_true_iff, not_true_iff_false. intros Hc. apply (Hf n w Hn) in Hc. lia.
      + rewrite lookup_drop in Hn. apply negb_true_iff, not_true_iff_false. intros Hc. apply (Hf _ w Hn) in Hc. lia.
    - intros w Hw. apply elem_of_list_In, filter_In in Hw as [Hw _].
      apply elem_of_list_In, elem_of_list_lookup in Hw as (n&Hn). apply lookup_take_Some in Hn as [Hn Hlt]. rewrite lookup_drop in Hn.
      apply negb_false_iff, (Hf _ w Hn). lia.
  Qed.
  (** if [f] respects equivalence, the class of [k] leaves as a whole *)
  Lemma cls_all_or_none (g : K -> bool) k l : (forall a b, equivb comp a b = true -> g a = g b) ->
    List.filter (fun w => negb (g (key w))) (cls k l) = if g k then [] else cls k l.
  Proof.
    intros Hg. unfold with_key. assert (forall w, w ∈ List.filter (same_key comp key k) l -> g (key w) = g k) as H.
    { intros w Hw. apply elem_of_list_In, filter_In in Hw as [_ Hw]. symmetry. by apply Hg. }
    destruct (g k) eqn:E; [apply filter_none|apply filter_all]; intros w Hw; by rewrite (H w Hw).
  Qed.
  Lemma lt_resp_l a b c : equivb comp a b = true -> comp a c = comp b c.
  Proof.
    intros E. unfold equivb in E. apply andb_true_iff in E as [E1%negb_true_iff E2%negb_true_iff].
    destruct (comp a c) eqn:A, (comp b c) eqn:B; try done.
    - by rewrite (swo_le_lt_trans comp HW b a c) in B.
    - by rewrite (swo_le_lt_trans comp HW a b c) in A.
  Qed.
  Lemma lt_resp_r a b c : equivb comp a b = true -> comp c a = comp c b.
  Proof.
    intros E. unfold equivb in E. apply andb_true_iff in E as [E1%negb_true_iff E2%negb_true_iff].
    destruct (comp c a) eqn:A, (comp c b) eqn:B; try done.
    - by rewrite (swo_lt_le_trans comp HW c a b) in B.
    - by rewrite (swo_lt_le_trans comp HW c b a) in A.
  Qed.
  (** erasing the only element of its class *)
  Lemma cls_delete n w l k : l !! n = Some w -> (forall k, length (cls k l) <= 1) ->
    equivb comp k (key w) = true -> seq_delete n (S n) l = without_key comp key k l.
  Proof.
    intros Hn H1 E. unfold seq_delete.
    assert (forall l1 l2 : list V, l = l1 ++ w :: l2 -> l1 ++ l2 = without_key comp key k l) as H.
    { intros l1 l2 ->. specialize (H1 k). unfold with_key, without_key in *. rewrite List.filter_app in *. cbn [List.filter] in *.
      change (same_key comp key k w) with (equivb comp k (key w)) in *. rewrite E in *. cbn [negb].
      rewrite app_length in H1. cbn [length] in H1.
      assert (forall l : list V, length (List.filter (same_key comp key k) l) = 0 -> List.filter (fun w => negb (same_key comp key k w)) l = l) as Hf.
      { induction l as [|u l IH]; [done|]. cbn [List.filter]. destruct (same_key comp key k u); [done|]. cbn [negb]. intros Hl. by rewrite IH. }
      rewrite !Hf by lia. done. }
    apply H. symmetry. by apply take_drop_middle.
  Qed.
End seqs.

Section dict.
  Context {K V : Type} (alloc : gmap loc (tnode V) -> loc) (Ha : tmalloc_ok alloc) (key : V -> K) (multi : bool).
  Implicit Types (h : theap V) (t : tobj K V) (d : dict K V) (ds : list (dict K V)).
  (** all four kinds are this one *)
  Definition tree_api : dict_api K V :=
    Api (fun h comp => c_tree_create alloc h comp key) c_tree_destroy c_tree_begin c_tree_end c_tree_empty c_tree_size c_tree_clear
      (if multi then c_tree_insert_equal_value alloc else c_tree_insert_unique_value alloc)
      (if multi then c_tree_insert_equal alloc else c_tree_insert_unique alloc)
      (if multi then c_tree_insert_equal_range alloc else c_tree_insert_unique_range alloc)
      c_tree_erase c_tree_erase_key c_tree_swap c_tree_find c_tree_count c_tree_lower_bound c_tree_upper_bound c_tree_equal_range
      c_tree_rbegin c_tree_rend (if multi then c_tree_insert_equal_from alloc else c_tree_insert_unique_from alloc)
      c_tree_erase_range c_tree_erase_from.
  Definition mrel (tm : tmod K V) d : Prop :=
    tm_comp tm = d_comp d /\ tm_key tm = key /\ (forall k, with_key (d_comp d) key k (tm_vals tm) = d_at d k) /\
    (multi = false -> forall k, length (d_at d k) <= 1).

  Lemma put_rel comp l (d : dict K V) v : StrictWeakOrder comp -> sorted comp (key <$> l) -> mrel (TMod comp key l) d ->
    let l' := if multi then put_equal comp key v l else put_unique comp key v l in
    sorted comp (key <$> l') /\ mrel (TMod comp key l') (d_put key multi v d).
  Proof.
    intros HW HS (E1&E2&E3&E4) l'. cbn [tm_comp tm_key tm_vals] in *. subst comp. subst l'. split.
    - destruct multi; [by apply put_equal_sorted'|by apply put_unique_sorted'].
    - split; [done|]. split; [done|]. cbn [d_comp d_at d_put tm_vals]. split.
      + intros k. destruct multi.
        * by rewrite cls_put_equal, E3 by done.
        * by rewrite cls_put_unique, E3 by done.
      + intros Hm k. rewrite Hm. destruct (equivb _ _ _); [|by apply E4]. specialize (E4 Hm k). destruct (d_at d k); cbn; [lia|done].
  Qed.
  Lemma puts_rel comp vs : StrictWeakOrder comp -> forall l (d : dict K V), sorted comp (key <$> l) -> mrel (TMod comp key l) d ->
    mrel (TMod comp key (fold_left (fun l a => if multi then put_equal comp key a l else put_unique comp key a l) vs l))
      (fold_left (fun d v => d_put key multi v d) vs d).
  Proof.
    intros HW. induction vs as [|v vs IH]; intros l d HS HR; cbn [fold_left]; [done|].
    destruct (put_rel comp l d v HW HS HR) as [HS' HR']. by apply IH.
  Qed.

  Definition drel (L : list (tobj K V * list (loc * V))) ds : Prop := Forall2 mrel (tmods L) ds.
  Lemma drel_at L ds i d : drel L ds -> ds !! i = Some d -> exists t cs, L !! i = Some (t, cs) /\ mrel (TMod (kcomp t) (kov t) cs.*2) d.
  Proof.
    intros HR Hi. destruct (Forall2_lookup_r _ _ _ _ _ HR Hi) as (tm&Htm&Hm). apply tmods_lookup in Htm as (t&cs&E&->). by exists t, cs.
  Qed.
  (** arrays *)
  Lemma insert_equal_from_loop_range vs2 : forall vs1 t h fuel, length vs2 < fuel ->
    insert_equal_from_loop alloc fuel t h (vs1 ++ vs2) (length vs1) = c_tree_insert_equal_range alloc (K := K) t h vs2.
  Proof.
    induction vs2 as [|v vs2 IH]; intros vs1 t h fuel Hf; (destruct fuel as [|fuel]; [lia|]); cbn [insert_equal_from_loop c_tree_insert_equal_range].
    - by rewrite app_nil_r, Nat.eqb_refl.
    - rewrite app_length. cbn [length] in *. rewrite (proj2 (Nat.eqb_neq _ _)) by lia. rewrite lookup_app_r, Nat.sub_diag by lia. cbn [lookup list_lookup].
      destruct (c_tree_insert_equal_value alloc t h (RVal v)) as [[[h1 t1] ?]| |]; cbn [rbind]; [|done|done].
      specialize (IH (vs1 ++ [v]) t1 h1 fuel ltac:(lia)). rewrite <- app_assoc, app_length in IH. cbn [length app] in IH. by rewrite Nat.add_1_r in IH.
  Qed.
  Lemma insert_equal_from_range t h vs : c_tree_insert_equal_from alloc t h vs = c_tree_insert_equal_range alloc (K := K) t h vs.
  Proof. apply (insert_equal_from_loop_range vs []). lia. Qed.
  Lemma insert_unique_from_loop_range vs2 : forall vs1 t h fuel, length vs2 < fuel ->
    insert_unique_from_loop alloc fuel t h (vs1 ++ vs2) (length vs1) = c_tree_insert_unique_range alloc (K := K) t h vs2.
  Proof.
    induction vs2 as [|v vs2 IH]; intros vs1 t h fuel Hf; (destruct fuel as [|fuel]; [lia|]); cbn [insert_unique_from_loop c_tree_insert_unique_range].
    - by rewrite app_nil_r, Nat.eqb_refl.
    - rewrite app_length. cbn [length] in *. rewrite (proj2 (Nat.eqb_neq _ _)) by lia. rewrite lookup_app_r, Nat.sub_diag by lia. cbn [lookup list_lookup].
      destruct (c_tree_insert_unique_value alloc t h (RVal v)) as [[[h1 t1] ?]| |]; cbn [rbind]; [|done|done].
      specialize (IH (vs1 ++ [v]) t1 h1 fuel ltac:(lia)). rewrite <- app_assoc, app_length in IH. cbn [length app] in IH. by rewrite Nat.add_1_r in IH.
  Qed.
  Lemma insert_unique_from_range t h vs : c_tree_insert_unique_from alloc t h vs = c_tree_insert_unique_range alloc (K := K) t h vs.
  Proof. apply (insert_unique_from_loop_range vs []). lia. Qed.
  (** one operation that replaces container [i] *)
  Lemma upd_step h L G ds i t cs h' t' cs' gone d' : tworld (mem h) L G -> drel L ds -> L !! i = Some (t, cs) -> tupd h t cs h' t' cs' gone ->
    mrel (TMod (kcomp t) (kov t) cs'.*2) d' ->
    exists L' G', <[i := t']> L.*1 = L'.*1 /\ tworld (mem h') L' G' /\ drel L' (<[i := d']> ds).
  Proof.
    intros HT HR Hi (Ht&HB&Hs&Hd) Hm. exists (<[i := (t', cs')]> L), G. split; [by rewrite list_fmap_insert|]. split.
    - destruct (DListRunProofs.list_at L i _ Hi) as [Hp Hp'].
      eapply (tworld_step (mem h) (mem h') L G [(t, cs)] [(t', cs')]); [done|exact Hp| | | |apply Hp'].
      + rewrite tall_one. by apply rb_ND in HB.
      + by apply Forall_singleton.
      + rewrite !tall_one. by rewrite Ht.
    - unfold drel. rewrite tmods_insert. apply Forall2_insert; [exact HR|]. by rewrite Ht.
  Qed.
  Lemma removes_rel comp ks : StrictWeakOrder comp -> forall l (d : dict K V), mrel (TMod comp key l) d ->
    mrel (TMod comp key (fold_left (fun l a => without_key comp key a l) ks l)) (fold_left (fun d k => d_remove k d) ks d).
  Proof.
    intros HW. induction ks as [|k ks IH]; intros l d Hm; cbn [fold_left]; [done|]. apply IH. destruct Hm as (Hc&Hk&Hat&H1). cbn [tm_comp tm_key tm_vals] in *. subst comp.
    split; [done|]. split; [done|]. cbn [d_comp d_at d_remove tm_vals]. split.
    - intros k'. rewrite cls_without by done. by rewrite Hat.
    - intros Hmu k'. destruct (equivb _ _ _); [cbn; lia|by apply H1].
  Qed.
  (** erasing the range between two positions, the keys between which satisfy [g] *)
  Lemma range_step h L G ds i d t cs a b (g : K -> bool) : tworld (mem h) L G -> drel L ds -> L !! i = Some (t, cs) ->
    mrel (TMod (kcomp t) (kov t) cs.*2) d -> a <= b <= length cs ->
    (forall n w, cs.*2 !! n = Some w -> (a <= n < b <-> g (key w) = true)) -> (forall x y, equivb (kcomp t) x y = true -> g x = g y) ->
    exists h' t' L' G', c_tree_erase_range t h (first_loc (hdr t) (drop a cs)) (first_loc (hdr t) (drop b cs)) = Ok (h', t') /\
      <[i := t']> L.*1 = L'.*1 /\ tworld (mem h') L' G' /\ drel L' (<[i := d_drop g d]> ds).
  Proof.
    intros HT HR Hi Hm Hab Hg Hr. pose proof (tworld_in _ _ _ _ _ _ HT Hi) as HB. destruct (erase_range_upd t h cs a b HB Hab) as (h'&t'&E&HU).
    destruct (upd_step h L G ds i t cs h' t' _ _ (d_drop g d) HT HR Hi HU) as (L'&G'&E'&HT'&HR').
    - destruct Hm as (Hc&Hk&Hat&H1). cbn [tm_comp tm_key tm_vals] in *. split; [done|]. split; [done|]. cbn [d_comp d_at d_drop tm_vals]. split.
      + intros k. assert ((seq_delete a b cs).*2 = seq_delete a b cs.*2) as -> by (unfold seq_delete; by rewrite fmap_app, fmap_take, fmap_drop).
        rewrite (cls_range (d_comp d) key (fun w => g (key w)) a b k cs.*2); [|by rewrite fmap_length|done].
        rewrite (cls_all_or_none (d_comp d) key g k cs.*2); [by rewrite Hat|]. by rewrite <- Hc.
      + intros Hmu k. destruct (g k); [cbn; lia|by apply H1].
    - by exists h', t', L', G'.
  Qed.
  Lemma dop_ok h L G ds o ds' : tworld (mem h) L G -> drel L ds -> dop_order o -> dop_spec key multi ds o = Some ds' ->
    exists h' L' G', dop_run tree_api (h, L.*1) o = Ok (h', L'.*1) /\ tworld (mem h') L' G' /\ drel L' ds'.
  Proof.
    intros HT HR Ho Hs.
    (* each call is a step of the tree client *)
    assert (Hstep : forall o' ts' gone, dop_run tree_api (h, L.*1) o = top_run alloc (h, L.*1) o' -> top_order o' ->
      top_spec (tmods L) o' = Some (ts', gone) -> Forall2 mrel ts' ds' ->
      exists h' L' G', dop_run tree_api (h, L.*1) o = Ok (h', L'.*1) /\ tworld (mem h') L' G' /\ drel L' ds').
    { intros o' ts' gone E Ho' Hs' HF. destruct (top_ok alloc Ha h L G o' ts' gone HT Ho' Hs') as (h'&L'&G'&E'&HT'&Hm&_).
      exists h', L', G'. rewrite E. split; [done|]. split; [done|]. unfold drel. by rewrite Hm. }
    destruct o as [comp|i v|i k v|i vs|i k|i k|i|i j|i|i vs|i k|i k k'|i k|i ks sz]; cbn [dop_spec] in Hs.
    - injection Hs as <-. eapply (Hstep (TCreate comp key)); [done|done|done|]. apply Forall2_app; [done|]. apply Forall2_cons; split; [|done].
      split; [done|]. split; [done|]. split; [done|]. intros _ k. cbn. lia.
    - destruct (ds !! i) as [d|] eqn:Ei; [|done]. injection Hs as <-. destruct (drel_at L ds i d HR Ei) as (t&cs&Et&Hm).
      pose proof (tworld_in _ _ _ _ _ _ HT Et) as HB. pose proof HB as (HW&_&_&HS). pose proof Hm as (_&Hk&_). cbn in Hk. rewrite Hk in HS, Hm.
      destruct (put_rel (kcomp t) cs.*2 d v HW HS Hm) as [_ HR'].
      eapply (Hstep (if multi then TInsertEqual i (AVal v) else TInsertUnique i (AVal v)) (<[i := TMod (kcomp t) (kov t) (if multi then put_equal (kcomp t) (kov t) v cs.*2 else put_unique (kcomp t) (kov t) v cs.*2)]> (tmods L)) []).
      + unfold tree_api; destruct multi; reflexivity.
      + by destruct multi.
      + destruct multi; cbn [top_spec]; rewrite (tmods_lookup' _ _ _ _ Et); reflexivity.
      + apply Forall2_insert; [exact HR|]. rewrite Hk. exact HR'.
    - destruct (ds !! i) as [d|] eqn:Ei; [|done]. cbn [mbind option_bind] in Hs.
      destruct (drel_at L ds i d HR Ei) as (t&cs&Et&Hm).
      pose proof (tworld_in _ _ _ _ _ _ HT Et) as HB. pose proof HB as (HW&_&_&HS). pose proof Hm as (Hc&Hk&_). cbn in Hk, Hc. rewrite Hk in HS, Hm.
      set (n := lower_index (kcomp t) (kov t) k cs.*2). pose proof (lower_le t k cs : n <= length cs) as Hn.
      destruct (Sumbool.sumbool_of_bool multi) as [Em|Em].
      { rewrite Em in Hs. cbn [andb] in Hs. destruct (equivb (d_comp d) k (key v)) eqn:Eq; [|done]. cbn [negb] in Hs. injection Hs as <-.
        rewrite <- Hc in Eq. eapply (Hstep (TInsertEqualAt i n (AVal v))).
        + cbn [dop_run top_run]. unfold don, ton, dhandle. rewrite (thandle_ok _ _ _ _ Et). unfold thandle in *. rewrite list_lookup_fmap, Et. cbn [fmap option_fmap option_map rbind fst].
          cbn [a_lower_bound a_insert tree_api]. rewrite (lower_bound_ok t h cs (KVal k) k HB eq_refl), (tposition_ok _ _ _ _ HB Hn).
          cbn [rbind targ_ref]. rewrite Em. fold n. done.
        + done.
        + cbn [top_spec]. rewrite (tmods_lookup' _ _ _ _ Et). cbn [mbind option_bind targ_val tm_vals]. unfold targ_val. cbn [larg_val mbind option_bind].
          rewrite fmap_length, (proj2 (Nat.leb_le _ _) Hn). reflexivity.
        + apply Forall2_insert; [exact HR|]. unfold tm_set. cbn [tm_comp tm_key tm_vals]. unfold n. rewrite Hk. unfold put_equal_at.
          rewrite (front_fits (kcomp t) key HW v k cs.*2 HS Eq). destruct Hm as (_&_&Hat&_). cbn [tm_vals] in Hat.
          split; [done|]. split; [done|]. cbn [d_comp d_at tm_vals]. split; [|by rewrite Em].
          intros k'. rewrite <- Hc. rewrite (cls_front (kcomp t) key HW k k' v cs.*2 HS Eq). rewrite <- Hat, <- Hc. done. }
      rewrite Em in Hs. cbn [andb] in Hs. injection Hs as <-.
      destruct (put_rel (kcomp t) cs.*2 d v HW HS Hm) as [_ HR']. rewrite Em in HR'.
      eapply (Hstep (TInsertUniqueAt i n (AVal v))).
      + cbn [dop_run top_run]. unfold don, ton, dhandle. rewrite (thandle_ok _ _ _ _ Et). unfold thandle in *. rewrite list_lookup_fmap, Et. cbn [fmap option_fmap option_map rbind fst].
        cbn [a_lower_bound a_insert tree_api]. rewrite (lower_bound_ok t h cs (KVal k) k HB eq_refl), (tposition_ok _ _ _ _ HB Hn).
        cbn [rbind targ_ref]. rewrite Em. fold n. done.
      + done.
      + cbn [top_spec]. rewrite (tmods_lookup' _ _ _ _ Et). cbn [mbind option_bind targ_val tm_vals]. unfold targ_val. cbn [larg_val mbind option_bind].
        rewrite fmap_length, (proj2 (Nat.leb_le _ _) Hn). reflexivity.
      + apply Forall2_insert; [exact HR|]. unfold tm_set. cbn [tm_comp tm_key tm_vals]. rewrite Hk. exact HR'.
    - destruct (ds !! i) as [d|] eqn:Ei; [|done]. injection Hs as <-. destruct (drel_at L ds i d HR Ei) as (t&cs&Et&Hm).
      pose proof (tworld_in _ _ _ _ _ _ HT Et) as HB. pose proof HB as (HW&_&_&HS). pose proof Hm as (_&Hk&_). cbn in Hk. rewrite Hk in HS, Hm.
      pose proof (puts_rel (kcomp t) vs HW cs.*2 d HS Hm) as HR'.
      eapply (Hstep (if multi then TInsertEqualAll i vs else TInsertUniqueAll i vs) (<[i := TMod (kcomp t) (kov t) (fold_left (fun l a => if multi then put_equal (kcomp t) (kov t) a l else put_unique (kcomp t) (kov t) a l) vs cs.*2)]> (tmods L)) []).
      + unfold tree_api; destruct multi; reflexivity.
      + by destruct multi.
      + destruct multi; cbn [top_spec]; rewrite (tmods_lookup' _ _ _ _ Et); reflexivity.
      + apply Forall2_insert; [exact HR|]. rewrite Hk. exact HR'.
    - destruct (ds !! i) as [d|] eqn:Ei; [|done]. injection Hs as <-. destruct (drel_at L ds i d HR Ei) as (t&cs&Et&Hm).
      pose proof (tworld_in _ _ _ _ _ _ HT Et) as HB. pose proof HB as (HW&_&_&HS). pose proof Hm as (Hc&Hk&Hat&H1). cbn [tm_comp tm_key tm_vals] in Hk, Hc, Hat.
      eapply (Hstep (TEraseKey i (AKey k))); [done|done| |].
      + cbn [top_spec]. rewrite (tmods_lookup' _ _ _ _ Et). reflexivity.
      + apply Forall2_insert; [exact HR|]. unfold tm_set. cbn [tm_comp tm_key tm_vals]. split; [done|]. split; [done|]. cbn [d_comp d_at d_remove tm_vals].
        rewrite Hc in HW. split.
        * intros k'. rewrite Hk, Hc, cls_without by done. by rewrite Hat.
        * intros Hmu k'. destruct (equivb _ _ _); [cbn; lia|by apply H1].
    - destruct (Sumbool.sumbool_of_bool multi) as [Em|Em]; rewrite Em in Hs; [done|]. destruct (ds !! i) as [d|] eqn:Ei; [|done]. injection Hs as <-. destruct (drel_at L ds i d HR Ei) as (t&cs&Et&Hm).
      pose proof (tworld_in _ _ _ _ _ _ HT Et) as HB. pose proof HB as (HW&(T&HT0&HcT)&_&HS). pose proof Hm as (Hc&Hk&Hat&H1). cbn [tm_comp tm_key tm_vals] in Hk, Hc, Hat. specialize (H1 Em).
      assert (Hrem : mrel (TMod (kcomp t) (kov t) (without_key (kcomp t) (kov t) k cs.*2)) (d_remove k d)).
      { split; [done|]. split; [done|]. cbn [d_comp d_at d_remove tm_vals]. rewrite Hc in HW. split.
        - intros k'. rewrite Hk, Hc, cls_without by done. by rewrite Hat.
        - intros _ k'. destruct (equivb _ _ _); [cbn; lia|by apply H1]. }
      destruct (C25_find K V h t cs (KVal k) k HB eq_refl) as [(x&w&Ef&Hx&Hne&Hw1&Hw2)|(Ef&Hno)].
      + apply elem_of_list_lookup in Hx as (n&Hn). assert (cs.*2 !! n = Some w) as Hn2 by by rewrite list_lookup_fmap, Hn.
        pose proof (lookup_lt_Some _ _ _ Hn) as Hlt.
        eapply (Hstep (TErase i n)).
        * cbn [dop_run top_run]. unfold don, ton, dhandle. rewrite (thandle_ok _ _ _ _ Et). rewrite list_lookup_fmap, Et. cbn [fmap option_fmap option_map rbind fst].
          cbn [a_find a_erase a_end tree_api]. rewrite Ef, (tposition_ok h t cs n HB) by lia. cbn [rbind]. rewrite decide_False.
          -- rewrite (drop_S _ _ _ Hn). done.
          -- unfold c_tree_end. by intros [= ->].
        * done.
        * cbn [top_spec]. rewrite (tmods_lookup' _ _ _ _ Et). cbn [mbind option_bind tm_vals]. rewrite Hn2. reflexivity.
        * apply Forall2_insert; [exact HR|]. unfold tm_set. cbn [tm_comp tm_key tm_vals].
          rewrite (cls_delete (kcomp t) (kov t) n w cs.*2 k); [exact Hrem|done| |].
          -- intros k'. rewrite Hk, Hc, Hat. apply H1.
          -- unfold equivb. by rewrite Hw1, Hw2.
      + exists h, L, G. cbn [dop_run]. unfold don, dhandle. rewrite list_lookup_fmap, Et. cbn [fmap option_fmap option_map rbind fst].
        cbn [a_find a_end tree_api]. rewrite Ef. cbn [rbind]. rewrite decide_True by done. cbn [rbind].
        split; [f_equal; f_equal; apply list_insert_id; by rewrite list_lookup_fmap, Et|]. split; [done|].
        unfold drel. rewrite <- (list_insert_id (tmods L) i (TMod (kcomp t) (kov t) cs.*2)) by (by apply tmods_lookup').
        apply Forall2_insert; [exact HR|].
        assert (without_key (kcomp t) (kov t) k cs.*2 = cs.*2) as Hid; [|by rewrite Hid in Hrem].
        unfold without_key. apply filter_all. intros w (c&->&Hcin)%elem_of_list_fmap. destruct c as [x w]. cbn [snd].
        apply negb_true_iff. unfold same_key, equivb. apply not_true_iff_false. intros Hc'. apply andb_true_iff in Hc' as [A%negb_true_iff B%negb_true_iff].
        by apply (Hno x w Hcin).
    - destruct (ds !! i) as [d|] eqn:Ei; [|done]. injection Hs as <-. destruct (drel_at L ds i d HR Ei) as (t&cs&Et&Hm). pose proof Hm as (Hc&Hk&_).
      eapply (Hstep (TClear i)); [done|done| |].
      + cbn [top_spec]. rewrite (tmods_lookup' _ _ _ _ Et). reflexivity.
      + apply Forall2_insert; [exact HR|]. split; [done|]. split; [done|]. split; [done|]. cbn. lia.
    - destruct (ds !! i) as [d|] eqn:Ei; [|done]. cbn [mbind option_bind] in Hs. destruct (ds !! j) as [d'|] eqn:Ej; [|done]. injection Hs as <-.
      destruct (drel_at L ds i d HR Ei) as (t&cs&Et&Hm). destruct (drel_at L ds j d' HR Ej) as (t'&cs'&Et'&Hm').
      eapply (Hstep (TSwap i j)); [done|done| |].
      + cbn [top_spec]. rewrite (tmods_lookup' _ _ _ _ Et). cbn [mbind option_bind]. rewrite (tmods_lookup' _ _ _ _ Et'). reflexivity.
      + apply Forall2_insert; [apply Forall2_insert; [exact HR|done]|done].
    - destruct (ds !! i) as [d|] eqn:Ei; [|done]. injection Hs as <-. destruct (drel_at L ds i d HR Ei) as (t&cs&Et&Hm).
      eapply (Hstep (TDestroy i)); [done|done| |].
      + cbn [top_spec]. rewrite (tmods_lookup' _ _ _ _ Et). reflexivity.
      + by apply Forall2_delete.
    - destruct (ds !! i) as [d|] eqn:Ei; [|done]. injection Hs as <-. destruct (drel_at L ds i d HR Ei) as (t&cs&Et&Hm).
      pose proof (tworld_in _ _ _ _ _ _ HT Et) as HB. pose proof HB as (HW&_&_&HS). pose proof Hm as (_&Hk&_). cbn in Hk. rewrite Hk in HS, Hm.
      pose proof (puts_rel (kcomp t) vs HW cs.*2 d HS Hm) as HR'.
      eapply (Hstep (if multi then TInsertEqualAll i vs else TInsertUniqueAll i vs) (<[i := TMod (kcomp t) (kov t) (fold_left (fun l a => if multi then put_equal (kcomp t) (kov t) a l else put_unique (kcomp t) (kov t) a l) vs cs.*2)]> (tmods L)) []).
      + unfold tree_api; destruct multi; cbn [dop_run top_run a_insert_from]; unfold don, ton; (destruct (dhandle (L.*1) i) as [u| |] eqn:Eu; unfold dhandle, thandle in *; rewrite Eu; cbn [rbind]; [|done|done]);
        [by rewrite insert_equal_from_range|by rewrite insert_unique_from_range].
      + by destruct multi.
      + destruct multi; cbn [top_spec]; rewrite (tmods_lookup' _ _ _ _ Et); reflexivity.
      + apply Forall2_insert; [exact HR|]. rewrite Hk. exact HR'.
    - destruct (ds !! i) as [d|] eqn:Ei; [|done]. injection Hs as <-. destruct (drel_at L ds i d HR Ei) as (t&cs&Et&Hm).
      pose proof (tworld_in _ _ _ _ _ _ HT Et) as HB. pose proof HB as (HW&_&_&HS). pose proof Hm as (Hc&Hk&_). cbn [tm_comp tm_key] in Hc, Hk.
      pose proof (lower_le t k cs) as Hi. pose proof (upper_le t k cs) as Hj. destruct (TreeMod.between t cs k HW HS) as (Hij&_&_).
      pose proof (fun n w => lower_index_spec (kcomp t) (kov t) k cs.*2 HW HS n w) as Hl. pose proof (fun n w => upper_index_spec (kcomp t) (kov t) k cs.*2 HW HS n w) as Hu.
      cbn [dop_run]. unfold don, dhandle. rewrite list_lookup_fmap, Et. cbn [fmap option_fmap option_map rbind fst a_equal_range a_lower_bound a_upper_bound a_erase_range a_end tree_api].
      rewrite (equal_range_ok t h cs (KVal k) k HB eq_refl). cbn [rbind].
      destruct (range_step h L G ds i d t cs _ _ (equivb (d_comp d) k) HT HR Et Hm (conj Hij Hj)) as (h'&t'&L'&G'&->&E'&HT'&HR').
      + intros n w Hn. unfold equivb. rewrite <- Hc, <- Hk, andb_true_iff, !negb_true_iff, <- (Hu n w Hn), <- not_true_iff_false, <- (Hl n w Hn). lia.
      + intros x y E. unfold equivb. rewrite <- Hc. by rewrite (lt_resp_l _ HW _ _ k E), (lt_resp_r _ HW _ _ k E).
      + cbn [rbind]. rewrite E'. by exists h', L', G'.
    - destruct (ds !! i) as [d|] eqn:Ei; [|done]. cbn [mbind option_bind] in Hs. destruct (d_comp d k' k) eqn:Ekk; [done|]. injection Hs as <-. destruct (drel_at L ds i d HR Ei) as (t&cs&Et&Hm).
      pose proof (tworld_in _ _ _ _ _ _ HT Et) as HB. pose proof HB as (HW&_&_&HS). pose proof Hm as (Hc&Hk&_). cbn [tm_comp tm_key] in Hc, Hk.
      pose proof (lower_le t k cs) as Hi. pose proof (upper_le t k cs) as Hj. destruct (TreeMod.between t cs k HW HS) as (Hij&_&_).
      pose proof (fun n w => lower_index_spec (kcomp t) (kov t) k cs.*2 HW HS n w) as Hl. pose proof (fun n w => upper_index_spec (kcomp t) (kov t) k cs.*2 HW HS n w) as Hu.
      cbn [dop_run]. unfold don, dhandle. rewrite list_lookup_fmap, Et. cbn [fmap option_fmap option_map rbind fst a_equal_range a_lower_bound a_upper_bound a_erase_range a_end tree_api].
      pose proof (lower_le t k' cs) as Hi'. pose proof (fun n w => lower_index_spec (kcomp t) (kov t) k' cs.*2 HW HS n w) as Hl'.
      rewrite (lower_bound_ok t h cs (KVal k) k HB eq_refl). cbn [rbind]. rewrite (lower_bound_ok t h cs (KVal k') k' HB eq_refl). cbn [rbind].
      assert (Hord : lower_index (kcomp t) (kov t) k cs.*2 <= lower_index (kcomp t) (kov t) k' cs.*2).
      { apply filter_mono_length. intros w Hw. rewrite <- Hc in Ekk. by eapply (swo_lt_le_trans _ HW). }
      destruct (range_step h L G ds i d t cs _ _ (fun a => negb (d_comp d a k) && d_comp d a k') HT HR Et Hm (conj Hord Hi')) as (h'&t'&L'&G'&->&E'&HT'&HR').
      + intros n w Hn. rewrite <- Hc, <- Hk, andb_true_iff, !negb_true_iff, <- (Hl' n w Hn), <- not_true_iff_false, <- (Hl n w Hn). lia.
      + intros x y E. rewrite <- Hc. by rewrite !(lt_resp_l _ HW _ _ _ E).
      + cbn [rbind]. rewrite E'. by exists h', L', G'.
    - destruct (ds !! i) as [d|] eqn:Ei; [|done]. injection Hs as <-. destruct (drel_at L ds i d HR Ei) as (t&cs&Et&Hm).
      pose proof (tworld_in _ _ _ _ _ _ HT Et) as HB. pose proof HB as (HW&_&_&HS). pose proof Hm as (Hc&Hk&_). cbn [tm_comp tm_key] in Hc, Hk.
      pose proof (lower_le t k cs) as Hi. pose proof (upper_le t k cs) as Hj. destruct (TreeMod.between t cs k HW HS) as (Hij&_&_).
      pose proof (fun n w => lower_index_spec (kcomp t) (kov t) k cs.*2 HW HS n w) as Hl. pose proof (fun n w => upper_index_spec (kcomp t) (kov t) k cs.*2 HW HS n w) as Hu.
      cbn [dop_run]. unfold don, dhandle. rewrite list_lookup_fmap, Et. cbn [fmap option_fmap option_map rbind fst a_equal_range a_lower_bound a_upper_bound a_erase_range a_end tree_api].
      rewrite (upper_bound_ok t h cs (KVal k) k HB eq_refl). cbn [rbind].
      assert (c_tree_end t = first_loc (hdr t) (drop (length cs) cs)) as -> by by rewrite drop_all.
      destruct (range_step h L G ds i d t cs _ _ (fun a => d_comp d k a) HT HR Et Hm (conj Hj (le_n _))) as (h'&t'&L'&G'&->&E'&HT'&HR').
      + intros n w Hn. rewrite <- Hc, <- Hk, <- not_false_iff_true, <- (Hu n w Hn). apply lookup_lt_Some in Hn. rewrite fmap_length in Hn. lia.
      + intros x y E. rewrite <- Hc. by rewrite (lt_resp_r _ HW _ _ k E).
      + cbn [rbind]. rewrite E'. by exists h', L', G'.
    - destruct (ds !! i) as [d|] eqn:Ei; [|done]. injection Hs as <-. destruct (drel_at L ds i d HR Ei) as (t&cs&Et&Hm).
      pose proof (tworld_in _ _ _ _ _ _ HT Et) as HB. pose proof HB as (HW&_). pose proof Hm as (_&Hk&_). cbn [tm_key] in Hk.
      cbn [dop_run]. unfold don, dhandle. rewrite list_lookup_fmap, Et. cbn [fmap option_fmap option_map rbind fst a_erase_from tree_api].
      destruct (erase_from_ok t h cs ks (S sz) HB ltac:(lia)) as (h'&t'&cs'&gone&->&HU&Hv). cbn [rbind].
      destruct (upd_step h L G ds i t cs h' t' _ _ (fold_left (fun d k => d_remove k d) ks d) HT HR Et HU) as (L'&G'&->&HT'&HR').
      + rewrite Hv. rewrite Hk in *. by apply removes_rel.
      + by exists h', L', G'.
  Qed.
  Lemma dhist_ok os : forall h L G ds ds', tworld (mem h) L G -> drel L ds -> Forall dop_order os -> dhist_spec key multi ds os = Some ds' ->
    exists h' L' G', dhist_run tree_api (h, L.*1) os = Ok (h', L'.*1) /\ tworld (mem h') L' G' /\ drel L' ds'.
  Proof.
    induction os as [|o os IH]; intros h L G ds ds' HT HR Ho Hs; cbn [dhist_spec dhist_run] in *.
    - injection Hs as <-. by exists h, L, G.
    - apply Forall_cons in Ho as [Ho Hos]. destruct (dop_spec key multi ds o) as [ds1|] eqn:E; [|done]. cbn in Hs.
      destruct (dop_ok h L G ds o ds1 HT HR Ho E) as (h1&L1&G1&->&HT1&HR1). cbn [rbind]. by eapply IH.
  Qed.

  Lemma sees_ok h L G ds i t cs d : tworld (mem h) L G -> L !! i = Some (t, cs) -> mrel (TMod (kcomp t) (kov t) cs.*2) d -> dict_sees tree_api key h t d.
  Proof.
    intros HT Et (Hc&Hk&Hat&_). cbn [tm_comp tm_key tm_vals] in *. pose proof (tworld_in _ _ _ _ _ _ HT Et) as HB.
    pose proof HB as (HW&_&Hcnt&HS). assert (Hlen : forall k, length (List.filter (fun w => negb (kcomp t k (kov t w)) && negb (kcomp t (kov t w) k)) cs.*2) = length (d_at d k)).
    { intros k. rewrite <- Hat, Hc, Hk. done. }
    split; [|split; [|split]].
    - destruct (tree_reads_ok h t cs HB) as ((ps&Hw&Hps)&_). exists ps. split; [exact Hw|]. rewrite Hps, <- Hc, <- Hk. split; [done|].
      rewrite Hc, Hk. split; [exact Hat|]. assert (length ps = length cs) as Hl by (rewrite <- (fmap_length snd ps), Hps; apply fmap_length).
      cbn [a_size a_empty tree_api]. unfold c_tree_size, c_tree_empty. by rewrite Hl, Hcnt.
    - intros k. cbn [a_count tree_api]. rewrite (count_ok t h cs (KVal k) k HB eq_refl). f_equal. rewrite <- Hlen.
      unfold with_key. reflexivity.
    - intros k. cbn [a_find a_end tree_api]. destruct (C25_find K V h t cs (KVal k) k HB eq_refl) as [(x&w&Ef&Hx&Hne&Hw1&Hw2)|(Ef&Hno)].
      + assert (w ∈ d_at d k) as Hin.
        { rewrite <- Hat, <- Hc, <- Hk. unfold with_key. apply elem_of_list_In, filter_In. split; [apply elem_of_list_In, elem_of_list_fmap; by exists (x, w)|].
          unfold same_key, equivb. by rewrite Hw1, Hw2. }
        destruct (d_at d k) as [|w0 l0] eqn:E; [by apply elem_of_nil in Hin|]. exists (Some x), w. split; [done|]. split; [unfold c_tree_end; by intros [= ->]|].
        split; [|done]. destruct HB as (_&(T&HT0&HcT)&_). eapply val_ok; [exact HT0|]. by rewrite HcT.
      + destruct (d_at d k) as [|w0 l0] eqn:E; [done|]. exfalso. assert (w0 ∈ d_at d k) as Hin by (rewrite E; left).
        rewrite <- Hat, <- Hc, <- Hk in Hin. unfold with_key in Hin. apply elem_of_list_In, filter_In in Hin as [Hin Hs]. apply elem_of_list_In, elem_of_list_fmap in Hin as ([x w]&->&Hin).
        cbn [snd] in Hs. unfold same_key, equivb in Hs. apply andb_true_iff in Hs as [A%negb_true_iff B%negb_true_iff]. by apply (Hno x w Hin).
    - intros k. cbn [a_erase_key tree_api]. destruct (C29_erase_key K V h t cs (KVal k) k HB eq_refl) as (h'&t'&E&_). exists h', t'. by rewrite E, Hlen.
  Qed.
  Lemma between_ok h t cs i j : is_rbtree (mem h) t cs -> i <= j <= length cs ->
    a_between t h (first_loc (hdr t) (drop i cs)) (first_loc (hdr t) (drop j cs)) = Ok (take (j - i) (drop i cs.*2)).
  Proof.
    intros (_&(T&HT&<-)&_) Hij.
    assert (drop i (cells T) = take (j - i) (drop i (cells T)) ++ drop j (cells T)) as Ed.
    { rewrite <- (take_drop (j - i) (drop i (cells T))) at 1. f_equal. rewrite drop_drop. f_equal. lia. }
    unfold a_between. rewrite Ed. rewrite (walk_ok (mem h) (hdr t) T (take i (cells T)) (take (j - i) (drop i (cells T))) (drop j (cells T)) _ HT).
    - cbn [rbind]. f_equal. rewrite <- fmap_drop, <- fmap_take, <- list_fmap_compose. by apply list_fmap_ext; intros ? [].
    - by rewrite <- Ed, take_drop.
    - pose proof (is_tree_size _ _ _ HT). unfold tfuel. rewrite take_length, drop_length. lia.
  Qed.
  Lemma bounds_ok h L G i t cs d : tworld (mem h) L G -> L !! i = Some (t, cs) -> mrel (TMod (kcomp t) (kov t) cs.*2) d -> dict_bounds tree_api key h t d.
  Proof.
    intros HT Et (Hc&Hk&Hat&_). cbn [tm_comp tm_key tm_vals] in *. pose proof (tworld_in _ _ _ _ _ _ HT Et) as HB. pose proof HB as (HW&_&_&HS).
    exists cs.*2. split; [|split].
    - change (a_walk tree_api t h) with (c_tree_walk t h). rewrite (rb_walk_ok _ _ _ HB). cbn [rbind]. f_equal. rewrite <- list_fmap_compose. by apply list_fmap_ext; intros ? [].
    - exact (rb_rtraverse_ok _ _ _ HB).
    - intros k. pose proof (lower_le t k cs) as Hi. pose proof (upper_le t k cs) as Hj. destruct (TreeMod.between t cs k HW HS) as (Hij&_&Hw).
      set (a := lower_index (kcomp t) (kov t) k cs.*2) in *. set (b := upper_index (kcomp t) (kov t) k cs.*2) in *.
      exists (first_loc (hdr t) (drop 0 cs)), (first_loc (hdr t) (drop a cs)), (first_loc (hdr t) (drop b cs)), (take a cs.*2), (drop b cs.*2).
      assert (d_at d k = take (b - a) (drop a cs.*2)) as Hd by (by rewrite Hw, <- Hat, Hc, Hk).
      split; [exact (begin_ok _ _ _ HB)|]. split; [exact (lower_bound_ok t h cs (KVal k) k HB eq_refl)|].
      split; [exact (upper_bound_ok t h cs (KVal k) k HB eq_refl)|]. split; [exact (equal_range_ok t h cs (KVal k) k HB eq_refl)|].
      split; [rewrite (between_ok h t cs 0 a HB) by lia; by rewrite Nat.sub_0_r|]. split; [rewrite (between_ok h t cs a b HB) by lia; by rewrite Hd|].
      split; [|split; [|split]].
      + assert (a_end tree_api t = first_loc (hdr t) (drop (length cs) cs)) as -> by by rewrite drop_all.
        rewrite (between_ok h t cs b (length cs) HB) by lia. f_equal. apply take_ge. by rewrite drop_length, fmap_length.
      + rewrite Hd. rewrite <- (take_drop a cs.*2) at 1. f_equal. rewrite <- (take_drop (b - a) (drop a cs.*2)) at 1. f_equal. rewrite drop_drop. f_equal. lia.
      + rewrite <- Hc, <- Hk. by apply lower_split.
      + rewrite <- Hc, <- Hk. by apply upper_split.
  Qed.
  Lemma dict_hist_bounds os ds : Forall dop_order os -> dhist_spec key multi [] os = Some ds ->
    exists h env, dhist_run tree_api (theap0, []) os = Ok (h, env) /\ Forall2 (dict_bounds tree_api key h) env ds.
  Proof.
    intros Ho Hs. destruct (dhist_ok os theap0 [] [] [] ds tworld0 ltac:(constructor) Ho Hs) as (h&L&G&E&HT&HR).
    exists h, L.*1. split; [exact E|]. apply Forall2_same_length_lookup_2.
    - rewrite fmap_length. apply Forall2_length in HR. unfold tmods in HR. by rewrite map_length in HR.
    - intros i t d Hi Hd. destruct (drel_at L ds i d HR Hd) as (t'&cs&Et&Hm). rewrite list_lookup_fmap, Et in Hi. injection Hi as <-. by eapply bounds_ok.
  Qed.
  Lemma dict_hist_ok os ds : Forall dop_order os -> dhist_spec key multi [] os = Some ds ->
    exists h env, dhist_run tree_api (theap0, []) os = Ok (h, env) /\ Forall2 (dict_sees tree_api key h) env ds.
  Proof.
    intros Ho Hs. destruct (dhist_ok os theap0 [] [] [] ds tworld0 ltac:(constructor) Ho Hs) as (h&L&G&E&HT&HR).
    exists h, L.*1. split; [exact E|]. apply Forall2_same_length_lookup_2.
    - rewrite fmap_length. apply Forall2_length in HR. unfold tmods in HR. by rewrite map_length in HR.
    - intros i t d Hi Hd. destruct (drel_at L ds i d HR Hd) as (t'&cs&Et&Hm). rewrite list_lookup_fmap, Et in Hi. injection Hi as <-. by eapply sees_ok.
  Qed.
End dict.
