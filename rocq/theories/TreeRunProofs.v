(** TreeRunProofs.v — every history over any number of trees. *)
From Verif Require Import Base Spec SpecSeq SpecListOps SpecTreeOps Facts DList Tree SpecTree TreeRep TreeInsert TreeErase TreeIter TreeUnlink TreeApi TreeOps TreeLookup TreeMod TreeCheck TreeRun.
From Verif Require DListRunProofs.
From stdpp Require Import list gmap.

Section run.
  Context {K V : Type} (alloc : gmap loc (tnode V) -> loc) (Ha : tmalloc_ok alloc).
  Notation M := (gmap loc (tnode V)).
  Notation cell := (loc * V)%type.
  Implicit Types (m : M) (h : theap V) (t : tobj K V) (cs : list cell) (L : list (tobj K V * list cell)) (G : list loc).

  Definition tall L : list loc := concat (map (fun o => tnodes (hdr o.1) o.2) L).
  (** the heap holds exactly the trees [L], and the headers [G] of destroyed trees *)
  Definition tworld m L G : Prop :=
    NoDup (tall L ++ G) /\ Forall (fun o => is_rbtree m o.1 o.2) L /\ forall x, is_Some (m !! x) <-> x ∈ tall L ++ G.
  Definition tmods L : list (tmod K V) := map (fun o => TMod (kcomp o.1) (kov o.1) o.2.*2) L.

  Lemma tall_app L L' : tall (L ++ L') = tall L ++ tall L'.
  Proof. unfold tall. by rewrite map_app, concat_app. Qed.
  Lemma tall_perm L L' : L ≡ₚ L' -> tall L ≡ₚ tall L'.
  Proof. intros HP. unfold tall. change (map ?f ?l) with (f <$> l). induction HP as [|x l l' _ IH|x y l|l1 l2 l3 _ IH1 _ IH2]; cbn [fmap list_fmap concat].
    - done. - by rewrite IH. - rewrite !app_assoc. by rewrite (Permutation_app_comm (tnodes _ _)). - by etrans. Qed.
  Lemma tall_one t cs : tall [(t, cs)] = tnodes (hdr t) cs.
  Proof. unfold tall. cbn. by rewrite app_nil_r. Qed.
  Lemma tall_in L x : x ∈ tall L <-> exists o, o ∈ L /\ x ∈ tnodes (hdr o.1) o.2.
  Proof.
    unfold tall. rewrite elem_of_list_In, in_concat. split.
    - intros (l&Hl&Hx). apply in_map_iff in Hl as (o&<-&Ho). exists o. split; by apply elem_of_list_In.
    - intros (o&Ho&Hx). exists (tnodes (hdr o.1) o.2). split; [apply in_map_iff; exists o; split; [done|by apply elem_of_list_In]|by apply elem_of_list_In].
  Qed.
  Lemma rb_frame m m' t cs : (forall z, z ∈ tnodes (hdr t) cs -> m' !! z = m !! z) -> is_rbtree m t cs -> is_rbtree m' t cs.
  Proof.
    intros HF (HW&(T&[(H1&H2&H3) Hn]&<-)&Hc&HS). split; [done|]. split; [|done]. exists T. split; [|done]. split; [|done]. split; [|split; [|done]].
    - rewrite HF; [done|by left].
    - eapply rep_frame; [|exact H2]. intros z Hz. apply HF. by right.
  Qed.
  Lemma rb_dom m t cs x : is_rbtree m t cs -> x ∈ tnodes (hdr t) cs -> is_Some (m !! x).
  Proof. intros (_&H&_) Hx. apply holds_nodes in H as [_ H]. by apply H. Qed.

  (** replacing the trees [old] by [new] *)
  Lemma tworld_step m m' L G old new rest L' : tworld m L G -> L ≡ₚ old ++ rest -> NoDup (tall new) -> Forall (fun o => is_rbtree m' o.1 o.2) new ->
    tstep m m' (tall old) (tall new) -> L' ≡ₚ new ++ rest -> tworld m' L' G.
  Proof.
    intros (HN&HF&HD) Hp Hn Hf (Hs1&Hs2&Hs3) Hp'. pose proof (tall_perm _ _ Hp) as Hq. rewrite tall_app in Hq. pose proof (tall_perm _ _ Hp') as Hq'. rewrite tall_app in Hq'.
    assert (HN2 : NoDup (tall old ++ tall rest ++ G)). { eapply NoDup_perm; [exact HN|]. by rewrite Hq, <- app_assoc. }
    assert (HD2 : forall x, is_Some (m !! x) <-> x ∈ tall old ++ tall rest ++ G).
    { intros x. rewrite HD, Hq. by rewrite <- app_assoc. }
    clear HN HD. apply NoDup_app in HN2 as (_&HN2&HN3).
    assert (Hnr : forall z, z ∈ tall new -> z ∉ tall rest ++ G).
    { intros z Hz Hz'. destruct (decide (z ∈ tall old)) as [Ho|Ho]; [by apply (HN2 z)|].
      assert (is_Some (m !! z)) as [? Hm] by (apply HD2, elem_of_app; by right). by rewrite (Hs3 z Ho Hz) in Hm. }
    assert (Hfr : forall z, z ∈ tall rest ++ G -> m' !! z = m !! z).
    { intros z Hz. apply Hs1; [intros H; by apply (HN2 z)|intros H; by apply (Hnr z)]. }
    split; [|split].
    - eapply NoDup_perm; [|rewrite Hq', <- app_assoc; reflexivity]. apply NoDup_app. split; [done|]. split; [done|done].
    - rewrite Hp'. apply Forall_app. split; [done|]. apply Forall_forall. intros [t cs] Ho. assert (is_rbtree m t cs) as HB.
      { rewrite Hp in HF. apply Forall_app in HF as [_ HF]. rewrite Forall_forall in HF. by apply (HF (t, cs)). }
      eapply rb_frame; [|exact HB]. intros z Hz. apply Hfr, elem_of_app. left. apply tall_in. by exists (t, cs).
    - intros x. rewrite Hq', <- app_assoc. split.
      + intros Hx. destruct (decide (x ∈ tall new)) as [|Hni]; [apply elem_of_app; by left|]. apply elem_of_app. right.
        destruct (decide (x ∈ tall old)) as [Ho|Ho]; [rewrite (Hs2 x Ho Hni) in Hx; by destruct Hx|].
        rewrite (Hs1 x Ho Hni) in Hx. apply HD2, elem_of_app in Hx as [|]; done.
      + intros [Hx|Hx]%elem_of_app.
        * apply tall_in in Hx as ([t cs]&Ho&Hx). rewrite Forall_forall in Hf. apply (rb_dom m' t cs); [by apply (Hf (t, cs))|done].
        * rewrite Hfr by done. apply HD2, elem_of_app. by right.
  Qed.
  Lemma tworld_in m L G i t cs : tworld m L G -> L !! i = Some (t, cs) -> is_rbtree m t cs.
  Proof. intros (_&HF&_) Hi. rewrite Forall_forall in HF. apply (HF (t, cs)). by eapply elem_of_list_lookup_2. Qed.
  Lemma tmods_lookup L i tm : tmods L !! i = Some tm -> exists t cs, L !! i = Some (t, cs) /\ tm = TMod (kcomp t) (kov t) cs.*2.
  Proof.
    unfold tmods. intros Hi. change (map ?f L) with (f <$> L) in Hi. rewrite list_lookup_fmap in Hi.
    destruct (L !! i) as [[t cs]|]; [|done]. exists t, cs. split; [done|]. by injection Hi as <-.
  Qed.
  Lemma tmods_lookup' L i t cs : L !! i = Some (t, cs) -> tmods L !! i = Some (TMod (kcomp t) (kov t) cs.*2).
  Proof. unfold tmods. intros Hi. change (map ?f L) with (f <$> L). by rewrite list_lookup_fmap, Hi. Qed.
  Lemma tmods_insert L i t cs : tmods (<[i := (t, cs)]> L) = <[i := TMod (kcomp t) (kov t) cs.*2]> (tmods L).
  Proof. unfold tmods. change (map ?f ?l) with (f <$> l). by rewrite list_fmap_insert. Qed.
  Lemma thandle_ok L i t cs : L !! i = Some (t, cs) -> thandle L.*1 i = Ok t.
  Proof. intros Hi. unfold thandle. by rewrite list_lookup_fmap, Hi. Qed.
  Lemma tposition_ok h t cs k : is_rbtree (mem h) t cs -> k <= length cs -> tposition h t k = Ok (first_loc (hdr t) (drop k cs)).
  Proof.
    intros HB Hk. unfold tposition. rewrite (begin_ok _ _ _ HB). cbn [rbind].
    pose proof (advance_ok t h cs 0 k HB) as H. rewrite drop_0 in H. replace (Z.of_nat k - Z.of_nat 0)%Z with (Z.of_nat k) in H by lia. apply H; lia.
  Qed.
  Lemma telem_ok h L G j k a : tworld (mem h) L G -> targ_val (tmods L) (AElem j k) = Some a ->
    exists x, telem h L.*1 j k = Ok x /\ valof (mem h) (Some x) = Ok a.
  Proof.
    intros HW Hv. unfold targ_val in Hv. cbn [larg_val] in Hv. apply bind_Some in Hv as (l&Hl&Hk).
    rewrite list_lookup_fmap in Hl. destruct (tmods L !! j) as [tm|] eqn:Ej; [|done]. injection Hl as <-.
    apply tmods_lookup in Ej as (t&cs&Hj&->). cbn [tm_vals] in Hk. pose proof (tworld_in _ _ _ _ _ _ HW Hj) as HB.
    rewrite list_lookup_fmap in Hk. destruct (cs !! k) as [[x b]|] eqn:Ek; [|done]. cbn in Hk. injection Hk as ->.
    unfold telem. rewrite (thandle_ok _ _ _ _ Hj). cbn [rbind]. rewrite (tposition_ok _ _ _ k HB) by (apply lookup_lt_Some in Ek; lia). cbn [rbind].
    rewrite (drop_S _ _ _ Ek), first_loc_cons. exists x. split; [done|]. eapply rb_val; [exact HB|]. by eapply elem_of_list_lookup_2.
  Qed.
  Lemma targ_ok h L G v a : tworld (mem h) L G -> targ_val (tmods L) v = Some a ->
    exists r, targ_ref h L.*1 v = Ok r /\ valued (mem h) r a.
  Proof.
    intros HW Hv. destruct v as [b|j k].
    - injection Hv as ->. by exists (RVal a).
    - destruct (telem_ok _ _ _ _ _ _ HW Hv) as (x&E&Hx). exists (RNode x). cbn [targ_ref]. by rewrite E.
  Qed.
  Lemma karg_ok h L G t cs ka a : tworld (mem h) L G -> karg_val (tmods L) (TMod (kcomp t) (kov t) cs.*2) ka = Some a ->
    exists r, karg_ref h L.*1 ka = Ok r /\ kvalued t (mem h) r a.
  Proof.
    intros HW Hv. destruct ka as [b|j k]; cbn [karg_val] in Hv.
    - injection Hv as ->. by exists (KVal a).
    - apply fmap_Some in Hv as (b&Hb&->). destruct (telem_ok _ _ _ _ _ _ HW Hb) as (x&E&Hx). exists (KNode x). cbn [karg_ref]. rewrite E. split; [done|].
      unfold kvalued. cbn [kderef]. by rewrite Hx.
  Qed.
  (** what one step of the client has to establish *)
  Definition tgoes h L G o ts' gone : Prop :=
    exists h' L' G', top_run alloc (h, L.*1) o = Ok (h', L'.*1) /\ tworld (mem h') L' G' /\ tmods L' = ts' /\ tdead h' = tdead h ++ gone /\
      length G' = length G + match o with TDestroy _ => 1 | _ => 0 end.
  Lemma tgoes1 h L G i t cs h' t' cs' gone o ts' : tworld (mem h) L G -> L !! i = Some (t, cs) -> tupd h t cs h' t' cs' gone ->
    top_run alloc (h, L.*1) o = Ok (h', <[i := t']> L.*1) -> ts' = <[i := TMod (kcomp t) (kov t) cs'.*2]> (tmods L) ->
    match o with TDestroy _ => False | _ => True end -> tgoes h L G o ts' gone.
  Proof.
    intros HW Hi (Ht&HB&Hs&Hd) He -> Ho. exists h', (<[i := (t', cs')]> L), G.
    split; [by rewrite list_fmap_insert|]. split; [|split; [|split; [done|]]].
    - destruct (DListRunProofs.list_at L i _ Hi) as [Hp Hp'].
      eapply (tworld_step (mem h) (mem h') L G [(t, cs)] [(t', cs')]); [done|exact Hp| | | |apply Hp'].
      + rewrite tall_one. by apply rb_ND in HB.
      + by apply Forall_singleton.
      + rewrite !tall_one. by rewrite Ht.
    - rewrite tmods_insert. by rewrite Ht.
    - destruct o; try done; lia.
  Qed.
  Ltac use_tree HW Hl t cs Hi HB := apply tmods_lookup in Hl as (t&cs&Hi&->); pose proof (tworld_in _ _ _ _ _ _ HW Hi) as HB; cbn [tm_comp tm_key tm_vals tm_set] in *.
  Lemma top_ok h L G o ts' gone : tworld (mem h) L G -> top_order o -> top_spec (tmods L) o = Some (ts', gone) -> tgoes h L G o ts' gone.
  Proof.
    intros HW Ho Hs. destruct o; cbn [top_spec] in Hs.
    - (* create *) injection Hs as <- <-. destruct (create_ok alloc h comp key Ha Ho) as (h'&t&E&HB&<-&<-&Hf&Hst&Hd).
      exists h', (L ++ [(t, [])]), G. cbn [top_run]. rewrite E. split; [by rewrite fmap_app|]. split; [|split; [|split; [by rewrite app_nil_r|lia]]].
      + eapply (tworld_step (mem h) (mem h') L G [] [(t, [])] L); [done|done| | | |by rewrite Permutation_app_comm].
        * rewrite tall_one. by apply rb_ND in HB.
        * by apply Forall_singleton.
        * by rewrite tall_one.
      + unfold tmods. by rewrite map_app.
    - (* destroy *) apply bind_Some in Hs as (tm&Hl&Hs). injection Hs as <- <-. use_tree HW Hl t cs Hi HB.
      destruct (destroy_ok t h cs HB) as (h'&E&Hst&Hsome&Hd). exists h', (delete i L), (hdr t :: G). cbn [top_run]. rewrite (thandle_ok _ _ _ _ Hi). cbn [rbind]. rewrite E. cbn [rbind].
      split; [by rewrite list_fmap_delete|]. split; [|split; [|split; [done|cbn; lia]]].
      + destruct (DListRunProofs.list_at L i _ Hi) as [Hp _]. destruct HW as (HN&HF&HD).
        pose proof (tall_perm _ _ Hp) as Hq. change ((t, cs) :: delete i L) with ([(t, cs)] ++ delete i L) in Hq. rewrite tall_app, tall_one in Hq.
        assert (HN2 : NoDup (tnodes (hdr t) cs ++ tall (delete i L) ++ G)). { eapply NoDup_perm; [exact HN|]. by rewrite Hq, <- app_assoc. }
        assert (HD2 : forall x, is_Some (mem h !! x) <-> x ∈ tnodes (hdr t) cs ++ tall (delete i L) ++ G).
        { intros x. rewrite HD, Hq. by rewrite <- app_assoc. }
        apply NoDup_app in HN2 as (HN1&HN2&HN3). destruct Hst as (Hs1&Hs2&Hs3).
        assert (Hh : hdr t ∈ tnodes (hdr t) cs) by by left.
        assert (Hfr : forall z, z ∈ tall (delete i L) ++ G -> mem h' !! z = mem h !! z).
        { intros z Hz. apply Hs1; [intros H; by apply (HN2 z)|intros ->%elem_of_list_singleton; by apply (HN2 (hdr t))]. }
        split; [|split].
        * eapply NoDup_perm; [|apply Permutation_middle]. apply NoDup_cons. split; [by apply HN2|done].
        * apply Forall_forall. intros [t0 c0] H0. assert (is_rbtree (mem h) t0 c0) as HB0.
          { rewrite Hp in HF. apply Forall_cons in HF as [_ HF]. rewrite Forall_forall in HF. by apply (HF (t0, c0)). }
          eapply rb_frame; [|exact HB0]. intros z Hz. apply Hfr, elem_of_app. left. apply tall_in. by exists (t0, c0).
        * intros x. rewrite <- Permutation_middle. rewrite elem_of_cons. split.
          -- intros Hx. destruct (decide (x = hdr t)) as [->|Hne]; [by left|right].
             assert (x ∉ [hdr t]) as Hni by by intros ?%elem_of_list_singleton.
             destruct (decide (x ∈ tnodes (hdr t) cs)) as [Hin|Hin]; [rewrite (Hs2 x Hin Hni) in Hx; by destruct Hx|].
             rewrite (Hs1 x Hin Hni) in Hx. by apply HD2, elem_of_app in Hx as [|].
          -- intros [->|Hx]; [done|]. rewrite Hfr by done. apply HD2, elem_of_app. by right.
      + unfold tmods. change (map ?f ?l) with (f <$> l). by rewrite list_fmap_delete.
    - (* swap *) apply bind_Some in Hs as (tm&Hl&Hs). apply bind_Some in Hs as (tm'&Hl'&Hs). injection Hs as <- <-.
      use_tree HW Hl t cs Hi HB. use_tree HW Hl' t' cs' Hj HB'.
      exists h, (<[j := (t, cs)]> (<[i := (t', cs')]> L)), G. cbn [top_run]. rewrite (thandle_ok _ _ _ _ Hi). cbn [rbind]. rewrite (thandle_ok _ _ _ _ Hj). cbn [rbind c_tree_swap].
      split; [by rewrite !list_fmap_insert|]. split; [|split; [by rewrite !tmods_insert|split; [by rewrite app_nil_r|lia]]].
      assert (<[j := (t, cs)]> (<[i := (t', cs')]> L) ≡ₚ L) as HP.
      { destruct (decide (i = j)) as [<-|Hij].
        - rewrite Hi in Hj. injection Hj as <- <-. by rewrite list_insert_insert, list_insert_id.
        - destruct (DListRunProofs.two_at L i j _ _ Hij Hi Hj) as (r&Hr&Hr'). rewrite Hr', Hr. solve_Permutation. }
      destruct HW as (HN&HF&HD). pose proof (tall_perm _ _ HP) as Hq. split; [|split].
      + eapply NoDup_perm; [exact HN|]. by rewrite Hq.
      + by rewrite HP.
      + intros x. by rewrite HD, Hq.
    - (* clear *) apply bind_Some in Hs as (tm&Hl&Hs). injection Hs as <- <-. use_tree HW Hl t cs Hi HB.
      destruct (clear_upd t h cs HB) as (h'&t'&E&HU). eapply (tgoes1 h L G i t cs); [done..|exact HU| |done|done].
      cbn [top_run]. unfold ton. rewrite (thandle_ok _ _ _ _ Hi). cbn [rbind]. by rewrite E.
    - (* insert_unique *) apply bind_Some in Hs as (tm&Hl&Hs). apply bind_Some in Hs as (a&Hv&Hs). injection Hs as <- <-.
      destruct (targ_ok _ _ _ _ _ HW Hv) as (r&Er&Hr). use_tree HW Hl t cs Hi HB.
      destruct (unique_value_ok alloc Ha t h cs r a HB Hr) as [(Hp&h'&x&E&_&HU)|(x&w&Hx&Hw&E)].
      + eapply (tgoes1 h L G i t cs); [done..|exact HU| | |done].
        * cbn [top_run]. unfold ton. rewrite (thandle_ok _ _ _ _ Hi). cbn [rbind]. rewrite Er. cbn [rbind]. by rewrite E.
        * rewrite put_snd. unfold put_unique. by rewrite Hp.
      + eapply (tgoes1 h L G i t cs h t cs []); [done..|by apply tupd_refl| | |done].
        * cbn [top_run]. unfold ton. rewrite (thandle_ok _ _ _ _ Hi). cbn [rbind]. rewrite Er. cbn [rbind]. by rewrite E.
        * unfold put_unique. by rewrite (present_true t (kov t a) cs x w Hx Hw).
    - (* insert_equal *) apply bind_Some in Hs as (tm&Hl&Hs). apply bind_Some in Hs as (a&Hv&Hs). injection Hs as <- <-.
      destruct (targ_ok _ _ _ _ _ HW Hv) as (r&Er&Hr). use_tree HW Hl t cs Hi HB.
      destruct (equal_value_ok alloc Ha t h cs r a HB Hr) as (h'&x&E&_&HU).
      eapply (tgoes1 h L G i t cs); [done..|exact HU| |by rewrite put_snd|done].
      cbn [top_run]. unfold ton. rewrite (thandle_ok _ _ _ _ Hi). cbn [rbind]. rewrite Er. cbn [rbind]. by rewrite E.
    - (* hinted insert_unique *) apply bind_Some in Hs as (tm&Hl&Hs). apply bind_Some in Hs as (a&Hv&Hs). apply bind_Some in Hs as ([]&Hc&Hs). injection Hs as <- <-.
      apply DListRunProofs.check_Some, Nat.leb_le in Hc.
      destruct (targ_ok _ _ _ _ _ HW Hv) as (r&Er&Hr). use_tree HW Hl t cs Hi HB. rewrite fmap_length in Hc.
      destruct (insert_unique_ok alloc Ha t h cs k r a HB Hc Hr) as [(Hp&h'&x&E&_&HU)|(x&w&Hx&Hw&E)].
      + eapply (tgoes1 h L G i t cs); [done..|exact HU| | |done].
        * cbn [top_run]. unfold ton. rewrite (thandle_ok _ _ _ _ Hi). cbn [rbind]. rewrite (tposition_ok _ _ _ _ HB Hc). cbn [rbind]. rewrite Er. cbn [rbind]. by rewrite E.
        * rewrite put_snd. unfold put_unique. by rewrite Hp.
      + eapply (tgoes1 h L G i t cs h t cs []); [done..|by apply tupd_refl| | |done].
        * cbn [top_run]. unfold ton. rewrite (thandle_ok _ _ _ _ Hi). cbn [rbind]. rewrite (tposition_ok _ _ _ _ HB Hc). cbn [rbind]. rewrite Er. cbn [rbind]. by rewrite E.
        * unfold put_unique. by rewrite (present_true t (kov t a) cs x w Hx Hw).
    - (* hinted insert_equal *) apply bind_Some in Hs as (tm&Hl&Hs). apply bind_Some in Hs as (a&Hv&Hs). apply bind_Some in Hs as ([]&Hc&Hs). injection Hs as <- <-.
      apply DListRunProofs.check_Some, Nat.leb_le in Hc.
      destruct (targ_ok _ _ _ _ _ HW Hv) as (r&Er&Hr). use_tree HW Hl t cs Hi HB. rewrite fmap_length in Hc.
      destruct (insert_equal_ok alloc Ha t h cs k r a HB Hc Hr) as (h'&x&E&_&HU).
      eapply (tgoes1 h L G i t cs); [done..|exact HU| | |done].
      + cbn [top_run]. unfold ton. rewrite (thandle_ok _ _ _ _ Hi). cbn [rbind]. rewrite (tposition_ok _ _ _ _ HB Hc). cbn [rbind]. rewrite Er. cbn [rbind]. by rewrite E.
      + rewrite put_snd. unfold put_equal_at, equal_index, put_equal. by destruct (fits _ _ _ _ _).
    - (* insert_unique range *) apply bind_Some in Hs as (tm&Hl&Hs). injection Hs as <- <-. use_tree HW Hl t cs Hi HB.
      destruct (unique_range_insert_ok alloc Ha vs t h cs HB) as (h'&t'&cs'&E&HU&Hv).
      eapply (tgoes1 h L G i t cs); [done..|exact HU| |by rewrite Hv|done].
      cbn [top_run]. unfold ton. rewrite (thandle_ok _ _ _ _ Hi). cbn [rbind]. by rewrite E.
    - (* insert_equal range *) apply bind_Some in Hs as (tm&Hl&Hs). injection Hs as <- <-. use_tree HW Hl t cs Hi HB.
      destruct (equal_range_insert_ok alloc Ha vs t h cs HB) as (h'&t'&cs'&E&HU&Hv).
      eapply (tgoes1 h L G i t cs); [done..|exact HU| |by rewrite Hv|done].
      cbn [top_run]. unfold ton. rewrite (thandle_ok _ _ _ _ Hi). cbn [rbind]. by rewrite E.
    - (* erase *) apply bind_Some in Hs as (tm&Hl&Hs). apply bind_Some in Hs as (a&Hk&Hs). injection Hs as <- <-. use_tree HW Hl t cs Hi HB.
      rewrite list_lookup_fmap in Hk. destruct (cs !! k) as [[x b]|] eqn:Ek; [|done]. cbn in Hk. injection Hk as ->.
      pose proof (take_drop_middle _ _ _ Ek) as Hcs. pose proof (lookup_lt_Some _ _ _ Ek) as Hk.
      destruct (erase_upd t h (take k cs) x a (drop (S k) cs)) as (h'&t'&E&HU); [by rewrite Hcs|]. rewrite Hcs in HU.
      eapply (tgoes1 h L G i t cs); [done..|exact HU| | |done].
      + cbn [top_run]. unfold ton. rewrite (thandle_ok _ _ _ _ Hi). cbn [rbind]. rewrite (tposition_ok _ _ _ k HB) by lia. cbn [rbind].
        rewrite (drop_S _ _ _ Ek), first_loc_cons. by rewrite E.
      + unfold seq_delete. by rewrite fmap_app, fmap_take, fmap_drop.
    - (* erase_range *) apply bind_Some in Hs as (tm&Hl&Hs). apply bind_Some in Hs as ([]&Hc&Hs). injection Hs as <- <-.
      apply DListRunProofs.check_Some, andb_true_iff in Hc as [Hc1%Nat.leb_le Hc2%Nat.leb_le]. use_tree HW Hl t cs Hi HB. rewrite fmap_length in *.
      destruct (erase_range_upd t h cs k m HB) as (h'&t'&E&HU); [lia|]. rewrite fmap_take, fmap_drop in HU.
      eapply (tgoes1 h L G i t cs); [done..|exact HU| | |done].
      + cbn [top_run]. unfold ton. rewrite (thandle_ok _ _ _ _ Hi). cbn [rbind]. rewrite (tposition_ok _ _ _ k HB) by lia. cbn [rbind].
        rewrite (tposition_ok _ _ _ m HB) by lia. cbn [rbind]. by rewrite E.
      + unfold seq_delete. by rewrite fmap_app, fmap_take, fmap_drop.
    - (* erase_key *) apply bind_Some in Hs as (tm&Hl&Hs). apply bind_Some in Hs as (a&Hk&Hs). injection Hs as <- <-.
      apply tmods_lookup in Hl as (t&cs&Hi&->). destruct (karg_ok _ _ _ _ _ _ _ HW Hk) as (r&Er&Hr).
      pose proof (tworld_in _ _ _ _ _ _ HW Hi) as HB; cbn [tm_comp tm_key tm_vals tm_set] in *. rewrite fmap_length.
      destruct (erase_key_ok t h cs r a HB Hr) as (h'&t'&cs'&E&_&Hv&HU).
      eapply (tgoes1 h L G i t cs); [done..|exact HU| |by rewrite Hv|done].
      cbn [top_run]. unfold ton. rewrite (thandle_ok _ _ _ _ Hi). cbn [rbind]. rewrite Er. cbn [rbind]. by rewrite E.
  Qed.
  Definition destroys (os : list (tree_op K V)) : nat := length (List.filter (fun o => match o with TDestroy _ => true | _ => false end) os).
  Lemma thist_ok os : forall h L G ts' gone, tworld (mem h) L G -> Forall top_order os -> thist_spec (tmods L) os = Some (ts', gone) ->
    exists h' L' G', thist_run alloc (h, L.*1) os = Ok (h', L'.*1) /\ tworld (mem h') L' G' /\ tmods L' = ts' /\ tdead h' = tdead h ++ gone /\
      length G' = length G + destroys os.
  Proof.
    induction os as [|o os IH]; intros h L G ts' gone HW Ho Hs; cbn [thist_spec thist_run] in *.
    - injection Hs as <- <-. exists h, L, G. rewrite app_nil_r. split; [done|]. split; [done|]. split; [done|]. split; [done|]. unfold destroys. cbn. lia.
    - apply Forall_cons in Ho as [Ho1 Ho]. apply bind_Some in Hs as ([ts1 g1]&H1&Hs). apply bind_Some in Hs as ([ts2 g2]&H2&Hs). injection Hs as <- <-.
      destruct (top_ok h L G o ts1 g1 HW Ho1 H1) as (h1&L1&G1&E1&HW1&<-&Hd1&Hg1). rewrite E1. cbn [rbind fst snd].
      destruct (IH h1 L1 G1 ts2 g2 HW1 Ho H2) as (h2&L2&G2&E2&HW2&Hv2&Hd2&Hg2). exists h2, L2, G2. split; [done|]. split; [done|]. split; [done|].
      split; [by rewrite Hd2, Hd1, app_assoc|]. rewrite Hg2, Hg1. unfold destroys. cbn [List.filter]. destruct o; cbn [length]; lia.
  Qed.
  Lemma tworld0 : tworld (mem (theap0 : theap V)) [] [].
  Proof.
    split; [apply NoDup_nil_2|]. split; [by apply Forall_nil|]. intros x. cbn. rewrite lookup_empty. split; [by intros [? ?]|intros H; by apply elem_of_nil in H].
  Qed.
End run.
