(** TreeOomProofs.v — search trees when malloc may fail. *)
From Verif Require Import Base Spec SpecSeq SpecListOps SpecTreeOps SpecOom Facts DList Tree SpecTree TreeRep TreeInsert TreeErase TreeIter
  TreeUnlink TreeApi TreeOps TreeLookup TreeMod TreeCheck TreeRun TreeRunProofs DListOom DListOomProofs TreeOom.
From Verif Require DListRunProofs.
From stdpp Require Import list gmap.

Section proofs.
  Context {K V : Type} (alloc : gmap loc (tnode V) -> loc) (Ha : tmalloc_ok alloc).
  Implicit Types (h : theap V) (t : tobj K V) (L : list (tobj K V * list (loc * V))) (r : list bool).

  (** [fm] does what [f] does, or nothing, with a null result *)
  Definition tracks r t h (fm : res (list bool * theap V * tobj K V * ptr)) (f : res (theap V * tobj K V * ptr)) : Prop :=
    forall h' t' p, f = Ok (h', t', p) ->
      (exists r', fm = Ok (r', h', t', p) /\ spent r r' True) \/ (exists r', fm = Ok (r', h, t, None) /\ spent r r' False).
  Lemma tracks_bind {B} r t h (e : res B) fm f : (forall x, e = Ok x -> tracks r t h (fm x) (f x)) -> tracks r t h (rbind e fm) (rbind e f).
  Proof. intros H h' t' p E. destruct e as [x| |]; cbn [rbind] in *; [|done..]. by apply (H x). Qed.
  Lemma tracks_node r t h hint par v : tracks r t h (insert_node_m alloc r t h hint par v) (insert_node alloc t h hint par v).
  Proof.
    intros h' t' p E. unfold insert_node_m. pose proof (outcome2_spent r) as HS. destruct (outcome2 r) as [[] r']; cbn in HS.
    - left. exists r'. rewrite E. cbn [rbind]. split; [done|]. by eapply spent_mono.
    - right. exists r'. split; [done|]. by eapply spent_mono.
  Qed.
  Lemma tracks_none r t h p : tracks r t h (Ok (r, h, t, p)) (Ok (h, t, p)).
  Proof. intros h' t' p' [= -> -> ->]. left. exists r. split; [done|]. by apply spent_refl. Qed.
  Lemma tracks_if r t h (b : bool) fm f gm g : tracks r t h fm f -> tracks r t h gm g -> tracks r t h (if b then fm else gm) (if b then f else g).
  Proof. by destruct b. Qed.
  Lemma tracks_unique_value r t h v : tracks r t h (insert_unique_value_m alloc r t h v) (c_tree_insert_unique_value alloc t h v).
  Proof.
    unfold insert_unique_value_m, c_tree_insert_unique_value. apply tracks_bind. intros rt _. apply tracks_bind. intros [y comp] _.
    apply tracks_bind. intros lm _. apply tracks_if; [apply tracks_node|]. apply tracks_bind. intros z _. apply tracks_bind. intros zk _.
    apply tracks_bind. intros k _. apply tracks_if; [apply tracks_node|apply tracks_none].
  Qed.
  Lemma tracks_unique r t h hint v : tracks r t h (insert_unique_m alloc r t h hint v) (c_tree_insert_unique alloc t h hint v).
  Proof.
    unfold insert_unique_m, c_tree_insert_unique. apply tracks_bind. intros lm _. destruct (decide (hint = lm)).
    - apply tracks_bind. intros b _. apply tracks_if; [apply tracks_node|apply tracks_unique_value].
    - destruct (decide (hint = Some (hdr t))).
      + apply tracks_bind. intros rm _. apply tracks_bind. intros rk _. apply tracks_bind. intros k _.
        apply tracks_if; [apply tracks_node|apply tracks_unique_value].
      + apply tracks_bind. intros bf _. apply tracks_bind. intros bk _. apply tracks_bind. intros k _. apply tracks_bind. intros b _.
        apply tracks_if; [|apply tracks_unique_value]. apply tracks_bind. intros hr _. apply tracks_if; apply tracks_node.
  Qed.
  Lemma tracks_equal_value r t h v : tracks r t h (insert_equal_value_m alloc r t h v) (c_tree_insert_equal_value alloc t h v).
  Proof.
    unfold insert_equal_value_m, c_tree_insert_equal_value. apply tracks_bind. intros rt _. apply tracks_bind. intros [y comp] _. apply tracks_node.
  Qed.
  Lemma tracks_equal r t h hint v : tracks r t h (insert_equal_m alloc r t h hint v) (c_tree_insert_equal alloc t h hint v).
  Proof.
    unfold insert_equal_m, c_tree_insert_equal. apply tracks_bind. intros lm _. destruct (decide (hint = lm)).
    - apply tracks_bind. intros b _. apply tracks_if; [apply tracks_node|apply tracks_equal_value].
    - destruct (decide (hint = Some (hdr t))).
      + apply tracks_bind. intros rm _. apply tracks_bind. intros rk _. apply tracks_bind. intros k _.
        apply tracks_if; [apply tracks_node|apply tracks_equal_value].
      + apply tracks_bind. intros bf _. apply tracks_bind. intros bk _. apply tracks_bind. intros k _. apply tracks_bind. intros b _.
        apply tracks_if; [|apply tracks_equal_value]. apply tracks_bind. intros hr _. apply tracks_if; apply tracks_node.
  Qed.
  Lemma unique_range_m_ok vs : forall r t h cs, is_rbtree (mem h) t cs ->
    exists r' h' t' cs' vs', insert_unique_range_m alloc r t h vs = Ok (r', h', t') /\ tupd h t cs h' t' cs' [] /\ vs' `sublist_of` vs /\
      cs'.*2 = fold_left (fun l a => put_unique (kcomp t) (kov t) a l) vs' cs.*2 /\ spent r r' (vs' = vs).
  Proof.
    induction vs as [|a vs IH]; intros r t h cs HB; cbn [insert_unique_range_m].
    - exists r, h, t, cs, []. split; [done|]. split; [by apply tupd_refl|]. split; [done|]. split; [done|]. by apply spent_refl.
    - assert (exists h1 t1 c1 p, c_tree_insert_unique_value alloc t h (RVal a) = Ok (h1, t1, p) /\ tupd h t cs h1 t1 c1 [] /\
        c1.*2 = put_unique (kcomp t) (kov t) a cs.*2) as (h1&t1&c1&p&E&HU&Hv).
      { destruct (unique_value_ok alloc Ha t h cs (RVal a) a HB eq_refl) as [(Hp&h1&x&E&_&HU)|(x&w&Hx&Hw&E)].
        - eexists _, _, _, _. split; [exact E|]. split; [exact HU|]. rewrite put_snd. unfold put_unique. by rewrite Hp.
        - eexists _, _, cs, _. split; [exact E|]. split; [by apply tupd_refl|]. unfold put_unique. by rewrite (present_true t (kov t a) cs x w Hx Hw). }
      destruct (tracks_unique_value r t h (RVal a) _ _ _ E) as [(r1&E1&HS)|(r1&E1&HS)]; rewrite E1; cbn [rbind].
      + destruct (IH r1 t1 h1 c1) as (r2&h2&t2&c2&vs'&E2&HU2&Hs&Hv2&HS2); [apply HU|].
        exists r2, h2, t2, c2, (a :: vs'). split; [done|]. split; [exact (tupd_trans _ _ _ _ _ _ _ _ _ [] [] HU HU2)|].
        split; [by constructor|]. split; [|eapply spent_trans; [exact HS|exact HS2|by intros _ ->]].
        rewrite Hv2, Hv. destruct HU as (->&_). done.
      + destruct (IH r1 t h cs HB) as (r2&h2&t2&c2&vs'&E2&HU2&Hs&Hv2&HS2). exists r2, h2, t2, c2, vs'. split; [done|]. split; [done|].
        split; [by constructor|]. split; [done|]. by eapply spent_trans.
  Qed.
  Lemma equal_range_m_ok vs : forall r t h cs, is_rbtree (mem h) t cs ->
    exists r' h' t' cs' vs', insert_equal_range_m alloc r t h vs = Ok (r', h', t') /\ tupd h t cs h' t' cs' [] /\ vs' `sublist_of` vs /\
      cs'.*2 = fold_left (fun l a => put_equal (kcomp t) (kov t) a l) vs' cs.*2 /\ spent r r' (vs' = vs).
  Proof.
    induction vs as [|a vs IH]; intros r t h cs HB; cbn [insert_equal_range_m].
    - exists r, h, t, cs, []. split; [done|]. split; [by apply tupd_refl|]. split; [done|]. split; [done|]. by apply spent_refl.
    - destruct (equal_value_ok alloc Ha t h cs (RVal a) a HB eq_refl) as (h1&x&E&_&HU).
      destruct (tracks_equal_value r t h (RVal a) _ _ _ E) as [(r1&E1&HS)|(r1&E1&HS)]; rewrite E1; cbn [rbind].
      + edestruct (IH r1) as (r2&h2&t2&c2&vs'&E2&HU2&Hs&Hv2&HS2); [apply HU|].
        exists r2, h2, t2, c2, (a :: vs'). split; [exact E2|]. split; [exact (tupd_trans _ _ _ _ _ _ _ _ _ [] [] HU HU2)|].
        split; [by constructor|]. split; [|eapply spent_trans; [exact HS|exact HS2|by intros _ ->]].
        rewrite Hv2, put_snd. done.
      + destruct (IH r1 t h cs HB) as (r2&h2&t2&c2&vs'&E2&HU2&Hs&Hv2&HS2). exists r2, h2, t2, c2, vs'. split; [done|]. split; [done|].
        split; [by constructor|]. split; [done|]. by eapply spent_trans.
  Qed.

  Definition dead_hdr (o : tree_op K V) : nat := match o with TDestroy _ => 1 | _ => 0 end.
  Definition tgoes_m r h L (G : list loc) o : Prop :=
    exists r' h' L' G' gone, top_run_m alloc (r, h, L.*1) o = Ok (r', h', L'.*1) /\ tworld (mem h') L' G' /\
      top_may (tmods L) o (tmods L') gone /\ tdead h' = tdead h ++ gone /\ length G' = length G + dead_hdr o /\
      spent r r' (top_spec (tmods L) o = Some (tmods L', gone)).
  Lemma tgoes_tgoes_m r h L G o ts' gone r' : tgoes alloc h L G o ts' gone -> top_spec (tmods L) o = Some (ts', gone) ->
    (forall h' (env : list (tobj K V)), top_run alloc (h, L.*1) o = Ok (h', env) -> top_run_m alloc (r, h, L.*1) o = Ok (r', h', env)) -> spent r r' True -> tgoes_m r h L G o.
  Proof.
    intros (h'&L'&G'&E&HW&<-&Hd&Hg) Hs Hr HS. exists r', h', L', G', gone. split; [by apply Hr|]. split; [done|].
    split; [by apply tmay_done|]. split; [done|]. split; [done|]. by eapply spent_mono.
  Qed.
  Lemma tgoes_m_same r h L G o r' : tworld (mem h) L G -> top_run_m alloc (r, h, L.*1) o = Ok (r', h, L.*1) -> top_may (tmods L) o (tmods L) [] ->
    dead_hdr o = 0 -> spent r r' False -> tgoes_m r h L G o.
  Proof.
    intros HW He Hm H0 HS. exists r', h, L, G, []. rewrite app_nil_r, H0, Nat.add_0_r. split; [done|]. split; [done|]. split; [done|].
    split; [done|]. split; [done|]. by eapply spent_mono.
  Qed.
  Lemma tgoes_m1 r h L G i t cs h' t' cs' o r' : tworld (mem h) L G -> L !! i = Some (t, cs) -> tupd h t cs h' t' cs' [] ->
    top_run_m alloc (r, h, L.*1) o = Ok (r', h', <[i := t']> L.*1) -> dead_hdr o = 0 ->
    top_may (tmods L) o (<[i := TMod (kcomp t) (kov t) cs'.*2]> (tmods L)) [] ->
    spent r r' (top_spec (tmods L) o = Some (<[i := TMod (kcomp t) (kov t) cs'.*2]> (tmods L), [])) -> tgoes_m r h L G o.
  Proof.
    intros HW Hi (Ht&HB&Hs&Hd) He H0 Hm HS. exists r', h', (<[i := (t', cs')]> L), G, [].
    assert (tmods (<[i := (t', cs')]> L) = <[i := TMod (kcomp t) (kov t) cs'.*2]> (tmods L)) as Htm by (rewrite tmods_insert; by rewrite Ht).
    split; [by rewrite list_fmap_insert|]. rewrite Htm, H0, Nat.add_0_r. split; [|done].
    destruct (DListRunProofs.list_at L i _ Hi) as [Hp Hp'].
    eapply (tworld_step (mem h) (mem h') L G [(t, cs)] [(t', cs')]); [done|exact Hp| | | |apply Hp'].
    + rewrite tall_one. by apply rb_ND in HB.
    + by apply Forall_singleton.
    + rewrite !tall_one. by rewrite Ht.
  Qed.
  Lemma same_tree L i t cs : L !! i = Some (t, cs) -> <[i := t]> L.*1 = L.*1.
  Proof. intros Hi. apply list_insert_id. by rewrite list_lookup_fmap, Hi. Qed.
  Ltac use_tree HW Hl t cs Hi HB := apply tmods_lookup in Hl as (t&cs&Hi&->); pose proof (tworld_in _ _ _ _ _ _ HW Hi) as HB; cbn [tm_comp tm_key tm_vals tm_set] in *.
  Lemma top_m_ok r h L G o ts' gone : tworld (mem h) L G -> top_order o -> top_spec (tmods L) o = Some (ts', gone) -> tgoes_m r h L G o.
  Proof.
    intros HW Ho Hs. pose proof (top_ok alloc Ha h L G o ts' gone HW Ho Hs) as HG. pose proof Hs as Hs0.
    destruct o; cbn [top_spec] in Hs;
      try (eapply tgoes_tgoes_m; [exact HG|exact Hs0| |by apply spent_refl]; intros h' L' E; cbn [top_run_m]; rewrite E; reflexivity).
    - (* create *) pose proof (outcome2_spent r) as HS. destruct (outcome2 r) as [[] r'] eqn:Er; cbn in HS.
      + eapply tgoes_tgoes_m; [exact HG|exact Hs0| |by eapply spent_mono]. intros h' L'. cbn [top_run top_run_m]. unfold tree_create_m. rewrite Er.
        destruct (c_tree_create alloc h comp key) as [h1 t1]. intros [= -> ->]. done.
      + eapply tgoes_m_same; [done| |apply tmay_no_tree|done|by eapply spent_mono]. cbn [top_run_m]. unfold tree_create_m. by rewrite Er.
    - (* insert_unique *) apply bind_Some in Hs as (tm&Hl&Hs). apply bind_Some in Hs as (a&Hv&Hs). clear Hs.
      destruct (targ_ok _ _ _ _ _ HW Hv) as (x&Er&_). apply tmods_lookup in Hl as (t&cs&Hi&->).
      pose proof HG as (h'&L'&G'&E&_). cbn [top_run] in E. unfold ton in E. rewrite (thandle_ok _ _ _ _ Hi), Er in E. cbn [rbind] in E.
      destruct (c_tree_insert_unique_value alloc t h x) as [[[h1 t1] p]| |] eqn:EF; cbn [rbind] in E; [|done..]. clear E.
      destruct (tracks_unique_value r t h x _ _ _ EF) as [(r1&E1&HS)|(r1&E1&HS)].
      + eapply tgoes_tgoes_m; [exact HG|exact Hs0| |exact HS]. intros h2 L2. cbn [top_run top_run_m]. unfold ton, ton_m.
        rewrite (thandle_ok _ _ _ _ Hi), Er. cbn [rbind]. rewrite EF, E1. cbn [rbind]. by intros [= -> ->].
      + eapply tgoes_m_same; [done| |apply tmay_not_unique|done|done]. cbn [top_run_m]. unfold ton_m.
        rewrite (thandle_ok _ _ _ _ Hi), Er. cbn [rbind]. rewrite E1. cbn [rbind]. by rewrite (same_tree _ _ _ _ Hi).
    - (* insert_equal *) apply bind_Some in Hs as (tm&Hl&Hs). apply bind_Some in Hs as (a&Hv&Hs). clear Hs.
      destruct (targ_ok _ _ _ _ _ HW Hv) as (x&Er&_). apply tmods_lookup in Hl as (t&cs&Hi&->).
      pose proof HG as (h'&L'&G'&E&_). cbn [top_run] in E. unfold ton in E. rewrite (thandle_ok _ _ _ _ Hi), Er in E. cbn [rbind] in E.
      destruct (c_tree_insert_equal_value alloc t h x) as [[[h1 t1] p]| |] eqn:EF; cbn [rbind] in E; [|done..]. clear E.
      destruct (tracks_equal_value r t h x _ _ _ EF) as [(r1&E1&HS)|(r1&E1&HS)].
      + eapply tgoes_tgoes_m; [exact HG|exact Hs0| |exact HS]. intros h2 L2. cbn [top_run top_run_m]. unfold ton, ton_m.
        rewrite (thandle_ok _ _ _ _ Hi), Er. cbn [rbind]. rewrite EF, E1. cbn [rbind]. by intros [= -> ->].
      + eapply tgoes_m_same; [done| |apply tmay_not_equal|done|done]. cbn [top_run_m]. unfold ton_m.
        rewrite (thandle_ok _ _ _ _ Hi), Er. cbn [rbind]. rewrite E1. cbn [rbind]. by rewrite (same_tree _ _ _ _ Hi).
    - (* hinted insert_unique *) apply bind_Some in Hs as (tm&Hl&Hs). apply bind_Some in Hs as (a&Hv&Hs). apply bind_Some in Hs as ([]&Hc&_).
      apply DListRunProofs.check_Some, Nat.leb_le in Hc.
      destruct (targ_ok _ _ _ _ _ HW Hv) as (x&Er&_). use_tree HW Hl t cs Hi HB. rewrite fmap_length in Hc.
      pose proof HG as (h'&L'&G'&E&_). cbn [top_run] in E. unfold ton in E. rewrite (thandle_ok _ _ _ _ Hi) in E. cbn [rbind] in E.
      rewrite (tposition_ok _ _ _ _ HB Hc), Er in E. cbn [rbind] in E.
      destruct (c_tree_insert_unique alloc t h _ x) as [[[h1 t1] p]| |] eqn:EF in E; cbn [rbind] in E; [|done..]. clear E.
      destruct (tracks_unique r t h _ x _ _ _ EF) as [(r1&E1&HS)|(r1&E1&HS)].
      + eapply tgoes_tgoes_m; [exact HG|exact Hs0| |exact HS]. intros h2 L2. cbn [top_run top_run_m]. unfold ton, ton_m.
        rewrite (thandle_ok _ _ _ _ Hi). cbn [rbind]. rewrite (tposition_ok _ _ _ _ HB Hc), Er. cbn [rbind]. rewrite EF, E1. cbn [rbind]. by intros [= -> ->].
      + eapply tgoes_m_same; [done| |apply tmay_not_unique_at|done|done]. cbn [top_run_m]. unfold ton_m.
        rewrite (thandle_ok _ _ _ _ Hi). cbn [rbind]. rewrite (tposition_ok _ _ _ _ HB Hc), Er. cbn [rbind]. rewrite E1. cbn [rbind]. by rewrite (same_tree _ _ _ _ Hi).
    - (* hinted insert_equal *) apply bind_Some in Hs as (tm&Hl&Hs). apply bind_Some in Hs as (a&Hv&Hs). apply bind_Some in Hs as ([]&Hc&_).
      apply DListRunProofs.check_Some, Nat.leb_le in Hc.
      destruct (targ_ok _ _ _ _ _ HW Hv) as (x&Er&_). use_tree HW Hl t cs Hi HB. rewrite fmap_length in Hc.
      pose proof HG as (h'&L'&G'&E&_). cbn [top_run] in E. unfold ton in E. rewrite (thandle_ok _ _ _ _ Hi) in E. cbn [rbind] in E.
      rewrite (tposition_ok _ _ _ _ HB Hc), Er in E. cbn [rbind] in E.
      destruct (c_tree_insert_equal alloc t h _ x) as [[[h1 t1] p]| |] eqn:EF in E; cbn [rbind] in E; [|done..]. clear E.
      destruct (tracks_equal r t h _ x _ _ _ EF) as [(r1&E1&HS)|(r1&E1&HS)].
      + eapply tgoes_tgoes_m; [exact HG|exact Hs0| |exact HS]. intros h2 L2. cbn [top_run top_run_m]. unfold ton, ton_m.
        rewrite (thandle_ok _ _ _ _ Hi). cbn [rbind]. rewrite (tposition_ok _ _ _ _ HB Hc), Er. cbn [rbind]. rewrite EF, E1. cbn [rbind]. by intros [= -> ->].
      + eapply tgoes_m_same; [done| |apply tmay_not_equal_at|done|done]. cbn [top_run_m]. unfold ton_m.
        rewrite (thandle_ok _ _ _ _ Hi). cbn [rbind]. rewrite (tposition_ok _ _ _ _ HB Hc), Er. cbn [rbind]. rewrite E1. cbn [rbind]. by rewrite (same_tree _ _ _ _ Hi).
    - (* insert_unique range *) apply bind_Some in Hs as (tm&Hl&_). pose proof Hl as Hl0. use_tree HW Hl t cs Hi HB.
      destruct (unique_range_m_ok vs r t h cs HB) as (r1&h1&t1&cs1&vs'&E&HU&Hsub&Hv&HS).
      assert (forall vs0, top_spec (tmods L) (TInsertUniqueAll i vs0) = Some (<[i := TMod (kcomp t) (kov t) (fold_left (fun l a => put_unique (kcomp t) (kov t) a l) vs0 cs.*2)]> (tmods L), [])) as Hsp.
      { intros vs0. cbn [top_spec]. by rewrite Hl0. }
      eapply (tgoes_m1 r h L G i t cs); [done|done|exact HU| |done| |].
      + cbn [top_run_m]. unfold ton_m. rewrite (thandle_ok _ _ _ _ Hi). cbn [rbind]. by rewrite E.
      + rewrite Hv. eapply tmay_some_unique; [exact Hsub|apply Hsp].
      + eapply spent_mono; [exact HS|]. intros <-. rewrite Hv. apply Hsp.
    - (* insert_equal range *) apply bind_Some in Hs as (tm&Hl&_). pose proof Hl as Hl0. use_tree HW Hl t cs Hi HB.
      destruct (equal_range_m_ok vs r t h cs HB) as (r1&h1&t1&cs1&vs'&E&HU&Hsub&Hv&HS).
      assert (forall vs0, top_spec (tmods L) (TInsertEqualAll i vs0) = Some (<[i := TMod (kcomp t) (kov t) (fold_left (fun l a => put_equal (kcomp t) (kov t) a l) vs0 cs.*2)]> (tmods L), [])) as Hsp.
      { intros vs0. cbn [top_spec]. by rewrite Hl0. }
      eapply (tgoes_m1 r h L G i t cs); [done|done|exact HU| |done| |].
      + cbn [top_run_m]. unfold ton_m. rewrite (thandle_ok _ _ _ _ Hi). cbn [rbind]. by rewrite E.
      + rewrite Hv. eapply tmay_some_equal; [exact Hsub|apply Hsp].
      + eapply spent_mono; [exact HS|]. intros <-. rewrite Hv. apply Hsp.
  Qed.
  Lemma thist_m_ok os : forall r h L G, tworld (mem h) L G -> Forall top_order os ->
    exists n r' h' L' G' gone, thist_run_m alloc (r, h, L.*1) (take n os) = Ok (r', h', L'.*1) /\ tworld (mem h') L' G' /\
      thist_may (tmods L) (take n os) (tmods L') gone /\ tdead h' = tdead h ++ gone /\ length G' = length G + destroys (take n os) /\
      (n = length os \/ exists o, os !! n = Some o /\ top_spec (tmods L') o = None) /\
      spent r r' (thist_spec (tmods L) (take n os) = Some (tmods L', gone)).
  Proof.
    induction os as [|o os IH]; intros r h L G HW Ho.
    - exists 0, r, h, L, G, []. split; [done|]. split; [done|]. split; [constructor|]. split; [by rewrite app_nil_r|]. split; [unfold destroys; cbn; lia|].
      split; [by left|]. by apply spent_refl.
    - inversion Ho as [|? ? Ho1 Ho2]; subst. destruct (top_spec (tmods L) o) as [[ts' gone]|] eqn:Es.
      + destruct (top_m_ok r h L G o ts' gone HW Ho1 Es) as (r1&h1&L1&G1&g1&E1&HW1&Hm1&Hd1&Hg1&HS1).
        destruct (IH r1 h1 L1 G1 HW1 Ho2) as (n&r2&h2&L2&G2&g2&E2&HW2&Hm2&Hd2&Hg2&Hn&HS2).
        exists (S n), r2, h2, L2, G2, (g1 ++ g2). cbn [take thist_run_m]. rewrite E1. cbn [rbind]. split; [done|]. split; [done|].
        split; [by econstructor|]. split; [rewrite Hd2, Hd1; by rewrite app_assoc|]. split.
        { rewrite Hg2, Hg1. unfold destroys. cbn [List.filter]. destruct o; cbn [length dead_hdr]; lia. }
        split; [destruct Hn as [->|Hn]; [by left|by right]|].
        eapply spent_trans; [exact HS1|exact HS2|]. intros H1 H2. cbn [thist_spec]. rewrite H1. cbn. rewrite H2. done.
      + exists 0, r, h, L, G, []. split; [done|]. split; [done|]. split; [constructor|]. split; [by rewrite app_nil_r|]. split; [unfold destroys; cbn; lia|].
        split; [right; by exists o|]. by apply spent_refl.
  Qed.
End proofs.
