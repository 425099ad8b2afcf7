(** SlistRunProofs.v — every history over any number of forward lists. *)
From Verif Require Import Base Spec SpecSeq SpecListOps SpecSlistOps Facts MergeFacts SortFacts DList Path Slist SpecSlist SlistCore SlistProofs SlistAlgo SlistSort SlistRun.
From Verif Require DListRunProofs.
From stdpp Require Import list gmap.
Notation list_at := DListRunProofs.list_at.
Notation two_at := DListRunProofs.two_at.
Notation check_Some := DListRunProofs.check_Some.
Notation seg := DListRunProofs.seg.
Notation seg2 := DListRunProofs.seg2.

Section run.
  Context {A : Type} (dflt : A) (alloc : sheap A -> loc) (Halloc : smalloc_ok alloc).
  Implicit Types h : sheap A.
  Notation cell := (loc * A)%type.
  Implicit Types L : list (sobj * list cell).

  (** the heap holds exactly the slists [L] *)
  Definition world h L : Prop := slists h L /\ forall x, is_Some (svl h !! x) <-> x ∈ all_snodes L.
  Definition vals L : list (list A) := map (fun l => l.2.*2) L.

  Lemma world_step h h' L old new rest L' : world h L -> L ≡ₚ old ++ rest -> slists h' new ->
    sstep h h' (all_snodes old) (all_snodes new) -> L' ≡ₚ new ++ rest -> world h' L'.
  Proof.
    intros [HL HD] Hp Hn Hs Hp'. assert (slists h (old ++ rest)) as HL2 by (by eapply slists_perm).
    pose proof (slists_step _ _ _ _ _ HL2 Hn Hs) as HL'. split; [by eapply slists_perm; [symmetry|]|].
    assert (forall x, x ∈ all_snodes L <-> x ∈ all_snodes old ++ all_snodes rest) as HLn.
    { intros x. rewrite <- all_snodes_app. by rewrite (all_snodes_perm _ _ Hp). }
    assert (forall x, x ∈ all_snodes L' <-> x ∈ all_snodes new ++ all_snodes rest) as HLn'.
    { intros x. rewrite <- all_snodes_app. by rewrite (all_snodes_perm _ _ Hp'). }
    intros x. rewrite HLn'. split.
    - intros Hx. destruct (decide (x ∈ all_snodes new)) as [Hin|Hni]; [by apply elem_of_app; left|].
      destruct Hs as (Hs1&Hs2&Hs3). destruct (decide (x ∈ all_snodes old)) as [Ho|Ho].
      { rewrite (Hs2 x Ho Hni) in Hx. by destruct Hx. }
      rewrite (proj1 (Hs1 x Ho Hni)) in Hx. apply HD, HLn, elem_of_app in Hx as [|]; [done|]. apply elem_of_app. by right.
    - rewrite <- all_snodes_app. intros Hx. by eapply slists_vl.
  Qed.
  Lemma world_in h L i s cs : world h L -> L !! i = Some (s, cs) -> is_slist h s cs.
  Proof. intros [HL _] Hi. apply (slists_in _ _ (s, cs) HL). by eapply elem_of_list_lookup_2. Qed.
  Lemma fst_insert L i s cs cs' : L !! i = Some (s, cs) -> (<[i := (s, cs')]> L).*1 = L.*1.
  Proof. intros Hi. rewrite list_fmap_insert. cbn. apply list_insert_id. by rewrite list_lookup_fmap, Hi. Qed.
  Lemma vals_insert L i s cs : vals (<[i := (s, cs)]> L) = <[i := cs.*2]> (vals L).
  Proof. unfold vals. change (map ?f ?l) with (f <$> l). by rewrite list_fmap_insert. Qed.
  Lemma vals_lookup L i l : vals L !! i = Some l -> exists s cs, L !! i = Some (s, cs) /\ l = cs.*2.
  Proof.
    unfold vals. intros Hi. change (map ?f L) with (f <$> L) in Hi. rewrite list_lookup_fmap in Hi.
    destruct (L !! i) as [[s cs]|]; [|done]. exists s, cs. split; [done|]. by injection Hi as <-.
  Qed.
  Lemma vals_lookup' L i s cs : L !! i = Some (s, cs) -> vals L !! i = Some cs.*2.
  Proof. unfold vals. intros Hi. change (map ?f L) with (f <$> L). by rewrite list_lookup_fmap, Hi. Qed.
  Lemma handle_ok L i s cs : L !! i = Some (s, cs) -> shandle L.*1 i = Ok s.
  Proof. intros Hi. unfold shandle. by rewrite list_lookup_fmap, Hi. Qed.

  Lemma world_upd h h' L i s cs cs' ds : world h L -> L !! i = Some (s, cs) -> supd h h' s cs cs' ds ->
    world h' (<[i := (s, cs')]> L) /\ sdead h' = sdead h ++ ds.
  Proof.
    intros HW Hi (H1&H2&H3). split; [|done]. destruct (list_at L i _ Hi) as [Hp Hp'].
    eapply (world_step h h' L [(s, cs)] [(s, cs')]); [done|exact Hp|by apply slists_one|by rewrite !all_snodes_one|apply Hp'].
  Qed.
  Lemma world_two h L i j s cs t ds : world h L -> i ≠ j -> L !! i = Some (s, cs) -> L !! j = Some (t, ds) ->
    slists h [(s, cs); (t, ds)].
  Proof.
    intros [HL _] Hij Hi Hj. destruct (two_at L i j _ _ Hij Hi Hj) as (r&Hr&_).
    apply (slists_perm _ _ _ Hr) in HL. by apply slists_app in HL as (?&_).
  Qed.
  Lemma world_upd2 h h' L i j s cs t ds cs' ds' : world h L -> i ≠ j -> L !! i = Some (s, cs) -> L !! j = Some (t, ds) ->
    supd2 h h' s t cs ds cs' ds' ->
    world h' (<[j := (t, ds')]> (<[i := (s, cs')]> L)) /\ sdead h' = sdead h ++ [].
  Proof.
    intros HW Hij Hi Hj (H1&H2&H3). split; [|rewrite app_nil_r; apply H3].
    destruct (two_at L i j _ _ Hij Hi Hj) as (r&Hr&Hr').
    eapply (world_step h h' L [(s, cs); (t, ds)] [(s, cs'); (t, ds')]); [done|exact Hr|done|by rewrite !all_snodes_two|apply Hr'].
  Qed.

  (** positions *)
  Lemma snexts_app h x m n y z : snexts h x m = Ok y -> snexts h y n = Ok z -> snexts h x (m + n) = Ok z.
  Proof.
    revert x. induction m as [|m IH]; intros x H1 H2; cbn in *; [by injection H1 as ->|].
    destruct (snext h x); cbn in *; [|done..]. by apply IH.
  Qed.
  Lemma sposition_ok h s cs k : is_slist h s cs -> k <= length cs -> sposition h s k = Ok (lst s.1 (take k cs).*1).
  Proof.
    intros HL. unfold sposition, siter_advance. rewrite Nat2Z.id. induction k as [|k IH]; intros Hk; [done|].
    destruct (lookup_lt_is_Some_2 cs k) as [[x a] Hx]; [lia|]. rewrite <- Nat.add_1_r.
    eapply snexts_app; [apply IH; lia|]. cbn [snexts]. pose proof (take_drop_middle _ _ _ Hx) as Hcs.
    rewrite (snext_pos h s (take k cs) ((x, a) :: drop (S k) cs)) by (by rewrite Hcs). cbn [rbind fmap list_fmap fst hd].
    rewrite Nat.add_1_r, (take_S_r _ _ _ Hx), pos_snoc. done.
  Qed.
  (** the element with index [k], or end() *)
  Lemma selem_ok h s cs k : is_slist h s cs -> k <= length cs -> sposition h s (S k) = Ok (hd s.2 (drop k cs).*1).
  Proof.
    intros HL Hk. pose proof (sposition_ok h s cs k HL Hk) as Hp. unfold sposition, siter_advance in *. rewrite Nat2Z.id in *.
    rewrite <- Nat.add_1_r. eapply snexts_app; [exact Hp|]. cbn [snexts].
    rewrite (snext_pos h s (take k cs) (drop k cs)) by (by rewrite take_drop). done.
  Qed.

  Lemma arg_ok h L v a : world h L -> larg_val (vals L) v = Some a ->
    exists r, sarg_ref h L.*1 v = Ok r /\ sderef h r = Ok a /\
      match v with AVal _ => r = LVal a
      | AElem j k => exists s cs x, L !! j = Some (s, cs) /\ (x, a) ∈ cs /\ r = LNode x end.
  Proof.
    intros HW Ha. destruct v as [b|j k]; cbn in *.
    { injection Ha as ->. by exists (LVal a). }
    apply bind_Some in Ha as (l&Hl&Hk). apply vals_lookup in Hl as (s&cs&Hj&->).
    pose proof (world_in _ _ _ _ _ HW Hj) as HL. rewrite (handle_ok _ _ _ _ Hj). cbn [rbind].
    rewrite list_lookup_fmap in Hk. destruct (cs !! k) as [[x b]|] eqn:Ek; [|done]. cbn in Hk. injection Hk as ->.
    rewrite (selem_ok h s cs k HL) by (apply lookup_lt_Some in Ek; lia). cbn [rbind].
    rewrite (drop_S _ _ _ Ek). cbn. exists (LNode x). split; [done|].
    assert ((x, a) ∈ cs) by (by eapply elem_of_list_lookup_2). split; [cbn; by eapply svalue_in|]. by exists s, cs, x.
  Qed.
  (** what one sstep of the client has to establish *)
  Definition goes h L o (ls' : list (list A)) (gone : list A) : Prop :=
    exists h' L', fop_run dflt alloc (h, L.*1) o = Ok (h', L'.*1) /\ world h' L' /\ vals L' = ls' /\ sdead h' = sdead h ++ gone.
  Lemma goes1 h L i s cs h' cs' ds o ls' gone : world h L -> L !! i = Some (s, cs) -> supd h h' s cs cs' ds ->
    fop_run dflt alloc (h, L.*1) o = Ok (h', L.*1) -> ls' = <[i := cs'.*2]> (vals L) -> gone = ds ->
    goes h L o ls' gone.
  Proof.
    intros HW Hi HU He -> ->. destruct (world_upd _ _ _ _ _ _ _ _ HW Hi HU) as [HW' Hd].
    exists h', (<[i := (s, cs')]> L). rewrite (fst_insert _ _ _ _ _ Hi). split; [done|]. split; [done|].
    split; [apply vals_insert|done].
  Qed.
  Lemma goes2 h L i j s cs t ds h' cs' ds' o ls' : world h L -> i ≠ j -> L !! i = Some (s, cs) -> L !! j = Some (t, ds) ->
    supd2 h h' s t cs ds cs' ds' ->
    fop_run dflt alloc (h, L.*1) o = Ok (h', L.*1) -> ls' = <[j := ds'.*2]> (<[i := cs'.*2]> (vals L)) ->
    goes h L o ls' [].
  Proof.
    intros HW Hij Hi Hj HU He ->. destruct (world_upd2 _ _ _ _ _ _ _ _ _ _ _ HW Hij Hi Hj HU) as [HW' Hd].
    exists h', (<[j := (t, ds')]> (<[i := (s, cs')]> L)).
    rewrite (fst_insert _ j t ds) by (by rewrite list_lookup_insert_ne). rewrite (fst_insert _ _ _ _ _ Hi).
    split; [done|]. split; [done|]. split; [|done]. by rewrite !vals_insert.
  Qed.
  Lemma goes_new h L h' s cs o ls' : world h L -> slists h' [(s, cs)] -> sstep h h' [] (snodes s cs) -> sdead h' = sdead h ->
    fop_run dflt alloc (h, L.*1) o = Ok (h', L.*1 ++ [s]) -> ls' = vals L ++ [cs.*2] -> goes h L o ls' [].
  Proof.
    intros HW HL Hs Hd He ->. exists h', (L ++ [(s, cs)]). split; [by rewrite fmap_app|]. split.
    - eapply (world_step h h' L [] [(s, cs)] L); [done..|by rewrite all_snodes_one|]. by rewrite Permutation_app_comm.
    - split; [|by rewrite app_nil_r]. unfold vals. by rewrite map_app.
  Qed.
  Ltac inv_spec H := repeat first
    [ let x := fresh "x" in let Hx := fresh "Hx" in apply bind_Some in H as (x & Hx & H)
    | progress simplify_eq/= ].
  Ltac use_list HW Hl s cs Hi HL := apply vals_lookup in Hl as (s&cs&Hi&->);
    pose proof (world_in _ _ _ _ _ HW Hi) as HL.
  Lemma splice_goes h L i k j m n ls' o : world h L -> fsplice_spec (vals L) i k j m n = Some ls' ->
    (forall s cs t ds h', L !! i = Some (s, cs) -> L !! j = Some (t, ds) -> is_slist h s cs -> is_slist h t ds ->
       k <= length cs -> m <= n <= length ds ->
       c_slist_splice_after_range h (lst s.1 (take k cs).*1) t (lst t.1 (take m ds).*1) (hd t.2 (drop n ds).*1) = Ok h' ->
       fop_run dflt alloc (h, L.*1) o = Ok (h', L.*1)) ->
    goes h L o ls' [].
  Proof.
    intros HW Hs Hrun. unfold fsplice_spec in Hs. apply bind_Some in Hs as (l&Hl&Hs). apply bind_Some in Hs as (l'&Hl'&Hs).
    apply bind_Some in Hs as (?&Hc&Hs).
    apply check_Some, andb_true_iff in Hc as [[Hc1%Nat.leb_le Hc2%Nat.leb_le]%andb_true_iff Hc3%Nat.leb_le].
    use_list HW Hl s cs Hi HL. use_list HW Hl' t ds Hj HLt. rewrite fmap_length in Hc1, Hc3.
    destruct (decide (i = j)) as [<-|Hij].
    - rewrite Hi in Hj. injection Hj as <- <-. clear HLt.
      destruct (k <=? m) eqn:Ekm.
      + apply Nat.leb_le in Ekm. injection Hs as <-.
        pose proof (seg2 cs k m ltac:(lia)) as E1. rewrite (seg cs m n Hc2) in E1.
        destruct (ssplice_front h s (take k cs) (take (m - k) (drop k cs)) (take (n - m) (drop m cs)) (drop n cs)) as (h'&E&HU).
        { by rewrite <- E1. }
        assert (take k cs ++ take (m - k) (drop k cs) = take m cs) as Et.
        { rewrite <- (take_drop k (take m cs)). rewrite take_take, Nat.min_l by lia. f_equal. by rewrite skipn_firstn_comm. }
        rewrite <- E1 in HU. rewrite Et in E.
        eapply (goes1 h L i s cs); [done..|exact HU|by eapply Hrun| |done].
        by rewrite !fmap_app, !fmap_take, !fmap_drop.
      + destruct (n <? k) eqn:Enk; [|done]. apply Nat.ltb_lt in Enk. injection Hs as <-.
        pose proof (seg2 cs m n ltac:(lia)) as E1. rewrite (seg cs n k ltac:(lia)) in E1.
        destruct (ssplice_back h s (take m cs) (take (n - m) (drop m cs)) (take (k - n) (drop n cs)) (drop k cs)) as (h'&E&HU).
        { by rewrite <- E1. }
        { intros Hnil. apply (f_equal length) in Hnil. rewrite take_length, drop_length in Hnil. cbn in Hnil. lia. }
        assert (take m cs ++ take (n - m) (drop m cs) ++ take (k - n) (drop n cs) = take k cs) as Et.
        { rewrite <- (take_drop m (take k cs)). rewrite take_take, Nat.min_l by lia. f_equal. rewrite skipn_firstn_comm.
          rewrite <- (take_drop (n - m) (take (k - m) (drop m cs))). rewrite take_take, Nat.min_l by lia. f_equal.
          rewrite skipn_firstn_comm, drop_drop. f_equal; [lia|]. f_equal. lia. }
        rewrite <- E1 in HU. rewrite Et in E. rewrite <- (seg cs n k) in E by lia.
        eapply (goes1 h L i s cs); [done..|exact HU|by eapply Hrun| |done].
        by rewrite !fmap_app, !fmap_take, !fmap_drop.
    - injection Hs as <-. pose proof (world_two _ _ _ _ _ _ _ _ HW Hij Hi Hj) as HL2.
      destruct (ssplice_range_ok h s (take k cs) (drop k cs) t (take m ds) (take (n - m) (drop m ds)) (drop n ds)) as (h'&E&HU).
      { rewrite take_drop, <- seg2 by lia. done. }
      rewrite take_drop, <- seg2 in HU by lia.
      eapply (goes2 h L i j s cs t ds); [done..|exact HU|by eapply Hrun|].
      unfold seq_delete, seq_insert. by rewrite !fmap_app, !fmap_take, !fmap_drop.
  Qed.
  Lemma ascending_snd comp (ds : list cell) : ascending (on2 comp) ds = ascending comp ds.*2.
  Proof. induction ds as [|[x a] [|[y b] ds] IH]; [done..|]. cbn in *. unfold on2 at 1. by rewrite IH. Qed.
  Lemma fop_ok h L o ls' gone : world h L -> fop_order o -> fop_spec dflt (vals L) o = Some (ls', gone) -> goes h L o ls' gone.
  Proof.
    intros HW Ho Hs. destruct o; cbn [fop_spec] in Hs.
    - (* create *) injection Hs as <- <-. pose proof (screate_ok alloc Halloc h) as HC.
      destruct (c_slist_create alloc h) as [h' s] eqn:E. destruct HC as (H1&H2&H3&_).
      eapply (goes_new h L h' s []); [done|by apply slists_one|done|done|cbn [fop_run]; by rewrite E|done].
    - (* create_from *) apply bind_Some in Hs as (?&Hc&Hs). apply check_Some in Hc. injection Hs as <- <-.
      destruct (screate_from_ok dflt alloc Halloc h vs) as (h'&s&cs&E&H1&H2&H3&H4); [by destruct vs|].
      eapply (goes_new h L h' s cs); [done|by apply slists_one|done|done|cbn [fop_run]; by rewrite E|by rewrite H2].
    - (* copy *) apply bind_Some in Hs as (l&Hl&Hs). injection Hs as <- <-. use_list HW Hl s cs Hi HL.
      destruct (scopy_ok dflt alloc Halloc h s cs HL) as (h'&s'&cs'&E&H1&H2&H3&H4).
      eapply (goes_new h L h' s' cs'); [done| |done|done|cbn [fop_run]; rewrite (handle_ok _ _ _ _ Hi); cbn [rbind]; by rewrite E|by rewrite H2].
      apply slists_two in H1 as (?&_). by apply slists_one.
    - (* assign *) apply bind_Some in Hs as (l&Hl&Hs). apply bind_Some in Hs as (l'&Hl'&Hs). use_list HW Hl s cs Hi HL.
      use_list HW Hl' t ds Hj HLt.
      destruct (decide (i = j)) as [<-|Hij].
      + injection Hs as <- <-. exists h, L. cbn [fop_run]. unfold son1. rewrite (handle_ok _ _ _ _ Hi). cbn [rbind].
        rewrite sassign_self. cbn [rbind]. rewrite app_nil_r. done.
      + injection Hs as <- <-. pose proof (world_two _ _ _ _ _ _ _ _ HW Hij Hi Hj) as HL2.
        destruct (sassign_ok dflt alloc Halloc h s cs t ds HL2) as (h'&cs'&E&HU&Hv).
        eapply (goes1 h L i s cs h' cs'); [done..| |by rewrite Hv|done].
        cbn [fop_run]. unfold son1. rewrite (handle_ok _ _ _ _ Hi). cbn [rbind]. rewrite (handle_ok _ _ _ _ Hj). cbn [rbind]. by rewrite E.
    - (* destroy *) apply bind_Some in Hs as (l&Hl&Hs). injection Hs as <- <-. use_list HW Hl s cs Hi HL.
      destruct (sdestroy_ok h s cs HL) as (h'&E&H1&H2). exists h', (delete i L).
      split; [cbn [fop_run]; rewrite (handle_ok _ _ _ _ Hi); cbn [rbind]; rewrite E; cbn [rbind]; by rewrite list_fmap_delete|].
      split; [|split; [unfold vals; change (map ?f ?l) with (f <$> l); by rewrite list_fmap_delete|done]].
      eapply (world_step h h' L [(s, cs)] [] (delete i L)); [done|apply (list_at L i _ Hi)|apply slists_nil|by rewrite all_snodes_one|done].
    - (* swap *) apply bind_Some in Hs as (l&Hl&Hs). apply bind_Some in Hs as (l'&Hl'&Hs). injection Hs as <- <-.
      use_list HW Hl s cs Hi HL. use_list HW Hl' t ds Hj HLt.
      exists h, (<[j := (s, cs)]> (<[i := (t, ds)]> L)).
      split; [cbn [fop_run]; rewrite (handle_ok _ _ _ _ Hi); cbn [rbind]; rewrite (handle_ok _ _ _ _ Hj); cbn [rbind]; by rewrite !list_fmap_insert|].
      split; [|split; [by rewrite !vals_insert|by rewrite app_nil_r]].
      destruct (decide (i = j)) as [<-|Hij].
      + rewrite Hi in Hj. injection Hj as <- <-. by rewrite list_insert_insert, list_insert_id.
      + destruct (two_at L i j _ _ Hij Hi Hj) as (r&Hr&Hr').
        eapply (world_step h h L [(s, cs); (t, ds)] [(t, ds); (s, cs)]); [done|exact Hr| |apply sstep_refl|apply Hr'].
        * eapply slists_perm; [|by eapply (world_two h L i j s cs t ds)]. solve_Permutation.
        * intros y. rewrite !all_snodes_two, !elem_of_app. tauto.
    - (* push_front *) apply bind_Some in Hs as (l&Hl&Hs). apply bind_Some in Hs as (a&Ha&Hs). injection Hs as <- <-.
      destruct (arg_ok _ _ _ _ HW Ha) as (r&Er&Hr&_). use_list HW Hl s cs Hi HL.
      destruct (push_front_ok dflt alloc Halloc h s cs r a HL Hr) as (h'&E&HU).
      eapply (goes1 h L i s cs); [done..|exact HU| |done|done].
      cbn [fop_run]. unfold son1. rewrite (handle_ok _ _ _ _ Hi). cbn [rbind]. rewrite Er. cbn [rbind]. by rewrite E.
    - (* pop_front *) apply bind_Some in Hs as (l&Hl&Hs). injection Hs as <- <-. use_list HW Hl s cs Hi HL.
      destruct (spop_front_ok h s cs HL) as (h'&E&HU).
      eapply (goes1 h L i s cs); [done..|exact HU| |by rewrite fmap_drop|by rewrite fmap_take].
      cbn [fop_run]. unfold son1. rewrite (handle_ok _ _ _ _ Hi). cbn [rbind]. by rewrite E.
    - (* insert_after *) apply bind_Some in Hs as (l&Hl&Hs). apply bind_Some in Hs as (a&Ha&Hs). apply bind_Some in Hs as (?&Hc&Hs).
      apply check_Some, Nat.leb_le in Hc. injection Hs as <- <-.
      destruct (arg_ok _ _ _ _ HW Ha) as (r&Er&Hr&_). use_list HW Hl s cs Hi HL. rewrite fmap_length in Hc.
      assert (is_slist h s (take k cs ++ drop k cs)) as HL' by (by rewrite take_drop).
      pose proof (insert_after_ok dflt alloc Halloc h s (take k cs) (drop k cs) r a HL' Hr) as E.
      pose proof (linked_ok alloc Halloc h s (take k cs) (drop k cs) a HL') as HU. rewrite take_drop in HU.
      eapply (goes1 h L i s cs); [done..|exact HU| | |done].
      + cbn [fop_run]. unfold son1. rewrite (handle_ok _ _ _ _ Hi). cbn [rbind]. rewrite (sposition_ok h s cs k HL Hc). cbn [rbind].
        rewrite Er. cbn [rbind]. by rewrite E.
      + unfold seq_insert. by rewrite fmap_app, fmap_cons, fmap_take, fmap_drop.
    - (* erase_after *) apply bind_Some in Hs as (l&Hl&Hs). apply bind_Some in Hs as (?&Hc&Hs).
      apply check_Some, Nat.leb_le in Hc. injection Hs as <- <-.
      use_list HW Hl s cs Hi HL. rewrite fmap_length in Hc.
      destruct (cs !! k) as [[y b]|] eqn:Ek.
      + pose proof (take_drop_middle _ _ _ Ek) as Hcs.
        destruct (pop_after_ok h s (take k cs) y b (drop (S k) cs)) as (h'&E&HU); [by rewrite Hcs|]. rewrite Hcs in HU.
        eapply (goes1 h L i s cs); [done..|exact HU| | |].
        * cbn [fop_run]. unfold son1. rewrite (handle_ok _ _ _ _ Hi). cbn [rbind]. rewrite (sposition_ok h s cs k HL) by lia. cbn [rbind].
          unfold c_slist_erase_after. by rewrite E.
        * unfold seq_delete. by rewrite fmap_app, fmap_take, fmap_drop.
        * rewrite <- fmap_drop, (drop_S _ _ _ Ek). done.
      + apply lookup_ge_None in Ek.
        eapply (goes1 h L i s cs h cs []); [done..|by apply supd_refl| | |].
        * cbn [fop_run]. unfold son1. rewrite (handle_ok _ _ _ _ Hi). cbn [rbind]. rewrite (sposition_ok h s cs k HL) by lia. cbn [rbind].
          unfold c_slist_erase_after. rewrite take_ge by lia. by rewrite pop_after_last.
        * unfold seq_delete. rewrite take_ge, drop_ge by (rewrite fmap_length; lia). by rewrite app_nil_r.
        * by rewrite drop_ge by (rewrite fmap_length; lia).
    - (* erase_after_range *) apply bind_Some in Hs as (l&Hl&Hs). apply bind_Some in Hs as (?&Hc&Hs).
      apply check_Some, andb_true_iff in Hc as [Hc1%Nat.leb_le Hc2%Nat.leb_le]. injection Hs as <- <-.
      use_list HW Hl s cs Hi HL. rewrite fmap_length in Hc2.
      pose proof (seg2 cs k m ltac:(lia)) as Hcs.
      destruct (erase_after_range_ok h s (take k cs) (take (m - k) (drop k cs)) (drop m cs)) as (h'&E&HU); [by rewrite <- Hcs|].
      rewrite <- Hcs in HU.
      eapply (goes1 h L i s cs); [done..|exact HU| | |].
      + cbn [fop_run]. unfold son1. rewrite (handle_ok _ _ _ _ Hi). cbn [rbind]. rewrite (sposition_ok h s cs k HL) by lia. cbn [rbind].
        rewrite (selem_ok h s cs m HL) by lia. cbn [rbind]. by rewrite E.
      + unfold seq_delete. by rewrite fmap_app, fmap_take, fmap_drop.
      + by rewrite fmap_take, fmap_drop.
    - (* clear *) apply bind_Some in Hs as (l&Hl&Hs). injection Hs as <- <-. use_list HW Hl s cs Hi HL.
      destruct (sclear_ok h s cs HL) as (h'&E&HU).
      eapply (goes1 h L i s cs); [done..|exact HU| |done|done].
      cbn [fop_run]. unfold son1. rewrite (handle_ok _ _ _ _ Hi). cbn [rbind]. by rewrite E.
    - (* resize *) apply bind_Some in Hs as (l&Hl&Hs). injection Hs as <- <-. use_list HW Hl s cs Hi HL.
      destruct (sresize_ok dflt alloc Halloc h s cs n None dflt HL eq_refl) as (h'&new&E&HU&Hv).
      eapply (goes1 h L i s cs); [done..|exact HU| | |by rewrite fmap_drop].
      + cbn [fop_run]. unfold son1. rewrite (handle_ok _ _ _ _ Hi). cbn [rbind]. unfold c_slist_resize. by rewrite E.
      + unfold seq_resize. by rewrite fmap_app, Hv, fmap_take, fmap_length.
    - (* resize_with_value *) apply bind_Some in Hs as (l&Hl&Hs). apply bind_Some in Hs as (a&Ha&Hs). injection Hs as <- <-.
      destruct (arg_ok _ _ _ _ HW Ha) as (r&Er&Hr&_). use_list HW Hl s cs Hi HL.
      destruct (sresize_ok dflt alloc Halloc h s cs n (Some r) a HL Hr) as (h'&new&E&HU&Hv).
      eapply (goes1 h L i s cs); [done..|exact HU| | |by rewrite fmap_drop].
      + cbn [fop_run]. unfold son1. rewrite (handle_ok _ _ _ _ Hi). cbn [rbind]. rewrite Er. cbn [rbind]. by rewrite E.
      + unfold seq_resize. by rewrite fmap_app, Hv, fmap_take, fmap_length.
    - (* splice_after *) apply bind_Some in Hs as (l'&Hl'&Hs). apply bind_Some in Hs as (?&Hc&Hs).
      apply bind_Some in Hs as (r&Hr&Hs). injection Hs as -> <-.
      eapply splice_goes; [done|exact Hr|]. intros s cs t ds h' Hi Hj HL HLt H1 H2 E.
      rewrite (vals_lookup' _ _ _ _ Hj) in Hl'. injection Hl' as <-. rewrite fmap_length in E, H2. rewrite (drop_ge ds (length ds)) in E by lia.
      cbn [fop_run]. unfold son1. rewrite (handle_ok _ _ _ _ Hi). cbn [rbind]. rewrite (handle_ok _ _ _ _ Hj). cbn [rbind].
      rewrite (sposition_ok h s cs k HL) by lia. cbn [rbind].
      change (c_slist_splice_after h ?p t) with (c_slist_splice_after_range h p t (lst t.1 (take 0 ds).*1) (hd t.2 ([] : list cell).*1)).
      by rewrite E.
    - (* splice_after_from *) apply bind_Some in Hs as (l'&Hl'&Hs). apply bind_Some in Hs as (r&Hr&Hs). injection Hs as -> <-.
      eapply splice_goes; [done|exact Hr|]. intros s cs t ds h' Hi Hj HL HLt H1 H2 E.
      rewrite (vals_lookup' _ _ _ _ Hj) in Hl'. injection Hl' as <-. rewrite fmap_length in E, H2. rewrite (drop_ge ds (length ds)) in E by lia.
      cbn [fop_run]. unfold son1. rewrite (handle_ok _ _ _ _ Hi). cbn [rbind]. rewrite (handle_ok _ _ _ _ Hj). cbn [rbind].
      rewrite (sposition_ok h s cs k HL) by lia. cbn [rbind]. rewrite (sposition_ok h t ds m HLt) by lia. cbn [rbind].
      change (c_slist_splice_after_from h ?p t ?q) with (c_slist_splice_after_range h p t q (hd t.2 ([] : list cell).*1)). by rewrite E.
    - (* splice_after_range *) apply bind_Some in Hs as (r&Hr&Hs). injection Hs as -> <-.
      eapply splice_goes; [done|exact Hr|]. intros s cs t ds h' Hi Hj HL HLt H1 H2 E.
      cbn [fop_run]. unfold son1. rewrite (handle_ok _ _ _ _ Hi). cbn [rbind]. rewrite (handle_ok _ _ _ _ Hj). cbn [rbind].
      rewrite (sposition_ok h s cs k HL) by lia. cbn [rbind]. rewrite (sposition_ok h t ds m HLt) by lia. cbn [rbind].
      rewrite (selem_ok h t ds n HLt) by lia. cbn [rbind]. by rewrite E.
    - (* merge *) apply bind_Some in Hs as (l&Hl&Hs). apply bind_Some in Hs as (l'&Hl'&Hs). apply bind_Some in Hs as (?&Hc&Hs).
      apply check_Some, andb_true_iff in Hc as [Hc%negb_true_iff%Nat.eqb_neq Ha]. injection Hs as <- <-.
      use_list HW Hl s cs Hi HL. use_list HW Hl' t ds Hj HLt.
      pose proof (world_two _ _ _ _ _ _ _ _ HW Hc Hi Hj) as HL2. destruct (smerge_any_ok comp h s cs t ds HL2) as (h'&E&HU).
      rewrite mi_ascending in HU by (by rewrite ascending_snd).
      eapply (goes2 h L i j s cs t ds); [done..|exact HU| |by rewrite mrg_snd].
      cbn [fop_run]. unfold son1. rewrite (handle_ok _ _ _ _ Hi). cbn [rbind]. rewrite (handle_ok _ _ _ _ Hj). cbn [rbind]. by rewrite E.
    - (* sort *) apply bind_Some in Hs as (l&Hl&Hs). apply bind_Some in Hs as (?&Hc&Hs). apply check_Some in Hc.
      injection Hs as <- <-. use_list HW Hl s cs Hi HL. rewrite fmap_length in Hc. apply Z.ltb_lt in Hc. cbn in Ho.
      destruct (ssort_ok alloc Halloc comp Ho h s cs HL Hc) as (h'&s'&cs'&E&H1&H2&H3&H4&H5&_).
      exists h', (<[i := (s', cs')]> L). split.
      { cbn [fop_run]. rewrite (handle_ok _ _ _ _ Hi). cbn [rbind]. rewrite E. cbn [rbind]. by rewrite list_fmap_insert. }
      split.
      { destruct (list_at L i _ Hi) as [Hp Hp'].
        eapply (world_step h h' L [(s, cs)] [(s', cs')]); [done|exact Hp|by apply slists_one|by rewrite !all_snodes_one|apply Hp']. }
      split; [|by rewrite app_nil_r]. rewrite vals_insert. f_equal. apply (seq_sort_unique comp Ho).
      + by apply on2_sorted.
      + by apply on2_stable.
    - (* reverse *) apply bind_Some in Hs as (l&Hl&Hs). injection Hs as <- <-. use_list HW Hl s cs Hi HL.
      destruct (sreverse_ok h s cs HL) as (h'&E&HU).
      eapply (goes1 h L i s cs); [done..|exact HU| | |done].
      + cbn [fop_run]. unfold son1. rewrite (handle_ok _ _ _ _ Hi). cbn [rbind]. by rewrite E.
      + f_equal. symmetry. exact (map_rev snd cs).
    - (* remove *) apply bind_Some in Hs as (l&Hl&Hs). apply bind_Some in Hs as (a&Ha&Hs). apply bind_Some in Hs as (?&Hc&Hs).
      apply check_Some in Hc. injection Hs as <- <-.
      destruct (arg_ok _ _ _ _ HW Ha) as (r&Er&Hr&Hv). use_list HW Hl s cs Hi HL.
      destruct (sremove_ok eqb h s cs r a HL Hr) as (h'&E&HU).
      { destruct v as [b|j k]; [by subst r|]. destruct Hv as (t&ds&y&Hj&Hy&->).
        apply negb_true_iff, Nat.eqb_neq in Hc. pose proof (world_two _ _ _ _ _ _ _ _ HW Hc Hj Hi) as (_&_&Hd)%slists_two.
        apply Hd. unfold snodes. do 2 right. apply elem_of_list_fmap. by exists (y, a). }
      eapply (goes1 h L i s cs); [done..|exact HU| | |done].
      + cbn [fop_run]. unfold son1. rewrite (handle_ok _ _ _ _ Hi). cbn [rbind]. rewrite Er. cbn [rbind]. by rewrite E.
      + by rewrite (filter_snd (fun x => negb (eqb x a))).
    - (* remove_if *) apply bind_Some in Hs as (l&Hl&Hs). injection Hs as <- <-. use_list HW Hl s cs Hi HL.
      destruct (sremove_if_ok p h s cs HL) as (h'&E&HU).
      eapply (goes1 h L i s cs); [done..|exact HU| | |done].
      + cbn [fop_run]. unfold son1. rewrite (handle_ok _ _ _ _ Hi). cbn [rbind]. by rewrite E.
      + by rewrite (filter_snd (fun x => negb (p x))).
    - (* unique *) apply bind_Some in Hs as (l&Hl&Hs). injection Hs as <- <-. use_list HW Hl s cs Hi HL.
      destruct (sunique_if_ok pred h s cs HL) as (h'&E&HU).
      eapply (goes1 h L i s cs); [done..|exact HU| | |done].
      + cbn [fop_run]. unfold son1. rewrite (handle_ok _ _ _ _ Hi). cbn [rbind]. by rewrite E.
      + by rewrite unique_snd.
  Qed.
  Lemma fhist_ok os : forall h L ls' gone, world h L -> Forall fop_order os -> fhist_spec dflt (vals L) os = Some (ls', gone) ->
    exists h' L', fhist_run dflt alloc (h, L.*1) os = Ok (h', L'.*1) /\ world h' L' /\ vals L' = ls' /\ sdead h' = sdead h ++ gone.
  Proof.
    induction os as [|o os IH]; intros h L ls' gone HW Ho Hs; cbn [fhist_run fhist_spec] in *.
    { injection Hs as <- <-. exists h, L. by rewrite app_nil_r. }
    apply bind_Some in Hs as ([l1 g1]&H1&Hs). apply bind_Some in Hs as ([l2 g2]&H2&Hs). injection Hs as <- <-.
    apply Forall_cons in Ho as [Ho Hos]. destruct (fop_ok _ _ _ _ _ HW Ho H1) as (h1&L1&E1&HW1&<-&Hd1).
    destruct (IH _ _ _ _ HW1 Hos H2) as (h2&L2&E2&HW2&<-&Hd2). exists h2, L2. rewrite E1. cbn [rbind].
    split; [done|]. split; [done|]. split; [done|]. rewrite Hd2, Hd1. by rewrite app_assoc.
  Qed.
  Lemma world0 : world (sheap0 (A := A)) [].
  Proof. split; [apply slists_nil|]. intros x. cbn. rewrite lookup_empty. split; [by intros []|]. intros Hx. by apply elem_of_nil in Hx. Qed.

End run.

(** ** every element created is alive or destroyed, once *)
Section conserve.
  Context {A : Type} (dflt : A).
  Implicit Types ls : list (list A).
  Notation conserve1 := DListRunProofs.conserve1.
  Notation conserve2 := DListRunProofs.conserve2.
  Notation seq_seg := DListRunProofs.seq_seg.
  Lemma fsplice_conserve ls i k j m n ls' : fsplice_spec ls i k j m n = Some ls' -> concat ls ++ [] ≡ₚ concat ls' ++ [].
  Proof.
    intros Hs. unfold fsplice_spec in Hs. apply bind_Some in Hs as (l&Hl&Hs). apply bind_Some in Hs as (l'&Hl'&Hs).
    apply bind_Some in Hs as (?&Hc&Hs).
    apply check_Some, andb_true_iff in Hc as [[Hc1%Nat.leb_le Hc2%Nat.leb_le]%andb_true_iff Hc3%Nat.leb_le].
    destruct (decide (i = j)) as [<-|Hij].
    - rewrite Hl in Hl'. injection Hl' as <-. destruct (k <=? m) eqn:E1; [|destruct (n <? k) eqn:E2; [|done]].
      + apply Nat.leb_le in E1. injection Hs as <-. apply (conserve1 ls i l); [done|]. rewrite !app_nil_r.
        rewrite (seq_seg l k m) at 1 by lia. f_equiv.
        assert (drop m l = take (n - m) (drop m l) ++ drop n l) as -> by
          (rewrite <- (take_drop (n - m) (drop m l)) at 1; f_equal; rewrite drop_drop; f_equal; lia).
        rewrite (take_app_alt (take (n - m) (drop m l))) by (rewrite take_length, drop_length; lia). solve_Permutation.
      + apply Nat.ltb_lt in E2. injection Hs as <-. apply (conserve1 ls i l); [done|]. rewrite !app_nil_r.
        rewrite (seq_seg l m n) at 1 by lia. f_equiv.
        assert (drop n l = take (k - n) (drop n l) ++ drop k l) as -> by
          (rewrite <- (take_drop (k - n) (drop n l)) at 1; f_equal; rewrite drop_drop; f_equal; lia).
        rewrite (take_app_alt (take (k - n) (drop n l))) by (rewrite take_length, drop_length; lia). solve_Permutation.
    - injection Hs as <-. eapply conserve2; [done..|]. unfold seq_insert, seq_delete.
      rewrite (seq_seg l' m n) at 1 by lia. rewrite <- (take_drop k l) at 1. solve_Permutation.
  Qed.
  Lemma fop_conserve ls o ls' gone : fop_order o -> fop_spec dflt ls o = Some (ls', gone) -> concat ls ++ fop_added dflt ls o ≡ₚ concat ls' ++ gone.
  Proof.
    intros Ho Hs.
    assert (forall v a, larg_val ls v = Some a -> match larg_val ls v with Some a => [a] | None => [] end = [a]) as Harg by (by intros v a ->).
    destruct o; cbn [fop_spec fop_added] in *; repeat (apply bind_Some in Hs as (?&?&Hs));
      repeat match goal with
      | H : check _ = Some _ |- _ => apply check_Some in H
      | H : larg_val _ _ = Some _ |- _ => rewrite (Harg _ _ H); clear H
      end; try (injection Hs as <- <-).
    - rewrite concat_app. cbn. by rewrite !app_nil_r.
    - rewrite concat_app. cbn. by rewrite !app_nil_r.
    - rewrite H. rewrite concat_app. cbn. by rewrite !app_nil_r.
    - rewrite H0. destruct (decide (i = j)); injection Hs as <- <-; [by rewrite !app_nil_r|]. cbn.
      apply (conserve1 ls i x); [done|]. by rewrite Permutation_app_comm.
    - rewrite app_nil_r. rewrite (Permutation_app_comm _ x). rewrite delete_take_drop.
      rewrite <- (take_drop_middle _ _ _ H) at 1. rewrite !concat_app. cbn. solve_Permutation.
    - destruct (decide (i = j)) as [<-|Hij].
      + rewrite H in H0. injection H0 as <-. by rewrite list_insert_insert, list_insert_id.
      + apply (conserve2 ls i j x x0); [done..|]. by rewrite Permutation_app_comm.
    - apply (conserve1 ls i x); [done|]. by rewrite app_nil_r, <- Permutation_cons_append.
    - apply (conserve1 ls i x); [done|]. rewrite app_nil_r. rewrite <- (take_drop 1 x) at 1. apply Permutation_app_comm.
    - apply (conserve1 ls i x); [done|]. rewrite app_nil_r. unfold seq_insert. rewrite <- (take_drop k x) at 1. solve_Permutation.
    - apply (conserve1 ls i x); [done|]. rewrite app_nil_r. unfold seq_delete. rewrite (seq_seg x k (S k)) at 1 by lia.
      replace (S k - k) with 1 by lia. solve_Permutation.
    - apply (conserve1 ls i x); [done|]. rewrite app_nil_r. unfold seq_delete.
      apply andb_true_iff in H0 as [H0%Nat.leb_le _]. rewrite (seq_seg x k m) at 1 by lia. solve_Permutation.
    - apply (conserve1 ls i x); [done|]. by rewrite app_nil_r.
    - rewrite H. cbn. apply (conserve1 ls i x); [done|]. unfold seq_resize. rewrite <- (take_drop n x) at 1. solve_Permutation.
    - rewrite H. cbn. apply (conserve1 ls i x); [done|]. unfold seq_resize.
      replace (concat (replicate (n - length x) [x0])) with (replicate (n - length x) x0) by (induction (n - length x); cbn; by f_equal).
      rewrite <- (take_drop n x) at 1. solve_Permutation.
    - by eapply fsplice_conserve.
    - by eapply fsplice_conserve.
    - by eapply fsplice_conserve.
    - apply andb_true_iff in H1 as [H1%negb_true_iff%Nat.eqb_neq _]. apply (conserve2 ls i j x x0); [done..|]. by rewrite mrg_perm, app_nil_r.
    - apply (conserve1 ls i x); [done|]. rewrite !app_nil_r. by destruct (seq_sort_ok comp Ho x) as [_ [Hp _]].
    - apply (conserve1 ls i x); [done|]. rewrite !app_nil_r. apply Permutation_rev.
    - apply (conserve1 ls i x); [done|]. rewrite app_nil_r. apply DListRunProofs.filter_split.
    - apply (conserve1 ls i x); [done|]. rewrite app_nil_r. apply DListRunProofs.filter_split.
    - apply (conserve1 ls i x); [done|]. rewrite app_nil_r. apply DListRunProofs.unique_split.
  Qed.
  Lemma fhist_conserve os : forall ls ls' gone, Forall fop_order os -> fhist_spec dflt ls os = Some (ls', gone) ->
    concat ls ++ fhist_added dflt ls os ≡ₚ concat ls' ++ gone.
  Proof.
    induction os as [|o os IH]; intros ls ls' gone Ho Hs; cbn [fhist_spec fhist_added] in *; [by injection Hs as <- <-|].
    apply bind_Some in Hs as ([l1 g1]&H1&Hs). apply bind_Some in Hs as ([l2 g2]&H2&Hs). injection Hs as <- <-.
    apply Forall_cons in Ho as [Ho Hos]. rewrite H1. pose proof (fop_conserve _ _ _ _ Ho H1) as Hc. pose proof (IH _ _ _ Hos H2) as Hc2.
    cbn [fst snd] in *. rewrite app_assoc, Hc. rewrite <- app_assoc, (Permutation_app_comm g1), app_assoc, Hc2. solve_Permutation.
  Qed.
End conserve.
