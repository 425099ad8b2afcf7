(** DListRunProofs.v — every history over any number of lists. *)
From Verif Require Import Base Spec SpecSeq SpecListOps Facts MergeFacts SortFacts DList Path SpecList DListCore DListProofs DListAlgo DListSort DListRun.
From stdpp Require Import list gmap.

Section run.
  Context {A : Type} (dflt : A) (alloc : heap A -> loc) (Halloc : malloc_ok alloc).
  Implicit Types h : heap A.
  Notation cell := (loc * A)%type.
  Implicit Types L : list (loc * list cell).

  (** the heap holds exactly the lists [L] *)
  Definition world h L : Prop := lists h L /\ forall x, is_Some (vl h !! x) <-> x ∈ all_nodes L.
  Definition vals L : list (list A) := map (fun l => l.2.*2) L.

  Lemma world_step h h' L old new rest L' : world h L -> L ≡ₚ old ++ rest -> lists h' new ->
    step h h' (all_nodes old) (all_nodes new) -> L' ≡ₚ new ++ rest -> world h' L'.
  Proof.
    intros [HL HD] Hp Hn Hs Hp'. assert (lists h (old ++ rest)) as HL2 by (by eapply lists_perm).
    pose proof (lists_step _ _ _ _ _ HL2 Hn Hs) as HL'. split; [by eapply lists_perm; [symmetry|]|].
    assert (forall x, x ∈ all_nodes L <-> x ∈ all_nodes old ++ all_nodes rest) as HLn.
    { intros x. rewrite <- all_nodes_app. by rewrite (all_nodes_perm _ _ Hp). }
    assert (forall x, x ∈ all_nodes L' <-> x ∈ all_nodes new ++ all_nodes rest) as HLn'.
    { intros x. rewrite <- all_nodes_app. by rewrite (all_nodes_perm _ _ Hp'). }
    intros x. rewrite HLn'. split.
    - intros Hx. destruct (decide (x ∈ all_nodes new)) as [Hin|Hni]; [by apply elem_of_app; left|].
      destruct Hs as (Hs1&Hs2&Hs3). destruct (decide (x ∈ all_nodes old)) as [Ho|Ho].
      { rewrite (Hs2 x Ho Hni) in Hx. by destruct Hx. }
      rewrite (proj1 (Hs1 x Ho Hni)) in Hx. apply HD, HLn, elem_of_app in Hx as [|]; [done|]. apply elem_of_app. by right.
    - rewrite <- all_nodes_app. intros Hx. by eapply lists_vl.
  Qed.
  Lemma list_at {X} (l : list X) i x : l !! i = Some x -> l ≡ₚ x :: delete i l /\ forall y, <[i := y]> l ≡ₚ y :: delete i l.
  Proof.
    intros Hi. split; [by apply delete_Permutation|]. intros y.
    rewrite insert_take_drop by (by eapply lookup_lt_Some). rewrite delete_take_drop. solve_Permutation.
  Qed.
  Lemma world_in h L i s cs : world h L -> L !! i = Some (s, cs) -> is_list h s cs.
  Proof. intros [HL _] Hi. apply (lists_in _ _ (s, cs) HL). by eapply elem_of_list_lookup_2. Qed.
  Lemma fst_insert L i s cs cs' : L !! i = Some (s, cs) -> (<[i := (s, cs')]> L).*1 = L.*1.
  Proof. intros Hi. rewrite list_fmap_insert. cbn. apply list_insert_id. by rewrite list_lookup_fmap, Hi. Qed.
  Lemma vals_insert L i s cs : vals (<[i := (s, cs)]> L) = <[i := cs.*2]> (vals L).
  Proof. unfold vals. change (map ?f ?l) with (f <$> l). by rewrite list_fmap_insert. Qed.
  Lemma vals_lookup L i l : vals L !! i = Some l -> exists s cs, L !! i = Some (s, cs) /\ l = cs.*2.
  Proof.
    unfold vals. intros Hi. change (map ?f L) with (f <$> L) in Hi. rewrite list_lookup_fmap in Hi.
    destruct (L !! i) as [[s cs]|]; [|done]. exists s, cs. split; [done|]. by injection Hi as <-.
  Qed.
  Lemma vals_lookup' L i s cs : L !! i = Some (s, cs) -> vals L !! i = Some cs.*2.
  Proof. unfold vals. intros Hi. change (map ?f L) with (f <$> L). by rewrite list_lookup_fmap, Hi. Qed.
  Lemma handle_ok L i s cs : L !! i = Some (s, cs) -> handle L.*1 i = Ok s.
  Proof. intros Hi. unfold handle. by rewrite list_lookup_fmap, Hi. Qed.

  Lemma world_upd h h' L i s cs cs' ds : world h L -> L !! i = Some (s, cs) -> upd h h' s cs cs' ds ->
    world h' (<[i := (s, cs')]> L) /\ dead h' = dead h ++ ds.
  Proof.
    intros HW Hi (H1&H2&H3). split; [|done]. destruct (list_at L i _ Hi) as [Hp Hp'].
    eapply (world_step h h' L [(s, cs)] [(s, cs')]); [done|exact Hp|by apply lists_one|by rewrite !all_nodes_one|apply Hp'].
  Qed.
  Lemma exchange {X} (l : list X) i x y : l !! i = Some x -> x :: <[i := y]> l ≡ₚ y :: l.
  Proof. intros Hi. destruct (list_at l i x Hi) as [H1 H2]. rewrite (H2 y). rewrite H1 at 2. constructor. Qed.
  Lemma two_at {X} (l : list X) i j x y : i ≠ j -> l !! i = Some x -> l !! j = Some y ->
    exists r, l ≡ₚ [x; y] ++ r /\ forall x' y', <[j := y']> (<[i := x']> l) ≡ₚ [x'; y'] ++ r.
  Proof.
    intros Hij Hi Hj.
    assert (exists r, l ≡ₚ x :: y :: r) as [r Hr].
    { destruct (list_at l i x Hi) as [H1 _]. assert (y ∈ delete i l) as (r&Hr)%elem_of_Permutation; [|exists r; by rewrite H1, Hr].
      destruct (decide (j < i)).
      - apply (elem_of_list_lookup_2 _ j). by rewrite lookup_delete_lt.
      - apply (elem_of_list_lookup_2 _ (j - 1)). rewrite lookup_delete_ge by lia. by replace (S (j - 1)) with j by lia. }
    exists r. split; [done|]. intros x' y'. cbn.
    assert (y :: x :: <[j := y']> (<[i := x']> l) ≡ₚ y' :: x' :: x :: y :: r) as Hc.
    { rewrite <- Hr. rewrite <- (exchange l i x x' Hi). rewrite (Permutation_swap x y).
      rewrite (exchange (<[i := x']> l) j y y') by (by rewrite list_lookup_insert_ne). solve_Permutation. }
    apply (Permutation_cons_inv (a := x)), (Permutation_cons_inv (a := y)).
    etrans; [apply Permutation_swap|]. etrans; [etrans; [|exact Hc]|]; [solve_Permutation|solve_Permutation].
  Qed.
  Lemma world_two h L i j s cs t ds : world h L -> i ≠ j -> L !! i = Some (s, cs) -> L !! j = Some (t, ds) ->
    lists h [(s, cs); (t, ds)].
  Proof.
    intros [HL _] Hij Hi Hj. destruct (two_at L i j _ _ Hij Hi Hj) as (r&Hr&_).
    apply (lists_perm _ _ _ Hr) in HL. by apply lists_app in HL as (?&_).
  Qed.
  Lemma world_upd2 h h' L i j s cs t ds cs' ds' : world h L -> i ≠ j -> L !! i = Some (s, cs) -> L !! j = Some (t, ds) ->
    upd2 h h' s t cs ds cs' ds' ->
    world h' (<[j := (t, ds')]> (<[i := (s, cs')]> L)) /\ dead h' = dead h ++ [].
  Proof.
    intros HW Hij Hi Hj (H1&H2&H3). split; [|rewrite app_nil_r; apply H3].
    destruct (two_at L i j _ _ Hij Hi Hj) as (r&Hr&Hr').
    eapply (world_step h h' L [(s, cs); (t, ds)] [(s, cs'); (t, ds')]); [done|exact Hr|done|by rewrite !all_nodes_two|apply Hr'].
  Qed.

  Lemma nexts_ok h s c1 c2 c3 : is_list h s (c1 ++ c2 ++ c3) ->
    nexts h (hd s (c2 ++ c3).*1) (length c2) = Ok (hd s c3.*1).
  Proof.
    revert c1. induction c2 as [|[x a] c2 IH]; intros c1 HL; [done|]. cbn [app fmap list_fmap fst hd length nexts].
    rewrite (next_at h s c1 x a (c2 ++ c3) HL). cbn [rbind]. apply (IH (c1 ++ [(x, a)])). by rewrite <- app_assoc.
  Qed.
  Lemma prevs_ok h s c1 c2 c3 : is_list h s (c1 ++ c2 ++ c3) ->
    prevs h (hd s c3.*1) (length c2) = Ok (hd s (c2 ++ c3).*1).
  Proof.
    revert c3. induction c2 as [|[x a] c2 IH] using rev_ind; intros c3 HL; [done|].
    rewrite app_length, Nat.add_comm. cbn [length Nat.add prevs].
    rewrite <- app_assoc in HL. rewrite app_assoc in HL. rewrite app_assoc in HL.
    rewrite (prev_at h s ((c1 ++ c2) ++ [(x, a)]) c3 HL). cbn [rbind].
    rewrite fmap_app, lst_app. cbn [fmap list_fmap fst]. cbn.
    rewrite <- app_assoc. apply (IH ((x, a) :: c3)). rewrite <- !app_assoc in HL. done.
  Qed.
  Lemma hd_app_drop (s : loc) (cs : list cell) k : k <= length cs -> cs = take k cs ++ drop k cs /\ length (take k cs) = k.
  Proof. intros Hk. rewrite take_drop. split; [done|]. rewrite take_length. lia. Qed.
  Lemma position_ok h s cs k : is_list h s cs -> k <= length cs -> position h s k = Ok (hd s (drop k cs).*1).
  Proof.
    intros HL Hk. unfold position. rewrite (begin_ok _ _ _ HL). cbn [rbind]. unfold iter_advance.
    destruct (hd_app_drop s cs k Hk) as [E El]. destruct (0 <? Z.of_nat k)%Z eqn:E0.
    - rewrite Nat2Z.id. pose proof (nexts_ok h s [] (take k cs) (drop k cs)) as HN. rewrite take_drop, El in HN. apply HN.
      done.
    - assert (k = 0) as -> by lia. done.
  Qed.

  Lemma check_Some b u : check b = Some u -> b = true.
  Proof. by destruct b. Qed.
  Lemma arg_ok h L v a : world h L -> larg_val (vals L) v = Some a ->
    exists r, arg_ref h L.*1 v = Ok r /\ deref h r = Ok a /\
      match v with AVal _ => r = LVal a
      | AElem j k => exists s cs x, L !! j = Some (s, cs) /\ (x, a) ∈ cs /\ r = LNode x end.
  Proof.
    intros HW Ha. destruct v as [b|j k]; cbn in *.
    { injection Ha as ->. by exists (LVal a). }
    apply bind_Some in Ha as (l&Hl&Hk). apply vals_lookup in Hl as (s&cs&Hj&->).
    pose proof (world_in _ _ _ _ _ HW Hj) as HL. rewrite (handle_ok _ _ _ _ Hj). cbn [rbind].
    rewrite list_lookup_fmap in Hk. destruct (cs !! k) as [[x b]|] eqn:Ek; [|done]. cbn in Hk. injection Hk as ->.
    rewrite (position_ok h s cs k HL) by (apply lookup_lt_Some in Ek; lia). cbn [rbind].
    rewrite (drop_S _ _ _ Ek). cbn. exists (LNode x). split; [done|].
    assert ((x, a) ∈ cs) by (by eapply elem_of_list_lookup_2). split; [cbn; by eapply value_in|]. by exists s, cs, x.
  Qed.
  (** what one step of the client has to establish *)
  Definition goes h L o (ls' : list (list A)) (gone : list A) : Prop :=
    exists h' L', lop_run dflt alloc (h, L.*1) o = Ok (h', L'.*1) /\ world h' L' /\ vals L' = ls' /\ dead h' = dead h ++ gone.
  Lemma goes1 h L i s cs h' cs' ds o ls' gone : world h L -> L !! i = Some (s, cs) -> upd h h' s cs cs' ds ->
    lop_run dflt alloc (h, L.*1) o = Ok (h', L.*1) -> ls' = <[i := cs'.*2]> (vals L) -> gone = ds ->
    goes h L o ls' gone.
  Proof.
    intros HW Hi HU He -> ->. destruct (world_upd _ _ _ _ _ _ _ _ HW Hi HU) as [HW' Hd].
    exists h', (<[i := (s, cs')]> L). rewrite (fst_insert _ _ _ _ _ Hi). split; [done|]. split; [done|].
    split; [apply vals_insert|done].
  Qed.
  Lemma goes2 h L i j s cs t ds h' cs' ds' o ls' : world h L -> i ≠ j -> L !! i = Some (s, cs) -> L !! j = Some (t, ds) ->
    upd2 h h' s t cs ds cs' ds' ->
    lop_run dflt alloc (h, L.*1) o = Ok (h', L.*1) -> ls' = <[j := ds'.*2]> (<[i := cs'.*2]> (vals L)) ->
    goes h L o ls' [].
  Proof.
    intros HW Hij Hi Hj HU He ->. destruct (world_upd2 _ _ _ _ _ _ _ _ _ _ _ HW Hij Hi Hj HU) as [HW' Hd].
    exists h', (<[j := (t, ds')]> (<[i := (s, cs')]> L)).
    rewrite (fst_insert _ j t ds) by (by rewrite list_lookup_insert_ne). rewrite (fst_insert _ _ _ _ _ Hi).
    split; [done|]. split; [done|]. split; [|done]. by rewrite !vals_insert.
  Qed.
  Lemma goes_new h L h' s cs o ls' : world h L -> lists h' [(s, cs)] -> step h h' [] (nodes s cs) -> dead h' = dead h ->
    lop_run dflt alloc (h, L.*1) o = Ok (h', L.*1 ++ [s]) -> ls' = vals L ++ [cs.*2] -> goes h L o ls' [].
  Proof.
    intros HW HL Hs Hd He ->. exists h', (L ++ [(s, cs)]). split; [by rewrite fmap_app|]. split.
    - eapply (world_step h h' L [] [(s, cs)] L); [done..|by rewrite all_nodes_one|]. by rewrite Permutation_app_comm.
    - split; [|by rewrite app_nil_r]. unfold vals. by rewrite map_app.
  Qed.
  Ltac inv_spec H := repeat first
    [ let x := fresh "x" in let Hx := fresh "Hx" in apply bind_Some in H as (x & Hx & H)
    | progress simplify_eq/= ].
  Ltac use_list HW Hl s cs Hi HL := apply vals_lookup in Hl as (s&cs&Hi&->);
    pose proof (world_in _ _ _ _ _ HW Hi) as HL.
  Lemma seg (cs : list cell) m n : m <= n -> drop m cs = take (n - m) (drop m cs) ++ drop n cs.
  Proof.
    intros Hmn. rewrite <- (take_drop (n - m) (drop m cs)) at 1. f_equal. rewrite drop_drop. f_equal. lia.
  Qed.
  Lemma seg2 (cs : list cell) m n : m <= n -> cs = take m cs ++ take (n - m) (drop m cs) ++ drop n cs.
  Proof. intros Hmn. rewrite <- seg by done. by rewrite take_drop. Qed.
  Lemma splice_goes h L i k j m n ls' o : world h L -> splice_spec (vals L) i k j m n = Some ls' ->
    (forall s cs t ds h', L !! i = Some (s, cs) -> L !! j = Some (t, ds) -> is_list h s cs -> is_list h t ds ->
       k <= length cs -> m <= n <= length ds ->
       c_list_splice_range h (hd s (drop k cs).*1) t (hd t (drop m ds).*1) (hd t (drop n ds).*1) = Ok h' ->
       lop_run dflt alloc (h, L.*1) o = Ok (h', L.*1)) ->
    goes h L o ls' [].
  Proof.
    intros HW Hs Hrun. unfold splice_spec in Hs. apply bind_Some in Hs as (l&Hl&Hs). apply bind_Some in Hs as (l'&Hl'&Hs).
    apply bind_Some in Hs as (?&Hc&Hs).
    apply check_Some, andb_true_iff in Hc as [[Hc1%Nat.leb_le Hc2%Nat.leb_le]%andb_true_iff Hc3%Nat.leb_le].
    use_list HW Hl s cs Hi HL. use_list HW Hl' t ds Hj HLt. rewrite fmap_length in Hc1, Hc3.
    destruct (decide (i = j)) as [<-|Hij].
    - rewrite Hi in Hj. injection Hj as <- <-. clear HLt.
      destruct (k <? m) eqn:Ekm.
      + apply Nat.ltb_lt in Ekm. injection Hs as <-.
        pose proof (seg2 cs k m ltac:(lia)) as E1. rewrite (seg cs m n Hc2) in E1.
        destruct (splice_front h s (take k cs) (take (m - k) (drop k cs)) (take (n - m) (drop m cs)) (drop n cs)) as (h'&E&HU).
        { by rewrite <- E1. }
        { intros Hnil. apply (f_equal length) in Hnil. rewrite take_length, drop_length in Hnil. cbn in Hnil. lia. }
        rewrite <- E1 in HU. rewrite <- (seg cs m n Hc2), <- (seg cs k m) in E by lia.
        eapply (goes1 h L i s cs); [done..|exact HU|by eapply Hrun| |done].
        by rewrite !fmap_app, !fmap_take, !fmap_drop.
      + destruct (n <=? k) eqn:Enk; [|done]. apply Nat.leb_le in Enk. injection Hs as <-.
        pose proof (seg2 cs m n ltac:(lia)) as E1. rewrite (seg cs n k Enk) in E1.
        destruct (splice_back h s (take m cs) (take (n - m) (drop m cs)) (take (k - n) (drop n cs)) (drop k cs)) as (h'&E&HU).
        { by rewrite <- E1. }
        rewrite <- E1 in HU. rewrite <- (seg cs n k), <- (seg cs m n) in E by lia.
        eapply (goes1 h L i s cs); [done..|exact HU|by eapply Hrun| |done].
        by rewrite !fmap_app, !fmap_take, !fmap_drop.
    - injection Hs as <-. pose proof (world_two _ _ _ _ _ _ _ _ HW Hij Hi Hj) as HL2.
      destruct (splice_range_ok h s (take k cs) (drop k cs) t (take m ds) (take (n - m) (drop m ds)) (drop n ds)) as (h'&E&HU).
      { rewrite take_drop, <- seg2 by lia. done. }
      rewrite take_drop, <- seg2 in HU by lia. rewrite <- (seg ds m n) in E by lia.
      eapply (goes2 h L i j s cs t ds); [done..|exact HU|by eapply Hrun|].
      unfold seq_delete, seq_insert. by rewrite !fmap_app, !fmap_take, !fmap_drop.
  Qed.
  Lemma lop_ok h L o ls' gone : world h L -> lop_order o -> lop_spec dflt (vals L) o = Some (ls', gone) -> goes h L o ls' gone.
  Proof.
    intros HW Ho Hs. destruct o; cbn [lop_spec] in Hs.
    - (* create *) injection Hs as <- <-. pose proof (create_ok alloc Halloc h) as HC.
      destruct (c_list_create alloc h) as [h' s] eqn:E. destruct HC as (H1&H2&H3&_).
      eapply (goes_new h L h' s []); [done|by apply lists_one|done|done|cbn [lop_run]; by rewrite E|done].
    - (* create_from *) apply bind_Some in Hs as (?&Hc&Hs). apply check_Some in Hc. injection Hs as <- <-.
      destruct (create_from_ok dflt alloc Halloc h vs) as (h'&s&cs&E&H1&H2&H3&H4); [by destruct vs|].
      eapply (goes_new h L h' s cs); [done|by apply lists_one|done|done|cbn [lop_run]; by rewrite E|by rewrite H2].
    - (* copy *) apply bind_Some in Hs as (l&Hl&Hs). injection Hs as <- <-. use_list HW Hl s cs Hi HL.
      destruct (copy_ok dflt alloc Halloc h s cs HL) as (h'&s'&cs'&E&H1&H2&H3&H4).
      eapply (goes_new h L h' s' cs'); [done| |done|done|cbn [lop_run]; rewrite (handle_ok _ _ _ _ Hi); cbn [rbind]; by rewrite E|by rewrite H2].
      apply lists_two in H1 as (?&_). by apply lists_one.
    - (* assign *) apply bind_Some in Hs as (l&Hl&Hs). apply bind_Some in Hs as (l'&Hl'&Hs). use_list HW Hl s cs Hi HL.
      use_list HW Hl' t ds Hj HLt.
      destruct (decide (i = j)) as [<-|Hij].
      + injection Hs as <- <-. exists h, L. cbn [lop_run]. unfold on1. rewrite (handle_ok _ _ _ _ Hi). cbn [rbind].
        rewrite assign_self. cbn [rbind]. rewrite app_nil_r. done.
      + injection Hs as <- <-. pose proof (world_two _ _ _ _ _ _ _ _ HW Hij Hi Hj) as HL2.
        destruct (assign_ok dflt alloc Halloc h s cs t ds HL2) as (h'&cs'&E&HU&Hv).
        eapply (goes1 h L i s cs h' cs'); [done..| |by rewrite Hv|done].
        cbn [lop_run]. unfold on1. rewrite (handle_ok _ _ _ _ Hi). cbn [rbind]. rewrite (handle_ok _ _ _ _ Hj). cbn [rbind]. by rewrite E.
    - (* destroy *) apply bind_Some in Hs as (l&Hl&Hs). injection Hs as <- <-. use_list HW Hl s cs Hi HL.
      destruct (destroy_ok h s cs HL) as (h'&E&H1&H2). exists h', (delete i L).
      split; [cbn [lop_run]; rewrite (handle_ok _ _ _ _ Hi); cbn [rbind]; rewrite E; cbn [rbind]; by rewrite list_fmap_delete|].
      split; [|split; [unfold vals; change (map ?f ?l) with (f <$> l); by rewrite list_fmap_delete|done]].
      eapply (world_step h h' L [(s, cs)] [] (delete i L)); [done|apply (list_at L i _ Hi)|apply lists_nil|by rewrite all_nodes_one|done].
    - (* swap *) apply bind_Some in Hs as (l&Hl&Hs). apply bind_Some in Hs as (l'&Hl'&Hs). injection Hs as <- <-.
      use_list HW Hl s cs Hi HL. use_list HW Hl' t ds Hj HLt.
      exists h, (<[j := (s, cs)]> (<[i := (t, ds)]> L)).
      split; [cbn [lop_run]; rewrite (handle_ok _ _ _ _ Hi); cbn [rbind]; rewrite (handle_ok _ _ _ _ Hj); cbn [rbind]; by rewrite !list_fmap_insert|].
      split; [|split; [by rewrite !vals_insert|by rewrite app_nil_r]].
      destruct (decide (i = j)) as [<-|Hij].
      + rewrite Hi in Hj. injection Hj as <- <-. by rewrite list_insert_insert, list_insert_id.
      + destruct (two_at L i j _ _ Hij Hi Hj) as (r&Hr&Hr').
        eapply (world_step h h L [(s, cs); (t, ds)] [(t, ds); (s, cs)]); [done|exact Hr| |apply step_refl|apply Hr'].
        * eapply lists_perm; [|by eapply (world_two h L i j s cs t ds)]. solve_Permutation.
        * intros y. rewrite !all_nodes_two, !elem_of_app. tauto.
    - (* push_back *) apply bind_Some in Hs as (l&Hl&Hs). apply bind_Some in Hs as (a&Ha&Hs). injection Hs as <- <-.
      destruct (arg_ok _ _ _ _ HW Ha) as (r&Er&Hr&_). use_list HW Hl s cs Hi HL.
      destruct (push_back_ok dflt alloc Halloc h s cs r a HL Hr) as (h'&E&HU&_).
      eapply (goes1 h L i s cs); [done..|exact HU| |by rewrite fmap_app|done].
      cbn [lop_run]. unfold on1. rewrite (handle_ok _ _ _ _ Hi). cbn [rbind]. rewrite Er. cbn [rbind]. by rewrite E.
    - (* push_front *) apply bind_Some in Hs as (l&Hl&Hs). apply bind_Some in Hs as (a&Ha&Hs). injection Hs as <- <-.
      destruct (arg_ok _ _ _ _ HW Ha) as (r&Er&Hr&_). use_list HW Hl s cs Hi HL.
      destruct (push_front_ok dflt alloc Halloc h s cs r a HL Hr) as (h'&E&HU).
      eapply (goes1 h L i s cs); [done..|exact HU| |done|done].
      cbn [lop_run]. unfold on1. rewrite (handle_ok _ _ _ _ Hi). cbn [rbind]. rewrite Er. cbn [rbind]. by rewrite E.
    - (* pop_back *) apply bind_Some in Hs as (l&Hl&Hs). injection Hs as <- <-. use_list HW Hl s cs Hi HL.
      destruct (pop_back_ok h s cs HL) as (h'&E&HU).
      eapply (goes1 h L i s cs); [done..|exact HU| |by rewrite fmap_length, fmap_take|by rewrite fmap_length, fmap_drop].
      cbn [lop_run]. unfold on1. rewrite (handle_ok _ _ _ _ Hi). cbn [rbind]. by rewrite E.
    - (* pop_front *) apply bind_Some in Hs as (l&Hl&Hs). injection Hs as <- <-. use_list HW Hl s cs Hi HL.
      destruct (pop_front_ok h s cs HL) as (h'&E&HU).
      eapply (goes1 h L i s cs); [done..|exact HU| |by rewrite fmap_drop|by rewrite fmap_take].
      cbn [lop_run]. unfold on1. rewrite (handle_ok _ _ _ _ Hi). cbn [rbind]. by rewrite E.
    - (* insert *) apply bind_Some in Hs as (l&Hl&Hs). apply bind_Some in Hs as (a&Ha&Hs). apply bind_Some in Hs as (?&Hc&Hs).
      apply check_Some, Nat.leb_le in Hc. injection Hs as <- <-.
      destruct (arg_ok _ _ _ _ HW Ha) as (r&Er&Hr&_). use_list HW Hl s cs Hi HL. rewrite fmap_length in Hc.
      destruct (insert_ok dflt alloc Halloc h s (take k cs) (drop k cs) r a) as (h'&E&HU); [by rewrite take_drop|done|].
      rewrite take_drop in HU.
      eapply (goes1 h L i s cs); [done..|exact HU| | |done].
      + cbn [lop_run]. unfold on1. rewrite (handle_ok _ _ _ _ Hi). cbn [rbind]. rewrite (position_ok h s cs k HL Hc). cbn [rbind].
        rewrite Er. cbn [rbind]. by rewrite E.
      + unfold seq_insert. by rewrite fmap_app, fmap_cons, fmap_take, fmap_drop.
    - (* erase *) apply bind_Some in Hs as (l&Hl&Hs). apply bind_Some in Hs as (a&Ha&Hs). injection Hs as <- <-.
      use_list HW Hl s cs Hi HL. rewrite list_lookup_fmap in Ha. destruct (cs !! k) as [[x b]|] eqn:Ek; [|done].
      cbn in Ha. injection Ha as ->. pose proof (lookup_lt_Some _ _ _ Ek) as Hk.
      pose proof (take_drop_middle _ _ _ Ek) as Hcs.
      destruct (erase_ok h s (take k cs) x a (drop (S k) cs)) as (h'&E&HU); [by rewrite Hcs|]. rewrite Hcs in HU.
      eapply (goes1 h L i s cs); [done..|exact HU| | |done].
      + cbn [lop_run]. unfold on1. rewrite (handle_ok _ _ _ _ Hi). cbn [rbind]. rewrite (position_ok h s cs k HL) by lia. cbn [rbind].
        rewrite (drop_S _ _ _ Ek). cbn [fmap list_fmap fst hd]. by rewrite E.
      + unfold seq_delete. by rewrite fmap_app, fmap_take, fmap_drop.
    - (* erase_range *) apply bind_Some in Hs as (l&Hl&Hs). apply bind_Some in Hs as (?&Hc&Hs).
      apply check_Some, andb_true_iff in Hc as [Hc1%Nat.leb_le Hc2%Nat.leb_le]. injection Hs as <- <-.
      use_list HW Hl s cs Hi HL. rewrite fmap_length in Hc2.
      assert (cs = take k cs ++ take (m - k) (drop k cs) ++ drop m cs) as Hcs.
      { rewrite <- (take_drop k cs) at 1. f_equal. rewrite <- (take_drop (m - k) (drop k cs)) at 1. f_equal.
        rewrite drop_drop. f_equal. lia. }
      destruct (erase_range_ok h s (take k cs) (take (m - k) (drop k cs)) (drop m cs)) as (h'&E&HU); [by rewrite <- Hcs|].
      rewrite <- Hcs in HU.
      assert (take (m - k) (drop k cs) ++ drop m cs = drop k cs) as Hd.
      { rewrite <- (take_drop (m - k) (drop k cs)) at 2. f_equal. rewrite drop_drop. f_equal. lia. }
      rewrite Hd in E.
      eapply (goes1 h L i s cs); [done..|exact HU| | |].
      + cbn [lop_run]. unfold on1. rewrite (handle_ok _ _ _ _ Hi). cbn [rbind]. rewrite (position_ok h s cs k HL) by lia. cbn [rbind].
        rewrite (position_ok h s cs m HL) by lia. cbn [rbind]. by rewrite E.
      + unfold seq_delete. by rewrite fmap_app, fmap_take, fmap_drop.
      + by rewrite fmap_take, fmap_drop.
    - (* clear *) apply bind_Some in Hs as (l&Hl&Hs). injection Hs as <- <-. use_list HW Hl s cs Hi HL.
      destruct (clear_ok h s cs HL) as (h'&E&HU).
      eapply (goes1 h L i s cs); [done..|exact HU| |done|done].
      cbn [lop_run]. unfold on1. rewrite (handle_ok _ _ _ _ Hi). cbn [rbind]. by rewrite E.
    - (* resize *) apply bind_Some in Hs as (l&Hl&Hs). injection Hs as <- <-. use_list HW Hl s cs Hi HL.
      destruct (resize_ok dflt alloc Halloc h s cs n None dflt HL eq_refl) as (h'&new&E&HU&Hv).
      eapply (goes1 h L i s cs); [done..|exact HU| | |by rewrite fmap_drop].
      + cbn [lop_run]. unfold on1. rewrite (handle_ok _ _ _ _ Hi). cbn [rbind]. unfold c_list_resize. by rewrite E.
      + unfold seq_resize. by rewrite fmap_app, Hv, fmap_take, fmap_length.
    - (* resize_with_value *) apply bind_Some in Hs as (l&Hl&Hs). apply bind_Some in Hs as (a&Ha&Hs). injection Hs as <- <-.
      destruct (arg_ok _ _ _ _ HW Ha) as (r&Er&Hr&_). use_list HW Hl s cs Hi HL.
      destruct (resize_ok dflt alloc Halloc h s cs n (Some r) a HL Hr) as (h'&new&E&HU&Hv).
      eapply (goes1 h L i s cs); [done..|exact HU| | |by rewrite fmap_drop].
      + cbn [lop_run]. unfold on1. rewrite (handle_ok _ _ _ _ Hi). cbn [rbind]. rewrite Er. cbn [rbind]. by rewrite E.
      + unfold seq_resize. by rewrite fmap_app, Hv, fmap_take, fmap_length.
    - (* splice *) apply bind_Some in Hs as (l'&Hl'&Hs). apply bind_Some in Hs as (?&Hc&Hs).
      apply bind_Some in Hs as (r&Hr&Hs). injection Hs as -> <-.
      eapply splice_goes; [done|exact Hr|]. intros s cs t ds h' Hi Hj HL HLt H1 H2 E.
      rewrite (vals_lookup' _ _ _ _ Hj) in Hl'. injection Hl' as <-. rewrite fmap_length in E, H2. rewrite (drop_ge ds (length ds)) in E by lia.
      cbn [lop_run]. unfold on1. rewrite (handle_ok _ _ _ _ Hi). cbn [rbind]. rewrite (handle_ok _ _ _ _ Hj). cbn [rbind].
      rewrite (position_ok h s cs k HL) by lia. cbn [rbind]. unfold c_list_splice. unfold c_list_splice_range in E.
      rewrite (begin_ok _ _ _ HLt). cbn [fmap list_fmap hd drop] in E. rewrite (empty_ok _ _ _ HLt) in *. cbn [rbind] in *.
      rewrite drop_0 in E. case_bool_decide; cbn [rbind]; [injection E as ->; done|]. by rewrite E.
    - (* splice_from *) apply bind_Some in Hs as (l'&Hl'&Hs). apply bind_Some in Hs as (r&Hr&Hs). injection Hs as -> <-.
      eapply splice_goes; [done|exact Hr|]. intros s cs t ds h' Hi Hj HL HLt H1 H2 E.
      rewrite (vals_lookup' _ _ _ _ Hj) in Hl'. injection Hl' as <-. rewrite fmap_length in E, H2. rewrite (drop_ge ds (length ds)) in E by lia.
      cbn [lop_run]. unfold on1. rewrite (handle_ok _ _ _ _ Hi). cbn [rbind]. rewrite (handle_ok _ _ _ _ Hj). cbn [rbind].
      rewrite (position_ok h s cs k HL) by lia. cbn [rbind]. rewrite (position_ok h t ds m HLt) by lia. cbn [rbind].
      unfold c_list_splice_from. unfold c_list_splice_range in E. cbn [fmap list_fmap hd] in E. by rewrite E.
    - (* splice_range *) apply bind_Some in Hs as (r&Hr&Hs). injection Hs as -> <-.
      eapply splice_goes; [done|exact Hr|]. intros s cs t ds h' Hi Hj HL HLt H1 H2 E.
      cbn [lop_run]. unfold on1. rewrite (handle_ok _ _ _ _ Hi). cbn [rbind]. rewrite (handle_ok _ _ _ _ Hj). cbn [rbind].
      rewrite (position_ok h s cs k HL) by lia. cbn [rbind]. rewrite (position_ok h t ds m HLt) by lia. cbn [rbind].
      rewrite (position_ok h t ds n HLt) by lia. cbn [rbind]. by rewrite E.
    - (* merge *) apply bind_Some in Hs as (l&Hl&Hs). apply bind_Some in Hs as (l'&Hl'&Hs). apply bind_Some in Hs as (?&Hc&Hs).
      apply check_Some, negb_true_iff, Nat.eqb_neq in Hc. injection Hs as <- <-.
      use_list HW Hl s cs Hi HL. use_list HW Hl' t ds Hj HLt.
      pose proof (world_two _ _ _ _ _ _ _ _ HW Hc Hi Hj) as HL2. destruct (merge_ok comp h s cs t ds HL2) as (h'&E&HU).
      eapply (goes2 h L i j s cs t ds); [done..|exact HU| |by rewrite mrg_snd].
      cbn [lop_run]. unfold on1. rewrite (handle_ok _ _ _ _ Hi). cbn [rbind]. rewrite (handle_ok _ _ _ _ Hj). cbn [rbind]. by rewrite E.
    - (* sort *) apply bind_Some in Hs as (l&Hl&Hs). apply bind_Some in Hs as (?&Hc&Hs). apply check_Some in Hc.
      injection Hs as <- <-. use_list HW Hl s cs Hi HL. rewrite fmap_length in Hc. apply Z.ltb_lt in Hc. cbn in Ho.
      destruct (sort_ok alloc Halloc comp Ho h s cs HL Hc) as (h'&s'&cs'&E&H1&H2&H3&H4&H5&_&_).
      exists h', (<[i := (s', cs')]> L). split.
      { cbn [lop_run]. rewrite (handle_ok _ _ _ _ Hi). cbn [rbind]. rewrite E. cbn [rbind]. by rewrite list_fmap_insert. }
      split.
      { destruct (list_at L i _ Hi) as [Hp Hp'].
        eapply (world_step h h' L [(s, cs)] [(s', cs')]); [done|exact Hp|by apply lists_one|by rewrite !all_nodes_one|apply Hp']. }
      split; [|by rewrite app_nil_r]. rewrite vals_insert. f_equal. apply (seq_sort_unique comp Ho).
      + by apply on2_sorted.
      + by apply on2_stable.
    - (* reverse *) apply bind_Some in Hs as (l&Hl&Hs). injection Hs as <- <-. use_list HW Hl s cs Hi HL.
      destruct (reverse_ok h s cs HL) as (h'&E&HU).
      eapply (goes1 h L i s cs); [done..|exact HU| | |done].
      + cbn [lop_run]. unfold on1. rewrite (handle_ok _ _ _ _ Hi). cbn [rbind]. by rewrite E.
      + f_equal. symmetry. exact (map_rev snd cs).
    - (* remove *) apply bind_Some in Hs as (l&Hl&Hs). apply bind_Some in Hs as (a&Ha&Hs). apply bind_Some in Hs as (?&Hc&Hs).
      apply check_Some in Hc. injection Hs as <- <-.
      destruct (arg_ok _ _ _ _ HW Ha) as (r&Er&Hr&Hv). use_list HW Hl s cs Hi HL.
      destruct (remove_ok eqb h s cs r a HL Hr) as (h'&E&HU).
      { destruct v as [b|j k]; [by subst r|]. destruct Hv as (t&ds&y&Hj&Hy&->).
        apply negb_true_iff, Nat.eqb_neq in Hc. pose proof (world_two _ _ _ _ _ _ _ _ HW Hc Hj Hi) as (_&_&Hd)%lists_two.
        apply Hd. unfold nodes. right. apply elem_of_list_fmap. by exists (y, a). }
      eapply (goes1 h L i s cs); [done..|exact HU| | |done].
      + cbn [lop_run]. unfold on1. rewrite (handle_ok _ _ _ _ Hi). cbn [rbind]. rewrite Er. cbn [rbind]. by rewrite E.
      + by rewrite (filter_snd (fun x => negb (eqb x a))).
    - (* remove_if *) apply bind_Some in Hs as (l&Hl&Hs). injection Hs as <- <-. use_list HW Hl s cs Hi HL.
      destruct (remove_if_ok p h s cs HL) as (h'&E&HU).
      eapply (goes1 h L i s cs); [done..|exact HU| | |done].
      + cbn [lop_run]. unfold on1. rewrite (handle_ok _ _ _ _ Hi). cbn [rbind]. by rewrite E.
      + by rewrite (filter_snd (fun x => negb (p x))).
    - (* unique *) apply bind_Some in Hs as (l&Hl&Hs). injection Hs as <- <-. use_list HW Hl s cs Hi HL.
      destruct (unique_if_ok pred h s cs HL) as (h'&E&HU).
      eapply (goes1 h L i s cs); [done..|exact HU| | |done].
      + cbn [lop_run]. unfold on1. rewrite (handle_ok _ _ _ _ Hi). cbn [rbind]. by rewrite E.
      + by rewrite unique_snd.
  Qed.
  Lemma lhist_ok os : forall h L ls' gone, world h L -> Forall lop_order os -> lhist_spec dflt (vals L) os = Some (ls', gone) ->
    exists h' L', lhist_run dflt alloc (h, L.*1) os = Ok (h', L'.*1) /\ world h' L' /\ vals L' = ls' /\ dead h' = dead h ++ gone.
  Proof.
    induction os as [|o os IH]; intros h L ls' gone HW Ho Hs; cbn [lhist_run lhist_spec] in *.
    { injection Hs as <- <-. exists h, L. by rewrite app_nil_r. }
    apply bind_Some in Hs as ([l1 g1]&H1&Hs). apply bind_Some in Hs as ([l2 g2]&H2&Hs). injection Hs as <- <-.
    apply Forall_cons in Ho as [Ho Hos]. destruct (lop_ok _ _ _ _ _ HW Ho H1) as (h1&L1&E1&HW1&<-&Hd1).
    destruct (IH _ _ _ _ HW1 Hos H2) as (h2&L2&E2&HW2&<-&Hd2). exists h2, L2. rewrite E1. cbn [rbind].
    split; [done|]. split; [done|]. split; [done|]. rewrite Hd2, Hd1. by rewrite app_assoc.
  Qed.
  Lemma world0 : world (heap0 (A := A)) [].
  Proof. split; [apply lists_nil|]. intros x. cbn. rewrite lookup_empty. split; [by intros []|]. intros Hx. by apply elem_of_nil in Hx. Qed.

  (** ** iterator arithmetic *)
  Lemma pos_split (cs : list cell) i j : i <= j <= length cs ->
    cs = take i cs ++ take (j - i) (drop i cs) ++ drop j cs /\ drop i cs = take (j - i) (drop i cs) ++ drop j cs /\
    length (take (j - i) (drop i cs)) = j - i.
  Proof.
    intros H. split_and!; [apply seg2; lia|apply seg; lia|]. rewrite take_length, drop_length. lia.
  Qed.
  Lemma nexts_pos h s cs i j : is_list h s cs -> i <= j <= length cs ->
    nexts h (hd s (drop i cs).*1) (j - i) = Ok (hd s (drop j cs).*1).
  Proof.
    intros HL Hij. destruct (pos_split cs i j Hij) as (E1&E2&E3). 
    pose proof (nexts_ok h s (take i cs) (take (j - i) (drop i cs)) (drop j cs)) as HN. rewrite <- E1, <- E2, E3 in HN. by apply HN.
  Qed.
  Lemma prevs_pos h s cs i j : is_list h s cs -> i <= j <= length cs ->
    prevs h (hd s (drop j cs).*1) (j - i) = Ok (hd s (drop i cs).*1).
  Proof.
    intros HL Hij. destruct (pos_split cs i j Hij) as (E1&E2&E3). 
    pose proof (prevs_ok h s (take i cs) (take (j - i) (drop i cs)) (drop j cs)) as HN. rewrite <- E1, <- E2, E3 in HN. by apply HN.
  Qed.
  Lemma distance_pos h s cs i j fuel : is_list h s cs -> i <= j <= length cs -> j - i < fuel ->
    distance fuel h (hd s (drop i cs).*1) (hd s (drop j cs).*1) = Ok (j - i).
  Proof.
    intros HL Hij Hf. destruct (pos_split cs i j Hij) as (E1&E2&E3). 
    pose proof (distance_ok h s (take i cs) (take (j - i) (drop i cs)) (drop j cs) fuel) as HN.
    rewrite <- E1, <- E2, E3 in HN. by apply HN.
  Qed.
  Lemma reverse_distance_pos h s cs i j fuel : is_list h s cs -> i <= j <= length cs -> j - i < fuel ->
    reverse_distance fuel h (hd s (drop j cs).*1) (hd s (drop i cs).*1) = Ok (j - i).
  Proof.
    intros HL Hij. revert fuel. remember (j - i) as n eqn:En. revert j Hij En. induction n as [|n IH]; intros j Hij En [|f] Hf; try lia; cbn.
    - assert (j = i) as -> by lia. by rewrite decide_True.
    - destruct (lookup_lt_is_Some_2 cs (j - 1)) as [[x a] Hx]; [lia|].
      rewrite decide_False.
      2:{ intros Heq. symmetry in Heq. pose proof (pos_split cs i j Hij) as (E1&E2&E3). rewrite E2 in Heq.
          apply (pos_inj h s (take i cs)) in Heq; [rewrite Heq in E3; cbn in E3; lia|]. by rewrite <- E1. }
      pose proof (prevs_pos h s cs (j - 1) j HL ltac:(lia)) as HP. replace (j - (j - 1)) with 1 in HP by lia.
      cbn in HP. destruct (prev h (hd s (drop j cs).*1)) as [y| |] eqn:Ey; cbn in HP; try done. injection HP as ->.
      cbn [rbind]. rewrite (IH (j - 1)); [done|lia..].
  Qed.
  (** going on past the end, the iterator passes through end() to the beginning *)
  Lemma distance_wrap h s cs i j fuel : is_list h s cs -> j < i <= length cs -> length cs < fuel ->
    distance fuel h (hd s (drop i cs).*1) (hd s (drop j cs).*1) = Ok (S (length cs) - (i - j)).
  Proof.
    intros HL Hij.
    assert (forall n fuel', n = length cs - i -> n + S j < fuel' ->
      distance fuel' h (hd s (drop i cs).*1) (hd s (drop j cs).*1) = Ok (n + S j)) as HW.
    { intros n. revert i Hij. induction n as [|n IH]; intros i Hij [|f] Hn Hf; try lia.
      - assert (i = length cs) as -> by lia. rewrite (drop_ge cs (length cs)) by lia. cbn [fmap list_fmap hd distance].
        rewrite decide_False.
        2:{ destruct (lookup_lt_is_Some_2 cs j) as [[x a] Hx]; [lia|]. rewrite (drop_S _ _ _ Hx). cbn.
            intros <-. destruct HL as (Hnd&_). unfold nodes in Hnd. apply NoDup_cons in Hnd as [Hni _]. apply Hni.
            apply elem_of_list_fmap. exists (s, a). split; [done|]. by eapply elem_of_list_lookup_2. }
        rewrite (begin_ok _ _ _ HL). cbn [rbind].
        pose proof (distance_pos h s cs 0 j f HL ltac:(lia) ltac:(lia)) as HD. rewrite drop_0, Nat.sub_0_r in HD.
        rewrite HD. done.
      - destruct (lookup_lt_is_Some_2 cs i) as [[x a] Hx]; [lia|]. cbn [distance].
        rewrite decide_False.
        2:{ pose proof (pos_split cs j i ltac:(lia)) as (E1&E2&E3). intros Heq. symmetry in Heq. rewrite E2 in Heq.
            apply (pos_inj h s (take j cs)) in Heq; [rewrite Heq in E3; cbn in E3; lia|]. by rewrite <- E1. }
        pose proof (nexts_pos h s cs i (S i) HL ltac:(lia)) as HP. replace (S i - i) with 1 in HP by lia. cbn in HP.
        destruct (next h (hd s (drop i cs).*1)) as [y| |] eqn:Ey; cbn in HP; try done. injection HP as ->.
        cbn [rbind]. rewrite (IH (S i)); [done|lia..]. }
    intros Hf. rewrite (HW (length cs - i)) by lia. f_equal. lia.
  Qed.
  Lemma advance_ok h s cs i (n : Z) : is_list h s cs -> i <= length cs -> (0 <= Z.of_nat i + n <= Z.of_nat (length cs))%Z ->
    iter_advance h (hd s (drop i cs).*1) n = Ok (hd s (drop (Z.to_nat (Z.of_nat i + n)) cs).*1).
  Proof.
    intros HL Hi Hn. unfold iter_advance. destruct (0 <? n)%Z eqn:E.
    - rewrite <- (nexts_pos h s cs i (Z.to_nat (Z.of_nat i + n)) HL) by lia. f_equal. lia.
    - rewrite <- (prevs_pos h s cs (Z.to_nat (Z.of_nat i + n)) i HL) by lia. f_equal. lia.
  Qed.
  Lemma reverse_advance_ok h s cs i (n : Z) : is_list h s cs -> i <= length cs -> (0 <= Z.of_nat i - n <= Z.of_nat (length cs))%Z ->
    reverse_iter_advance h (hd s (drop i cs).*1) n = Ok (hd s (drop (Z.to_nat (Z.of_nat i - n)) cs).*1).
  Proof.
    intros HL Hi Hn. unfold reverse_iter_advance. destruct (0 <? n)%Z eqn:E.
    - rewrite <- (prevs_pos h s cs (Z.to_nat (Z.of_nat i - n)) i HL) by lia. f_equal. lia.
    - rewrite <- (nexts_pos h s cs i (Z.to_nat (Z.of_nat i - n)) HL) by lia. f_equal. lia.
  Qed.
End run.

(** ** every element created is alive or destroyed, once *)
Section conserve.
  Context {A : Type} (dflt : A).
  Implicit Types ls : list (list A).
  Lemma concat_insert ls i l l' : ls !! i = Some l -> l ++ concat (<[i := l']> ls) ≡ₚ l' ++ concat ls.
  Proof.
    intros Hi. rewrite insert_take_drop by (by eapply lookup_lt_Some). rewrite <- (take_drop_middle _ _ _ Hi) at 3.
    rewrite !concat_app. cbn [concat]. solve_Permutation.
  Qed.
  Lemma concat_insert2 ls i j l1 l2 l1' l2' : i ≠ j -> ls !! i = Some l1 -> ls !! j = Some l2 ->
    l1 ++ l2 ++ concat (<[j := l2']> (<[i := l1']> ls)) ≡ₚ l1' ++ l2' ++ concat ls.
  Proof.
    intros Hij Hi Hj. rewrite (concat_insert (<[i := l1']> ls) j l2 l2') by (by rewrite list_lookup_insert_ne).
    rewrite Permutation_app_swap_app. rewrite (concat_insert ls i l1 l1' Hi). by rewrite Permutation_app_swap_app.
  Qed.
  Lemma filter_split (p : A -> bool) l : l ≡ₚ List.filter (fun x => negb (p x)) l ++ List.filter p l.
  Proof.
    induction l as [|x l IH]; [done|]. cbn. destruct (p x); cbn; [rewrite <- Permutation_middle|]; by rewrite <- IH.
  Qed.
  Lemma unique_split pred (l : list A) : l ≡ₚ unique_spec pred l ++ seq_unique_gone pred l.
  Proof.
    destruct l as [|x l]; [done|]. cbn. constructor. revert x. induction l as [|y l IH]; intros x; cbn; [done|].
    destruct (pred x y); cbn; [rewrite <- Permutation_middle|]; by rewrite <- IH.
  Qed.
  Lemma conserve1 ls i l l' add gone : ls !! i = Some l -> l ++ add ≡ₚ l' ++ gone ->
    concat ls ++ add ≡ₚ concat (<[i := l']> ls) ++ gone.
  Proof.
    intros Hi Hp. apply (Permutation_app_inv_l l). rewrite (app_assoc _ (concat (<[_ := _]> _))), (concat_insert ls i l l' Hi).
    rewrite (Permutation_app_comm (concat ls) add), (app_assoc l), Hp. solve_Permutation.
  Qed.
  Lemma conserve2 ls i j l1 l2 l1' l2' : i ≠ j -> ls !! i = Some l1 -> ls !! j = Some l2 -> l1 ++ l2 ≡ₚ l1' ++ l2' ->
    concat ls ++ [] ≡ₚ concat (<[j := l2']> (<[i := l1']> ls)) ++ [].
  Proof.
    intros Hij Hi Hj Hp. rewrite !app_nil_r. apply (Permutation_app_inv_l (l1 ++ l2)).
    etrans; [by rewrite Hp|]. rewrite <- !app_assoc. symmetry. by apply concat_insert2.
  Qed.
  Lemma seq_seg (l : list A) m n : m <= n -> l ≡ₚ take m l ++ take (n - m) (drop m l) ++ drop n l.
  Proof.
    intros H. rewrite <- (take_drop m l) at 1. f_equiv. rewrite <- (take_drop (n - m) (drop m l)) at 1. f_equiv.
    rewrite drop_drop. by replace (m + (n - m)) with n by lia.
  Qed.
  Lemma splice_conserve ls i k j m n ls' : splice_spec ls i k j m n = Some ls' -> concat ls ++ [] ≡ₚ concat ls' ++ [].
  Proof.
    intros Hs. unfold splice_spec in Hs. apply bind_Some in Hs as (l&Hl&Hs). apply bind_Some in Hs as (l'&Hl'&Hs).
    apply bind_Some in Hs as (?&Hc&Hs).
    apply check_Some, andb_true_iff in Hc as [[Hc1%Nat.leb_le Hc2%Nat.leb_le]%andb_true_iff Hc3%Nat.leb_le].
    destruct (decide (i = j)) as [<-|Hij].
    - rewrite Hl in Hl'. injection Hl' as <-. destruct (k <? m) eqn:E1; [|destruct (n <=? k) eqn:E2; [|done]].
      + apply Nat.ltb_lt in E1. injection Hs as <-. apply (conserve1 ls i l); [done|]. rewrite !app_nil_r.
        rewrite (seq_seg l k m) at 1 by lia. f_equiv.
        assert (drop m l = take (n - m) (drop m l) ++ drop n l) as -> by
          (rewrite <- (take_drop (n - m) (drop m l)) at 1; f_equal; rewrite drop_drop; f_equal; lia).
        rewrite (take_app_alt (take (n - m) (drop m l))) by (rewrite take_length, drop_length; lia). solve_Permutation.
      + apply Nat.leb_le in E2. injection Hs as <-. apply (conserve1 ls i l); [done|]. rewrite !app_nil_r.
        rewrite (seq_seg l m n) at 1 by lia. f_equiv.
        assert (drop n l = take (k - n) (drop n l) ++ drop k l) as -> by
          (rewrite <- (take_drop (k - n) (drop n l)) at 1; f_equal; rewrite drop_drop; f_equal; lia).
        rewrite (take_app_alt (take (k - n) (drop n l))) by (rewrite take_length, drop_length; lia). solve_Permutation.
    - injection Hs as <-. eapply conserve2; [done..|]. unfold seq_insert, seq_delete.
      rewrite (seq_seg l' m n) at 1 by lia. rewrite <- (take_drop k l) at 1. solve_Permutation.
  Qed.
  Lemma lop_conserve ls o ls' gone : lop_order o -> lop_spec dflt ls o = Some (ls', gone) -> concat ls ++ lop_added dflt ls o ≡ₚ concat ls' ++ gone.
  Proof.
    intros Ho Hs.
    assert (forall v a, larg_val ls v = Some a -> match larg_val ls v with Some a => [a] | None => [] end = [a]) as Harg by (by intros v a ->).
    destruct o; cbn [lop_spec lop_added] in *; repeat (apply bind_Some in Hs as (?&?&Hs));
      repeat match goal with
      | H : check _ = Some _ |- _ => apply check_Some in H
      | H : larg_val _ _ = Some _ |- _ => rewrite (Harg _ _ H); clear H
      end; try (injection Hs as <- <-).
    - rewrite concat_app. cbn. by rewrite !app_nil_r.
    - rewrite concat_app. cbn. by rewrite !app_nil_r.
    - rewrite H. rewrite concat_app. cbn. by rewrite !app_nil_r.
    - rewrite H0. destruct (decide (i = j)); injection Hs as <- <-; [by rewrite !app_nil_r|]. cbn.
      apply (conserve1 ls i x); [done|]. by rewrite Permutation_app_comm.
    - rewrite app_nil_r. rewrite (Permutation_app_comm _ x). rewrite delete_take_drop.
      rewrite <- (take_drop_middle _ _ _ H) at 1. rewrite !concat_app. cbn. solve_Permutation.
    - destruct (decide (i = j)) as [<-|Hij].
      + rewrite H in H0. injection H0 as <-. by rewrite list_insert_insert, list_insert_id.
      + apply (conserve2 ls i j x x0); [done..|]. by rewrite Permutation_app_comm.
    - apply (conserve1 ls i x); [done|]. by rewrite app_nil_r.
    - apply (conserve1 ls i x); [done|]. by rewrite app_nil_r, <- Permutation_cons_append.
    - apply (conserve1 ls i x); [done|]. by rewrite app_nil_r, take_drop.
    - apply (conserve1 ls i x); [done|]. rewrite app_nil_r. rewrite <- (take_drop 1 x) at 1. apply Permutation_app_comm.
    - apply (conserve1 ls i x); [done|]. rewrite app_nil_r. unfold seq_insert. rewrite <- (take_drop k x) at 1. solve_Permutation.
    - apply (conserve1 ls i x); [done|]. rewrite app_nil_r. unfold seq_delete. rewrite <- (take_drop_middle _ _ _ H0) at 1. solve_Permutation.
    - apply (conserve1 ls i x); [done|]. rewrite app_nil_r. unfold seq_delete.
      apply andb_true_iff in H0 as [H0%Nat.leb_le _]. rewrite (seq_seg x k m) at 1 by lia. solve_Permutation.
    - apply (conserve1 ls i x); [done|]. by rewrite app_nil_r.
    - rewrite H. cbn. apply (conserve1 ls i x); [done|]. unfold seq_resize. rewrite <- (take_drop n x) at 1. solve_Permutation.
    - rewrite H. cbn. apply (conserve1 ls i x); [done|]. unfold seq_resize.
      replace (concat (replicate (n - length x) [x0])) with (replicate (n - length x) x0) by (induction (n - length x); cbn; by f_equal).
      rewrite <- (take_drop n x) at 1. solve_Permutation.
    - by eapply splice_conserve.
    - by eapply splice_conserve.
    - by eapply splice_conserve.
    - apply negb_true_iff, Nat.eqb_neq in H1. apply (conserve2 ls i j x x0); [done..|]. by rewrite mrg_perm, app_nil_r.
    - apply (conserve1 ls i x); [done|]. rewrite !app_nil_r. by destruct (seq_sort_ok comp Ho x) as [_ [Hp _]].
    - apply (conserve1 ls i x); [done|]. rewrite !app_nil_r. apply Permutation_rev.
    - apply (conserve1 ls i x); [done|]. rewrite app_nil_r. apply filter_split.
    - apply (conserve1 ls i x); [done|]. rewrite app_nil_r. apply filter_split.
    - apply (conserve1 ls i x); [done|]. rewrite app_nil_r. apply unique_split.
  Qed.
  Lemma lhist_conserve os : forall ls ls' gone, Forall lop_order os -> lhist_spec dflt ls os = Some (ls', gone) ->
    concat ls ++ lhist_added dflt ls os ≡ₚ concat ls' ++ gone.
  Proof.
    induction os as [|o os IH]; intros ls ls' gone Ho Hs; cbn [lhist_spec lhist_added] in *; [by injection Hs as <- <-|].
    apply bind_Some in Hs as ([l1 g1]&H1&Hs). apply bind_Some in Hs as ([l2 g2]&H2&Hs). injection Hs as <- <-.
    apply Forall_cons in Ho as [Ho Hos]. rewrite H1. pose proof (lop_conserve _ _ _ _ Ho H1) as Hc. pose proof (IH _ _ _ Hos H2) as Hc2.
    cbn [fst snd] in *. rewrite app_assoc, Hc. rewrite <- app_assoc, (Permutation_app_comm g1), app_assoc, Hc2. solve_Permutation.
  Qed.
End conserve.
