(** IterLift.v — running an iterator program on containers, given what it does on flat cells. *)
From stdpp Require Import list gmap.
From Verif Require Import Base Spec Iter IterFlat IterWp IterWorld SpecIter IterWorldProofs.
From stdpp Require Import list.

Section lift.
  Context {A : Type} {CK : Checked} `{Inhabited A}.
  Implicit Types (M : cmem A) (S : gmap iid cpos) (qs : group A).

  (** the group with one more entry for each iterator object *)
  Definition loose S : group A := (fun xp => (CLoose xp.2, [xp.2], [])) <$> map_to_list S.
  Definition full_group qs S : group A := qs ++ loose S.
  Definition flags qs (fl : nat -> bool) (a : nat) : bool := fl a && (a <? length qs).
  Definition lay qs fl S : layout := layout_of (flags qs fl) (full_group qs S).
  Definition posns qs S : list (list cpos) := its_of (full_group qs S).
  (** the relation between flat and real iterator objects *)
  Definition wrel qs fl S : gmap iid nat -> gmap iid cpos -> Prop := srel (cworld A) (lay qs fl S) (posns qs S).
  (** the same, and every object is at a position of a sequence *)
  Definition irel qs fl S (s : gmap iid nat) (S' : gmap iid cpos) : Prop := wrel qs fl S s S' /\ settled (lay qs fl S) s.

  Lemma loose_at S n q : loose S !! n = Some q -> exists x p, map_to_list S !! n = Some (x, p) /\ q = (CLoose p, [p], []).
  Proof. intros ([x p]&H1&->)%fmap_lookup_Some. eauto. Qed.
  Lemma full_at qs S a q : qs !! a = Some q -> full_group qs S !! a = Some q.
  Proof. intros Ha. unfold full_group. by rewrite lookup_app_l by (by eapply lookup_lt_Some). Qed.
  Lemma full_shown M qs S : Forall (shown M) qs -> forall c ps vs, (c, ps, vs) ∈ full_group qs S -> shows M c ps vs.
  Proof.
    intros HF c ps vs [Hin|Hin]%elem_of_app.
    - rewrite Forall_forall in HF. apply (HF _ Hin).
    - apply elem_of_list_fmap in Hin as ([x p]&E&_). injection E as -> -> ->. done.
  Qed.
  (** the containers that are written are mutable and distinct from the others *)
  Definition written_ok qs (fl : nat -> bool) : Prop :=
    forall a q, qs !! a = Some q -> fl a = true -> mutable q.1.1 = true /\ obj_of q.1.1 <> ONone /\
      forall b q', qs !! b = Some q' -> b <> a -> obj_of q'.1.1 <> obj_of q.1.1.
  Lemma full_written qs fl S : written_ok qs fl ->
    forall a c ps vs, full_group qs S !! a = Some (c, ps, vs) -> flags qs fl a = true -> mutable c = true /\
    forall b c' ps' vs', full_group qs S !! b = Some (c', ps', vs') -> b <> a -> obj_of c' <> obj_of c.
  Proof.
    intros HW a c ps vs Ha [Hf Hl]%andb_true_iff. apply Nat.ltb_lt in Hl. unfold full_group in Ha.
    rewrite lookup_app_l in Ha by done. destruct (HW _ _ Ha Hf) as (H1&H2&H3). cbn [fst snd] in H1, H2, H3. split; [done|].
    intros b c' ps' vs' Hb Hne. unfold full_group in Hb.
    apply lookup_app_Some in Hb as [Hb|[Hlb Hb]].
    - by apply (H3 _ _ Hb).
    - apply loose_at in Hb as (x&p&_&[= -> -> ->]). cbn [obj_of]. congruence.
  Qed.
  Lemma loc_q qs fl S a q o : qs !! a = Some q -> o <= length q.2 ->
    loc (lay qs fl S) (base (lay qs fl S) a + o) = Some (a, o, Seqd (length q.2) (cat_of q.1.1) (kind_of q.1.1) (fl a) (strays q.1.1)).
  Proof.
    intros Ha Ho. apply loc_base; [|done]. unfold lay, layout_of. rewrite list_lookup_imap, (full_at _ _ _ _ Ha). cbn.
    f_equal. f_equal. unfold flags. rewrite (proj2 (Nat.ltb_lt _ _)) by (by eapply lookup_lt_Some). by rewrite andb_true_r.
  Qed.
  (** where the iterator objects are on flat cells *)
  Definition where_ qs fl S (pl : list (iid * (nat * nat))) (x : iid) (p : cpos) : option nat :=
    match (list_to_map pl : gmap iid (nat * nat)) !! x with
    | Some (a, o) => Some (base (lay qs fl S) a + o)
    | None => match list_find (fun xp => xp.1 = x) (map_to_list S) with
              | Some (n, _) => Some (base (lay qs fl S) (length qs + n))
              | None => None end
    end.
  Definition flat_of qs fl S pl : gmap iid nat := map_imap (where_ qs fl S pl) S.
  Definition placed qs S (pl : list (iid * (nat * nat))) : Prop :=
    forall x a o, (x, (a, o)) ∈ pl ->
      (exists q, qs !! a = Some q /\ at_pos S q x o) /\ forall a' o', (x, (a', o')) ∈ pl -> (a, o) = (a', o').
  Lemma flat_of_rel M qs fl S pl : Forall (shown M) qs -> written_ok qs fl -> placed qs S pl ->
    irel qs fl S (flat_of qs fl S pl) S /\
    forall x a o, (x, (a, o)) ∈ pl -> flat_of qs fl S pl !! x = Some (base (lay qs fl S) a + o).
  Proof.
    intros HF HW HP.
    pose proof (group_view M (full_group qs S) (flags qs fl) (full_shown _ _ _ HF) (full_written _ _ _ HW)) as HV.
    assert (forall x a o, (x, (a, o)) ∈ pl -> (list_to_map pl : gmap iid (nat * nat)) !! x = Some (a, o)) as Hlm.
    { intros x a o Hin. apply elem_of_list_to_map_1'; [|done]. intros [a' o'] Hin'. by apply (proj2 (HP x a o Hin)). }
    assert (forall x a o, (x, (a, o)) ∈ pl -> flat_of qs fl S pl !! x = Some (base (lay qs fl S) a + o)) as Hfl.
    { intros x a o Hin. unfold flat_of. rewrite map_lookup_imap.
      destruct (HP x a o Hin) as [(q&_&(p&_&Hp))_]. rewrite Hp. cbn. unfold where_. by rewrite (Hlm _ _ _ Hin). }
    split; [|done].
    assert (wrel qs fl S (flat_of qs fl S pl) S) as Hwr.
    2:{ split; [done|]. intros x k Hk. 
        destruct (S !! x) as [p|] eqn:Hx; [|unfold flat_of in Hk; by rewrite map_lookup_imap, Hx in Hk].
        unfold flat_of in Hk. rewrite map_lookup_imap, Hx in Hk. cbn in Hk. unfold where_ in Hk.
        destruct ((list_to_map pl : gmap iid (nat * nat)) !! x) as [[a o]|] eqn:E.
        - injection Hk as <-. apply elem_of_list_to_map_2 in E. destruct (HP _ _ _ E) as [(q&Hq&(p'&Hp'&Hx'))_].
          rewrite (loc_q qs fl S a q o Hq); [done|]. apply lookup_lt_Some in Hp'.
          assert (shown M q) as Hsq by (rewrite Forall_forall in HF; apply HF; by eapply elem_of_list_lookup_2).
          rewrite (s_len M q.1.1 _ q.2) in Hp'; [lia|]. by apply shows_view.
        - destruct (list_find (fun xp => xp.1 = x) (map_to_list S)) as [[n [y q]]|] eqn:El; [|done]. injection Hk as <-.
          apply list_find_Some in El as (El&_&_). rewrite <- (Nat.add_0_r (base _ _)).
          rewrite (loc_base _ _ (Seqd 0 (ccat q) (ckind q) (flags qs fl (length qs + n)) (strays (CLoose q)))); [done| |cbn; lia].
          unfold lay, layout_of. rewrite list_lookup_imap. unfold full_group. rewrite lookup_app_r by lia.
          replace (length qs + n - length qs) with n by lia. unfold loose. by rewrite list_lookup_fmap, El. }
    intros x. cbn [cworld w_pos]. destruct (S !! x) as [p|] eqn:Hx.
    2:{ unfold flat_of. by rewrite map_lookup_imap, Hx. }
    destruct ((list_to_map pl : gmap iid (nat * nat)) !! x) as [[a o]|] eqn:E.
    - apply elem_of_list_to_map_2 in E. rewrite (Hfl _ _ _ E). destruct (HP _ _ _ E) as [(q&Hq&(p'&Hp'&Hx'))_].
      rewrite Hx in Hx'. injection Hx' as <-. eapply (rel_at _ _ _ _ HV).
      + unfold lay, layout_of. rewrite list_lookup_imap, (full_at _ S _ _ Hq). done.
      + unfold its_of. by rewrite list_lookup_fmap, (full_at _ S _ _ Hq).
      + done.
    - unfold flat_of. rewrite map_lookup_imap, Hx. cbn. unfold where_. rewrite E.
      destruct (list_find (fun xp => xp.1 = x) (map_to_list S)) as [[n [y q]]|] eqn:El.
      2:{ apply list_find_None in El. rewrite Forall_forall in El. apply (El (x, p)); [|done]. by apply elem_of_map_to_list. }
      apply list_find_Some in El as (El&Ey&_). cbn in Ey. subst y.
      assert (q = p) as ->. { apply elem_of_list_lookup_2 in El. apply elem_of_map_to_list in El. congruence. }
      rewrite <- (Nat.add_0_r (base _ _)).
      assert (full_group qs S !! (length qs + n) = Some (CLoose p, [p], [])) as Hq.
      { unfold full_group. rewrite lookup_app_r by lia. replace (length qs + n - length qs) with n by lia.
        unfold loose. by rewrite list_lookup_fmap, El. }
      eapply (rel_at _ _ _ _ HV).
      + unfold lay, layout_of. rewrite list_lookup_imap, Hq. done.
      + unfold its_of. by rewrite list_lookup_fmap, Hq.
      + done.
  Qed.
  (** every iterator object has a flat cell of its kind *)
  Lemma flat_kind M qs fl S s x p : Forall (shown M) qs -> written_ok qs fl -> irel qs fl S s S -> S !! x = Some p ->
    exists k a o d, s !! x = Some k /\ loc (lay qs fl S) k = Some (a, o, d) /\ q_kind d = ckind p /\ q_cat d = ccat p.
  Proof.
    intros HF HW [HR Hse] Hx. specialize (HR x). specialize (Hse x). cbn [cworld w_pos] in HR. rewrite Hx in HR.
    destruct (s !! x) as [k|]; [|done]. specialize (Hse k eq_refl).
    unfold rel in HR. destruct (loc (lay qs fl S) k) as [[[a o] d]|] eqn:El; [|done]. clear Hse.
    destruct HR as (ps&Hps&Hp). exists k, a, o, d. split_and!; [done|done|..].
    - pose proof El as (Hd&_)%loc_inv. apply layout_at in Hd as (c&ps'&vs&Hq&->). cbn [q_kind].
      apply its_at_q in Hps as (c'&vs'&Hq'). rewrite Hq in Hq'. injection Hq' as <- <- <-.
      symmetry. eapply (group_kind M (full_group qs S) (full_shown _ _ _ HF)); done.
    - pose proof El as (Hd&_)%loc_inv. apply layout_at in Hd as (c&ps'&vs&Hq&->). cbn [q_cat].
      apply its_at_q in Hps as (c'&vs'&Hq'). rewrite Hq in Hq'. injection Hq' as <- <- <-.
      rewrite cat_kind, ccat_kind. f_equal. symmetry.
      eapply (group_kind M (full_group qs S) (full_shown _ _ _ HF)); done.
  Qed.
  Lemma irel_fun qs fl S s S1 S2 : wrel qs fl S s S1 -> irel qs fl S s S2 -> S1 = S2.
  Proof.
    intros H1 [H2 H3]. apply map_eq. intros x. specialize (H1 x). specialize (H2 x). specialize (H3 x). cbn [cworld w_pos] in H1, H2.
    destruct (s !! x) as [k|], (S1 !! x), (S2 !! x); try done. f_equal. specialize (H3 k eq_refl).
    exact (rel_fun (cworld A) _ _ _ _ _ H3 H1 H2).
  Qed.
  Lemma irel_insert qs fl S s S1 x a q k p M : Forall (shown M) qs -> qs !! a = Some q -> q.1.2 !! k = Some p ->
    irel qs fl S s S1 -> rel (cworld A) (lay qs fl S) (posns qs S) (base (lay qs fl S) a + k) p ->
    irel qs fl S (<[x := base (lay qs fl S) a + k]> s) (<[x := p]> S1).
  Proof.
    intros HF Hq Hp [HR Hse] Hrel. split; [by apply srel_insert|]. intros y k'.
    destruct (decide (x = y)) as [->|Hne].
    - rewrite lookup_insert. intros [= <-]. rewrite (loc_q qs fl S a q k Hq); [done|]. apply lookup_lt_Some in Hp.
      assert (shown M q) as Hsq by (rewrite Forall_forall in HF; apply HF; by eapply elem_of_list_lookup_2).
      rewrite (s_len M q.1.1 _ q.2) in Hp; [lia|]. by apply shows_view.
    - rewrite lookup_insert_ne by done. by apply Hse.
  Qed.
  Lemma irel_at M qs fl S a q k p : Forall (shown M) qs -> written_ok qs fl -> qs !! a = Some q -> q.1.2 !! k = Some p ->
    rel (cworld A) (lay qs fl S) (posns qs S) (base (lay qs fl S) a + k) p.
  Proof.
    intros HF HW Hq Hp.
    pose proof (group_view M (full_group qs S) (flags qs fl) (full_shown _ _ _ HF) (full_written _ _ _ HW)) as HV.
    eapply (rel_at _ _ _ _ HV).
    - unfold lay, layout_of. rewrite list_lookup_imap, (full_at _ S _ _ Hq). done.
    - unfold its_of. by rewrite list_lookup_fmap, (full_at _ S _ _ Hq).
    - done.
  Qed.
  (** reading back a store through an out parameter *)
  Lemma out_back M qs fl S a q o k s v s' S1 : Forall (shown M) qs -> written_ok qs fl -> qs !! a = Some q ->
    k <= length q.2 -> irel qs fl S s S1 -> out_set o (base (lay qs fl S) a + k) s v s' ->
    exists S2, stored q o k S1 v S2 /\ irel qs fl S s' S2.
  Proof.
    intros HF HW Hq Hk HR Ho.
    destruct (lookup_lt_is_Some_2 q.1.2 k) as [p Hp].
    { rewrite (s_len M q.1.1 _ q.2); [lia|]. apply shows_view. rewrite Forall_forall in HF. apply HF. by eapply elem_of_list_lookup_2. }
    pose proof (irel_at M qs fl S a q k p HF HW Hq Hp) as Hrel.
    destruct o as [[x|]|]; cbn [out_set] in Ho.
    - destruct Ho as [-> ->]. exists (<[x := p]> S1). split; [by exists p|]. by eapply irel_insert.
    - destruct Ho as (x&Hx&->&->). exists (<[x := p]> S1). split; [|by eapply irel_insert].
      exists p. split; [done|]. exists x. split_and!; [|done..]. destruct HR as [HR _]. specialize (HR x). cbn [cworld w_pos] in HR. rewrite Hx in HR. by destruct (S1 !! x).
    - destruct Ho as [-> ->]. exists S1. split; [|done]. by exists p.
  Qed.
  Lemma lays_ex qs fl S : exists m, lays (lay qs fl S) m ((fun q => q.2) <$> full_group qs S).
  Proof.
    unfold lay. generalize (full_group qs S). generalize (flags qs fl). clear - H. intros f g. revert f.
    induction g as [|[[c ps] vs] g IH]; intros f.
    - exists []. split_and!; [done..|]. intros s d vs Hd. done.
    - destruct (IH (fun n => f (Datatypes.S n))) as (m&H1&H2&H3). exists (vs ++ inhabitant :: m).
      assert (layout_of f ((c, ps, vs) :: g) = Seqd (length vs) (cat_of c) (kind_of c) (f 0) (strays c) :: layout_of (fun n => f (Datatypes.S n)) g) as -> by done.
      split_and!.
      + rewrite app_length. cbn [length]. unfold IterFlat.total in *. cbn [length base q_len]. lia.
      + cbn [fmap list_fmap length]. rewrite <- H2. done.
      + intros [|s] d us; cbn [lookup list_lookup fmap list_fmap base q_len].
        * intros [= <-] [= <-]. split; [done|]. cbn [q_len plus]. intros o Ho. by rewrite lookup_app_l.
        * intros Hd Hv. destruct (H3 _ _ _ Hd Hv) as [H4 H5]. split; [done|]. intros o Ho. rewrite <- H5 by done.
          rewrite lookup_app_r by lia.
          replace (Datatypes.S (length vs) + base (layout_of (fun n => f (Datatypes.S n)) g) s + o - length vs)
            with (Datatypes.S (base (layout_of (fun n => f (Datatypes.S n)) g) s + o)) by lia. done.
  Qed.

  (** what a program leaves: each container of the group shows what the flat cells say, and every other
      container is as before *)
  Definition outcome M qs fl (L : layout) (m' : list A) M' : Prop :=
    (forall a q, qs !! a = Some q -> exists vs', shows M' q.1.1 q.1.2 vs' /\ length vs' = length q.2 /\
       (fl a = false -> vs' = q.2) /\ forall o, o < length q.2 -> m' !! (base L a + o) = vs' !! o) /\
    (forall q, (forall a q', qs !! a = Some q' -> fl a = true -> obj_of q.1.1 <> obj_of q'.1.1) -> shown M q -> shown M' q) /\
    ((forall a q, qs !! a = Some q -> fl a = false) -> M' = M).
  Theorem lift M qs fl S pl : Forall (shown M) qs -> written_ok qs fl -> placed qs S pl ->
    exists m s, irel qs fl S s S /\
      (forall x a o, (x, (a, o)) ∈ pl -> s !! x = Some (base (lay qs fl S) a + o)) /\
      (forall a q o, qs !! a = Some q -> o < length q.2 -> m !! (base (lay qs fl S) a + o) = q.2 !! o) /\
      (forall a q, qs !! a = Some q -> base (lay qs fl S) a + length q.2 < length m) /\
      forall (R : Type) (p : prog A R) (Q : R -> list A -> gmap iid nat -> Prop), fwp (lay qs fl S) p m s Q ->
        exists r m' s' M' S', exec (cworld A) p (M, S) r (M', S') /\ Q r m' s' /\ wrel qs fl S s' S' /\
          outcome M qs fl (lay qs fl S) m' M'.
  Proof.
    intros HF HW HP. destruct (flat_of_rel M qs fl S pl HF HW HP) as [HR Hpl].
    destruct (lays_ex qs fl S) as [m Hm].
    pose proof (group_view M (full_group qs S) (flags qs fl) (full_shown _ _ _ HF) (full_written _ _ _ HW)) as HV.
    exists m, (flat_of qs fl S pl). split; [done|]. split; [done|]. split; [|split].
    - intros a q o Ha Ho. destruct Hm as (_&_&Hm).
      assert (lay qs fl S !! a = Some (Seqd (length q.2) (cat_of q.1.1) (kind_of q.1.1) (flags qs fl a) (strays q.1.1))) as Hd.
      { unfold lay, layout_of. by rewrite list_lookup_imap, (full_at _ S _ _ Ha). }
      assert (((fun q => q.2) <$> full_group qs S) !! a = Some q.2) as Hv by (by rewrite list_lookup_fmap, (full_at _ S _ _ Ha)).
      destruct (Hm _ _ _ Hd Hv) as [_ Hm2]. by apply Hm2.
    - intros a q Ha. destruct Hm as (->&_&_).
      assert (lay qs fl S !! a = Some (Seqd (length q.2) (cat_of q.1.1) (kind_of q.1.1) (flags qs fl a) (strays q.1.1))) as Hd.
      { unfold lay, layout_of. by rewrite list_lookup_imap, (full_at _ S _ _ Ha). }
      apply base_total in Hd. exact Hd.
    - intros R p Q (r&[m' s']&(fuel&Hrun)&HQ). cbn [fst snd] in HQ.
      destruct (simulation _ _ _ _ HV p fuel _ _ (M, S) _ Hrun) as ([M' S']&Hrun'&(vss&HI&Hl)&HR').
      { split; [|apply HR]. exists ((fun q => q.2) <$> full_group qs S). split; [|done]. cbn [fst].
        apply (ginv0 M _ _ (full_shown _ _ _ HF)). }
      cbn [fst snd] in HI, Hl, HR'. exists r, m', s', M', S'. split; [by exists fuel|]. split; [done|]. split; [done|].
      destruct Hl as (Hl1&Hl2&Hl3). split; [|split].
      + intros a q Ha. pose proof (full_at qs S _ _ Ha) as Hf.
        destruct (ginv_at _ _ _ _ _ _ _ HI Hf) as [vs' Hv']. exists vs'. destruct q as [[c ps] vs]. cbn [fst snd] in *.
        destruct HI as (HI1&HI2&HI3&HI4). destruct (HI2 _ _ _ _ _ Hf Hv') as [H1 H2].
        assert (lay qs fl S !! a = Some (Seqd (length vs) (cat_of c) (kind_of c) (flags qs fl a) (strays c))) as Hd.
        { unfold lay, layout_of. by rewrite list_lookup_imap, Hf. }
        destruct (Hl3 _ _ _ Hd Hv') as [H3 H4]. cbn [q_len] in H3, H4. split_and!; [done|done| |done].
        intros Hfl. apply H2. unfold flags. by rewrite Hfl.
      + intros [[c ps] vs] Hne Hs. destruct HI as (_&_&HI3&_). apply HI3; [|done].
        intros a c' ps' vs' Ha [Hf Hlt]%andb_true_iff. apply Nat.ltb_lt in Hlt. unfold full_group in Ha.
        rewrite lookup_app_l in Ha by done. by apply (Hne _ _ Ha Hf).
      + intros Hno. destruct HI as (_&_&_&HI4). apply HI4. intros a. unfold flags.
        destruct (a <? length qs) eqn:E; [|by rewrite andb_false_r]. apply Nat.ltb_lt in E.
        apply lookup_lt_is_Some_2 in E as [q Hq]. by rewrite (Hno _ _ Hq).
  Qed.
End lift.

(** ** Facts for proofs about algorithms *)
Section facts.
  Context {A : Type} {CK : Checked} `{Inhabited A}.
  Implicit Types (M : cmem A) (S : gmap iid cpos) (qs : group A) (q : cont * list cpos * list A).

  Lemma shown_len M q : shown M q -> length q.1.2 = Datatypes.S (length q.2).
  Proof. intros Hq. by eapply s_len, shows_view. Qed.
  Lemma at_le M S q x i : shown M q -> at_pos S q x i -> i <= length q.2.
  Proof. intros Hq (p&Hp&_). apply lookup_lt_Some in Hp. rewrite (shown_len _ _ Hq) in Hp. lia. Qed.
  Lemma at_fun M S q x i j : shown M q -> at_pos S q x i -> at_pos S q x j -> i = j.
  Proof.
    intros Hq (p&Hp&Hx) (p'&Hp'&Hx'). rewrite Hx in Hx'. injection Hx' as <-. pose proof (shows_view _ _ _ _ Hq) as HV.
    pose proof (s_eq _ _ _ _ HV _ _ _ _ Hp Hp) as E1. rewrite (s_eq _ _ _ _ HV _ _ _ _ Hp Hp') in E1.
    injection E1 as E1. rewrite Nat.eqb_refl in E1. by apply Nat.eqb_eq in E1.
  Qed.
  Lemma cat_forward c : FORWARD <= cat_of c.
  Proof.
    rewrite cat_kind. unfold cat_of_kind, FORWARD, BIDIRECTION, RANDOM.
    destruct (kind_of c) as [|[|[|[|[|[|[|]]]]]]]; lia.
  Qed.
  Lemma slice_lookup {X} (l : list X) i j k : slice l i j !! k = if decide (k < j - i) then l !! (i + k) else None.
  Proof.
    unfold slice. destruct (decide (k < j - i)).
    - rewrite lookup_take by done. by rewrite lookup_drop.
    - by rewrite lookup_take_ge by lia.
  Qed.
  Lemma slice_len' {X} (l : list X) i j : j <= length l -> length (slice l i j) = j - i.
  Proof. intros Hj. unfold slice. rewrite take_length, drop_length. lia. Qed.
  Lemma slice_shift {X} (l m : list X) b i j : (forall o, o < j -> m !! (b + o) = l !! o) ->
    slice m (b + i) (b + j) = slice l i j.
  Proof.
    intros Hm. apply list_eq. intros k. rewrite !slice_lookup.
    destruct (decide (k < b + j - (b + i))), (decide (k < j - i)); try lia; [|done].
    rewrite <- Hm by lia. f_equal. lia.
  Qed.

  Record rworld qs (fl : nat -> bool) S (pl : list (iid * (nat * nat))) (L : layout) (m : list A) (s : gmap iid nat) : Prop := {
    rw_pl : forall x a o, (x, (a, o)) ∈ pl -> s !! x = Some (base L a + o);
    rw_m : forall a q o, qs !! a = Some q -> o < length q.2 -> m !! (base L a + o) = q.2 !! o;
    rw_rng : forall a q i j, qs !! a = Some q -> i <= j -> j <= length q.2 -> rng L (base L a + i) (base L a + j);
    rw_cat : forall a q i c, qs !! a = Some q -> i <= length q.2 -> c <= cat_of q.1.1 -> cat_ge L c (base L a + i);
    rw_mut : forall a q i, qs !! a = Some q -> i <= length q.2 -> fl a = true -> writable L (base L a + i);
    rw_out : forall a q i o, qs !! a = Some q -> i <= length q.2 -> out_ok S q o -> out_pre L s o (base L a + i);
    rw_len : forall a q, qs !! a = Some q -> base L a + length q.2 < length m;
    rw_slice : forall a q i j, qs !! a = Some q -> j <= length q.2 -> slice m (base L a + i) (base L a + j) = slice q.2 i j;
    rw_same : forall a q a' q' i i', qs !! a = Some q -> qs !! a' = Some q' -> i <= length q.2 -> i' <= length q'.2 ->
      kind_of q.1.1 = kind_of q'.1.1 -> alike L (base L a + i) (base L a' + i');
    rw_over : forall a q i, qs !! a = Some q -> i <= length q.2 -> strays q.1.1 = true -> over L (base L a + i);
    rw_cateq : forall a q i, qs !! a = Some q -> i <= length q.2 -> flat_cat L (base L a + i) = Ok (cat_of q.1.1);
    rw_base1 : forall q q', qs !! 0 = Some q -> qs !! 1 = Some q' -> base L 1 = Datatypes.S (length q.2);
    rw_sep : forall a q a', qs !! a = Some q -> a < a' -> base L a + length q.2 < base L a';
  }.
  Definition reads M qs S (L : layout) (m : list A) (s : gmap iid nat) : Prop :=
    (forall (R : Type) (p : prog A R) (v : R), fwp L p m s (fun r m' s' => r = v /\ m' = m /\ s' = s) ->
       exec (cworld A) p (M, S) v (M, S)) /\
    (forall (p : prog A (bool * option iid)) o b a q k, qs !! a = Some q -> k <= length q.2 ->
       fwp L p m s (fun r m' s' => r.1 = b /\ m' = m /\ out_set o (base L a + k) s r.2 s') ->
       exists v S', exec (cworld A) p (M, S) (b, v) (M, S') /\ stored q o k S v S') /\
    (forall (p : prog A (bool * option iid * option iid)) o1 o2 b a1 q1 k1 a2 q2 k2,
       qs !! a1 = Some q1 -> k1 <= length q1.2 -> qs !! a2 = Some q2 -> k2 <= length q2.2 ->
       fwp L p m s (fun r m' s' => r.1.1 = b /\ m' = m /\
         exists s1, out_set o1 (base L a1 + k1) s r.1.2 s1 /\ out_set o2 (base L a2 + k2) s1 r.2 s') ->
       exists v1 v2 S1 S', exec (cworld A) p (M, S) (b, v1, v2) (M, S') /\ stored q1 o1 k1 S v1 S1 /\ stored q2 o2 k2 S1 v2 S').

  Lemma base_0 (L : layout) : base L 0 = 0.
  Proof. by destruct L. Qed.
  Lemma base_lt (L : layout) : forall a d a', L !! a = Some d -> a < a' -> base L a + q_len d < base L a'.
  Proof.
    induction L as [|d0 L IH]; intros a d a' Ha Hlt; [done|]. destruct a' as [|a']; [lia|]. destruct a as [|a]; cbn [base] in *.
    - injection Ha as ->. lia.
    - cbn [lookup list_lookup] in Ha. specialize (IH a d a' Ha ltac:(lia)). lia.
  Qed.
  Lemma lift_facts M qs fl S pl m s : Forall (shown M) qs -> written_ok qs fl -> irel qs fl S s S ->
    (forall x a o, (x, (a, o)) ∈ pl -> s !! x = Some (base (lay qs fl S) a + o)) ->
    (forall a q o, qs !! a = Some q -> o < length q.2 -> m !! (base (lay qs fl S) a + o) = q.2 !! o) ->
    (forall a q, qs !! a = Some q -> base (lay qs fl S) a + length q.2 < length m) ->
    rworld qs fl S pl (lay qs fl S) m s.
  Proof.
    intros HF HW HR Hpl Hm Hlen.
    split.
    - done.
    - done.
    - intros a q i j Ha Hij Hj. eexists _, _, _. split; [by apply (loc_q qs fl S a q i Ha); lia|]. cbn [q_len]. lia.
    - intros a q i c Ha Hi Hc. eexists _, _, _. split; [by apply (loc_q qs fl S a q i Ha)|]. done.
    - intros a q i Ha Hi Hw. eexists _, _, _. split; [by apply (loc_q qs fl S a q i Ha)|]. done.
    - intros a q i [[x|]|] Ha Hi Ho; try done. destruct Ho as (p&Hx&Hk).
      destruct (flat_kind M qs fl S s x p HF HW HR Hx) as (k&b&o&d&H1&H2&H3&H4).
      exists k. split; [done|]. eexists _, _, _, _, _, _. split; [exact H2|]. split; [by apply (loc_q qs fl S a q i Ha)|].
      cbn [q_kind q_cat]. split; [congruence|]. rewrite H4, ccat_kind, cat_kind. by rewrite Hk.
    - done.
    - intros a q i j Ha Hj. apply slice_shift. intros o Ho. apply (Hm a q); [done|lia].
    - intros a q a' q' i i' Ha Ha' Hi Hi' Hk. eexists _, _, _, _, _, _.
      split; [by apply (loc_q qs fl S a q i Ha)|]. split; [by apply (loc_q qs fl S a' q' i' Ha')|].
      cbn [q_kind q_cat]. split; [done|]. by rewrite !cat_kind, Hk.
    - intros a q i Ha Hi Hs. eexists _, _, _. split; [by apply (loc_q qs fl S a q i Ha Hi)|]. done.
    - intros a q i Ha Hi. unfold flat_cat. by rewrite (loc_q qs fl S a q i Ha Hi).
    - intros q q' Hq Hq'. destruct qs as [|q0 qs]; [done|]. injection Hq as ->. destruct q as [[c ps] vs].
      unfold lay, layout_of, full_group. cbn [app imap base q_len fst snd]. rewrite base_0. lia.
    - intros a q a' Ha Hlt.
      assert (lay qs fl S !! a = Some (Seqd (length q.2) (cat_of q.1.1) (kind_of q.1.1) (flags qs fl a) (strays q.1.1))) as Hd.
      { unfold lay, layout_of. by rewrite list_lookup_imap, (full_at _ S _ _ Ha). }
      apply (base_lt _ _ _ _ Hd Hlt).
  Qed.
  Lemma no_writes qs : written_ok qs (fun _ => false).
  Proof. by intros a q _. Qed.

  (** programs that only read *)
  Lemma lift_reads M qs S pl : Forall (shown M) qs -> placed qs S pl ->
    exists L m s, base L 0 = 0 /\ rworld qs (fun _ => false) S pl L m s /\ reads M qs S L m s.
  Proof.
    intros HF HP. destruct (lift M qs (fun _ => false) S pl HF (no_writes qs) HP) as (m&s&HR&Hpl&Hm&Hlen&Hrun).
    exists (lay qs (fun _ => false) S), m, s. split; [apply base_0|]. split; [by apply (lift_facts M)|].
    split_and!.
    - intros R p v Hp. destruct (Hrun _ _ _ Hp) as (r&m'&s'&M'&S'&He&(->&->&->)&HR'&(_&_&HM)).
      rewrite (HM (fun _ _ _ => eq_refl)) in He. by rewrite (irel_fun _ _ _ _ _ _ HR' HR) in He.
    - intros p o b a q k Ha Hk Hp. destruct (Hrun _ _ _ Hp) as ([b' v]&m'&s'&M'&S'&He&(Hb&->&Ho)&HR'&(_&_&HM)).
      cbn [fst snd] in *. subst b'. rewrite (HM (fun _ _ _ => eq_refl)) in He.
      destruct (out_back M qs _ S a q o k s v s' S HF (no_writes qs) Ha Hk HR Ho) as (S2&Hst&HR2).
      exists v, S'. split; [done|]. by rewrite (irel_fun _ _ _ _ _ _ HR' HR2).
    - intros p o1 o2 b a1 q1 k1 a2 q2 k2 Ha1 Hk1 Ha2 Hk2 Hp.
      destruct (Hrun _ _ _ Hp) as ([[b' v1] v2]&m'&s'&M'&S'&He&(Hb&->&(s1&Ho1&Ho2))&HR'&(_&_&HM)).
      cbn [fst snd] in *. subst b'. rewrite (HM (fun _ _ _ => eq_refl)) in He.
      destruct (out_back M qs _ S a1 q1 o1 k1 s v1 s1 S HF (no_writes qs) Ha1 Hk1 HR Ho1) as (S1&Hst1&HR1).
      destruct (out_back M qs _ S a2 q2 o2 k2 s1 v2 s' S1 HF (no_writes qs) Ha2 Hk2 HR1 Ho2) as (S2&Hst&HR2).
      exists v1, v2, S1, S'. split; [done|]. split; [done|]. by rewrite (irel_fun _ _ _ _ _ _ HR' HR2).
  Qed.

  (** ** One and two ranges *)
  Definition pl_of (a : nat) (xs : list (iid * nat)) : list (iid * (nat * nat)) := (fun xi => (xi.1, (a, xi.2))) <$> xs.
  Definition at_all S q (xs : list (iid * nat)) : Prop := Forall (fun xi => at_pos S q xi.1 xi.2) xs.
  Lemma pl_of_in a xs x b o : (x, (b, o)) ∈ pl_of a xs -> b = a /\ (x, o) ∈ xs.
  Proof. intros ([y i]&E&Hin)%elem_of_list_fmap. cbn [fst snd] in E. by injection E as -> -> ->. Qed.
  Lemma pl_of_to a xs x o : (x, o) ∈ xs -> (x, (a, o)) ∈ pl_of a xs.
  Proof. intros Hin. apply elem_of_list_fmap. by exists (x, o). Qed.
  Lemma placed_same M q S xs ys : shown M q -> at_all S q xs -> at_all S q ys -> placed [q] S (pl_of 0 xs ++ pl_of 0 ys).
  Proof.
    intros H1 Hx Hy. unfold at_all in Hx, Hy. rewrite Forall_forall in Hx, Hy.
    assert (forall x o b, (x, (b, o)) ∈ pl_of 0 xs ++ pl_of 0 ys -> b = 0 /\ at_pos S q x o) as Hin.
    { intros x o b [(->&Hi)%pl_of_in|(->&Hi)%pl_of_in]%elem_of_app; (split; [done|]); [apply (Hx _ Hi)|apply (Hy _ Hi)]. }
    intros x a o Hi. destruct (Hin _ _ _ Hi) as [-> Hp]. split; [by exists q|].
    intros a' o' Hi'. destruct (Hin _ _ _ Hi') as [-> Hp']. f_equal. eapply at_fun; [exact H1|exact Hp|exact Hp'].
  Qed.
  Lemma placed_apart M q1 q2 S xs ys : shown M q1 -> shown M q2 -> at_all S q1 xs -> at_all S q2 ys ->
    (forall x, x ∈ xs.*1 -> x ∉ ys.*1) -> placed [q1; q2] S (pl_of 0 xs ++ pl_of 1 ys).
  Proof.
    intros H1 H2 Hx Hy Hu. unfold at_all in Hx, Hy. rewrite Forall_forall in Hx, Hy.
    intros x a o [(->&Hi)%pl_of_in|(->&Hi)%pl_of_in]%elem_of_app.
    - split; [exists q1; split; [done|]; apply (Hx _ Hi)|].
      intros a' o' [(->&Hi')%pl_of_in|(->&Hi')%pl_of_in]%elem_of_app.
      + f_equal. eapply at_fun; [exact H1|apply (Hx _ Hi)|apply (Hx _ Hi')].
      + exfalso. apply (Hu x); apply elem_of_list_fmap; [by exists (x, o)|by exists (x, o')].
    - split; [exists q2; split; [done|]; apply (Hy _ Hi)|].
      intros a' o' [(->&Hi')%pl_of_in|(->&Hi')%pl_of_in]%elem_of_app.
      + exfalso. apply (Hu x); apply elem_of_list_fmap; [by exists (x, o')|by exists (x, o)].
      + f_equal. eapply at_fun; [exact H2|apply (Hy _ Hi)|apply (Hy _ Hi')].
  Qed.
  Lemma placed_two M q1 q2 S xs ys : shown M q1 -> shown M q2 -> at_all S q1 xs -> at_all S q2 ys -> unmixed q1 (xs.*1) q2 (ys.*1) ->
    exists qs a2, qs !! 0 = Some q1 /\ qs !! a2 = Some q2 /\ Forall (shown M) qs /\ placed qs S (pl_of 0 xs ++ pl_of a2 ys).
  Proof.
    intros H1 H2 Hx Hy [<-|Hu].
    - exists [q1], 0. split; [done|]. split; [done|]. split; [by repeat constructor|]. by apply (placed_same M).
    - exists [q1; q2], 1. split; [done|]. split; [done|]. split; [by repeat constructor|]. by apply (placed_apart M).
  Qed.

  (** what a proof needs to know about container [q], whose positions start at cell [b] *)
  Record open_at q (fl : bool) S (L : layout) (m : list A) (s : gmap iid nat) (b : nat) : Prop := {
    op_m : forall k, k < length q.2 -> m !! (b + k) = q.2 !! k;
    op_rng : forall i j, i <= j -> j <= length q.2 -> rng L (b + i) (b + j);
    op_cat : forall i c, i <= length q.2 -> c <= cat_of q.1.1 -> cat_ge L c (b + i);
    op_mut : forall i, i <= length q.2 -> fl = true -> writable L (b + i);
    op_out : forall i o, i <= length q.2 -> out_ok S q o -> out_pre L s o (b + i);
    op_len : b + length q.2 < length m;
    op_slice : forall i j, j <= length q.2 -> slice m (b + i) (b + j) = slice q.2 i j;
    op_over : forall i, i <= length q.2 -> strays q.1.1 = true -> over L (b + i);
    op_cateq : forall i, i <= length q.2 -> flat_cat L (b + i) = Ok (cat_of q.1.1);
  }.
  Lemma rw_open qs fl S pl L m s a q : rworld qs fl S pl L m s -> qs !! a = Some q -> open_at q (fl a) S L m s (base L a).
  Proof.
    intros HW Ha. split.
    - intros k Hk. by apply (rw_m _ _ _ _ _ _ _ HW).
    - intros i j Hi Hj. by eapply (rw_rng _ _ _ _ _ _ _ HW).
    - intros i c Hi Hc. by eapply (rw_cat _ _ _ _ _ _ _ HW).
    - intros i Hi Hf. by eapply (rw_mut _ _ _ _ _ _ _ HW).
    - intros i o Hi Ho. by eapply (rw_out _ _ _ _ _ _ _ HW).
    - by apply (rw_len _ _ _ _ _ _ _ HW _ _ Ha).
    - intros i j Hj. by apply (rw_slice _ _ _ _ _ _ _ HW).
    - intros i Hi Hs. by eapply (rw_over _ _ _ _ _ _ _ HW).
    - intros i Hi. by apply (rw_cateq _ _ _ _ _ _ _ HW).
  Qed.
  (** a program that reads one range *)
  Definition reads1 M q S (L : layout) (m : list A) (s : gmap iid nat) : Prop :=
    (forall (R : Type) (p : prog A R) (v : R), fwp L p m s (fun r m' s' => r = v /\ m' = m /\ s' = s) ->
       exec (cworld A) p (M, S) v (M, S)) /\
    (forall (p : prog A (bool * option iid)) o b k, k <= length q.2 ->
       fwp L p m s (fun r m' s' => r.1 = b /\ m' = m /\ out_set o k s r.2 s') ->
       exists v S', exec (cworld A) p (M, S) (b, v) (M, S') /\ stored q o k S v S').
  Lemma read_two M q1 q2 S xs ys : shown M q1 -> shown M q2 -> at_all S q1 xs -> at_all S q2 ys -> unmixed q1 (xs.*1) q2 (ys.*1) ->
    exists L m s b, open_at q1 false S L m s 0 /\ open_at q2 false S L m s b /\ reads1 M q1 S L m s /\
      (forall x i, (x, i) ∈ xs -> s !! x = Some i) /\ (forall x i, (x, i) ∈ ys -> s !! x = Some (b + i)) /\
      (kind_of q1.1.1 = kind_of q2.1.1 -> forall i j, i <= length q1.2 -> j <= length q2.2 -> alike L i (b + j)) /\
      (forall (p : prog A (bool * option iid * option iid)) o1 o2 r k1 k2, k1 <= length q1.2 -> k2 <= length q2.2 ->
       fwp L p m s (fun v m' s' => v.1.1 = r /\ m' = m /\
         exists s1, out_set o1 k1 s v.1.2 s1 /\ out_set o2 (b + k2) s1 v.2 s') ->
       exists v1 v2 S1 S', exec (cworld A) p (M, S) (r, v1, v2) (M, S') /\ stored q1 o1 k1 S v1 S1 /\ stored q2 o2 k2 S1 v2 S').
  Proof.
    intros H1 H2 Hx Hy Hu. destruct (placed_two M q1 q2 S xs ys H1 H2 Hx Hy Hu) as (qs&a2&Hq1&Hq2&HF&HP).
    destruct (lift_reads M qs S _ HF HP) as (L&m&s&Hb&HW&(R1&R2&R3)).
    pose proof (rw_open _ _ _ _ _ _ _ _ _ HW Hq1) as Ho1. rewrite Hb in Ho1.
    exists L, m, s, (base L a2). split_and!.
    - done.
    - apply (rw_open _ _ _ _ _ _ _ _ _ HW Hq2).
    - split; [exact R1|]. intros p o b k Hk Hp. apply (R2 p o b 0 q1 k Hq1 Hk). by rewrite Hb.
    - intros x i Hin. rewrite <- (Nat.add_0_l i), <- Hb. apply (rw_pl _ _ _ _ _ _ _ HW). apply elem_of_app. left. by apply pl_of_to.
    - intros x i Hin. apply (rw_pl _ _ _ _ _ _ _ HW). apply elem_of_app. right. by apply pl_of_to.
    - intros Hk i j Hi Hj. pose proof (rw_same _ _ _ _ _ _ _ HW _ _ _ _ i j Hq1 Hq2 Hi Hj Hk) as E. by rewrite Hb in E.
    - intros p o1 o2 r k1 k2 Hk1 Hk2 Hp. apply (R3 p o1 o2 r 0 q1 k1 a2 q2 k2 Hq1 Hk1 Hq2 Hk2). by rewrite Hb.
  Qed.
  Lemma read_one M q S xs : shown M q -> at_all S q xs ->
    exists L m s, open_at q false S L m s 0 /\ reads1 M q S L m s /\ forall x i, (x, i) ∈ xs -> s !! x = Some i.
  Proof.
    intros Hq Hx. destruct (read_two M q q S xs [] Hq Hq Hx) as (L&m&s&b&H1&_&H3&H4&_).
    - constructor.
    - by left.
    - by exists L, m, s.
  Qed.
  (** ** Programs that write *)
  Lemma mutable_obj (c : cont) : mutable c = true -> obj_of c <> ONone.
  Proof. by destruct c. Qed.
  Lemma lift_writes M qs fl S pl : Forall (shown M) qs -> written_ok qs fl -> placed qs S pl ->
    exists L m s (JW J : gmap iid nat -> gmap iid cpos -> Prop), base L 0 = 0 /\ rworld qs fl S pl L m s /\ J s S /\
      (forall s1 S1 S2, JW s1 S1 -> J s1 S2 -> S1 = S2) /\
      (forall a q o k s1 v s2 S1, qs !! a = Some q -> k <= length q.2 -> J s1 S1 -> out_set o (base L a + k) s1 v s2 ->
         exists S2, stored q o k S1 v S2 /\ J s2 S2) /\
      forall (R : Type) (p : prog A R) (Q : R -> list A -> gmap iid nat -> Prop), fwp L p m s Q ->
        exists r m' s' M' S', exec (cworld A) p (M, S) r (M', S') /\ Q r m' s' /\ JW s' S' /\
          (forall a q, qs !! a = Some q -> shows M' q.1.1 q.1.2 (slice m' (base L a) (base L a + length q.2))) /\
          (forall q', (forall a q, qs !! a = Some q -> fl a = true -> obj_of q'.1.1 <> obj_of q.1.1) -> shown M q' -> shown M' q').
  Proof.
    intros HF HW HP. destruct (lift M qs fl S pl HF HW HP) as (m&s&HR&Hpl&Hm&Hlen&Hrun).
    exists (lay qs fl S), m, s, (wrel qs fl S), (irel qs fl S). split; [apply base_0|]. split; [by apply (lift_facts M)|]. split; [done|].
    split; [by apply irel_fun|]. split; [|].
    - intros a q o k s1 v s2 S1 Ha Hk HJ Ho. by apply (out_back M qs fl S a q o k s1 v s2 S1).
    - intros R p Q Hp. destruct (Hrun _ _ _ Hp) as (r&m'&s'&M'&S'&He&HQ&HR'&(HO1&HO2&_)).
      exists r, m', s', M', S'. split_and!; [done..| |done].
      intros a q Ha. destruct (HO1 _ _ Ha) as (vs'&Hs&Hl&_&Hv).
      replace (slice m' (base (lay qs fl S) a) (base (lay qs fl S) a + length q.2)) with vs'; [done|].
      apply list_eq. intros k. rewrite slice_lookup. case_decide as Hk.
      + rewrite Hv; [done|]. lia.
      + apply lookup_ge_None_2. lia.
  Qed.
  (** the form the proofs use: the range(s) of one container, or of two *)
  Record runs_on M S q1 q2 (f1 f2 : bool) (L : layout) (m : list A) (s : gmap iid nat) (b : nat) (JW J : gmap iid nat -> gmap iid cpos -> Prop) : Prop := {
    ro_open1 : open_at q1 f1 S L m s 0;
    ro_open2 : open_at q2 f2 S L m s b;
    ro_J : J s S;
    ro_fun : forall s1 S1 S2, JW s1 S1 -> J s1 S2 -> S1 = S2;
    ro_out1 : forall o k s1 v s2 S1, k <= length q1.2 -> J s1 S1 -> out_set o k s1 v s2 -> exists S2, stored q1 o k S1 v S2 /\ J s2 S2;
    ro_out2 : forall o k s1 v s2 S1, k <= length q2.2 -> J s1 S1 -> out_set o (b + k) s1 v s2 -> exists S2, stored q2 o k S1 v S2 /\ J s2 S2;
    ro_same : kind_of q1.1.1 = kind_of q2.1.1 -> forall i j, i <= length q1.2 -> j <= length q2.2 -> alike L i (b + j);
    ro_sep : q1 = q2 /\ b = 0 \/ length q1.2 < b;
    ro_run : forall (R : Type) (p : prog A R) (Q : R -> list A -> gmap iid nat -> Prop), fwp L p m s Q ->
      exists r m' s' M' S', exec (cworld A) p (M, S) r (M', S') /\ Q r m' s' /\ JW s' S' /\
        shows M' q1.1.1 q1.1.2 (slice m' 0 (length q1.2)) /\ shows M' q2.1.1 q2.1.2 (slice m' b (b + length q2.2)) /\
        forall q', (f1 = true -> obj_of q'.1.1 <> obj_of q1.1.1) -> (f2 = true -> obj_of q'.1.1 <> obj_of q2.1.1) -> shown M q' -> shown M' q' }.
  Lemma run_two_same M S q xs ys f1 f2 : shown M q -> at_all S q xs -> at_all S q ys -> (f1 || f2 = true -> mutable q.1.1 = true) ->
    exists L m s b JW J, runs_on M S q q f1 f2 L m s b JW J /\
      (forall x i, (x, i) ∈ xs -> s !! x = Some i) /\ (forall x i, (x, i) ∈ ys -> s !! x = Some (b + i)).
  Proof.
    intros Hq Hx Hy Hf. set (fl := fun _ : nat => f1 || f2).
    assert (placed [q] S (pl_of 0 xs ++ pl_of 0 ys)) as HP by (by apply (placed_same M)).
    assert (written_ok [q] fl) as HW.
    { intros [|a] q' Hq' Hfl; [|by destruct a]. injection Hq' as <-. specialize (Hf Hfl).
      split_and!; [done|by apply mutable_obj|]. intros [|b'] q' Hq' Hne; [done|by destruct b']. }
    assert (Forall (shown M) [q]) as HF by (by repeat constructor).
    destruct (lift_writes M [q] fl S _ HF HW HP) as (L&m&s&JW&J&Hb&HRW&HJ&Hfun&Hout&Hrun).
    assert (open_at q (f1 || f2) S L m s 0) as HO.
    { pose proof (rw_open _ _ _ _ _ _ _ 0 q HRW eq_refl) as E. by rewrite Hb in E. }
    assert (forall f, (f = true -> f1 || f2 = true) -> open_at q f S L m s 0) as HO'.
    { intros f Hff. destruct HO. split; try done. intros i Hi Ht. auto. }
    exists L, m, s, 0, JW, J. split; [split|split].
    - apply HO'. by intros ->.
    - apply HO'. intros ->. apply orb_true_r.
    - done.
    - done.
    - intros o k s1 v s2 S1 Hk HJ1 Ho. apply (Hout 0 q o k s1 v s2 S1 eq_refl Hk HJ1). by rewrite Hb.
    - intros o k s1 v s2 S1 Hk HJ1 Ho. apply (Hout 0 q o k s1 v s2 S1 eq_refl Hk HJ1). by rewrite Hb.
    - intros _ i j Hi Hj. pose proof (rw_same _ _ _ _ _ _ _ HRW 0 q 0 q i j eq_refl eq_refl Hi Hj eq_refl) as E. by rewrite Hb in E.
    - by left.
    - intros R p Q Hp. destruct (Hrun _ _ _ Hp) as (r&m'&s'&M'&S'&He&HQ&HJ'&Hsh&Hfr).
      exists r, m', s', M', S'. pose proof (Hsh 0 q eq_refl) as E. rewrite Hb in E. split_and!; try done.
      intros q' Hn1 Hn2. apply Hfr. intros [|a] q0 Hq0 Hfl; [|by destruct a]. injection Hq0 as <-.
      apply orb_true_iff in Hfl as [?|?]; auto.
    - intros x i Hin. rewrite <- (Nat.add_0_l i), <- Hb. apply (rw_pl _ _ _ _ _ _ _ HRW). apply elem_of_app. left. by apply pl_of_to.
    - intros x i Hin. rewrite <- Hb at 1. apply (rw_pl _ _ _ _ _ _ _ HRW). apply elem_of_app. right. by apply pl_of_to.
  Qed.
  Lemma run_two_apart M S q1 q2 xs ys f1 f2 : shown M q1 -> shown M q2 -> at_all S q1 xs -> at_all S q2 ys ->
    (forall x, x ∈ xs.*1 -> x ∉ ys.*1) -> (f1 = true -> mutable q1.1.1 = true) -> (f2 = true -> mutable q2.1.1 = true) ->
    (f1 = true \/ f2 = true -> obj_of q1.1.1 <> obj_of q2.1.1) ->
    exists L m s b JW J, runs_on M S q1 q2 f1 f2 L m s b JW J /\
      (forall x i, (x, i) ∈ xs -> s !! x = Some i) /\ (forall x i, (x, i) ∈ ys -> s !! x = Some (b + i)).
  Proof.
    intros H1 H2 Hx Hy Hu Hf1 Hf2 Hap. set (fl := fun a : nat => if a =? 0 then f1 else f2).
    assert (placed [q1; q2] S (pl_of 0 xs ++ pl_of 1 ys)) as HP by (by apply (placed_apart M)).
    assert (written_ok [q1; q2] fl) as HW.
    { intros [|[|a]] q Hq Hfl; cbn [lookup list_lookup] in Hq; [..|by destruct a]; injection Hq as <-; cbn [fl Nat.eqb] in Hfl.
      - split_and!; [auto|apply mutable_obj; auto|]. intros [|[|b']] q' Hq' Hne; [done| |by destruct b']. injection Hq' as <-.
        intros E. apply Hap; auto.
      - split_and!; [auto|apply mutable_obj; auto|]. intros [|[|b']] q' Hq' Hne; [|done|by destruct b']. injection Hq' as <-. auto. }
    assert (Forall (shown M) [q1; q2]) as HF by (by repeat constructor).
    destruct (lift_writes M [q1; q2] fl S _ HF HW HP) as (L&m&s&JW&J&Hb&HRW&HJ&Hfun&Hout&Hrun).
    exists L, m, s, (base L 1), JW, J. split; [split|split].
    - pose proof (rw_open _ _ _ _ _ _ _ 0 q1 HRW eq_refl) as E. by rewrite Hb in E.
    - apply (rw_open _ _ _ _ _ _ _ 1 q2 HRW eq_refl).
    - done.
    - done.
    - intros o k s1 v s2 S1 Hk HJ1 Ho. apply (Hout 0 q1 o k s1 v s2 S1 eq_refl Hk HJ1). by rewrite Hb.
    - intros o k s1 v s2 S1 Hk HJ1 Ho. apply (Hout 1 q2 o k s1 v s2 S1 eq_refl Hk HJ1). done.
    - intros Hkd i j Hi Hj. pose proof (rw_same _ _ _ _ _ _ _ HRW 0 q1 1 q2 i j eq_refl eq_refl Hi Hj Hkd) as E. by rewrite Hb in E.
    - right. pose proof (rw_base1 _ _ _ _ _ _ _ HRW q1 q2 eq_refl eq_refl). lia.
    - intros R p Q Hp. destruct (Hrun _ _ _ Hp) as (r&m'&s'&M'&S'&He&HQ&HJ'&Hsh&Hfr).
      exists r, m', s', M', S'. pose proof (Hsh 0 q1 eq_refl) as E. rewrite Hb in E. pose proof (Hsh 1 q2 eq_refl) as E2.
      split_and!; try done.
      intros q' Hn1 Hn2. apply Hfr. intros [|[|a]] q0 Hq0 Hfl; [..|by destruct a]; injection Hq0 as <-; auto.
    - intros x i Hin. rewrite <- (Nat.add_0_l i), <- Hb. apply (rw_pl _ _ _ _ _ _ _ HRW). apply elem_of_app. left. by apply pl_of_to.
    - intros x i Hin. apply (rw_pl _ _ _ _ _ _ _ HRW). apply elem_of_app. right. by apply pl_of_to.
  Qed.
  Lemma run_two M S q1 q2 xs ys f1 f2 : shown M q1 -> shown M q2 -> at_all S q1 xs -> at_all S q2 ys -> unmixed q1 (xs.*1) q2 (ys.*1) ->
    (f1 = true -> mutable q1.1.1 = true) -> (f2 = true -> mutable q2.1.1 = true) ->
    (f1 = true \/ f2 = true -> same_or_apart q1 q2) ->
    exists L m s b JW J, runs_on M S q1 q2 f1 f2 L m s b JW J /\
      (forall x i, (x, i) ∈ xs -> s !! x = Some i) /\ (forall x i, (x, i) ∈ ys -> s !! x = Some (b + i)).
  Proof.
    intros H1 H2 Hx Hy Hu Hf1 Hf2 Hap.
    assert (q1 = q2 \/ (forall x, x ∈ xs.*1 -> x ∉ ys.*1) /\ (f1 = true \/ f2 = true -> obj_of q1.1.1 <> obj_of q2.1.1)) as [<-|[Hd Ho]].
    { destruct Hu as [->|Hu]; [by left|]. destruct (decide (f1 = true \/ f2 = true)) as [Hff|Hff]; [|right; tauto].
      destruct (Hap Hff) as [->|Ho]; [by left|]. right. tauto. }
    - apply run_two_same; try done. intros [?|?]%orb_true_iff; auto.
    - by apply run_two_apart.
  Qed.
  Lemma run_one M S q xs f : shown M q -> at_all S q xs -> (f = true -> mutable q.1.1 = true) ->
    exists L m s b JW J, runs_on M S q q f false L m s b JW J /\ (forall x i, (x, i) ∈ xs -> s !! x = Some i).
  Proof.
    intros Hq Hx Hf. destruct (run_two_same M S q xs [] f false) as (L&m&s&b&JW&J&H1&H2&_); try done.
    - constructor.
    - by rewrite orb_false_r.
    - by exists L, m, s, b, JW, J.
  Qed.
  Lemma range_at S q first last i j : range_in S q first last i j -> at_all S q [(first, i); (last, j)] /\ i <= j.
  Proof. intros (H1&H2&H3). split; [|done]. by repeat constructor. Qed.

  (** ** What is left after a run *)
  Lemma slice_whole {X} (l : list X) : slice l 0 (length l) = l.
  Proof. unfold slice. rewrite drop_0, Nat.sub_0_r. by rewrite take_ge. Qed.
  Lemma patch_lookup {X} (m l : list X) i k : i + length l <= length m ->
    patch m i l !! k = if decide (i <= k < i + length l) then l !! (k - i) else m !! k.
  Proof.
    intros Hl. unfold patch. assert (length (take i m) = i) as Ht by (rewrite take_length; lia). case_decide as E.
    - rewrite lookup_app_r by lia. rewrite Ht. by rewrite lookup_app_l by lia.
    - destruct (decide (k < i)).
      + rewrite lookup_app_l by lia. by rewrite lookup_take.
      + rewrite lookup_app_r by lia. rewrite Ht, lookup_app_r by lia. rewrite lookup_drop. f_equal. lia.
  Qed.
  Lemma slice_patch_in {X} (m l : list X) b n i : i + length l <= n -> b + n <= length m ->
    slice (patch m (b + i) l) b (b + n) = patch (slice m b (b + n)) i l.
  Proof.
    intros Hi Hb. apply list_eq. intros k. rewrite slice_lookup, !patch_lookup; [|rewrite slice_len'; lia|lia].
    rewrite slice_lookup. repeat case_decide; try lia; try done.
    f_equal. lia.
  Qed.
  Lemma slice_patch_out {X} (m l : list X) b n i : i + length l <= length m -> i + length l <= b \/ b + n <= i ->
    slice (patch m i l) b (b + n) = slice m b (b + n).
  Proof.
    intros Hi Hb. apply list_eq. intros k. rewrite !slice_lookup. case_decide; [|done]. rewrite patch_lookup by done.
    rewrite decide_False; [done|lia].
  Qed.
  Lemma ro_whole1 M S q1 q2 f1 f2 L m s b JW J : runs_on M S q1 q2 f1 f2 L m s b JW J -> slice m 0 (length q1.2) = q1.2.
  Proof.
    intros HR. pose proof (op_slice _ _ _ _ _ _ _ (ro_open1 _ _ _ _ _ _ _ _ _ _ _ _ HR) 0 (length q1.2)) as E.
    cbn [plus] in E. rewrite E by done. apply slice_whole.
  Qed.
  Lemma ro_whole2 M S q1 q2 f1 f2 L m s b JW J : runs_on M S q1 q2 f1 f2 L m s b JW J -> slice m b (b + length q2.2) = q2.2.
  Proof.
    intros HR. pose proof (op_slice _ _ _ _ _ _ _ (ro_open2 _ _ _ _ _ _ _ _ _ _ _ _ HR) 0 (length q2.2)) as E.
    rewrite Nat.add_0_r in E. rewrite E by done. apply slice_whole.
  Qed.
  (** one container: result [v], new content *)
  Lemma one_plain M S q f2 L m s b JW J {R : Type} (p : prog A R) v mm : runs_on M S q q true f2 L m s b JW J ->
    fwp L p m s (fun r m1 s1 => r = v /\ m1 = mm /\ s1 = s) ->
    exists M', exec (cworld A) p (M, S) v (M', S) /\ becomes M [(q, slice mm 0 (length q.2))] M'.
  Proof.
    intros HR Hp. destruct (ro_run _ _ _ _ _ _ _ _ _ _ _ _ HR _ _ _ Hp) as (r&m'&s'&M'&S'&He&(->&->&->)&HJ&H1&_&H3).
    rewrite (ro_fun _ _ _ _ _ _ _ _ _ _ _ _ HR _ _ _ HJ (ro_J _ _ _ _ _ _ _ _ _ _ _ _ HR)) in He.
    exists M'. split; [done|]. split.
    - intros q' vs' [= -> ->]%elem_of_list_singleton. done.
    - intros q' Hq' Hs. apply H3; [..|done]; intros _; eapply Hq'; by apply elem_of_list_singleton.
  Qed.
  (** the same with a position stored through an out parameter *)
  Lemma one_out M S q f2 L m s b JW J {R : Type} (p : prog A (R * option iid)) o v k mm : runs_on M S q q true f2 L m s b JW J ->
    k <= length q.2 -> fwp L p m s (fun r m1 s1 => r.1 = v /\ m1 = mm /\ out_set o k s r.2 s1) ->
    exists w M' S', exec (cworld A) p (M, S) (v, w) (M', S') /\ becomes M [(q, slice mm 0 (length q.2))] M' /\ stored q o k S w S'.
  Proof.
    intros HR Hk Hp. destruct (ro_run _ _ _ _ _ _ _ _ _ _ _ _ HR _ _ _ Hp) as ([r w]&m'&s'&M'&S'&He&(Hr&->&Ho)&HJ&H1&_&H3).
    cbn [fst snd] in *. subst r.
    destruct (ro_out1 _ _ _ _ _ _ _ _ _ _ _ _ HR _ _ _ _ _ _ Hk (ro_J _ _ _ _ _ _ _ _ _ _ _ _ HR) Ho) as (S2&Hst&HJ2).
    rewrite (ro_fun _ _ _ _ _ _ _ _ _ _ _ _ HR _ _ _ HJ HJ2) in He.
    exists w, M', S2. split; [done|]. split; [|done]. split.
    - intros q' vs' [= -> ->]%elem_of_list_singleton. done.
    - intros q' Hq' Hs. apply H3; [..|done]; intros _; eapply Hq'; by apply elem_of_list_singleton.
  Qed.
End facts.
