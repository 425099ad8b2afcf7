(** SlistSort.v — correctness of c_slist_sort_by: the bottom-up merge sort with 64 bins. *)
From Verif Require Import Base Spec SpecSeq SpecListOps SpecSlistOps Facts MergeFacts DListSort DList Path Slist SpecSlist SlistCore SlistProofs SlistAlgo.
From stdpp Require Import list gmap.

Section proofs.
  Context {A : Type} (alloc : sheap A -> loc) (Halloc : smalloc_ok alloc) (comp : A -> A -> bool).
  Implicit Types h : sheap A.
  Notation cell := (loc * A)%type.
  Implicit Types cs ds rest cr : list cell.
  Implicit Types bins : list (list cell).
  Implicit Types ls other : list (sobj * list cell).
  Notation ccomp := (on2 (K := loc) comp).
  Notation mrg := (fun cs ds => seq_merge_into ccomp ds cs).
  Context (Srt : list (loc * A) -> Prop) (Rel : list (loc * A) -> list (loc * A) -> Prop) (HM : merging Srt Rel mrg).

  (** the slists [ls] are all that became of the snodes [L0] of the heap [h0]; nothing was destroyed *)
  Definition inv h0 (L0 : list loc) h ls : Prop := slists h ls /\ sstep h0 h L0 (all_snodes ls) /\ sdead h = sdead h0.
  Lemma all_snodes_perm ls ls' : ls ≡ₚ ls' -> all_snodes ls ≡ₚ all_snodes ls'.
  Proof.
    intros Hp. unfold all_snodes. induction Hp; cbn [map concat]; [done| | |].
    - by rewrite IHHp.
    - rewrite !app_assoc. f_equiv. apply Permutation_app_comm.
    - by etrans.
  Qed.
  Lemma inv_perm h0 L0 h ls ls' : ls ≡ₚ ls' -> inv h0 L0 h ls -> inv h0 L0 h ls'.
  Proof.
    intros Hp (H1&H2&H3). split_and!; [by eapply slists_perm| |done]. eapply sstep_equiv; [done|done|].
    intros y. by rewrite (all_snodes_perm _ _ Hp).
  Qed.
  Lemma sstep_ctx h h' a b ls : sstep h h' a b -> sstep h h' (a ++ all_snodes ls) (b ++ all_snodes ls).
  Proof.
    intros Hs. apply (sstep_weaken _ _ _ _ (all_snodes ls)) in Hs. eapply sstep_equiv; [done| |];
      intros y; rewrite !elem_of_app; tauto.
  Qed.
  Lemma inv_op2 h0 L0 h h' s cs t ds cs' ds' other : inv h0 L0 h ((s, cs) :: (t, ds) :: other) ->
    supd2 h h' s t cs ds cs' ds' -> inv h0 L0 h' ((s, cs') :: (t, ds') :: other).
  Proof.
    intros (H1&H2&H3) (U1&U2&(U3&U4&U5)). split_and!.
    - apply (slists_step h h' [(s, cs); (t, ds)] [(s, cs'); (t, ds')] other); [done|done|]. by rewrite !all_snodes_two.
    - eapply sstep_trans; [exact H2|]. apply (sstep_ctx _ _ _ _ other) in U2.
      cbn [all_snodes map concat fst snd]. rewrite !app_assoc. done.
    - congruence.
  Qed.
  Lemma inv_two h0 L0 h s cs t ds other : inv h0 L0 h ((s, cs) :: (t, ds) :: other) -> slists h [(s, cs); (t, ds)].
  Proof. intros (H1&_&_). apply (slists_app _ [(s, cs); (t, ds)] other) in H1. tauto. Qed.
  Lemma inv_in h0 L0 h ls s cs : inv h0 L0 h ls -> (s, cs) ∈ ls -> is_slist h s cs.
  Proof. intros (H1&_&_) Hin. by apply (slists_in _ _ _ H1 Hin). Qed.
  Lemma inv_merge h0 L0 h s cs t ds other : inv h0 L0 h ((s, cs) :: (t, ds) :: other) ->
    exists h', c_slist_merge_by comp h s t = Ok h' /\ inv h0 L0 h' ((s, seq_merge_into ccomp ds cs) :: (t, []) :: other).
  Proof.
    intros HI. destruct (smerge_any_ok comp h s cs t ds (inv_two _ _ _ _ _ _ _ _ HI)) as (h'&E&HU).
    exists h'. split; [done|]. by eapply inv_op2.
  Qed.
  Lemma inv_create h0 L0 h ls : inv h0 L0 h ls ->
    let '(h', s) := c_slist_create alloc h in inv h0 L0 h' ((s, []) :: ls).
  Proof.
    intros (H1&H2&H3). pose proof (screate_ok alloc Halloc h) as Hc. destruct (c_slist_create alloc h) as [h' s].
    destruct Hc as (C1&C2&C3&_). split_and!.
    - apply (slists_step h h' [] [(s, [])] ls); [done|by apply slists_one|]. done.
    - eapply sstep_trans; [exact H2|]. apply (sstep_ctx _ _ _ _ ls) in C2. done.
    - congruence.
  Qed.
  Lemma inv_destroy h0 L0 h s ls : inv h0 L0 h ((s, []) :: ls) ->
    exists h', c_slist_destroy h s = Ok h' /\ inv h0 L0 h' ls.
  Proof.
    intros HI. pose proof (inv_in _ _ _ _ s [] HI ltac:(left)) as HL. destruct HI as (H1&H2&H3).
    destruct (sdestroy_ok h s [] HL) as (h'&E&D1&D2). exists h'. split; [done|]. split_and!.
    - apply (slists_step h h' [(s, [])] [] ls); [done|apply slists_nil|]. by rewrite all_snodes_one.
    - eapply sstep_trans; [exact H2|]. apply (sstep_ctx _ _ _ _ ls) in D1. done.
    - rewrite D2. cbn. rewrite app_nil_r. done.
  Qed.

  Lemma screate_counters_ok n : forall h0 L0 h ls, inv h0 L0 h ls ->
    let '(h', cts) := screate_counters alloc n h in
    length cts = n /\ inv h0 L0 h' (zip cts (replicate n []) ++ ls).
  Proof.
    induction n as [|n IH]; intros h0 L0 h ls HI; cbn [screate_counters]; [done|].
    pose proof (inv_create _ _ _ _ HI) as HC. destruct (c_slist_create alloc h) as [h1 c].
    specialize (IH _ _ _ _ HC). destruct (screate_counters alloc n h1) as [h2 cts]. destruct IH as [Hl HI2].
    split; [cbn; by rewrite Hl|]. eapply inv_perm; [|exact HI2]. cbn. by rewrite <- Permutation_middle.
  Qed.
  Lemma sdestroy_all_ok cts : forall h0 L0 h ls, inv h0 L0 h (zip cts (replicate (length cts) []) ++ ls) ->
    exists h', sdestroy_all h cts = Ok h' /\ inv h0 L0 h' ls.
  Proof.
    induction cts as [|c cts IH]; intros h0 L0 h ls HI; cbn [sdestroy_all]; [by exists h|].
    cbn in HI. destruct (inv_destroy _ _ _ _ _ HI) as (h1&E1&HI1). rewrite E1. cbn [rbind]. by eapply IH.
  Qed.

  Lemma scget_at (c1 : list sobj) c c2 i : i = length c1 -> sget (c1 ++ c :: c2) i = Ok c.
  Proof. intros ->. unfold sget. by rewrite list_lookup_middle. Qed.
  Lemma scset_at (c1 : list sobj) c c2 i d : i = length c1 -> sset (c1 ++ c :: c2) i d = Ok (c1 ++ d :: c2).
  Proof. intros ->. unfold sset. rewrite list_lookup_middle by done. by rewrite insert_app_r_alt, Nat.sub_diag. Qed.

  (** pushing the carry through the occupied bins *)
  Lemma scarry_loop_ok h0 L0 other fill fuel : forall h carry cr ct1 ct2 b1 b2,
    inv h0 L0 h ((carry, cr) :: zip (ct1 ++ ct2) (b1 ++ b2) ++ other) ->
    length ct1 = length b1 -> length ct2 = length b2 ->
    Forall (fun b => b = []) b1 -> binned Srt (length b1) b2 ->
    length b1 <= fill <= length b1 + length b2 -> fill - length b1 < fuel ->
    Srt cr -> length cr = 2 ^ length b1 ->
    exists h' carry' cr' ct1' ct2' b1' b2', scarry_loop comp fuel h carry (ct1 ++ ct2) (length b1) fill =
        Ok (h', carry', ct1' ++ ct2', length b1') /\
      inv h0 L0 h' ((carry', cr') :: zip (ct1' ++ ct2') (b1' ++ b2') ++ other) /\
      length ct1' = length b1' /\ length ct2' = length b2' /\ length b1' + length b2' = length b1 + length b2 /\
      Forall (fun b => b = []) b1' /\ binned Srt (length b1') b2' /\
      length b1' <= fill /\ (length b1' = fill \/ exists r, b2' = [] :: r) /\ (exists p, p ++ b2' = b2 /\ length b1' = length b1 + length p) /\
      Srt cr' /\ length cr' = 2 ^ length b1' /\
      Rel (flat b2 ++ cr) (flat b2' ++ cr').
  Proof.
    induction fuel as [|fuel IH]; intros h carry cr ct1 ct2 b1 b2 HI Hc1 Hc2 Hb1 Hb2 Hfill Hf Hs Hl; [lia|].
    cbn [scarry_loop]. destruct (length b1 <? fill) eqn:Hlt.
    2:{ apply Nat.ltb_ge in Hlt. exists h, carry, cr, ct1, ct2, b1, b2.
        refine (conj eq_refl (conj HI (conj Hc1 (conj Hc2 (conj eq_refl (conj Hb1 (conj Hb2 (conj _ (conj _ (conj _ (conj Hs (conj Hl _)))))))))))).
        - lia.
        - left. lia.
        - exists []. split; [done|]. cbn. lia.
        - apply (m_refl HM). }
    apply Nat.ltb_lt in Hlt. destruct b2 as [|b b2]; [cbn in Hfill; lia|]. destruct ct2 as [|c ct2]; [done|].
    injection Hc2 as Hc2. rewrite scget_at by done. cbn [rbind].
    assert (zip (ct1 ++ c :: ct2) (b1 ++ b :: b2) = zip ct1 b1 ++ (c, b) :: zip ct2 b2) as Hz by (rewrite zip_with_app by done; done).
    rewrite Hz in HI.
    assert ((carry, cr) :: (zip ct1 b1 ++ (c, b) :: zip ct2 b2) ++ other ≡ₚ
      (c, b) :: (carry, cr) :: (zip ct1 b1 ++ zip ct2 b2) ++ other) as Hp.
    { rewrite <- Permutation_middle. cbn. constructor. }
    apply (inv_perm _ _ _ _ _ Hp) in HI. pose proof (inv_in _ _ _ _ c b HI ltac:(left)) as HLc.
    rewrite (sempty_ok _ _ _ HLc). cbn [rbind]. apply binned_cons in Hb2 as [[Hbs Hbl] Hb2].
    case_bool_decide as Hbe.
    - subst b. exists h, carry, cr, ct1, (c :: ct2), b1, ([] :: b2).
      refine (conj eq_refl (conj _ (conj Hc1 (conj _ (conj eq_refl (conj Hb1 (conj _ (conj _ (conj _ (conj _ (conj Hs (conj Hl _)))))))))))).
      + rewrite Hz. eapply inv_perm; [symmetry; exact Hp|done].
      + cbn. by rewrite Hc2.
      + apply binned_cons. split; [split; [apply (m_short HM); cbn; lia|by left]|done].
      + lia.
      + right. by eexists.
      + exists []. split; [done|]. cbn. lia.
      + apply (m_refl HM).
    - destruct (inv_merge _ _ _ _ _ _ _ _ HI) as (h1&E1&HI1). rewrite E1. cbn [rbind].
      rewrite scset_at by done. cbn [rbind]. destruct Hbl as [?|Hbl]; [done|].
      destruct (IH h1 c (seq_merge_into ccomp cr b) (ct1 ++ [carry]) ct2 (b1 ++ [[]]) b2)
        as (h'&carry'&cr'&ct1'&ct2'&b1'&b2'&E&R1&R2&R3&R4&R5&R6&R7&R8&(p&Rp1&Rp2)&R9&R10&R11).
      + rewrite <- !app_assoc. cbn [app]. rewrite zip_with_app by done. cbn [zip zip_with].
        eapply inv_perm; [|exact HI1]. constructor. rewrite <- app_assoc. cbn. rewrite <- app_assoc. cbn.
        by rewrite <- Permutation_middle.
      + rewrite !app_length. cbn. lia.
      + done.
      + apply Forall_app. split; [done|]. by constructor.
      + rewrite app_length. cbn. by rewrite Nat.add_1_r.
      + rewrite app_length. cbn in *. lia.
      + rewrite app_length. cbn in *. lia.
      + by apply (m_srt HM).
      + rewrite (m_len HM), app_length, Hbl, Hl. cbn [length]. rewrite Nat.add_1_r. cbn. lia.
      + rewrite app_length in E. cbn [length] in E. rewrite Nat.add_1_r in E. rewrite <- app_assoc in E. cbn [app] in E.
        exists h', carry', cr', ct1', ct2', b1', b2'. rewrite E. rewrite app_length in R4, Rp2. cbn in R4, Rp2.
        refine (conj eq_refl (conj R1 (conj R2 (conj R3 (conj _ (conj R5 (conj R6 (conj R7 (conj R8 (conj _ (conj R9 (conj R10 _)))))))))))).
        * cbn. lia.
        * exists (b :: p). split; [cbn; by rewrite Rp1|]. cbn. lia.
        * eapply (m_trans HM); [|exact R11]. rewrite flat_cons, <- app_assoc. apply (m_app HM); [apply (m_refl HM)|].
          by apply (m_rel HM).
  Qed.

  (** taking the elements one by one *)
  Lemma ssort_loop_ok h0 L0 other l fuel : forall h carry cts bins fill done_ rest,
    inv h0 L0 h ((l, rest) :: (carry, []) :: zip cts bins ++ other) ->
    length cts = 64 -> length bins = 64 -> binned Srt 0 bins -> fill <= 64 ->
    (forall i b, bins !! i = Some b -> fill <= i -> b = []) -> (done_ <> [] -> 0 < fill) ->
    Rel done_ (flat bins) ->
    (Z.of_nat (length (done_ ++ rest)) < 2 ^ 64)%Z -> length rest < fuel ->
    exists h' carry' cts' bins' fill', ssort_loop comp fuel h l carry cts fill = Ok (h', carry', cts', fill') /\
      inv h0 L0 h' ((l, []) :: (carry', []) :: zip cts' bins' ++ other) /\
      length cts' = 64 /\ length bins' = 64 /\ binned Srt 0 bins' /\ fill' <= 64 /\
      (forall i b, bins' !! i = Some b -> fill' <= i -> b = []) /\ (done_ ++ rest <> [] -> 0 < fill') /\
      Rel (done_ ++ rest) (flat bins').
  Proof.
    induction fuel as [|fuel IH]; intros h carry cts bins fill done_ rest HI Hct Hbl Hb Hfill Hempty Hpos Hst Hlen Hf; [lia|].
    cbn [ssort_loop]. pose proof (inv_in _ _ _ _ l rest HI ltac:(left)) as HLl.
    rewrite (sempty_ok _ _ _ HLl). cbn [rbind]. case_bool_decide as Hr.
    { subst rest. exists h, carry, cts, bins, fill. rewrite app_nil_r in *.
      refine (conj eq_refl (conj HI (conj Hct (conj Hbl (conj Hb (conj Hfill (conj Hempty (conj Hpos Hst)))))))). }
    destruct rest as [|[x a] rest]; [done|].
    pose proof (inv_in _ _ _ _ carry [] HI ltac:(right; left)) as HLc.
    rewrite (sbegin_ok _ _ _ HLl). cbn [rbind hd fmap list_fmap fst].
    rewrite (snext_at h l [] x a rest HLl). cbn [rbind].
    assert (slists h [(carry, []); (l, (x, a) :: rest)]) as HL2.
    { eapply slists_perm; [|eapply inv_two; exact HI]. constructor. }
    destruct (transfer_two h carry [] [] l [] [(x, a)] rest HL2) as (h1&E1&HL1&Hr1).
    cbn [app fmap list_fmap fst hd lst] in E1. rewrite E1. cbn [rbind].
    assert (inv h0 L0 h1 ((carry, [(x, a)]) :: (l, rest) :: zip cts bins ++ other)) as HI1.
    { eapply (inv_op2 _ _ h h1 carry [] l ((x, a) :: rest)); [eapply inv_perm; [|exact HI]; constructor|].
      refine (conj HL1 (conj _ Hr1)). eapply srelink_two; [done|]. done. }
    destruct (scarry_loop_ok h0 L0 ((l, rest) :: other) fill (S fill) h1 carry [(x, a)] [] cts [] bins)
      as (h2&carry'&cr'&ct1'&ct2'&b1'&b2'&E2&R1&R2&R3&R4&R5&R6&R7&R8&(p&Rp1&Rp2)&R9&R10&R11); try done.
    - cbn [app]. eapply inv_perm; [|exact HI1]. constructor. apply (Permutation_middle (zip cts bins) other (l, rest)).
    - cbn. lia.
    - cbn. lia.
    - cbn. lia.
    - apply (m_short HM). cbn. lia.
    - cbn [app length] in E2. rewrite E2. cbn [rbind]. cbn in R4.
      assert (Hst2 : Rel (done_ ++ [(x, a)]) (flat b2' ++ cr')).
      { eapply (m_trans HM); [|exact R11]. apply (m_app HM); [done|apply (m_refl HM)]. }
      assert (length b1' < 64) as H64.
      { eapply pow64; [exact Hlen|]. rewrite <- R10. pose proof (m_perm HM _ _ Hst2) as Hperm. apply Permutation_length in Hperm.
        rewrite !app_length in *. cbn in *. lia. }
      destruct b2' as [|b b2']; [cbn in R4; lia|]. destruct ct2' as [|c ct2']; [done|]. injection R3 as R3.
      assert (b = []) as ->.
      { destruct R8 as [R8|[r [= -> _]]]; [|done]. apply (Hempty (length b1')); [|lia]. rewrite <- Rp1.
        cbn in Rp2. rewrite Rp2. by rewrite list_lookup_middle. }
      rewrite scget_at by done. cbn [rbind]. rewrite scset_at by done. cbn [rbind].
      rewrite zip_with_app in R1 by done. cbn [zip_with] in R1.
      destruct (IH h2 c (ct1' ++ carry' :: ct2') (b1' ++ cr' :: b2') (if length b1' =? fill then S fill else fill)
        (done_ ++ [(x, a)]) rest) as (h3&carry3&cts3&bins3&fill3&E3&Q1&Q2&Q3&Q4&Q5&Q6&Q7&Q8).
      + rewrite zip_with_app by done. cbn [zip_with]. eapply inv_perm; [|exact R1].
        rewrite <- !app_assoc. cbn. solve_Permutation.
      + rewrite app_length. cbn. cbn in R4. lia.
      + rewrite app_length. cbn. cbn in R4. lia.
      + apply binned_app. split; [by apply (binned_nil _ (m_short HM))|]. cbn. apply binned_cons in R6 as [_ R6]. apply binned_cons.
        split; [split; [done|by right]|done].
      + destruct (length b1' =? fill) eqn:Hef; [apply Nat.eqb_eq in Hef; lia|lia].
      + intros i b Hi Hle. destruct (decide (i < length b1')) as [Hlt|Hge].
        { rewrite lookup_app_l in Hi by done. rewrite Forall_lookup in R5. by eapply R5. }
        rewrite lookup_app_r in Hi by lia. destruct (i - length b1') as [|k] eqn:Hk.
        { exfalso. destruct (length b1' =? fill) eqn:Hef; [apply Nat.eqb_eq in Hef; lia|apply Nat.eqb_neq in Hef; lia]. }
        cbn in Hi. apply (Hempty i).
        * rewrite <- Rp1. cbn in Rp2. rewrite lookup_app_r by lia. replace (i - length p) with (S k) by lia. done.
        * destruct (length b1' =? fill); lia.
      + intros _. destruct (length b1' =? fill) eqn:Hef; [lia|]. apply Nat.eqb_neq in Hef. lia.
      + eapply (m_trans HM); [exact Hst2|]. rewrite flat_app, !flat_cons, (flat_nil b1') by done. rewrite !app_nil_r. apply (m_refl HM).
      + rewrite <- app_assoc. done.
      + cbn in Hf. lia.
      + exists h3, carry3, cts3, bins3, fill3. rewrite <- app_assoc in Q8, Q7.
        exact (conj E3 (conj Q1 (conj Q2 (conj Q3 (conj Q4 (conj Q5 (conj Q6 (conj Q7 Q8)))))))).
  Qed.
  (** merging the bins upwards *)
  Lemma smerge_up_ok h0 L0 other n : forall h ct1 c ct2 b1 b b2,
    inv h0 L0 h (zip (ct1 ++ c :: ct2) (b1 ++ b :: b2) ++ other) -> length ct1 = length b1 -> length ct2 = length b2 ->
    Forall (fun b => b = []) b1 -> Srt b -> Forall Srt b2 -> n <= length b2 ->
    exists h' b1' b' b2', smerge_up comp n (S (length b1)) h (ct1 ++ c :: ct2) = Ok h' /\
      inv h0 L0 h' (zip (ct1 ++ c :: ct2) (b1' ++ b' :: b2') ++ other) /\ length b1' = length b1 + n /\
      Forall (fun b => b = []) b1' /\ Srt b' /\ b2' = drop n b2 /\
      Rel (flat (b1 ++ b :: b2)) (flat (b1' ++ b' :: b2')).
  Proof.
    induction n as [|n IH]; intros h ct1 c ct2 b1 b b2 HI Hc1 Hc2 Hb1 Hb Hb2 Hn; cbn [smerge_up].
    { exists h, b1, b, b2. rewrite Nat.add_0_r, drop_0.
      refine (conj eq_refl (conj HI (conj eq_refl (conj Hb1 (conj Hb (conj eq_refl _)))))). apply (m_refl HM). }
    destruct b2 as [|y b2]; [cbn in Hn; lia|]. destruct ct2 as [|d ct2]; [done|]. injection Hc2 as Hc2.
    apply Forall_cons in Hb2 as [Hy Hb2].
    assert (sget (ct1 ++ c :: d :: ct2) (S (length b1)) = Ok d) as ->.
    { replace (ct1 ++ c :: d :: ct2) with ((ct1 ++ [c]) ++ d :: ct2) by by rewrite <- app_assoc.
      apply scget_at. rewrite app_length. cbn. lia. }
    cbn [rbind]. rewrite scget_at by lia. cbn [rbind].
    rewrite zip_with_app in HI by done. cbn [zip_with] in HI.
    assert ((zip_with pair ct1 b1 ++ (c, b) :: (d, y) :: zip_with pair ct2 b2) ++ other ≡ₚ
       (d, y) :: (c, b) :: (zip_with pair ct1 b1 ++ zip_with pair ct2 b2) ++ other) as Hp.
    { rewrite <- !app_assoc. cbn. solve_Permutation. }
    apply (inv_perm _ _ _ _ _ Hp) in HI. destruct (inv_merge _ _ _ _ _ _ _ _ HI) as (h1&E1&HI1). rewrite E1. cbn [rbind].
    destruct (IH h1 (ct1 ++ [c]) d ct2 (b1 ++ [[]]) (seq_merge_into ccomp b y) b2) as (h2&b1'&b'&b2'&E2&Q1&Q2&Q3&Q4&Q5&Q6); try done.
    - rewrite zip_with_app by (rewrite !app_length; cbn; lia). rewrite zip_with_app by done. cbn [zip_with].
      eapply inv_perm; [|exact HI1]. rewrite <- !app_assoc. cbn. solve_Permutation.
    - rewrite !app_length. cbn. lia.
    - apply Forall_app. split; [done|]. by constructor.
    - by apply (m_srt HM).
    - cbn in Hn. lia.
    - rewrite app_length in E2, Q2. cbn [length] in E2, Q2. rewrite Nat.add_1_r in E2. rewrite <- !app_assoc in E2. cbn [app] in E2.
      rewrite <- !app_assoc in Q1. cbn [app] in Q1.
      exists h2, b1', b', b2'. cbn [drop].
      refine (conj E2 (conj Q1 (conj _ (conj Q3 (conj Q4 (conj Q5 _)))))); [lia|].
      eapply (m_trans HM); [|exact Q6]. rewrite <- app_assoc. cbn [app]. rewrite !flat_app, !flat_cons, app_nil_r.
      apply (m_app HM); [|apply (m_refl HM)]. rewrite <- app_assoc. apply (m_app HM); [apply (m_refl HM)|].
      by apply (m_rel HM).
  Qed.

  Lemma ssort_gen h l cs : is_slist h l cs -> (Z.of_nat (length cs) < 2 ^ 64)%Z ->
    exists h' l' cs', c_slist_sort_by alloc comp h l = Ok (h', l') /\ is_slist h' l' cs' /\
      Srt cs' /\ Rel cs cs' /\
      sstep h h' (snodes l cs) (snodes l' cs') /\ sdead h' = sdead h /\ (length cs <= 1 -> l' = l) /\ (2 <= length cs -> svl h' !! l.1 = None /\ svl h' !! l.2 = None).
  Proof.
    intros HL Hlen. unfold c_slist_sort_by. rewrite (short_ok _ _ _ HL). cbn [rbind].
    assert (forall r : res (sheap A * sobj), r = Ok (h, l) -> length cs <= 1 -> exists h' l' cs', r = Ok (h', l') /\ is_slist h' l' cs' /\
      Srt cs' /\ Rel cs cs' /\
      sstep h h' (snodes l cs) (snodes l' cs') /\ sdead h' = sdead h /\ (length cs <= 1 -> l' = l) /\ (2 <= length cs -> svl h' !! l.1 = None /\ svl h' !! l.2 = None)) as Htriv.
    { intros r -> Hl. exists h, l, cs. refine (conj eq_refl (conj HL (conj _ (conj _ (conj _ (conj eq_refl (conj _ _))))))).
      - by apply (m_short HM).
      - apply (m_refl HM).
      - by apply sstep_refl.
      - done.
      - lia. }
    case_bool_decide as Hle; [apply Htriv; [done|done]|]. clear Htriv.
    assert (cs <> []) as Hc by (intros ->; cbn in Hle; lia).
    assert (inv h (snodes l cs) h [(l, cs)]) as HI0.
    { split_and!; [by apply slists_one| |done]. rewrite all_snodes_one. by apply sstep_refl. }
    pose proof (inv_create _ _ _ _ HI0) as HI1. destruct (c_slist_create alloc h) as [h1 carry].
    pose proof (screate_counters_ok 64 _ _ _ _ HI1) as HI2. destruct (screate_counters alloc 64 h1) as [h2 cts].
    destruct HI2 as [Hct HI2].
    destruct (ssort_loop_ok h (snodes l cs) [] l (sfuel h2) h2 carry cts (replicate 64 []) 0 [] cs)
      as (h3&carry3&cts3&bins3&fill3&E3&Q1&Q2&Q3&Q4&Q5&Q6&Q7&Q8).
    - eapply inv_perm; [|exact HI2]. rewrite app_nil_r. solve_Permutation.
    - done.
    - by rewrite replicate_length.
    - apply (binned_nil _ (m_short HM)), Forall_replicate. done.
    - lia.
    - intros i b Hi _. apply lookup_replicate in Hi as [-> _]. done.
    - done.
    - rewrite flat_replicate. apply (m_refl HM).
    - done.
    - eapply sfuel_enough. eapply (inv_in _ _ _ _ l cs HI2). apply elem_of_app. right. right. left.
    - rewrite E3. cbn [rbind]. cbn [app] in Q7, Q8. specialize (Q7 Hc). rewrite app_nil_r in Q1.
      destruct bins3 as [|b bins3]; [done|]. destruct cts3 as [|c cts3]; [done|]. injection Q2 as Q2. injection Q3 as Q3.
      apply binned_cons in Q4 as [[Hbs _] Q4].
      destruct (smerge_up_ok h (snodes l cs) [(l, []); (carry3, [])] (fill3 - 1) h3 [] c cts3 [] b bins3)
        as (h4&b1&b'&b2&E4&P1&P2&P3&P4&P5&P6).
      + cbn [app]. eapply inv_perm; [|exact Q1]. cbn. solve_Permutation.
      + done.
      + lia.
      + constructor.
      + done.
      + apply Forall_lookup. intros i x Hx. by apply (Q4 i).
      + lia.
      + cbn [length app] in E4. rewrite E4. cbn [rbind]. cbn [app length] in P2, P1.
        assert (Forall (fun b => b = []) b2) as Hb2.
        { rewrite P5. apply Forall_lookup. intros i x Hx. rewrite lookup_drop in Hx. apply (Q6 (S (fill3 - 1 + i)) x Hx). lia. }
        assert (exists ct1 c' ct2, c :: cts3 = ct1 ++ c' :: ct2 /\ length ct1 = fill3 - 1) as (ct1&c'&ct2&Hsp&Hl1).
        { destruct (lookup_lt_is_Some_2 (c :: cts3) (fill3 - 1)) as [c' Hc']; [cbn; lia|].
          exists (take (fill3 - 1) (c :: cts3)), c', (drop (S (fill3 - 1)) (c :: cts3)). split; [by rewrite take_drop_middle|].
          rewrite take_length. cbn. lia. }
        rewrite Hsp in *. rewrite scget_at by done. cbn [rbind]. rewrite scset_at by done. cbn [rbind].
        assert (length ct1 = length b1) as Hl1' by lia.
        assert (length ct2 = length b2) as Hl2'.
        { rewrite P5, drop_length. apply (f_equal length) in Hsp. rewrite app_length in Hsp. cbn in Hsp. lia. }
        rewrite zip_with_app in P1 by done. cbn [zip_with] in P1.
        assert (Hz1 : zip_with pair ct1 b1 = zip ct1 (replicate (length ct1) [])).
        { rewrite Hl1'. f_equal. symmetry. apply replicate_as_elem_of. split; [done|]. intros x Hx. rewrite Forall_forall in P3. by apply P3. }
        assert (Hz2 : zip_with pair ct2 b2 = zip ct2 (replicate (length ct2) [])).
        { rewrite Hl2'. f_equal. symmetry. apply replicate_as_elem_of. split; [done|]. intros x Hx. rewrite Forall_forall in Hb2. by apply Hb2. }
        destruct (sdestroy_all_ok (ct1 ++ l :: ct2) h (snodes l cs) h4 [(carry3, []); (c', b')]) as (h5&E5&HI5).
        { rewrite app_length. cbn [length]. rewrite replicate_add. rewrite zip_with_app by (by rewrite replicate_length).
          cbn [replicate zip_with]. rewrite <- Hz1, <- Hz2. eapply inv_perm; [|exact P1].
          rewrite <- !app_assoc. cbn. solve_Permutation. }
        rewrite E5. cbn [rbind]. destruct (inv_destroy _ _ _ _ _ HI5) as (h6&E6&(HI6&HI7&HI8)). rewrite E6. cbn [rbind].
        exists h6, c', b'. apply slists_one in HI6. rewrite all_snodes_one in HI7.
        refine (conj eq_refl (conj HI6 (conj P4 (conj _ (conj HI7 (conj HI8 (conj _ _))))))); [|destruct cs; [done|]; cbn in *; lia|].
        { eapply (m_trans HM); [exact Q8|]. eapply (m_trans HM); [exact P6|].
          rewrite flat_app, flat_cons, (flat_nil b1), (flat_nil b2) by done. rewrite app_nil_r. apply (m_refl HM). }
        intros _. destruct HI7 as (_&HI7&_). destruct P1 as (P1&_). apply slists_app in P1 as (_&_&Hdis).
        assert (forall z, z ∈ snodes l ([] : list cell) -> z ∉ snodes c' b') as Hni.
        { intros z Hz Hin. apply (Hdis z).
          - apply all_snodes_in. exists (c', b'). split; [apply elem_of_app; right; left|done].
          - apply all_snodes_in. exists (l, []). split; [left|done]. }
        split; apply HI7; [left|apply Hni; left|right; left|apply Hni; right; left].
  Qed.
End proofs.

Section instances.
  Context {A : Type}.
  Lemma mi_length {B} (comp : B -> B -> bool) c d : length (seq_merge_into comp d c) = length c + length d.
  Proof. rewrite (Permutation_length (mi_perm comp d c)). apply app_length. Qed.
  Lemma swo_smerging {B} (comp : B -> B -> bool) : StrictWeakOrder comp ->
    merging (sorted comp) (stable_rearrangement comp) (fun c d => seq_merge_into comp d c).
  Proof.
    intros HW. destruct (swo_merging comp HW). split; try done.
    - intros a b Ha Hb. rewrite mi_sorted by done. auto.
    - intros a b. apply mi_length.
    - intros a b Ha Hb. rewrite mi_sorted by done. auto.
  Qed.
  Lemma any_smerging {B} (comp : B -> B -> bool) : merging (fun _ => True) Permutation (fun c d => seq_merge_into comp d c).
  Proof.
    destruct (any_merging comp). split; try done.
    - intros a b. apply mi_length.
    - intros a b _ _. symmetry. apply mi_perm.
  Qed.
  Lemma ssort_ok alloc (Halloc : smalloc_ok alloc) (comp : A -> A -> bool) (HW : StrictWeakOrder comp) (h : sheap A) l cs :
    is_slist h l cs -> (Z.of_nat (length cs) < 2 ^ 64)%Z ->
    exists h' l' cs', c_slist_sort_by alloc comp h l = Ok (h', l') /\ is_slist h' l' cs' /\
      sorted (on2 comp) cs' /\ stable_rearrangement (on2 comp) cs cs' /\
      sstep h h' (snodes l cs) (snodes l' cs') /\ sdead h' = sdead h /\ (length cs <= 1 -> l' = l) /\
      (2 <= length cs -> svl h' !! l.1 = None /\ svl h' !! l.2 = None).
  Proof. apply ssort_gen; [done|]. by apply swo_smerging, on2_swo. Qed.
  Lemma ssort_any_ok alloc (Halloc : smalloc_ok alloc) (comp : A -> A -> bool) (h : sheap A) l cs :
    is_slist h l cs -> (Z.of_nat (length cs) < 2 ^ 64)%Z ->
    exists h' l' cs', c_slist_sort_by alloc comp h l = Ok (h', l') /\ is_slist h' l' cs' /\ cs ≡ₚ cs' /\
      sstep h h' (snodes l cs) (snodes l' cs') /\ sdead h' = sdead h /\ (length cs <= 1 -> l' = l) /\
      (2 <= length cs -> svl h' !! l.1 = None /\ svl h' !! l.2 = None).
  Proof.
    intros HL Hlen. destruct (ssort_gen alloc Halloc comp _ _ (any_smerging _) h l cs HL Hlen) as (h'&l'&cs'&H1&H2&_&H3). by exists h', l', cs'.
  Qed.
End instances.
