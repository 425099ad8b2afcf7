(** SlistAlgo.v — correctness of splice, merge, remove, reverse and unique of Slist.v. *)
From Verif Require Import Base Spec SpecSeq SpecListOps SpecSlistOps Facts MergeFacts DList Path Slist SpecSlist SlistCore SlistProofs.
From Verif Require DListAlgo.
From stdpp Require Import list gmap.

Section proofs.
  Context {A : Type}.
  Implicit Types h : sheap A.
  Notation cell := (loc * A)%type.
  Implicit Types cs ds c d : list cell.
  Implicit Types s t : sobj.

  (** ** moving nodes *)
  Lemma nodup_front s c1 c2 : NoDup (snodes s (c1 ++ c2)) -> NoDup ((s.1 :: c1.*1) ++ c2.*1) /\ s.2 ∉ (s.1 :: c1.*1) ++ c2.*1.
  Proof.
    rewrite snodes_app. intros Hn. apply NoDup_cons in Hn as [N1 N2]. apply NoDup_cons in N2 as [N2 N3]. cbn. split.
    - apply NoDup_cons. split; [|done]. intros H. apply N1. by right.
    - intros H. apply elem_of_cons in H as [H|H]; [|done]. apply N1. rewrite <- H. left.
  Qed.
  Lemma transfer_two h s c1 c2 t d1 d2 d3 :
    slists h [(s, c1 ++ c2); (t, d1 ++ d2 ++ d3)] ->
    exists h', stransfer h (lst s.1 c1.*1) (lst t.1 d1.*1) (hd t.2 d3.*1) = Ok h' /\
      slists h' [(s, c1 ++ d2 ++ c2); (t, d1 ++ d3)] /\
      srelink h h' (snodes s (c1 ++ c2) ++ snodes t (d1 ++ d2 ++ d3)).
  Proof.
    intros HL. pose proof HL as (H1&H2&Hdis)%slists_two.
    pose proof (lst_snodes s c1 c2) as Ip. pose proof (lst_snodes t d1 (d2 ++ d3)) as If.
    assert (lst s.1 c1.*1 ≠ lst t.1 d1.*1) as Npf by (intros E; apply (Hdis _ Ip); by rewrite E).
    assert (hd t.2 d3.*1 ∉ t.1 :: d1.*1) as Nl.
    { pose proof H2 as (Hn&_). apply nodup_front in Hn as [Hn1 Hn2]. destruct d3 as [|[z b] d3]; cbn.
      - intros H. apply Hn2. apply elem_of_app. by left.
      - intros H. apply NoDup_app in Hn1 as (_&Hn1&_). apply (Hn1 _ H). rewrite fmap_app. apply elem_of_app. right. left. }
    destruct d2 as [|[f a] d2].
    { exists h. cbn [app]. refine (conj _ (conj HL _)); [|done]. unfold stransfer. rewrite decide_False by done.
      rewrite decide_False by (intros E; apply Nl; rewrite <- E; apply lst_in).
      rewrite (snext_pos _ _ _ _ H2). cbn [rbind app]. by rewrite decide_True. }
    pose proof H1 as (Nd1&P1&Vs1&Vs2&Hf1). pose proof H2 as (Nd2&P2&Vt1&Vt2&Hf2).
    rewrite fmap_app, app_comm_cons in P1. apply path_app in P1 as [P1 Pc2].
    rewrite fmap_app, app_comm_cons in P2. apply path_app in P2 as [P2 Pd]. rewrite fmap_app in Pd. apply path_app in Pd as [Pd2 Pd3].
    cbn [fmap list_fmap fst app hd] in P2. pose proof (nodup_front _ _ _ Nd1) as [Ns Ns2]. pose proof (nodup_front _ _ _ Nd2) as [Nt Nt2].
    rewrite fmap_app in Nt, Nt2.
    assert (forall y, y ∈ (s.1 :: c1.*1) ++ c2.*1 -> y ∈ snodes s (c1 ++ c2)) as Is.
    { intros y Hy. rewrite snodes_app. apply elem_of_cons in Hy as [->|Hy]; [left|]. by do 2 right. }
    assert (forall y, y ∈ (t.1 :: d1.*1) ++ ((f, a) :: d2).*1 ++ d3.*1 -> y ∈ snodes t (d1 ++ ((f, a) :: d2) ++ d3)) as It.
    { intros y Hy. rewrite snodes_app, fmap_app. apply elem_of_cons in Hy as [->|Hy]; [left|]. by do 2 right. }
    assert (forall y, y ∈ (s.1 :: c1.*1) ++ c2.*1 -> y ∉ (t.1 :: d1.*1) ++ ((f, a) :: d2).*1 ++ d3.*1) as Dst.
    { intros y Hy Hy'. apply (Hdis y); auto. }
    destruct (stransfer_segs h s.1 c1.*1 (hd s.2 c2.*1) t.1 d1.*1 f d2.*1 (hd t.2 d3.*1)) as (h'&E&Hv&Hd&Q1&Q2&Q3&Q4).
    - apply NoDup_app. refine (conj _ (conj _ _)).
      + by apply NoDup_app in Ns as (?&_).
      + intros y Hy Hy'. apply (Dst y); [apply elem_of_app; by left|]. apply elem_of_app in Hy' as [Hy'|Hy']; apply elem_of_app; [by left|].
        right. apply elem_of_app. by left.
      + rewrite app_assoc in Nt. by apply NoDup_app in Nt as (?&_).
    - done.
    - done.
    - done.
    - intros H. destruct d3 as [|[z b] d3]; cbn in H.
      + apply Nt2. apply elem_of_app. right. apply elem_of_app. by left.
      + apply NoDup_app in Nt as (_&_&Nt). apply NoDup_app in Nt as (_&Nt&_). apply (Nt _ H). left.
    - intros E. apply Nl. rewrite E. apply lst_in.
    - intros y Hy. rewrite !elem_of_app in Hy. destruct Hy as [Hy|[Hy|Hy]].
      + eapply is_slist_vl; [exact H1|]. apply Is. apply elem_of_app. by left.
      + eapply is_slist_vl; [exact H2|]. apply It. apply elem_of_app. by left.
      + eapply is_slist_vl; [exact H2|]. apply It. apply elem_of_app. right. apply elem_of_app. by left.
    - exists h'. split; [done|]. apply Forall_app in Hf1 as [Hf1 Hf1']. apply Forall_app in Hf2 as [Hf2 Hf2'].
      apply Forall_app in Hf2' as [Hf2' Hf2'']. split.
      + assert (snodes s (c1 ++ ((f, a) :: d2) ++ c2) ++ snodes t (d1 ++ d3) ≡ₚ
                snodes s (c1 ++ c2) ++ snodes t (d1 ++ ((f, a) :: d2) ++ d3)) as Hperm.
        { rewrite !snodes_app, !fmap_app. solve_Permutation. }
        assert (NoDup (snodes s (c1 ++ ((f, a) :: d2) ++ c2) ++ snodes t (d1 ++ d3))) as Hnew.
        { rewrite Hperm. apply NoDup_app. done. }
        apply NoDup_app in Hnew as (M1&M2&M3). apply slists_two. refine (conj _ (conj _ M2)).
        * refine (conj M1 (conj _ _)).
          -- rewrite !fmap_app, app_comm_cons. apply path_app. split; [done|]. apply path_app. split; [done|].
             eapply path_frame; [exact Pc2|]. intros y Hy. apply Q4. intros Hy'.
             apply elem_of_app in Hy' as [Hy'|Hy']; [apply NoDup_app in Ns as (_&Ns&_); by apply (Ns _ Hy')|].
             apply (Dst y); [apply elem_of_app; by right|]. apply elem_of_app in Hy' as [Hy'|Hy']; apply elem_of_app; [by left|].
             right. apply elem_of_app. by left.
          -- rewrite Hv. refine (conj Vs1 (conj Vs2 _)). apply Forall_app. split; [done|]. by apply Forall_app.
        * refine (conj M3 (conj _ _)).
          -- rewrite fmap_app, app_comm_cons. apply path_app. split; [done|].
             eapply path_frame; [exact Pd3|]. intros y Hy. apply Q4. intros Hy'.
             apply elem_of_app in Hy' as [Hy'|Hy'].
             { apply (Dst y); [apply elem_of_app; by left|]. do 2 (apply elem_of_app; right). done. }
             apply NoDup_app in Nt as (_&Nt1&Nt). apply elem_of_app in Hy' as [Hy'|Hy'].
             { apply (Nt1 _ Hy'). apply elem_of_app. by right. }
             apply NoDup_app in Nt as (_&Nt&_). by apply (Nt _ Hy').
          -- rewrite Hv. refine (conj Vt1 (conj Vt2 _)). by apply Forall_app.
      + refine (conj Hv (conj Hd _)). intros y Hy. apply Q4. intros Hy'. apply Hy. apply elem_of_app.
        rewrite !elem_of_app in Hy'. destruct Hy' as [Hy'|[Hy'|Hy']].
        * left. apply Is. apply elem_of_app. by left.
        * right. apply It. apply elem_of_app. by left.
        * right. apply It. apply elem_of_app. right. apply elem_of_app. by left.
  Qed.
  (** within one list, towards the front *)
  Lemma transfer_front h s c1 c2 d2 c3 : is_slist h s (c1 ++ c2 ++ d2 ++ c3) ->
    exists h', stransfer h (lst s.1 c1.*1) (lst s.1 (c1 ++ c2).*1) (hd s.2 c3.*1) = Ok h' /\
      is_slist h' s (c1 ++ d2 ++ c2 ++ c3) /\ srelink h h' (snodes s (c1 ++ c2 ++ d2 ++ c3)).
  Proof.
    intros HL. destruct c2 as [|[x a] c2].
    { exists h. rewrite app_nil_r. split; [|done]. unfold stransfer. by rewrite decide_True. }
    pose proof HL as (Nd&P&V1&V2&Hf). pose proof (nodup_front _ _ _ Nd) as [Nf Nf2]. rewrite !fmap_app in Nf, Nf2.
    rewrite fmap_app, app_comm_cons in P. apply path_app in P as [P1 P]. rewrite !fmap_app in P, P1.
    apply path_app in P as [P2 P]. apply path_app in P as [P3 P4].
    assert (forall y, y ∈ (s.1 :: c1.*1) ++ ((x, a) :: c2).*1 ++ d2.*1 ++ c3.*1 -> y ∈ snodes s (c1 ++ ((x, a) :: c2) ++ d2 ++ c3)) as Is.
    { intros y Hy. rewrite snodes_app, !fmap_app. apply elem_of_cons in Hy as [->|Hy]; [left|]. by do 2 right. }
    assert (hd s.2 c3.*1 ∉ (s.1 :: c1.*1) ++ ((x, a) :: c2).*1 ++ d2.*1) as Nl.
    { destruct c3 as [|[z b] c3]; cbn [hd fmap list_fmap fst].
      - intros H. apply Nf2. rewrite !elem_of_app in *. tauto.
      - intros H. rewrite !app_assoc in Nf. apply NoDup_app in Nf as (_&Nf&_). apply (Nf z); [|left]. rewrite !elem_of_app in *. tauto. }
    assert (lst s.1 (c1 ++ (x, a) :: c2).*1 = lst x c2.*1) as El by (rewrite fmap_app, lst_app; done).
    rewrite El.
    destruct d2 as [|[f b] d2].
    { exists h. cbn [app] in *. refine (conj _ (conj HL _)); [|done]. unfold stransfer.
      assert (Hn : snext h (lst x c2.*1) = Ok (hd s.2 c3.*1)).
      { rewrite <- El. apply snext_pos. rewrite <- app_assoc. done. }
      pose proof (lst_in x c2.*1) as Il. pose proof (lst_in s.1 c1.*1) as Ip.
      destruct (decide _); [done|]. destruct (decide _); [done|]. rewrite Hn. cbn [rbind]. by rewrite decide_True. }
    destruct (stransfer_segs h s.1 c1.*1 x x c2.*1 f d2.*1 (hd s.2 c3.*1)) as (h'&E&Hv&Hd&Q1&Q2&Q3&Q4).
    - rewrite !app_assoc in Nf. apply NoDup_app in Nf as (Nf&_). by rewrite <- app_assoc in Nf.
    - done.
    - done.
    - done.
    - intros H. apply Nl. rewrite !elem_of_app. tauto.
    - intros E. apply Nl. rewrite E, !elem_of_app. right. left. apply lst_in.
    - intros y Hy. eapply is_slist_vl; [exact HL|]. apply Is. rewrite !elem_of_app in *. tauto.
    - exists h'. split; [done|]. split.
      + assert (snodes s (c1 ++ ((f, b) :: d2) ++ ((x, a) :: c2) ++ c3) ≡ₚ snodes s (c1 ++ ((x, a) :: c2) ++ ((f, b) :: d2) ++ c3)) as Hperm.
        { rewrite !snodes_app, !fmap_app. solve_Permutation. }
        refine (conj _ (conj _ _)).
        * by rewrite Hperm.
        * rewrite !fmap_app, app_comm_cons. apply path_app. split; [done|]. apply path_app. split; [done|]. apply path_app. split; [done|].
          eapply path_frame; [exact P4|]. intros y Hy. apply Q4. intros Hy'.
          rewrite !app_assoc in Nf. apply NoDup_app in Nf as (_&Nf&_). apply (Nf y); [|done].
          rewrite !elem_of_app in *. cbn in *. tauto.
        * rewrite Hv. refine (conj V1 (conj V2 _)). rewrite !Forall_app in *. tauto.
      + refine (conj Hv (conj Hd _)). intros y Hy. apply Q4. intros Hy'. apply Hy. apply Is.
        rewrite !elem_of_app in *. cbn in *. tauto.
  Qed.
  (** ... and towards the back; nothing may be moved to directly behind itself *)
  Lemma transfer_back h s c1 d2 c2 c3 : is_slist h s (c1 ++ d2 ++ c2 ++ c3) -> c2 <> [] ->
    exists h', stransfer h (lst s.1 (c1 ++ d2 ++ c2).*1) (lst s.1 c1.*1) (hd s.2 (c2 ++ c3).*1) = Ok h' /\
      is_slist h' s (c1 ++ c2 ++ d2 ++ c3) /\ srelink h h' (snodes s (c1 ++ d2 ++ c2 ++ c3)).
  Proof.
    intros HL Hc2. destruct c2 as [|[x a] c2]; [done|]. clear Hc2.
    pose proof HL as (Nd&P&V1&V2&Hf). pose proof (nodup_front _ _ _ Nd) as [Nf Nf2]. rewrite !fmap_app in Nf, Nf2.
    rewrite fmap_app, app_comm_cons in P. apply path_app in P as [P1 P]. rewrite !fmap_app in P, P1.
    apply path_app in P as [P2 P]. apply path_app in P as [P3 P4].
    assert (forall y, y ∈ (s.1 :: c1.*1) ++ d2.*1 ++ ((x, a) :: c2).*1 ++ c3.*1 -> y ∈ snodes s (c1 ++ d2 ++ ((x, a) :: c2) ++ c3)) as Is.
    { intros y Hy. rewrite snodes_app, !fmap_app. apply elem_of_cons in Hy as [->|Hy]; [left|]. by do 2 right. }
    change (hd s.2 (((x, a) :: c2) ++ c3).*1) with x.
    assert (x ∉ (s.1 :: c1.*1) ++ d2.*1) as Nl.
    { intros H. rewrite app_assoc in Nf. apply NoDup_app in Nf as (_&Nf&_). apply (Nf x H). left. }
    assert (lst s.1 (c1 ++ d2 ++ (x, a) :: c2).*1 = lst x c2.*1) as El by (rewrite !fmap_app, !lst_app; done).
    rewrite El.
    assert (lst x c2.*1 ≠ lst s.1 c1.*1) as Npf.
    { intros E. apply NoDup_app in Nf as (_&Nf&_). apply (Nf (lst s.1 c1.*1)); [apply lst_in|]. rewrite <- E.
      rewrite !elem_of_app. right. left. apply lst_in. }
    destruct d2 as [|[f b] d2].
    { exists h. cbn [app] in *. refine (conj _ (conj HL _)); [|done]. unfold stransfer. rewrite decide_False by done.
      rewrite decide_False. 2:{ intros E. apply Nl. rewrite <- E. rewrite app_nil_r. apply lst_in. }
      pose proof (snext_pos h s c1 ((x, a) :: c2 ++ c3) HL) as Hn. rewrite Hn. cbn. by rewrite decide_True. }
    destruct (stransfer_segs h x c2.*1 (hd s.2 c3.*1) s.1 c1.*1 f d2.*1 x) as (h'&E&Hv&Hd&Q1&Q2&Q3&Q4).
    - enough (NoDup (((s.1 :: c1.*1) ++ (f :: d2.*1)) ++ x :: c2.*1)) as Hn by (by rewrite (Permutation_app_comm (x :: c2.*1))).
      rewrite !app_assoc in Nf. by apply NoDup_app in Nf as (Nf&_).
    - done.
    - done.
    - done.
    - intros H. apply Nl. rewrite !elem_of_app. by right.
    - intros E. apply Nl. rewrite E at 1. rewrite !elem_of_app. left. apply lst_in.
    - intros y Hy. eapply is_slist_vl; [exact HL|]. apply Is. rewrite !elem_of_app in *. cbn in *. tauto.
    - exists h'. split; [done|]. split.
      + assert (snodes s (c1 ++ ((x, a) :: c2) ++ ((f, b) :: d2) ++ c3) ≡ₚ snodes s (c1 ++ ((f, b) :: d2) ++ ((x, a) :: c2) ++ c3)) as Hperm.
        { rewrite !snodes_app, !fmap_app. solve_Permutation. }
        refine (conj _ (conj _ _)).
        * by rewrite Hperm.
        * rewrite !fmap_app, app_comm_cons. apply path_app. split; [done|]. apply path_app. split; [done|]. apply path_app. split; [done|].
          eapply path_frame; [exact P4|]. intros y Hy. apply Q4. intros Hy'.
          rewrite !app_assoc in Nf. apply NoDup_app in Nf as (_&Nf&_). apply (Nf y); [|done].
          rewrite !elem_of_app in *. cbn in *. tauto.
        * rewrite Hv. refine (conj V1 (conj V2 _)). rewrite !Forall_app in *. tauto.
      + refine (conj Hv (conj Hd _)). intros y Hy. apply Q4. intros Hy'. apply Hy. apply Is.
        rewrite !elem_of_app in *. cbn in *. tauto.
  Qed.

  (** ** remove *)
  Lemma sremove_loop_ok (I : sheap A -> Prop) cond p s cs0 fuel :
    (forall h1 h2 old new, I h1 -> (forall y, y ∈ old -> y ∈ snodes s cs0) -> sstep h1 h2 old new ->
       (forall y, y ∈ new -> y ∈ old) -> I h2) ->
    (forall h1 a, I h1 -> cond h1 a = Ok (p a)) ->
    forall h c1 c2, I h -> is_slist h s (c1 ++ c2) -> (forall y, y ∈ snodes s (c1 ++ c2) -> y ∈ snodes s cs0) -> length c2 < fuel ->
    exists h', sremove_loop cond fuel h s (lst s.1 c1.*1) (hd s.2 c2.*1) = Ok h' /\
      supd h h' s (c1 ++ c2) (c1 ++ List.filter (fun c : cell => negb (p c.2)) c2) (List.filter p c2.*2).
  Proof.
    intros HI Hc. induction fuel as [|fuel IH]; intros h c1 c2 Hh HL Hin Hf; [lia|]. cbn [sremove_loop].
    destruct c2 as [|[x a] c2].
    - exists h. rewrite decide_True by (by left). split; [done|]. by apply supd_refl.
    - cbn [fmap list_fmap fst hd]. pose proof (not_end _ _ _ _ _ _ HL) as Hx. pose proof (pos_not_end _ _ _ _ HL) as Hp.
      rewrite decide_False by (intros [?|?]; done).
      rewrite (svalue_at _ _ _ _ _ _ HL). cbn [rbind]. rewrite Hc by done. cbn [rbind].
      cbn [List.filter snd fmap list_fmap]. destruct (p a) eqn:Hpa; cbn [negb].
      + destruct (pop_after_ok h s c1 x a c2 HL) as (h1&E1&HU1). rewrite E1. cbn [rbind].
        assert (forall y, y ∈ snodes s (c1 ++ c2) -> y ∈ snodes s (c1 ++ (x, a) :: c2)) as Hsub.
        { intros y. rewrite snodes_ins. by right. }
        destruct (IH h1 c1 c2) as (h2&E2&HU2).
        * eapply HI; [exact Hh| |apply HU1|done]. done.
        * apply HU1.
        * auto.
        * cbn in Hf. lia.
        * exists h2. split; [done|]. by apply (supd_trans _ _ _ _ _ _ _ [a] _ HU1 HU2).
      + rewrite (snext_pos _ _ _ _ HL). cbn [rbind fmap list_fmap fst hd]. rewrite (snext_at _ _ _ _ _ _ HL). cbn [rbind].
        destruct (IH h (c1 ++ [(x, a)]) c2) as (h2&E2&HU2); rewrite <- ?app_assoc; [done..|cbn in Hf; lia|].
        rewrite <- !app_assoc in HU2. rewrite pos_snoc in E2. exists h2. done.
  Qed.
  Lemma sremove_if_ok p h s cs : is_slist h s cs ->
    exists h', c_slist_remove_if p h s = Ok h' /\
      supd h h' s cs (List.filter (fun c : cell => negb (p c.2)) cs) (List.filter p cs.*2).
  Proof.
    intros HL. unfold c_slist_remove_if. rewrite (sempty_ok _ _ _ HL). cbn [rbind]. case_bool_decide as Hc.
    - subst cs. exists h. split; [done|]. by apply supd_refl.
    - rewrite (sbegin_ok _ _ _ HL). cbn [rbind].
      apply (sremove_loop_ok (fun _ => True) (fun _ a => Ok (p a)) p s cs (sfuel h)) with (c1 := []); try done.
      by eapply sfuel_enough.
  Qed.
  (** the value to remove is the caller's, or belongs to a node outside the list *)
  Lemma sremove_ok eqb h s cs v a : is_slist h s cs -> sderef h v = Ok a ->
    match v with LVal _ => True | LNode x => x ∉ snodes s cs end ->
    exists h', c_slist_remove eqb h s v = Ok h' /\
      supd h h' s cs (List.filter (fun c : cell => negb (eqb c.2 a)) cs) (List.filter (fun b => eqb b a) cs.*2).
  Proof.
    intros HL Hv Hx. unfold c_slist_remove. rewrite (sempty_ok _ _ _ HL). cbn [rbind]. case_bool_decide as Hc.
    - subst cs. exists h. split; [done|]. by apply supd_refl.
    - rewrite (sbegin_ok _ _ _ HL). cbn [rbind].
      apply (sremove_loop_ok (fun h1 => sderef h1 v = Ok a) _ (fun b => eqb b a) s cs (sfuel h)) with (c1 := []); try done.
      + intros h1 h2 old new H1 Hold (S1&_&_) Hnew. destruct v as [b|x]; [done|]. cbn in *. unfold svalue in *.
        destruct (S1 x) as [-> _]; [by intros ?%Hold|by intros ?%Hnew%Hold|]. done.
      + cbn. intros h1 b ->. done.
      + by eapply sfuel_enough.
  Qed.
  (** the value belongs to an element of the list that is equal to itself: once that node is freed the
      function reads it again, unless it was the last one *)
  Lemma sremove_own_loop eqb s x a fuel : eqb a a = true -> forall h c1 c2 c3,
    is_slist h s (c1 ++ c2 ++ (x, a) :: c3) -> length (c2 ++ (x, a) :: c3) < fuel ->
    let r := sremove_loop (fun h b => do y <- sderef h (LNode x); Ok (eqb b y)) fuel h s (lst s.1 c1.*1) (hd s.2 (c2 ++ (x, a) :: c3).*1) in
    match c3 with
    | [] => exists h', r = Ok h' /\
        supd h h' s (c1 ++ c2 ++ [(x, a)]) (c1 ++ List.filter (fun c : cell => negb (eqb c.2 a)) (c2 ++ [(x, a)]))
          (List.filter (fun b => eqb b a) (c2 ++ [(x, a)]).*2)
    | _ => r = UB
    end.
  Proof.
    intros Haa. induction fuel as [|fuel IH]; intros h c1 c2 c3 HL Hf; [lia|]. cbn [sremove_loop].
    assert (svalue h x = Ok a) as Hva by (rewrite app_assoc in HL; by eapply svalue_at).
    destruct c2 as [|[y b] c2].
    - cbn [app fmap list_fmap fst hd] in HL |- *. pose proof (not_end _ _ _ _ _ _ HL) as Hx. pose proof (pos_not_end _ _ _ _ HL) as Hp.
      rewrite decide_False by (intros [?|?]; done).
      rewrite Hva. cbn [rbind sderef]. rewrite Hva. cbn [rbind]. rewrite Haa.
      destruct (pop_after_ok h s c1 x a c3 HL) as (h1&E1&HU1). rewrite E1. cbn [rbind]. pose proof HU1 as (H1&H2&H3).
      destruct fuel as [|fuel]; [cbn in Hf; lia|]. cbn [sremove_loop].
      destruct c3 as [|[z c] c3].
      + exists h1. cbn. rewrite decide_True by (by left). split; [done|]. rewrite Haa. cbn. done.
      + cbn [app fmap list_fmap fst hd]. pose proof (not_end _ _ _ _ _ _ H1) as Hz. 
        rewrite decide_False by (intros [?|?]; done).
        rewrite (svalue_at _ _ _ _ _ _ H1). cbn [rbind].
        enough (svalue h1 x = UB) as -> by done. unfold svalue.
        pose proof HL as (Hnd&_). rewrite snodes_ins in Hnd. apply NoDup_cons in Hnd as [Hnd _].
        destruct H2 as (_&H2&_). rewrite H2; [done| |done]. rewrite snodes_ins. left.
    - cbn [app fmap list_fmap fst hd] in HL |- *. pose proof (not_end _ _ _ _ _ _ HL) as Hx. pose proof (pos_not_end _ _ _ _ HL) as Hpp.
      rewrite decide_False by (intros [?|?]; done).
      rewrite (svalue_at _ _ _ _ _ _ HL). cbn [rbind sderef]. rewrite Hva. cbn [rbind].
      cbn in Hf. cbn [List.filter snd]. destruct (eqb b a) eqn:Hp; cbn [negb].
      + destruct (pop_after_ok h s c1 y b _ HL) as (h1&E1&HU1). rewrite E1. cbn [rbind].
        pose proof (IH h1 c1 c2 c3 (proj1 HU1) ltac:(lia)) as HI. cbn zeta in HI. destruct c3 as [|c c3]; [|exact HI].
        destruct HI as (h2&E2&HU2). exists h2. split; [exact E2|].
        exact (supd_trans _ _ _ _ _ _ _ [b] _ HU1 HU2).
      + rewrite (snext_pos _ _ _ _ HL). cbn [rbind fmap list_fmap fst hd]. rewrite (snext_at _ _ _ _ _ _ HL). cbn [rbind].
        pose proof (IH h (c1 ++ [(y, b)]) c2 c3) as HI. rewrite <- !app_assoc in HI. cbn [app] in HI. rewrite pos_snoc in HI.
        specialize (HI HL ltac:(lia)). cbn zeta in HI. destruct c3 as [|c c3]; [|exact HI].
        exact HI.
  Qed.
  Lemma sremove_own eqb h s c2 x a c3 : eqb a a = true -> is_slist h s (c2 ++ (x, a) :: c3) ->
    match c3 with
    | [] => exists h', c_slist_remove eqb h s (LNode x) = Ok h' /\
        supd h h' s (c2 ++ [(x, a)]) (List.filter (fun c : cell => negb (eqb c.2 a)) (c2 ++ [(x, a)]))
          (List.filter (fun b => eqb b a) (c2 ++ [(x, a)]).*2)
    | _ => c_slist_remove eqb h s (LNode x) = UB
    end.
  Proof.
    intros Haa HL. unfold c_slist_remove. rewrite (sempty_ok _ _ _ HL). rewrite bool_decide_eq_false_2 by (by destruct c2).
    cbn [rbind]. rewrite (sbegin_ok _ _ _ HL). cbn [rbind].
    pose proof (sremove_own_loop eqb s x a (sfuel h) Haa h [] c2 c3 HL (sfuel_enough _ _ _ HL)) as H. cbn zeta in H.
    destruct c3; exact H.
  Qed.

  (** ** reverse *)
  Lemma short_ok h s cs : is_slist h s cs -> short h s = Ok (bool_decide (length cs <= 1)).
  Proof.
    intros HL. unfold short. rewrite (sempty_ok _ _ _ HL). cbn [rbind]. destruct cs as [|[x a] cs]; [done|].
    rewrite bool_decide_eq_false_2 by done. rewrite (sbegin_ok _ _ _ HL). cbn [rbind fmap list_fmap fst hd].
    rewrite (snext_at h s [] x a cs HL). cbn [rbind]. f_equal. apply bool_decide_ext. destruct cs as [|[y b] cs]; cbn.
    - split; [lia|done].
    - pose proof (not_end h s [(x, a)] y b cs HL). split; [done|lia].
  Qed.
  Lemma sreverse_loop_ok s fuel : forall h c1 c2, NoDup (snodes s (c1 ++ c2)) ->
    path (snx h) (rev c1).*1 s.2 -> path (snx h) c2.*1 s.2 -> (c2 = [] -> snx h !! s.1 = Some (hd s.2 (rev c1).*1)) ->
    (forall y, y ∈ snodes s (c1 ++ c2) -> is_Some (svl h !! y)) -> length c2 < fuel ->
    exists h', sreverse_loop fuel h s (hd s.2 c2.*1) (hd s.2 (rev c1).*1) = Ok h' /\
      path (snx h') (s.1 :: (rev (c1 ++ c2)).*1) s.2 /\ srelink h h' (snodes s (c1 ++ c2)).
  Proof.
    induction fuel as [|fuel IH]; intros h c1 c2 Hnd Hp1 Hp2 Hs Hv Hf; [lia|]. cbn [sreverse_loop].
    destruct c2 as [|[x a] c2].
    - exists h. cbn. rewrite decide_True by done. rewrite app_nil_r. split; [done|]. split; [|done]. split; [by apply Hs|done].
    - cbn [fmap list_fmap fst hd] in Hp2 |- *. pose proof Hnd as Hnd'. rewrite snodes_ins in Hnd'. apply NoDup_cons in Hnd' as [Nx Nr].
      assert (x ≠ s.1) as N1 by (intros ->; apply Nx; left).
      assert (x ≠ s.2) as N2 by (intros ->; apply Nx; right; left).
      assert (x ∉ c1.*1 ++ c2.*1) as N3. { intros H. apply Nx. rewrite snodes_app. by do 2 right. }
      assert (s.1 ∉ c1.*1 ++ c2.*1) as N4.
      { rewrite snodes_app in Nr. apply NoDup_cons in Nr as [Nr _]. intros H. apply Nr. by right. }
      rewrite decide_False by done. destruct Hp2 as [Hx Hp2]. rewrite (snext_ok _ _ _ Hx). cbn [rbind].
      rewrite set_snext_ok by (apply Hv; left). cbn [rbind].
      rewrite set_snext_ok by (cbn; apply Hv; rewrite snodes_ins; left). cbn [rbind snx svl sdead].
      match goal with |- context [sreverse_loop fuel ?hh] => set (h2 := hh) end.
      destruct (IH h2 (c1 ++ [(x, a)]) c2) as (h'&E&HL'&Hr).
      + by rewrite <- app_assoc.
      + rewrite rev_app_distr. cbn [rev app fmap list_fmap fst path]. cbn [h2 snx]. rewrite lookup_insert. split; [done|].
        fold (@fmap list _ _ _ (@fst loc A)).
        eapply path_frame; [exact Hp1|]. intros y Hy.
        assert (y ∈ c1.*1) as Hy'. { apply elem_of_list_In. rewrite in_rev. change (rev c1.*1) with (rev (map fst c1)). rewrite <- map_rev. by apply elem_of_list_In. }
        rewrite !lookup_insert_ne; [done| |]; intros <-; [apply N4|apply N3]; apply elem_of_app; by left.
      + eapply path_frame; [exact Hp2|]. intros y Hy. cbn [h2 snx].
        rewrite !lookup_insert_ne; [done| |]; intros <-; [apply N4|apply N3]; apply elem_of_app; by right.
      + intros _. cbn [h2 snx]. rewrite lookup_insert_ne by done. rewrite lookup_insert. rewrite rev_app_distr. done.
      + cbn [h2 svl]. intros y. rewrite <- app_assoc. apply Hv.
      + cbn in Hf. lia.
      + rewrite rev_app_distr in E. cbn [rev app fmap list_fmap fst hd] in E. rewrite <- !app_assoc in HL'. rewrite <- app_assoc in Hr.
        exists h'. refine (conj E (conj HL' _)). eapply srelink_trans; [|exact Hr]. refine (conj eq_refl (conj eq_refl _)).
        intros y Hy. cbn [h2 snx]. rewrite snodes_ins in Hy. rewrite !lookup_insert_ne; [done| |]; intros <-; apply Hy; [right; left|left].
  Qed.
  Lemma sreverse_ok h s cs : is_slist h s cs ->
    exists h', c_slist_reverse h s = Ok h' /\ supd h h' s cs (rev cs) [].
  Proof.
    intros HL. unfold c_slist_reverse. rewrite (short_ok _ _ _ HL). cbn [rbind]. case_bool_decide as Hc.
    { exists h. split; [done|]. destruct cs as [|c [|d cs]]; [by apply supd_refl..|cbn in Hc; lia]. }
    rewrite (sbegin_ok _ _ _ HL). cbn [rbind]. pose proof HL as (Hnd&Hp&V1&V2&Hf).
    destruct (sreverse_loop_ok s (sfuel h) h [] cs) as (h'&E&HP&Hr).
    - done.
    - done.
    - by destruct Hp as [_ Hp].
    - intros ->. cbn in Hc. lia.
    - intros y. by apply is_slist_vl.
    - by eapply sfuel_enough.
    - exists h'. split; [exact E|]. apply supd_relink; [|done|apply Permutation_rev].
      cbn [app] in HP. destruct Hr as (Hv&_&_). refine (conj _ (conj HP _)).
      + assert (snodes s (rev cs) ≡ₚ snodes s cs) as ->; [|done]. apply snodes_perm; [done|]. symmetry. apply Permutation_rev.
      + rewrite Hv. refine (conj V1 (conj V2 _)). by rewrite <- Permutation_rev.
  Qed.

  (** ** unique *)
  Notation drop_run := DListAlgo.drop_run.
  Notation take_run := DListAlgo.take_run.
  Lemma sunique_inner_ok pred s x a fuel : forall h c1 c2, is_slist h s (c1 ++ (x, a) :: c2) -> length c2 < fuel ->
    exists h', sunique_inner pred fuel h s x (hd s.2 c2.*1) = Ok h' /\
      supd h h' s (c1 ++ (x, a) :: c2) (c1 ++ (x, a) :: drop_run (pred a) c2) (take_run (pred a) c2).*2.
  Proof.
    induction fuel as [|fuel IH]; intros h c1 c2 HL Hf; [lia|]. cbn [sunique_inner].
    destruct c2 as [|[y b] c2].
    - exists h. rewrite decide_True by done. split; [done|]. by apply supd_refl.
    - assert (is_slist h s ((c1 ++ [(x, a)]) ++ (y, b) :: c2)) as HL' by (by rewrite <- app_assoc).
      cbn [fmap list_fmap fst hd]. rewrite decide_False by (by eapply not_end).
      rewrite (svalue_at _ _ _ _ _ _ HL), (svalue_at _ _ _ _ _ _ HL'). cbn [rbind DListAlgo.drop_run DListAlgo.take_run snd].
      destruct (pred a b); [|exists h; split; [done|]; by apply supd_refl].
      destruct (pop_after_ok h s _ y b c2 HL') as (h1&E1&HU1). rewrite pos_snoc in E1. rewrite E1. cbn [rbind].
      rewrite <- !app_assoc in HU1. cbn [app] in HU1.
      destruct (IH h1 c1 c2 (proj1 HU1)) as (h2&E2&HU2); [cbn in Hf; lia|].
      exists h2. split; [done|]. exact (supd_trans _ _ _ _ _ _ _ [b] _ HU1 HU2).
  Qed.
  Lemma sunique_loop_ok pred s fuel : forall h c1 x a c2, is_slist h s (c1 ++ (x, a) :: c2) -> length c2 < fuel ->
    exists h', sunique_loop pred fuel h s x = Ok h' /\
      supd h h' s (c1 ++ (x, a) :: c2) (c1 ++ (x, a) :: keep_runs (on2 pred) (x, a) c2) (dropped pred a c2.*2).
  Proof.
    induction fuel as [|fuel IH]; intros h c1 x a c2 HL Hf; [lia|]. cbn [sunique_loop].
    rewrite decide_False by (by eapply not_end). rewrite (snext_at _ _ _ _ _ _ HL). cbn [rbind].
    destruct c2 as [|c2h c2'] eqn:Hc2.
    { cbn. rewrite decide_True by done. exists h. split; [done|]. by apply supd_refl. }
    rewrite decide_False.
    2:{ destruct c2h as [y b]. cbn. apply (not_end h s (c1 ++ [(x, a)]) y b c2'). by rewrite <- app_assoc. }
    assert (0 < length c2) as Hc0 by (rewrite Hc2; cbn; lia). rewrite <- Hc2 in *. clear c2h c2' Hc2.
    destruct (sunique_inner_ok pred s x a (sfuel h) h c1 c2 HL) as (h1&E1&HU1).
    { pose proof (sfuel_enough _ _ _ HL) as Hfu. rewrite app_length in Hfu. cbn in Hfu. lia. }
    rewrite E1. cbn [rbind]. pose proof HU1 as (HL1&_&_). rewrite (snext_at _ _ _ _ _ _ HL1). cbn [rbind].
    rewrite DListAlgo.drop_run_runs, DListAlgo.dropped_run. pose proof (DListAlgo.drop_run_length (pred a) c2) as Hdl.
    destruct (drop_run (pred a) c2) as [|[y b] r] eqn:Hd.
    - cbn. destruct fuel as [|fuel]; [lia|]. cbn [sunique_loop]. rewrite decide_True by done. exists h1. split; [done|].
      by rewrite app_nil_r.
    - cbn [fmap list_fmap fst snd hd]. destruct (IH h1 (c1 ++ [(x, a)]) y b r) as (h2&E2&HU2).
      + by rewrite <- app_assoc.
      + cbn in Hdl. lia.
      + rewrite <- !app_assoc in HU2. exists h2. split; [done|]. cbn [app] in HU2.
        by apply (supd_trans _ _ _ _ _ _ _ _ _ HU1 HU2).
  Qed.
  Lemma sunique_if_ok pred h s cs : is_slist h s cs ->
    exists h', c_slist_unique_if pred h s = Ok h' /\
      supd h h' s cs (unique_spec (on2 pred) cs) (seq_unique_gone pred cs.*2).
  Proof.
    intros HL. unfold c_slist_unique_if. rewrite (short_ok _ _ _ HL). cbn [rbind]. case_bool_decide as Hc.
    { exists h. split; [done|]. destruct cs as [|c [|d cs]]; [by apply supd_refl..|cbn in Hc; lia]. }
    destruct cs as [|[x a] cs]; [cbn in Hc; lia|].
    rewrite (sbegin_ok _ _ _ HL). cbn [rbind fmap list_fmap fst hd].
    apply (sunique_loop_ok pred s (sfuel h) h [] x a cs HL).
    pose proof (sfuel_enough _ _ _ HL). cbn in *. lia.
  Qed.

  (** ** splice *)
  Lemma srelink_two h h' s cs t ds cs' ds' : srelink h h' (snodes s cs ++ snodes t ds) ->
    cs ++ ds ≡ₚ cs' ++ ds' -> sstep h h' (snodes s cs ++ snodes t ds) (snodes s cs' ++ snodes t ds').
  Proof.
    intros Hr Hp. eapply srelink_sstep; [exact Hr|done|]. intros y. unfold snodes.
    assert (cs.*1 ++ ds.*1 ≡ₚ cs'.*1 ++ ds'.*1) as Hq by (rewrite <- !fmap_app; by rewrite Hp).
    assert (forall l1 l2 : list loc, y ∈ (s.1 :: s.2 :: l1) ++ t.1 :: t.2 :: l2 <-> (y = s.1 \/ y = s.2 \/ y = t.1 \/ y = t.2) \/ y ∈ l1 ++ l2) as Hm.
    { intros l1 l2. rewrite !elem_of_app, !elem_of_cons. tauto. }
    rewrite !Hm, Hq. done.
  Qed.
  (** two lists at once *)
  Definition supd2 h h' s t cs ds cs' ds' : Prop :=
    slists h' [(s, cs'); (t, ds')] /\ sstep h h' (snodes s cs ++ snodes t ds) (snodes s cs' ++ snodes t ds') /\
    srelink h h' (snodes s cs ++ snodes t ds).
  Lemma ssplice_range_ok h s c1 c2 t d1 d2 d3 : slists h [(s, c1 ++ c2); (t, d1 ++ d2 ++ d3)] ->
    exists h', c_slist_splice_after_range h (lst s.1 c1.*1) t (lst t.1 d1.*1) (hd t.2 d3.*1) = Ok h' /\
      supd2 h h' s t (c1 ++ c2) (d1 ++ d2 ++ d3) (c1 ++ d2 ++ c2) (d1 ++ d3).
  Proof.
    intros HL. pose proof HL as (_&HLt&_)%slists_two. unfold c_slist_splice_after_range. rewrite (sempty_ok _ _ _ HLt). cbn [rbind].
    case_bool_decide as Hc.
    { apply app_eq_nil in Hc as [-> [-> ->]%app_eq_nil]. exists h. split; [done|]. refine (conj HL (conj _ _)); [|done].
      by apply sstep_refl. }
    destruct (transfer_two h s c1 c2 t d1 d2 d3 HL) as (h'&E&HL'&Hr). exists h'. split; [done|]. refine (conj HL' (conj _ Hr)).
    eapply srelink_two; [done|]. solve_Permutation.
  Qed.
  Lemma ssplice_from_ok h s c1 c2 t d1 d2 : slists h [(s, c1 ++ c2); (t, d1 ++ d2)] ->
    exists h', c_slist_splice_after_from h (lst s.1 c1.*1) t (lst t.1 d1.*1) = Ok h' /\
      supd2 h h' s t (c1 ++ c2) (d1 ++ d2) (c1 ++ d2 ++ c2) d1.
  Proof.
    intros HL. pose proof (ssplice_range_ok h s c1 c2 t d1 d2 []) as H. rewrite !app_nil_r in H. by apply H.
  Qed.
  Lemma ssplice_ok h s c1 c2 t ds : slists h [(s, c1 ++ c2); (t, ds)] ->
    exists h', c_slist_splice_after h (lst s.1 c1.*1) t = Ok h' /\ supd2 h h' s t (c1 ++ c2) ds (c1 ++ ds ++ c2) [].
  Proof. intros HL. exact (ssplice_from_ok h s c1 c2 t [] ds HL). Qed.
  (** ... within one list *)
  Lemma ssplice_front h s c1 c2 d2 c3 : is_slist h s (c1 ++ c2 ++ d2 ++ c3) ->
    exists h', c_slist_splice_after_range h (lst s.1 c1.*1) s (lst s.1 (c1 ++ c2).*1) (hd s.2 c3.*1) = Ok h' /\
      supd h h' s (c1 ++ c2 ++ d2 ++ c3) (c1 ++ d2 ++ c2 ++ c3) [].
  Proof.
    intros HL. unfold c_slist_splice_after_range. rewrite (sempty_ok _ _ _ HL). cbn [rbind].
    destruct (transfer_front h s c1 c2 d2 c3 HL) as (h'&E&HL'&Hr).
    case_bool_decide as He.
    { apply app_eq_nil in He as [-> [-> [-> ->]%app_eq_nil]%app_eq_nil]. exists h. split; [done|]. by apply supd_refl. }
    exists h'. split; [done|]. apply supd_relink; [done|done|]. solve_Permutation.
  Qed.
  Lemma ssplice_back h s c1 d2 c2 c3 : is_slist h s (c1 ++ d2 ++ c2 ++ c3) -> c2 <> [] ->
    exists h', c_slist_splice_after_range h (lst s.1 (c1 ++ d2 ++ c2).*1) s (lst s.1 c1.*1) (hd s.2 (c2 ++ c3).*1) = Ok h' /\
      supd h h' s (c1 ++ d2 ++ c2 ++ c3) (c1 ++ c2 ++ d2 ++ c3) [].
  Proof.
    intros HL Hc2. unfold c_slist_splice_after_range. rewrite (sempty_ok _ _ _ HL). cbn [rbind].
    destruct (transfer_back h s c1 d2 c2 c3 HL Hc2) as (h'&E&HL'&Hr).
    case_bool_decide as He.
    { apply app_eq_nil in He as [-> [-> [-> ->]%app_eq_nil]%app_eq_nil]. exists h. split; [done|]. by apply supd_refl. }
    exists h'. split; [done|]. apply supd_relink; [done|done|]. solve_Permutation.
  Qed.
End proofs.

(** ** merge: pure facts *)
Section pure.
  Context {B : Type} (comp : B -> B -> bool).
  Notation mi := (seq_merge_into comp).
  Lemma mi_nil_d c : mi [] c = c.
  Proof. by destruct c. Qed.
  Lemma mi_nil_c d : mi d [] = d.
  Proof. by destruct d. Qed.
  Lemma mi_cons y d x c : mi (y :: d) (x :: c) = if comp y x then mi d (y :: x :: c) else x :: mi (y :: d) c.
  Proof. done. Qed.
  Lemma mi_perm d : forall c, mi d c ≡ₚ c ++ d.
  Proof.
    induction d as [|y d IH]; intros c; [by rewrite mi_nil_d, app_nil_r|].
    induction c as [|x c IHc]; [done|]. rewrite mi_cons. destruct (comp y x).
    - rewrite IH. cbn. rewrite <- Permutation_middle. apply Permutation_swap.
    - rewrite IHc. done.
  Qed.
  (** merging a sorted list is the stable merge *)
  Lemma mi_sorted d : forall c, sorted comp d -> mi d c = seq_merge comp c d.
  Proof.
    induction d as [|y d IH]; intros c Hs; [by rewrite mi_nil_d, mrg_nil_r|].
    pose proof Hs as [Hy Hs']%(sorted_cons comp).
    induction c as [|x c IHc]; [by rewrite mi_nil_c, mrg_nil_l|].
    rewrite mi_cons, mrg_cons. destruct (comp y x); [|by rewrite IHc].
    rewrite IH by done. destruct d as [|z d]; [by rewrite !mrg_nil_r|].
    rewrite mrg_cons. apply Forall_cons in Hy as [Hz _]. rewrite Hz. done.
  Qed.
  Lemma ascending_sorted l : StrictWeakOrder comp -> ascending comp l = true <-> sorted comp l.
  Proof.
    intros HW. induction l as [|x l IH]; [split; [intros _; apply sorted_nil|done]|].
    destruct l as [|y l].
    - split; [intros _|done]. apply sorted_cons. split; [constructor|apply sorted_nil].
    - rewrite sorted_cons. cbn [ascending]. rewrite andb_true_iff, negb_true_iff, IH. split; [|intros [[H _]%Forall_cons ?]; done].
      intros [H1 H2]. split; [|done]. apply Forall_cons. split; [done|].
      apply sorted_cons in H2 as [H2 _]. eapply Forall_impl; [exact H2|]. cbn. intros z Hz. by apply (swo_le_trans comp HW _ y).
  Qed.
  (** only adjacent elements are compared *)
  Lemma mi_ascending d : forall c, ascending comp d = true -> mi d c = seq_merge comp c d.
  Proof.
    induction d as [|y d IH]; intros c Hs; [by rewrite mi_nil_d, mrg_nil_r|].
    assert (ascending comp d = true) as Hs'. { destruct d; [done|]. cbn in Hs. by apply andb_true_iff in Hs as [_ Hs]. }
    induction c as [|x c IHc]; [by rewrite mi_nil_c, mrg_nil_l|].
    rewrite mi_cons, mrg_cons. destruct (comp y x); [|by rewrite IHc].
    rewrite IH by done. destruct d as [|z d]; [by rewrite !mrg_nil_r|].
    rewrite mrg_cons. cbn in Hs. apply andb_true_iff in Hs as [Hz _]. apply negb_true_iff in Hz. rewrite Hz. done.
  Qed.
End pure.

Section merge.
  Context {A : Type}.
  Implicit Types h : sheap A.
  Notation cell := (loc * A)%type.
  Implicit Types cs ds c d : list cell.
  Implicit Types s t : sobj.
  Lemma smerge_loop_ok comp s t fuel : forall h c1 c2 d2, slists h [(s, c1 ++ c2); (t, d2)] ->
    length c2 + 2 * length d2 < fuel ->
    exists h' c1' c' d', smerge_loop comp fuel h (lst s.1 c1.*1) s.2 t.1 t.2 = Ok (h', lst s.1 c1'.*1) /\
      slists h' [(s, c1' ++ c'); (t, d')] /\ (c' = [] \/ d' = []) /\ c1' ++ c' ++ d' = c1 ++ seq_merge_into (on2 comp) d2 c2 /\
      srelink h h' (snodes s (c1 ++ c2) ++ snodes t d2).
  Proof.
    induction fuel as [|fuel IH]; intros h c1 c2 d2 HL Hf; [lia|]. cbn [smerge_loop].
    pose proof HL as (HLs&HLt&_)%slists_two. rewrite (snext_pos _ _ _ _ HLs). cbn [rbind].
    destruct c2 as [|[x a] c2].
    { cbn [fmap list_fmap hd]. rewrite decide_True by done. exists h, c1, [], d2.
      refine (conj eq_refl (conj HL (conj _ (conj _ _)))); [by left| |done]. by rewrite mi_nil_c. }
    cbn [fmap list_fmap fst hd]. rewrite decide_False by (by eapply not_end).
    rewrite (sbegin_ok _ _ _ HLt). cbn [rbind].
    destruct d2 as [|[y b] d2].
    { cbn [fmap list_fmap hd]. rewrite decide_True by done. exists h, c1, ((x, a) :: c2), [].
      refine (conj eq_refl (conj HL (conj _ (conj _ _)))); [by right| |done]. by rewrite app_nil_r. }
    cbn [fmap list_fmap fst hd]. rewrite decide_False by (by apply (not_end h t [] y b d2)).
    rewrite (svalue_at h t [] y b d2 HLt), (svalue_at _ _ _ _ _ _ HLs). cbn [rbind]. rewrite mi_cons. unfold on2 at 1. cbn [snd].
    destruct (comp b a).
    - rewrite (snext_at h t [] y b d2 HLt). cbn [rbind].
      destruct (transfer_two h s c1 ((x, a) :: c2) t [] [(y, b)] d2 HL) as (h1&E1&HL1&Hr1).
      cbn [app fmap list_fmap fst hd lst] in E1. rewrite E1. cbn [rbind].
      destruct (IH h1 c1 ((y, b) :: (x, a) :: c2) d2) as (h2&c1'&c'&d'&E2&HL2&Hor&Hm&Hr2).
      + done.
      + cbn in *. lia.
      + exists h2, c1', c', d'. refine (conj E2 (conj HL2 (conj Hor (conj Hm _)))).
        apply (srelink_trans _ _ _ _ Hr1). eapply srelink_mono; [exact Hr2|].
        intros z. rewrite !snodes_app. unfold snodes. cbn [fmap list_fmap fst app].
        repeat first [rewrite elem_of_cons | rewrite elem_of_app]. tauto.
    - destruct (IH h (c1 ++ [(x, a)]) c2 ((y, b) :: d2)) as (h2&c1'&c'&d'&E2&HL2&Hor&Hm&Hr2).
      + rewrite <- app_assoc. done.
      + cbn in *. lia.
      + rewrite <- app_assoc in Hm, Hr2. rewrite pos_snoc in E2.
        exists h2, c1', c', d'. exact (conj E2 (conj HL2 (conj Hor (conj Hm Hr2)))).
  Qed.
  Lemma slists_size h s cs t ds : slists h [(s, cs); (t, ds)] -> length cs + length ds + 4 <= size (svl h).
  Proof.
    intros HL. pose proof HL as [Hnd _]. pose proof (nodup_size (svl h) _ Hnd) as Hs. cbn in Hs. unfold snodes in Hs at 3 4.
    rewrite app_length in Hs. cbn in Hs. rewrite !app_length, !fmap_length in Hs. cbn in Hs.
    eassert _ as Hs'; [apply Hs|lia]. intros y Hy. eapply slists_vl; [exact HL|]. unfold all_snodes. cbn. rewrite ?app_nil_r in *. done.
  Qed.
  Lemma smerge_any_ok comp h s cs t ds : slists h [(s, cs); (t, ds)] ->
    exists h', c_slist_merge_by comp h s t = Ok h' /\ supd2 h h' s t cs ds (seq_merge_into (on2 comp) ds cs) [].
  Proof.
    intros HL. pose proof HL as (HLs&HLt&Hdis)%slists_two. unfold c_slist_merge_by. rewrite (sempty_ok _ _ _ HLt). cbn [rbind].
    case_bool_decide as Hc.
    { subst ds. exists h. split; [done|]. rewrite mi_nil_d. refine (conj HL (conj _ _)); [|done]. by apply sstep_refl. }
    destruct (smerge_loop_ok comp s t (sfuel h) h [] cs ds HL) as (h1&c1'&c'&d'&E1&HL1&Hor&Hm&Hr1).
    { unfold sfuel. pose proof (slists_size _ _ _ _ _ HL). lia. }
    cbn [fmap list_fmap lst] in E1. rewrite E1. cbn [rbind]. cbn [app] in Hm, Hr1. pose proof HL1 as (HLs1&HLt1&_)%slists_two.
    rewrite (sbegin_ok _ _ _ HLt1). cbn [rbind].
    assert (cs ++ ds ≡ₚ seq_merge_into (on2 comp) ds cs ++ []) as Hperm by (rewrite app_nil_r; symmetry; apply mi_perm).
    destruct d' as [|[y b] d'].
    - cbn. rewrite decide_True by done. exists h1. split; [done|]. rewrite app_nil_r in Hm. rewrite <- Hm in *.
      refine (conj HL1 (conj _ Hr1)). by eapply srelink_two.
    - cbn [fmap list_fmap fst hd]. rewrite decide_False by (by apply (not_end h1 t [] y b d')).
      destruct Hor as [->|]; [|done]. cbn [app] in Hm.
      destruct (transfer_two h1 s c1' [] t [] ((y, b) :: d') []) as (h2&E2&HL2&Hr2); [cbn [app]; rewrite (app_nil_r d'); exact HL1|].
      cbn [fmap list_fmap lst hd] in E2. exists h2. split; [exact E2|].
      rewrite !app_nil_r in HL2, Hr2. cbn [app] in HL2, Hr2.
      assert (srelink h h2 (snodes s cs ++ snodes t ds)) as Hr.
      { eapply srelink_trans; [exact Hr1|]. eapply srelink_mono; [exact Hr2|]. intros z.
        assert (c1'.*1 ++ ((y, b) :: d').*1 ≡ₚ cs.*1 ++ ds.*1) as Hq by (rewrite <- !fmap_app; rewrite Hm; by rewrite Hperm, app_nil_r).
        assert (forall l1 l2 : list loc, z ∈ (s.1 :: s.2 :: l1) ++ t.1 :: t.2 :: l2 <-> (z = s.1 \/ z = s.2 \/ z = t.1 \/ z = t.2) \/ z ∈ l1 ++ l2) as Hz.
        { intros l1 l2. rewrite !elem_of_app, !elem_of_cons. tauto. }
        unfold snodes. rewrite !Hz, Hq. done. }
      rewrite <- Hm in *.
      refine (conj HL2 (conj _ Hr)). by eapply srelink_two.
  Qed.
  Lemma smerge_ok comp h s cs t ds : slists h [(s, cs); (t, ds)] -> sorted (on2 comp) ds ->
    exists h', c_slist_merge_by comp h s t = Ok h' /\ supd2 h h' s t cs ds (seq_merge (on2 comp) cs ds) [].
  Proof. intros HL Hs. rewrite <- mi_sorted by done. by apply smerge_any_ok. Qed.
End merge.
