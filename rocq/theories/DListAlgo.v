(** DListAlgo.v — correctness of splice, merge, remove, reverse, unique and sort of DList.v. *)
From Verif Require Import Base Spec SpecSeq SpecListOps Facts MergeFacts DList Path SpecList DListCore DListProofs.
From stdpp Require Import list gmap.

Section proofs.
  Context {A : Type}.
  Implicit Types h : heap A.
  Notation cell := (loc * A)%type.
  Implicit Types cs ds : list cell.

  (** ** remove *)
  Lemma remove_loop_ok (I : heap A -> Prop) cond p s cs0 fuel :
    (forall h1 h2 old new, I h1 -> (forall y, y ∈ old -> y ∈ nodes s cs0) -> step h1 h2 old new ->
       (forall y, y ∈ new -> y ∈ old) -> I h2) ->
    (forall h1 a, I h1 -> cond h1 a = Ok (p a)) ->
    forall h c1 c2, I h -> is_list h s (c1 ++ c2) -> (forall y, y ∈ nodes s (c1 ++ c2) -> y ∈ nodes s cs0) -> length c2 < fuel ->
    exists h', remove_loop cond fuel h s (hd s c2.*1) s = Ok h' /\
      upd h h' s (c1 ++ c2) (c1 ++ List.filter (fun c => negb (p c.2)) c2) (List.filter p c2.*2).
  Proof.
    intros HI Hc. induction fuel as [|fuel IH]; intros h c1 c2 Hh HL Hin Hf; [lia|]. cbn [remove_loop].
    destruct c2 as [|[x a] c2].
    - exists h. rewrite decide_True by done. split; [done|]. by apply upd_refl.
    - cbn [fmap list_fmap fst hd]. rewrite decide_False by (by eapply not_sentinel).
      rewrite (value_at _ _ _ _ _ _ HL). cbn [rbind]. rewrite Hc by done. cbn [rbind].
      cbn [List.filter snd fmap list_fmap]. destruct (p a) eqn:Hp; cbn [negb].
      + destruct (pop_node_ok h s c1 c2 x a HL) as (h1&E1&H1&H2&H3). rewrite E1. cbn [rbind].
        assert (forall y, y ∈ nodes s (c1 ++ c2) -> y ∈ nodes s (c1 ++ (x, a) :: c2)) as Hsub.
        { intros y. rewrite !nodes_app. cbn. rewrite !elem_of_cons, !elem_of_app, elem_of_cons. tauto. }
        destruct (IH h1 c1 c2) as (h2&E2&HU2).
        * eapply HI; [exact Hh| |exact H2|done]. done.
        * done.
        * auto.
        * cbn in Hf. lia.
        * exists h2. split; [done|]. eapply (upd_trans _ _ _ _ _ _ _ [a]); [|exact HU2]. by split_and!.
      + rewrite (next_at _ _ _ _ _ _ HL). cbn [rbind].
        destruct (IH h (c1 ++ [(x, a)]) c2) as (h2&E2&HU2); rewrite <- ?app_assoc; [done..|cbn in Hf; lia|].
        rewrite <- !app_assoc in HU2. exists h2. done.
  Qed.
  Lemma remove_if_ok p h s cs : is_list h s cs ->
    exists h', c_list_remove_if p h s = Ok h' /\
      upd h h' s cs (List.filter (fun c => negb (p c.2)) cs) (List.filter p cs.*2).
  Proof.
    intros HL. unfold c_list_remove_if. rewrite (empty_ok _ _ _ HL). cbn [rbind]. case_bool_decide as Hc.
    - subst cs. exists h. split; [done|]. by apply upd_refl.
    - rewrite (begin_ok _ _ _ HL). cbn [rbind].
      apply (remove_loop_ok (fun _ => True) (fun _ a => Ok (p a)) p s cs (fuel_of h)) with (c1 := []); try done.
      by eapply fuel_enough.
  Qed.
  (** the value to remove is the caller's, or belongs to a node outside the list *)
  Lemma remove_ok eqb h s cs v a : is_list h s cs -> deref h v = Ok a ->
    match v with LVal _ => True | LNode x => x ∉ nodes s cs end ->
    exists h', c_list_remove eqb h s v = Ok h' /\
      upd h h' s cs (List.filter (fun c => negb (eqb c.2 a)) cs) (List.filter (fun b => eqb b a) cs.*2).
  Proof.
    intros HL Hv Hx. unfold c_list_remove. rewrite (empty_ok _ _ _ HL). cbn [rbind]. case_bool_decide as Hc.
    - subst cs. exists h. split; [done|]. by apply upd_refl.
    - rewrite (begin_ok _ _ _ HL). cbn [rbind].
      apply (remove_loop_ok (fun h1 => deref h1 v = Ok a) _ (fun b => eqb b a) s cs (fuel_of h)) with (c1 := []); try done.
      + intros h1 h2 old new H1 Hold (S1&_&_) Hnew. destruct v as [b|x]; [done|]. cbn in *. unfold value in *.
        destruct (S1 x) as [-> _]; [by intros ?%Hold|by intros ?%Hnew%Hold|]. done.
      + cbn. intros h1 b ->. done.
      + by eapply fuel_enough.
  Qed.
  (** the value belongs to an element of the list that is equal to itself: once that node is freed the
      function reads it again, unless it was the last one *)
  Lemma remove_own_loop eqb s x a fuel : eqb a a = true -> forall h c1 c2 c3,
    is_list h s (c1 ++ c2 ++ (x, a) :: c3) -> length (c2 ++ (x, a) :: c3) < fuel ->
    let r := remove_loop (fun h b => do y <- deref h (LNode x); Ok (eqb b y)) fuel h s (hd s (c2 ++ (x, a) :: c3).*1) s in
    match c3 with
    | [] => exists h', r = Ok h' /\
        upd h h' s (c1 ++ c2 ++ [(x, a)]) (c1 ++ List.filter (fun c => negb (eqb c.2 a)) (c2 ++ [(x, a)]))
          (List.filter (fun b => eqb b a) (c2 ++ [(x, a)]).*2)
    | _ => r = UB
    end.
  Proof.
    intros Haa. induction fuel as [|fuel IH]; intros h c1 c2 c3 HL Hf; [lia|]. cbn [remove_loop].
    assert (value h x = Ok a) as Hva by (rewrite app_assoc in HL; by eapply value_at).
    destruct c2 as [|[y b] c2].
    - cbn [app fmap list_fmap fst hd] in HL |- *. rewrite decide_False by (by eapply not_sentinel).
      rewrite Hva. cbn [rbind deref]. rewrite Hva. cbn [rbind]. rewrite Haa.
      destruct (pop_node_ok h s c1 c3 x a HL) as (h1&E1&H1&H2&H3). rewrite E1. cbn [rbind].
      destruct fuel as [|fuel]; [cbn in Hf; lia|]. cbn [remove_loop].
      destruct c3 as [|[z c] c3].
      + exists h1. cbn. rewrite decide_True by done. split; [done|]. rewrite Haa. cbn. by split_and!.
      + cbn [app fmap list_fmap fst hd]. rewrite decide_False by (by eapply not_sentinel).
        rewrite (value_at _ _ _ _ _ _ H1). cbn [rbind].
        enough (value h1 x = UB) as -> by done. unfold value.
        destruct H2 as (_&H2&_). rewrite H2; [done| |].
        * rewrite nodes_app. right. apply elem_of_app. right. left.
        * pose proof HL as (Hnd&_). intros Hx. rewrite nodes_app in Hnd, Hx. cbn in Hnd.
          assert (NoDup (x :: s :: c1.*1 ++ z :: c3.*1)) as Hnd'.
          { eapply (NoDup_Permutation_proper _ (s :: c1.*1 ++ x :: z :: c3.*1)); [|done].
            apply (Permutation_middle (s :: c1.*1)). }
          by apply NoDup_cons in Hnd' as [? _].
    - cbn [app fmap list_fmap fst hd] in HL |- *. rewrite decide_False by (by eapply not_sentinel).
      rewrite (value_at _ _ _ _ _ _ HL). cbn [rbind deref]. rewrite Hva. cbn [rbind].
      cbn in Hf. cbn [List.filter snd]. destruct (eqb b a) eqn:Hp; cbn [negb].
      + destruct (pop_node_ok h s c1 _ y b HL) as (h1&E1&H1&H2&H3). rewrite E1. cbn [rbind].
        pose proof (IH h1 c1 c2 c3 H1 ltac:(lia)) as HI. cbn zeta in HI. destruct c3 as [|c c3]; [|exact HI].
        destruct HI as (h2&E2&HU2). exists h2. split; [exact E2|].
        eapply (upd_trans _ _ _ _ _ _ _ [b]); [|exact HU2]. by split_and!.
      + rewrite (next_at _ _ _ _ _ _ HL). cbn [rbind].
        pose proof (IH h (c1 ++ [(y, b)]) c2 c3) as HI. rewrite <- !app_assoc in HI. cbn [app] in HI.
        specialize (HI HL ltac:(lia)). cbn zeta in HI. destruct c3 as [|c c3]; [|exact HI].
        exact HI.
  Qed.
  Lemma remove_own eqb h s c2 x a c3 : eqb a a = true -> is_list h s (c2 ++ (x, a) :: c3) ->
    match c3 with
    | [] => exists h', c_list_remove eqb h s (LNode x) = Ok h' /\
        upd h h' s (c2 ++ [(x, a)]) (List.filter (fun c => negb (eqb c.2 a)) (c2 ++ [(x, a)]))
          (List.filter (fun b => eqb b a) (c2 ++ [(x, a)]).*2)
    | _ => c_list_remove eqb h s (LNode x) = UB
    end.
  Proof.
    intros Haa HL. unfold c_list_remove. rewrite (empty_ok _ _ _ HL). rewrite bool_decide_eq_false_2 by (by destruct c2).
    cbn [rbind]. rewrite (begin_ok _ _ _ HL). cbn [rbind].
    pose proof (remove_own_loop eqb s x a (fuel_of h) Haa h [] c2 c3 HL (fuel_enough _ _ _ HL)) as H. cbn zeta in H.
    destruct c3; exact H.
  Qed.

  (** ** reverse *)
  Lemma dpath_rev h h' x xs e : dpath h (x :: xs) e ->
    (forall y, y ∈ x :: xs -> pv h' !! y = nx h !! y) -> (forall y, y ∈ xs ++ [e] -> nx h' !! y = pv h !! y) ->
    dpath h' (e :: rev xs) x.
  Proof.
    revert x. induction xs as [|y xs IH]; intros x (H1&H2&H3) Hp Hn.
    - cbn in *. rewrite (Hn e) by left. rewrite H2. split_and!; [done| |done]. rewrite Hp by left. done.
    - cbn in H1, H2. cbn [rev]. rewrite app_comm_cons. apply dpath_app. cbn [hd]. split.
      + apply IH; [done| |].
        * intros z Hz. apply Hp. by right.
        * intros z Hz. apply Hn. by right.
      + cbn. split_and!; [|rewrite Hp by left; done|done]. rewrite Hn by left. done.
  Qed.
  Lemma reverse_loop_ok h0 s fuel : forall h c1 c2, is_list h0 s (c1 ++ c2) ->
    vl h = vl h0 -> dead h = dead h0 ->
    (forall y, y ∈ c1.*1 -> nx h !! y = pv h0 !! y /\ pv h !! y = nx h0 !! y) ->
    (forall y, y ∉ c1.*1 -> nx h !! y = nx h0 !! y /\ pv h !! y = pv h0 !! y) -> length c2 < fuel ->
    exists h', reverse_loop fuel h s (hd s c2.*1) = Ok h' /\ vl h' = vl h0 /\ dead h' = dead h0 /\
      (forall y, y ∈ (c1 ++ c2).*1 -> nx h' !! y = pv h0 !! y /\ pv h' !! y = nx h0 !! y) /\
      (forall y, y ∉ (c1 ++ c2).*1 -> nx h' !! y = nx h0 !! y /\ pv h' !! y = pv h0 !! y).
  Proof.
    induction fuel as [|fuel IH]; intros h c1 c2 HL Hv Hd Hin Hout Hf; [lia|]. cbn [reverse_loop].
    destruct c2 as [|[x a] c2].
    - exists h. rewrite decide_True by done. rewrite app_nil_r. done.
    - cbn [fmap list_fmap fst hd]. rewrite decide_False by (by eapply not_sentinel).
      assert (x ∉ c1.*1) as Hx.
      { destruct HL as (Hnd&_). rewrite nodes_app in Hnd. apply NoDup_cons in Hnd as [_ Hnd]. intros Hx.
        apply (nodup_ne _ _ x x Hnd); [done|left|done]. }
      destruct (Hout x Hx) as [Hnx Hpx].
      pose proof (next_at _ _ _ _ _ _ HL) as En. pose proof (prev_at _ _ _ _ HL) as Ep. cbn in Ep.
      unfold next in En. unfold prev in Ep.
      destruct (nx h0 !! x) as [n|] eqn:En0; [|done]. injection En as ->.
      destruct (pv h0 !! x) as [p|] eqn:Ep0; [|done]. injection Ep as ->.
      rewrite (next_ok _ _ _ Hnx), (prev_ok _ _ _ Hpx). cbn [rbind].
      rewrite set_next_ok by eauto. cbn [rbind]. rewrite set_prev_ok by (cbn; eauto). cbn [rbind].
      destruct (IH (Heap (<[x:=lst s c1.*1]> (nx h)) (<[x:=hd s c2.*1]> (pv h)) (vl h) (dead h)) (c1 ++ [(x, a)]) c2)
        as (h'&E&H1&H2&H3&H4).
      + by rewrite <- app_assoc.
      + done.
      + done.
      + cbn. intros y Hy. rewrite fmap_app in Hy. destruct (decide (y = x)) as [->|Hne].
        * rewrite !lookup_insert, En0, Ep0. done.
        * rewrite !lookup_insert_ne by done. apply Hin. apply elem_of_app in Hy as [Hy|Hy]; [done|].
          by apply elem_of_list_singleton in Hy.
      + cbn. intros y Hy. rewrite fmap_app in Hy. apply not_elem_of_app in Hy as [Hy1 Hy2].
        assert (y ≠ x) by (intros ->; apply Hy2; left). rewrite !lookup_insert_ne by done. by apply Hout.
      + cbn in Hf. lia.
      + rewrite <- app_assoc in H3, H4. exists h'. done.
  Qed.
  Lemma reverse_ok h s cs : is_list h s cs ->
    exists h', c_list_reverse h s = Ok h' /\ upd h h' s cs (rev cs) [].
  Proof.
    intros HL. unfold c_list_reverse. rewrite (empty_ok _ _ _ HL). cbn [rbind]. case_bool_decide as Hc.
    { subst cs. exists h. split; [done|]. by apply upd_refl. }
    rewrite (size_ok _ _ _ HL). cbn [rbind]. destruct (length cs =? 1) eqn:E1.
    { apply Nat.eqb_eq in E1. destruct cs as [|c [|d cs]]; [done| |done]. exists h. split; [done|]. by apply upd_refl. }
    rewrite (begin_ok _ _ _ HL). cbn [rbind].
    destruct (reverse_loop_ok h s (fuel_of h) h [] cs HL) as (h1&Er&Hv&Hd&Hin&Hout); [done|done| |done|by eapply fuel_enough|].
    { intros y Hy. by apply elem_of_nil in Hy. }
    rewrite Er. cbn [rbind]. cbn [app] in Hin, Hout.
    assert (s ∉ cs.*1) as Hs by (destruct HL as ([? _]%NoDup_cons&_); done).
    destruct (Hout s Hs) as [Hns Hps].
    pose proof (begin_ok _ _ _ HL) as En. pose proof (last_ok _ _ _ HL) as Ep. unfold next in En. unfold prev in Ep.
    destruct (nx h !! s) as [n|] eqn:En0; [|done]. injection En as ->.
    destruct (pv h !! s) as [p|] eqn:Ep0; [|done]. injection Ep as ->.
    rewrite (next_ok _ _ _ Hns), (prev_ok _ _ _ Hps). cbn [rbind].
    rewrite set_next_ok by eauto. cbn [rbind]. rewrite set_prev_ok by (cbn; eauto).
    eexists. split; [done|]. apply upd_relink; [| |apply Permutation_rev].
    - destruct HL as (Hnd&Hp&Hvs&Hf). split_and!; cbn.
      + unfold nodes in *. rewrite map_rev. apply NoDup_cons in Hnd as [N1 N2]. apply NoDup_cons. split.
        * intros Hy. apply N1. apply elem_of_list_In. apply in_rev. by apply elem_of_list_In.
        * apply NoDup_ListNoDup. apply List.NoDup_rev. by apply NoDup_ListNoDup.
      + unfold nodes in *. rewrite map_rev. apply (dpath_rev h); [exact Hp| |]; cbn.
        * intros y Hy. destruct (decide (y = s)) as [->|Hne]; [by rewrite lookup_insert, En0|].
          rewrite lookup_insert_ne by done. apply Hin. apply elem_of_cons in Hy as [->|Hy]; done.
        * intros y Hy. destruct (decide (y = s)) as [->|Hne]; [by rewrite lookup_insert, Ep0|].
          rewrite lookup_insert_ne by done. apply Hin. apply elem_of_app in Hy as [Hy|Hy]; [done|].
          by apply elem_of_list_singleton in Hy.
      + by rewrite Hv.
      + rewrite Hv. apply Forall_forall. intros c Hc'. rewrite Forall_forall in Hf. apply Hf.
        apply elem_of_list_In. apply in_rev. by apply elem_of_list_In.
    - refine (conj Hv (conj Hd _)). intros y Hy. cbn. apply not_elem_of_cons in Hy as [Hy1 Hy2].
      rewrite !lookup_insert_ne by done. by apply Hout.
  Qed.

  (** ** unique *)
  (** the leading elements related to the kept one, and the rest *)
  Fixpoint drop_run (p : A -> bool) cs : list cell :=
    match cs with [] => [] | c :: r => if p c.2 then drop_run p r else cs end.
  Fixpoint take_run (p : A -> bool) cs : list cell :=
    match cs with [] => [] | c :: r => if p c.2 then c :: take_run p r else [] end.
  Lemma drop_run_length p cs : length (drop_run p cs) <= length cs.
  Proof. induction cs as [|c cs IH]; cbn; [lia|]. destruct (p c.2); cbn; lia. Qed.
  Lemma unique_inner_ok pred s x a fuel : forall h c1 c2, is_list h s (c1 ++ (x, a) :: c2) -> length c2 < fuel ->
    exists h', unique_inner pred fuel h s x (hd s c2.*1) = Ok h' /\
      upd h h' s (c1 ++ (x, a) :: c2) (c1 ++ (x, a) :: drop_run (pred a) c2) (take_run (pred a) c2).*2.
  Proof.
    induction fuel as [|fuel IH]; intros h c1 c2 HL Hf; [lia|]. cbn [unique_inner].
    destruct c2 as [|[y b] c2].
    - exists h. rewrite decide_True by done. split; [done|]. by apply upd_refl.
    - assert (is_list h s ((c1 ++ [(x, a)]) ++ (y, b) :: c2)) as HL' by (by rewrite <- app_assoc).
      cbn [fmap list_fmap fst hd]. rewrite decide_False by (by eapply not_sentinel).
      rewrite (value_at _ _ _ _ _ _ HL), (value_at _ _ _ _ _ _ HL'). cbn [rbind drop_run take_run snd].
      destruct (pred a b); [|exists h; split; [done|]; by apply upd_refl].
      destruct (pop_node_ok h s _ c2 y b HL') as (h1&E1&H1&H2&H3). rewrite E1. cbn [rbind].
      rewrite <- !app_assoc in H1. do 2 rewrite <- app_assoc in H2. cbn [app] in H1, H2.
      destruct (IH h1 c1 c2 H1) as (h2&E2&HU2); [cbn in Hf; lia|].
      exists h2. split; [done|]. eapply (upd_trans _ _ _ _ _ _ _ [b]); [|exact HU2]. by split_and!.
  Qed.
  Lemma drop_run_runs pred (x : loc) a cs : keep_runs (on2 pred) (x, a) cs =
    match drop_run (pred a) cs with [] => [] | c :: r => c :: keep_runs (on2 pred) c r end.
  Proof. induction cs as [|c cs IH]; [done|]. cbn. unfold on2 at 1. cbn. by destruct (pred a c.2). Qed.
  Lemma dropped_run pred a cs : dropped pred a cs.*2 =
    (take_run (pred a) cs).*2 ++ match drop_run (pred a) cs with [] => [] | c :: r => dropped pred c.2 r.*2 end.
  Proof. induction cs as [|c cs IH]; [done|]. cbn. destruct (pred a c.2); [by rewrite IH|done]. Qed.
  Lemma unique_loop_ok pred s fuel : forall h c1 x a c2, is_list h s (c1 ++ (x, a) :: c2) -> length c2 < fuel ->
    exists h', unique_loop pred fuel h s x = Ok h' /\
      upd h h' s (c1 ++ (x, a) :: c2) (c1 ++ (x, a) :: keep_runs (on2 pred) (x, a) c2) (dropped pred a c2.*2).
  Proof.
    induction fuel as [|fuel IH]; intros h c1 x a c2 HL Hf; [lia|]. cbn [unique_loop].
    rewrite decide_False by (by eapply not_sentinel). rewrite (next_at _ _ _ _ _ _ HL). cbn [rbind].
    destruct c2 as [|c2h c2'] eqn:Hc2.
    { cbn. rewrite decide_True by done. exists h. split; [done|]. by apply upd_refl. }
    rewrite decide_False.
    2:{ destruct c2h as [y b]. cbn. apply (not_sentinel h s (c1 ++ [(x, a)]) y b c2'). by rewrite <- app_assoc. }
    assert (0 < length c2) as Hc0 by (rewrite Hc2; cbn; lia). rewrite <- Hc2 in *. clear c2h c2' Hc2.
    destruct (unique_inner_ok pred s x a (fuel_of h) h c1 c2 HL) as (h1&E1&HU1).
    { pose proof (fuel_enough _ _ _ HL) as Hfu. rewrite app_length in Hfu. cbn in Hfu. lia. }
    rewrite E1. cbn [rbind]. pose proof HU1 as (HL1&_&_). rewrite (next_at _ _ _ _ _ _ HL1). cbn [rbind].
    rewrite drop_run_runs, dropped_run. pose proof (drop_run_length (pred a) c2) as Hdl.
    destruct (drop_run (pred a) c2) as [|[y b] r] eqn:Hd.
    - cbn. destruct fuel as [|fuel]; [lia|]. cbn [unique_loop]. rewrite decide_True by done. exists h1. split; [done|].
      by rewrite app_nil_r.
    - cbn [fmap list_fmap fst snd hd]. destruct (IH h1 (c1 ++ [(x, a)]) y b r) as (h2&E2&HU2).
      + by rewrite <- app_assoc.
      + cbn in Hdl. lia.
      + rewrite <- !app_assoc in HU2. exists h2. split; [done|]. cbn [app] in HU2.
        by apply (upd_trans _ _ _ _ _ _ _ _ _ HU1 HU2).
  Qed.
  Lemma unique_if_ok pred h s cs : is_list h s cs ->
    exists h', c_list_unique_if pred h s = Ok h' /\
      upd h h' s cs (unique_spec (on2 pred) cs) (seq_unique_gone pred cs.*2).
  Proof.
    intros HL. unfold c_list_unique_if. rewrite (empty_ok _ _ _ HL). cbn [rbind]. destruct cs as [|[x a] cs].
    { exists h. split; [done|]. by apply upd_refl. }
    cbn [bool_decide decide]. rewrite bool_decide_eq_false_2 by done. rewrite (size_ok _ _ _ HL). cbn [rbind length].
    destruct (S (length cs) =? 1) eqn:E1.
    { apply Nat.eqb_eq in E1. destruct cs as [|c cs]; [|done]. exists h. split; [done|]. by apply upd_refl. }
    rewrite (begin_ok _ _ _ HL). cbn [rbind fmap list_fmap fst hd].
    apply (unique_loop_ok pred s (fuel_of h) h [] x a cs HL).
    pose proof (fuel_enough _ _ _ HL). cbn in *. lia.
  Qed.

  (** ** splice *)
  Lemma relink_two h h' s cs t ds cs' ds' : lists h [(s, cs); (t, ds)] -> relink h h' (nodes s cs ++ nodes t ds) ->
    cs ++ ds ≡ₚ cs' ++ ds' -> step h h' (nodes s cs ++ nodes t ds) (nodes s cs' ++ nodes t ds').
  Proof.
    intros HL Hr Hp. eapply relink_step; [exact Hr|done|]. intros y. unfold nodes.
    assert ((s :: cs.*1) ++ t :: ds.*1 ≡ₚ (s :: cs'.*1) ++ t :: ds'.*1) as ->; [|done].
    rewrite <- !Permutation_middle. cbn. do 2 constructor. rewrite <- !fmap_app. by rewrite Hp.
  Qed.
  (** two lists at once *)
  Definition upd2 h h' (s t : loc) cs ds cs' ds' : Prop :=
    lists h' [(s, cs'); (t, ds')] /\ step h h' (nodes s cs ++ nodes t ds) (nodes s cs' ++ nodes t ds') /\
    relink h h' (nodes s cs ++ nodes t ds).
  Lemma splice_range_ok h s c1 c2 t d1 d2 d3 : lists h [(s, c1 ++ c2); (t, d1 ++ d2 ++ d3)] ->
    exists h', c_list_splice_range h (hd s c2.*1) t (hd t (d2 ++ d3).*1) (hd t d3.*1) = Ok h' /\
      upd2 h h' s t (c1 ++ c2) (d1 ++ d2 ++ d3) (c1 ++ d2 ++ c2) (d1 ++ d3).
  Proof.
    intros HL. pose proof HL as (_&HLt&_)%lists_two. unfold c_list_splice_range. rewrite (empty_ok _ _ _ HLt). cbn [rbind].
    case_bool_decide as Hc.
    { apply app_eq_nil in Hc as [-> [-> ->]%app_eq_nil]. exists h. split; [done|]. refine (conj HL (conj _ _)); [|done].
      by apply step_refl. }
    destruct (transfer_two h s c1 c2 t d1 d2 d3 HL) as (h'&E&HL'&Hr). exists h'. split; [done|]. refine (conj HL' (conj _ Hr)).
    eapply relink_two; [done|done|]. solve_Permutation.
  Qed.
  Lemma splice_from_ok h s c1 c2 t d1 d2 : lists h [(s, c1 ++ c2); (t, d1 ++ d2)] ->
    exists h', c_list_splice_from h (hd s c2.*1) t (hd t d2.*1) = Ok h' /\
      upd2 h h' s t (c1 ++ c2) (d1 ++ d2) (c1 ++ d2 ++ c2) d1.
  Proof.
    intros HL. pose proof (splice_range_ok h s c1 c2 t d1 d2 []) as H. rewrite !app_nil_r in H. by apply H.
  Qed.
  Lemma splice_ok h s c1 c2 t ds : lists h [(s, c1 ++ c2); (t, ds)] ->
    exists h', c_list_splice h (hd s c2.*1) t = Ok h' /\ upd2 h h' s t (c1 ++ c2) ds (c1 ++ ds ++ c2) [].
  Proof.
    intros HL. pose proof HL as (_&HLt&_)%lists_two.
    destruct (splice_from_ok h s c1 c2 t [] ds HL) as (h'&E&HU). exists h'. split; [|done].
    unfold c_list_splice, c_list_splice_from in *. rewrite (empty_ok _ _ _ HLt) in *. cbn [rbind] in *.
    case_bool_decide; [done|]. rewrite (begin_ok _ _ _ HLt). done.
  Qed.
  (** ... within one list *)
  Lemma splice_front h s c1 c2 d2 c3 : is_list h s (c1 ++ c2 ++ d2 ++ c3) -> (c2 = [] -> d2 = []) ->
    exists h', c_list_splice_range h (hd s (c2 ++ d2 ++ c3).*1) s (hd s (d2 ++ c3).*1) (hd s c3.*1) = Ok h' /\
      upd h h' s (c1 ++ c2 ++ d2 ++ c3) (c1 ++ d2 ++ c2 ++ c3) [].
  Proof.
    intros HL Hc. unfold c_list_splice_range. rewrite (empty_ok _ _ _ HL). cbn [rbind].
    destruct (transfer_front h s c1 c2 d2 c3 HL Hc) as (h'&E&HL'&Hr).
    case_bool_decide as He.
    { apply app_eq_nil in He as [-> [-> [-> ->]%app_eq_nil]%app_eq_nil]. exists h. split; [done|]. by apply upd_refl. }
    exists h'. split; [done|]. apply upd_relink; [done|done|]. solve_Permutation.
  Qed.
  Lemma splice_back h s c1 d2 c2 c3 : is_list h s (c1 ++ d2 ++ c2 ++ c3) ->
    exists h', c_list_splice_range h (hd s c3.*1) s (hd s (d2 ++ c2 ++ c3).*1) (hd s (c2 ++ c3).*1) = Ok h' /\
      upd h h' s (c1 ++ d2 ++ c2 ++ c3) (c1 ++ c2 ++ d2 ++ c3) [].
  Proof.
    intros HL. unfold c_list_splice_range. rewrite (empty_ok _ _ _ HL). cbn [rbind].
    destruct (transfer_back h s c1 d2 c2 c3 HL) as (h'&E&HL'&Hr).
    case_bool_decide as He.
    { apply app_eq_nil in He as [-> [-> [-> ->]%app_eq_nil]%app_eq_nil]. exists h. split; [done|]. by apply upd_refl. }
    exists h'. split; [done|]. apply upd_relink; [done|done|]. solve_Permutation.
  Qed.

  (** ** merge *)
  Lemma merge_loop_ok comp s t fuel : forall h c1 c2 d2, lists h [(s, c1 ++ c2); (t, d2)] ->
    length c2 + length d2 < fuel ->
    exists h' m d', merge_loop comp fuel h (hd s c2.*1) s (hd t d2.*1) t = Ok (h', hd t d'.*1) /\
      lists h' [(s, c1 ++ m); (t, d')] /\ m ++ d' = seq_merge (on2 comp) c2 d2 /\
      relink h h' (nodes s (c1 ++ c2) ++ nodes t d2).
  Proof.
    induction fuel as [|fuel IH]; intros h c1 c2 d2 HL Hf; [lia|]. cbn [merge_loop].
    pose proof HL as (HLs&HLt&_)%lists_two.
    destruct c2 as [|[x a] c2].
    { cbn [fmap list_fmap hd]. rewrite decide_True by done. exists h, [], d2. refine (conj eq_refl (conj HL (conj _ _))); [|done].
      by rewrite mrg_nil_l. }
    assert (x ≠ s) as Hx by (by eapply not_sentinel).
    destruct d2 as [|[y b] d2].
    { cbn [fmap list_fmap fst hd]. rewrite decide_False by done. rewrite decide_True by done.
      exists h, ((x, a) :: c2), []. refine (conj eq_refl (conj HL (conj _ _))); [|done]. rewrite mrg_nil_r. by rewrite app_nil_r. }
    assert (y ≠ t) as Hy by (by apply (not_sentinel h t [] y b d2)).
    cbn [fmap list_fmap fst hd]. rewrite !decide_False by done.
    rewrite (value_at h t [] y b d2 HLt), (value_at _ _ _ _ _ _ HLs). cbn [rbind]. rewrite mrg_cons. unfold on2 at 1. cbn [snd].
    destruct (comp b a).
    - rewrite (next_at h t [] y b d2 HLt). cbn [rbind].
      destruct (transfer_two h s c1 ((x, a) :: c2) t [] [(y, b)] d2 HL) as (h1&E1&HL1&Hr1).
      cbn [app fmap list_fmap fst hd] in E1. fold (@fmap list _ _ _ (@fst loc A)) in E1. rewrite E1. cbn [rbind].
      destruct (IH h1 (c1 ++ [(y, b)]) ((x, a) :: c2) d2) as (h2&m&d'&E2&HL2&Hm&Hr2).
      + rewrite <- app_assoc. done.
      + cbn in *. lia.
      + exists h2, ((y, b) :: m), d'. rewrite <- app_assoc in HL2. refine (conj E2 (conj HL2 (conj _ _))); [cbn; by rewrite Hm|].
        apply (relink_trans _ _ _ _ Hr1). eapply relink_mono; [exact Hr2|].
        intros z. rewrite !nodes_app. unfold nodes. cbn. rewrite fmap_app. cbn.
        repeat first [rewrite elem_of_cons | rewrite elem_of_app | rewrite elem_of_nil]. tauto.
    - rewrite (next_at _ _ _ _ _ _ HLs). cbn [rbind].
      destruct (IH h (c1 ++ [(x, a)]) c2 ((y, b) :: d2)) as (h2&m&d'&E2&HL2&Hm&Hr2).
      + rewrite <- app_assoc. done.
      + cbn in *. lia.
      + exists h2, ((x, a) :: m), d'. rewrite <- app_assoc in HL2. rewrite <- app_assoc in Hr2.
        refine (conj E2 (conj HL2 (conj _ Hr2))). cbn; by rewrite Hm.
  Qed.
  Lemma merge_ok comp h s cs t ds : lists h [(s, cs); (t, ds)] ->
    exists h', c_list_merge_by comp h s t = Ok h' /\ upd2 h h' s t cs ds (seq_merge (on2 comp) cs ds) [].
  Proof.
    intros HL. pose proof HL as (HLs&HLt&Hdis)%lists_two. unfold c_list_merge_by. rewrite (empty_ok _ _ _ HLt). cbn [rbind].
    case_bool_decide as Hc.
    { subst ds. exists h. split; [done|]. rewrite mrg_nil_r. refine (conj HL (conj _ _)); [|done]. by apply step_refl. }
    rewrite (begin_ok _ _ _ HLs), (begin_ok _ _ _ HLt). cbn [rbind].
    destruct (merge_loop_ok comp s t (fuel_of h) h [] cs ds HL) as (h1&m&d'&E1&HL1&Hm&Hr1).
    { unfold fuel_of. pose proof (is_list_length _ _ _ HLs). pose proof (is_list_length _ _ _ HLt). lia. }
    rewrite E1. cbn [rbind]. cbn [app] in HL1, Hr1. pose proof HL1 as (HLs1&HLt1&_)%lists_two.
    assert (seq_merge (on2 comp) cs ds ++ [] ≡ₚ cs ++ ds) as Hperm by (rewrite app_nil_r; apply mrg_perm).
    destruct d' as [|[y b] d'].
    - cbn. rewrite decide_True by done. exists h1. split; [done|]. rewrite app_nil_r in Hm. rewrite <- Hm in *.
      refine (conj HL1 (conj _ Hr1)). eapply relink_two; [done|done|]. by rewrite Hperm.
    - cbn. rewrite decide_False by (by apply (not_sentinel h1 t [] y b d')).
      destruct (transfer_two h1 s m [] t [] ((y, b) :: d') []) as (h2&E2&HL2&Hr2); [rewrite !app_nil_r; exact HL1|].
      rewrite app_nil_r in E2. cbn in E2. exists h2. split; [exact E2|].
      assert (relink h h2 (nodes s cs ++ nodes t ds)) as Hr.
      { eapply relink_trans; [exact Hr1|]. eapply relink_mono; [exact Hr2|]. intros z.
        assert (nodes s (m ++ []) ++ nodes t ([] ++ ((y, b) :: d') ++ []) ≡ₚ nodes s cs ++ nodes t ds) as ->; [|done].
        rewrite !app_nil_r. cbn [app]. unfold nodes. cbn [app]. rewrite <- !Permutation_middle. do 2 constructor.
        rewrite <- !fmap_app. by rewrite Hm, mrg_perm. }
      rewrite !app_nil_r in HL2. rewrite <- Hm in *.
      refine (conj HL2 (conj _ Hr)). eapply relink_two; [done|done|]. by rewrite Hperm.
  Qed.
End proofs.
