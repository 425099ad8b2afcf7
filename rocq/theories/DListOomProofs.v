(** DListOomProofs.v — lists when malloc may fail. *)
From Verif Require Import Base Spec SpecSeq SpecListOps SpecOom Facts MergeFacts SortFacts DList Path SpecList DListCore
  DListProofs DListAlgo DListSort DListRun DListRunProofs DListOom.
From stdpp Require Import list gmap.

(** the outcomes up to [r'] were used; if all of them were successes, [P] *)
Definition spent (r r' : list bool) (P : Prop) : Prop := exists used, r = used ++ r' /\ (Forall (eq true) used -> P).
Lemma spent_refl r (P : Prop) : P -> spent r r P.
Proof. exists []. done. Qed.
Lemma spent_trans r1 r2 r3 (P Q R : Prop) : spent r1 r2 P -> spent r2 r3 Q -> (P -> Q -> R) -> spent r1 r3 R.
Proof.
  intros (u&->&H1) (v&->&H2) H. exists (u ++ v). rewrite app_assoc. split; [done|]. intros [? ?]%Forall_app. auto.
Qed.
Lemma spent_mono r r' (P Q : Prop) : spent r r' P -> (P -> Q) -> spent r r' Q.
Proof. intros (u&->&H) HQ. exists u. auto. Qed.
Lemma outcome_spent r : spent r (outcome r).2 ((outcome r).1 = true).
Proof. destruct r as [|b r]; cbn; [by apply spent_refl|]. exists [b]. split; [done|]. intros H. by inversion H. Qed.
Lemma outcome2_spent r : spent r (outcome2 r).2 ((outcome2 r).1 = true).
Proof.
  unfold outcome2. pose proof (outcome_spent r) as H. destruct (outcome r) as [b r1]. cbn in H. destruct b.
  - pose proof (outcome_spent r1) as H1. by eapply spent_trans.
  - by apply (spent_mono _ _ _ _ H).
Qed.

Section proofs.
  Context {A : Type} (dflt : A) (alloc : heap A -> loc) (Halloc : malloc_ok alloc).
  Implicit Types h : heap A.
  Notation cell := (loc * A)%type.
  Implicit Types cs ds : list cell.

  Lemma create_m_ok r h : exists r' h' o, create_m alloc r h = (r', h', o) /\ spent r r' (is_Some o) /\
    match o with Some s => c_list_create alloc h = (h', s) | None => h' = h end.
  Proof.
    unfold create_m. pose proof (outcome2_spent r) as H. destruct (outcome2 r) as [ok r']. cbn in H. destruct ok.
    - destruct (c_list_create alloc h) as [h' s]. exists r', h', (Some s). split; [done|]. split; [|done]. eapply spent_mono; [done|]. by eexists.
    - exists r', h, None. split; [done|]. split; [|done]. by eapply spent_mono.
  Qed.
  Lemma push_back_m_ok r h s cs v a : is_list h s cs -> deref h v = Ok a ->
    exists r' h' new, push_back_m dflt alloc r h s v = Ok (r', h') /\ upd h h' s cs (cs ++ new) [] /\
      (forall x, is_Some (vl h !! x) -> vl h' !! x = vl h !! x) /\
      (new = [] \/ new.*2 = [a]) /\ spent r r' (new.*2 = [a]).
  Proof.
    intros HL Hv. unfold push_back_m, create_node_m. pose proof (outcome2_spent r) as H. destruct (outcome2 r) as [ok r']. cbn in H. destruct ok.
    - destruct (push_back_ok dflt alloc Halloc h s cs v a HL Hv) as (h'&E&HU&Hvl). unfold c_list_push_back in E.
      destruct (create_node dflt alloc h (Some v)) as [[h1 x]| |]; cbn [rbind] in *; [|done..]. rewrite E. cbn [rbind].
      exists r', h', [(alloc h, a)]. split; [done|]. split; [done|]. split; [by eapply vl_fresh|]. split; [by right|]. by eapply spent_mono.
    - cbn [rbind]. exists r', h, []. split; [done|]. rewrite app_nil_r. split; [by apply upd_refl|]. split; [done|]. split; [by left|]. by eapply spent_mono.
  Qed.
  Lemma push_front_m_ok r h s cs v a : is_list h s cs -> deref h v = Ok a ->
    exists r' h' new, push_front_m dflt alloc r h s v = Ok (r', h') /\ upd h h' s cs (new ++ cs) [] /\
      (new = [] \/ new.*2 = [a]) /\ spent r r' (new.*2 = [a]).
  Proof.
    intros HL Hv. unfold push_front_m, create_node_m. pose proof (outcome2_spent r) as H. destruct (outcome2 r) as [ok r']. cbn in H. destruct ok.
    - destruct (push_front_ok dflt alloc Halloc h s cs v a HL Hv) as (h'&E&HU). unfold c_list_push_front in E.
      destruct (create_node dflt alloc h (Some v)) as [[h1 x]| |]; cbn [rbind] in *; [|done..].
      destruct (next h1 s) as [n| |]; cbn [rbind] in *; [|done..]. destruct (set_next h1 x n) as [h2| |]; cbn [rbind] in *; [|done..].
      destruct (set_prev h2 x s) as [h3| |]; cbn [rbind] in *; [|done..]. destruct (next h3 s) as [n1| |]; cbn [rbind] in *; [|done..].
      destruct (set_prev h3 n1 x) as [h4| |]; cbn [rbind] in *; [|done..]. rewrite E. cbn [rbind].
      exists r', h', [(alloc h, a)]. split; [done|]. split; [done|]. split; [by right|]. by eapply spent_mono.
    - cbn [rbind]. exists r', h, []. split; [done|]. split; [by apply upd_refl|]. split; [by left|]. by eapply spent_mono.
  Qed.
  Lemma insert_m_ok r h s c1 c2 v a : is_list h s (c1 ++ c2) -> deref h v = Ok a ->
    exists r' h' new p, insert_m dflt alloc r h (hd s c2.*1) v = Ok (r', h', p) /\ upd h h' s (c1 ++ c2) (c1 ++ new ++ c2) [] /\
      p = hd s (new ++ c2).*1 /\ (new = [] \/ new.*2 = [a]) /\ spent r r' (new.*2 = [a]).
  Proof.
    intros HL Hv. unfold insert_m, create_node_m. pose proof (outcome2_spent r) as H. destruct (outcome2 r) as [ok r']. cbn in H. destruct ok.
    - destruct (insert_ok dflt alloc Halloc h s c1 c2 v a HL Hv) as (h'&E&HU). unfold c_list_insert in E.
      destruct (create_node dflt alloc h (Some v)) as [[h1 x]| |]; cbn [rbind] in *; [|done..].
      destruct (link_before h1 x (hd s c2.*1)) as [h2| |]; cbn [rbind] in *; [|done..]. injection E as -> ->.
      exists r', h', [(alloc h, a)], (alloc h). split; [done|]. split; [done|]. split; [done|]. split; [by right|]. by eapply spent_mono.
    - cbn [rbind]. exists r', h, [], (hd s c2.*1). split; [done|]. split; [by apply upd_refl|]. split; [done|]. split; [by left|]. by eapply spent_mono.
  Qed.
  Lemma append_n_m_ok n : forall r h s cs v a, is_list h s cs ->
    match v with Some v => deref h v = Ok a | None => a = dflt end ->
    exists r' h' new k, append_n_m dflt alloc r n h s v = Ok (r', h') /\ upd h h' s cs (cs ++ new) [] /\ new.*2 = replicate k a /\
      k <= n /\ spent r r' (k = n).
  Proof.
    induction n as [|n IH]; intros r h s cs v a HL Hv; cbn [append_n_m].
    - exists r, h, [], 0. rewrite app_nil_r. split; [done|]. split; [by apply upd_refl|]. split; [done|]. split; [done|]. by apply spent_refl.
    - unfold create_node_m. pose proof (outcome2_spent r) as H. destruct (outcome2 r) as [ok r1]. cbn in H. destruct ok.
      + pose proof HL as HL0. rewrite <- (app_nil_r cs) in HL0.
        destruct (new_before dflt alloc Halloc h s cs [] v a HL0 Hv) as (h1&h2&E1&E2&HU&Hvl). rewrite E1. cbn [rbind]. cbn in E2. rewrite E2. cbn [rbind].
        rewrite app_nil_r in HU.
        destruct (IH r1 h2 s (cs ++ [(alloc h, a)]) v a) as (r'&h3&new&k&E3&HU3&Hn&Hk&HS); [apply HU| |].
        { eapply vref_vl; [done|]. by eapply vl_fresh. }
        exists r', h3, ((alloc h, a) :: new), (S k). split; [done|]. split; [|split; [cbn; by rewrite Hn|]].
        { rewrite <- app_assoc in HU3. by apply (upd_trans _ _ _ _ _ _ _ [] [] HU HU3). }
        split; [lia|]. eapply spent_trans; [exact H|exact HS|]. lia.
      + cbn [rbind]. exists r1, h, [], 0. rewrite app_nil_r. split; [done|]. split; [by apply upd_refl|]. split; [done|]. split; [lia|]. by eapply spent_mono.
  Qed.
  Lemma resize_m_ok r h s cs n v a : is_list h s cs ->
    match v with Some v => deref h v = Ok a | None => a = dflt end ->
    exists r' h' new k, resize_with_value_m dflt alloc r h s n v = Ok (r', h') /\
      upd h h' s cs (take n cs ++ new) (drop n cs).*2 /\ new.*2 = replicate k a /\ k <= n - length cs /\ spent r r' (k = n - length cs).
  Proof.
    intros HL Hv. unfold resize_with_value_m. rewrite (begin_ok _ _ _ HL). cbn [rbind].
    rewrite (skip_ok h s [] cs n HL). cbn [rbind]. destruct (n - length cs) as [|k] eqn:Hk.
    - destruct (pop_until_ok (fuel_of h) h s (take n cs) (drop n cs)) as (h'&E&HU).
      { by rewrite take_drop. }
      { rewrite drop_length. pose proof (fuel_enough _ _ _ HL). lia. }
      rewrite take_drop in HU. rewrite E. cbn [rbind]. exists r, h', [], 0. rewrite app_nil_r. split; [done|]. split; [done|]. split; [done|].
      split; [done|]. by apply spent_refl.
    - destruct (append_n_m_ok (S k) r h s cs v a HL Hv) as (r'&h'&new&j&E&HU&Hn&Hj&HS). exists r', h', new, j.
      rewrite take_ge, drop_ge by lia. done.
  Qed.
  Lemma push_all_m_ok vs : forall r h s cs, is_list h s cs ->
    exists r' h' new, push_all_m dflt alloc r h s vs = Ok (r', h') /\ upd h h' s cs (cs ++ new) [] /\ new.*2 `sublist_of` vs /\ spent r r' (new.*2 = vs).
  Proof.
    induction vs as [|a vs IH]; intros r h s cs HL; cbn [push_all_m].
    - exists r, h, []. rewrite app_nil_r. split; [done|]. split; [by apply upd_refl|]. split; [constructor|]. by apply spent_refl.
    - destruct (push_back_m_ok r h s cs (LVal a) a HL eq_refl) as (r1&h1&n1&E1&HU1&_&Hn1&HS1). rewrite E1. cbn [rbind].
      destruct (IH r1 h1 s (cs ++ n1)) as (r2&h2&n2&E2&HU2&Hn2&HS2); [apply HU1|]. rewrite E2.
      exists r2, h2, (n1 ++ n2). split; [done|]. split; [rewrite <- app_assoc in HU2; by apply (upd_trans _ _ _ _ _ _ _ [] [] HU1 HU2)|].
      rewrite fmap_app. split.
      + destruct Hn1 as [->| ->]; cbn; by constructor.
      + eapply spent_trans; [exact HS1|exact HS2|]. by intros -> ->.
  Qed.
  Lemma copy_loop_m_ok fuel : forall r h s cs t d1 d2, lists h [(s, cs); (t, d1 ++ d2)] -> length d2 < fuel ->
    exists r' h' new, copy_loop_m dflt alloc fuel r h s t (hd t d2.*1) = Ok (r', h') /\ upd h h' s cs (cs ++ new) [] /\ new.*2 `sublist_of` d2.*2 /\
      spent r r' (new.*2 = d2.*2).
  Proof.
    induction fuel as [|fuel IH]; intros r h s cs t d1 d2 HL Hf; [lia|]. cbn [copy_loop_m].
    pose proof HL as HL0. apply lists_two in HL as (HLs&HLt&Hdis).
    destruct d2 as [|[x a] d2].
    - exists r, h, []. rewrite decide_True by done. rewrite !app_nil_r in *. split; [done|]. split; [by apply upd_refl|]. split; [constructor|]. by apply spent_refl.
    - cbn [fmap list_fmap fst hd]. rewrite decide_False by (by eapply not_sentinel).
      destruct (push_back_m_ok r h s cs (LNode x) a HLs) as (r1&h1&n1&E1&HU1&Hvl1&Hn1&HS1); [cbn; by eapply value_at|].
      rewrite E1. cbn [rbind].
      assert (lists h1 [(s, cs ++ n1); (t, (d1 ++ [(x, a)]) ++ d2)]) as HL1.
      { rewrite <- app_assoc. apply (lists_step h h1 [(s, cs)] [(s, cs ++ n1)] [(t, d1 ++ (x, a) :: d2)]); [done| |].
        - apply lists_one. apply HU1.
        - rewrite !all_nodes_one. apply HU1. }
      assert (is_list h1 t (d1 ++ (x, a) :: d2)) as HLt1.
      { apply lists_two in HL1 as (_&H&_). by rewrite <- app_assoc in H. }
      rewrite (next_at _ _ _ _ _ _ HLt1). cbn [rbind].
      destruct (IH r1 h1 s (cs ++ n1) t (d1 ++ [(x, a)]) d2 HL1) as (r2&h2&n2&E2&HU2&Hn2&HS2); [cbn in Hf; lia|].
      exists r2, h2, (n1 ++ n2). split; [done|]. split; [rewrite <- app_assoc in HU2; by apply (upd_trans _ _ _ _ _ _ _ [] [] HU1 HU2)|].
      rewrite fmap_app. change (((x, a) :: d2).*2) with (a :: d2.*2). split.
      + destruct Hn1 as [->| ->]; cbn; by constructor.
      + eapply spent_trans; [exact HS1|exact HS2|]. by intros -> ->.
  Qed.
  Lemma create_from_m_ok r h vs : vs <> [] ->
    exists r' h' o, create_from_m dflt alloc r h vs = Ok (r', h', o) /\
      match o with
      | Some s => exists cs, is_list h' s cs /\ cs.*2 `sublist_of` vs /\ step h h' [] (nodes s cs) /\ dead h' = dead h /\ spent r r' (cs.*2 = vs)
      | None => h' = h /\ spent r r' False
      end.
  Proof.
    intros Hvs. unfold create_from_m. destruct vs as [|v vs]; [done|]. destruct (create_m_ok r h) as (r1&h1&o&E&HS&HC). rewrite E.
    destruct o as [s|].
    - pose proof (create_ok alloc Halloc h) as Hc. rewrite HC in Hc. destruct Hc as (H1&H2&H3&_).
      destruct (push_all_m_ok (v :: vs) r1 h1 s [] H1) as (r2&h2&new&E2&HU2&Hn2&HS2). rewrite E2. cbn [rbind].
      exists r2, h2, (Some s). split; [done|]. exists new. destruct HU2 as (U1&U2&U3). split; [done|]. split; [done|].
      split; [by eapply step_trans|]. split; [rewrite U3, app_nil_r; done|]. by eapply spent_trans.
    - exists r1, h1, None. split; [done|]. split; [done|]. eapply spent_mono; [exact HS|]. by intros [? ?].
  Qed.
  Lemma copy_m_ok r h t ds : is_list h t ds ->
    exists r' h' o, copy_m dflt alloc r h t = Ok (r', h', o) /\
      match o with
      | Some s => exists cs, is_list h' s cs /\ cs.*2 `sublist_of` ds.*2 /\ step h h' [] (nodes s cs) /\ dead h' = dead h /\ spent r r' (cs.*2 = ds.*2)
      | None => h' = h /\ spent r r' False
      end.
  Proof.
    intros HL. unfold copy_m. destruct (create_m_ok r h) as (r1&h1&o&E&HS&HC). rewrite E. destruct o as [s|].
    - pose proof (create_ok alloc Halloc h) as Hc. rewrite HC in Hc. destruct Hc as (H1&H2&H3&_).
      assert (lists h1 [(s, []); (t, ds)]) as HL1.
      { apply (lists_step h h1 [] [(s, [])] [(t, ds)]); [by apply lists_one|by apply lists_one|]. done. }
      assert (is_list h1 t ds) as HLt by (by apply lists_two in HL1 as (_&?&_)).
      rewrite (begin_ok _ _ _ HLt). cbn [rbind].
      destruct (copy_loop_m_ok (fuel_of h1) r1 h1 s [] t [] ds HL1) as (r2&h2&new&E2&(U1&U2&U3)&Hn&HS2); [by eapply fuel_enough|].
      rewrite E2. cbn [rbind]. exists r2, h2, (Some s). split; [done|]. exists new. split; [done|]. split; [done|].
      split; [by eapply step_trans|]. split; [rewrite U3, app_nil_r; done|]. by eapply spent_trans.
    - exists r1, h1, None. split; [done|]. split; [done|]. eapply spent_mono; [exact HS|]. by intros [? ?].
  Qed.
  Lemma assign_m_ok r h s cs t ds : lists h [(s, cs); (t, ds)] ->
    exists r' h' cs', assign_m dflt alloc r h s t = Ok (r', h') /\ upd h h' s cs cs' cs.*2 /\ cs'.*2 `sublist_of` ds.*2 /\ spent r r' (cs'.*2 = ds.*2).
  Proof.
    intros HL. pose proof HL as (HLs&HLt&Hdis)%lists_two. unfold assign_m. rewrite decide_False.
    2:{ intros ->. eapply (Hdis t); left. }
    destruct (clear_ok h s cs HLs) as (h1&E1&HU1). rewrite E1. cbn [rbind].
    assert (lists h1 [(s, []); (t, ds)]) as HL1.
    { apply (lists_step h h1 [(s, cs)] [(s, [])] [(t, ds)]); [done|apply lists_one, HU1|]. rewrite !all_nodes_one. apply HU1. }
    assert (is_list h1 t ds) as HLt1 by (by apply lists_two in HL1 as (_&?&_)).
    rewrite (begin_ok _ _ _ HLt1). cbn [rbind].
    destruct (copy_loop_m_ok (fuel_of h1) r h1 s [] t [] ds HL1) as (r2&h2&new&E2&HU2&Hn&HS2); [by eapply fuel_enough|].
    exists r2, h2, new. split; [done|]. split; [|done]. pose proof (upd_trans _ _ _ _ _ _ _ _ _ HU1 HU2) as HU. by rewrite app_nil_r in HU.
  Qed.
  (** the counters of sort *)
  Lemma create_counters_m_ok n : forall r h, exists r' h' (cs : list loc) ok, create_counters_m alloc r n h = (r', h', cs, ok) /\ spent r r' (ok = true) /\
    (ok = true -> create_counters alloc n h = (h', cs)) /\
    forall h0 L0 ls, inv h0 L0 h ls -> inv h0 L0 h' (zip cs (replicate (length cs) []) ++ ls).
  Proof.
    induction n as [|n IH]; intros r h; cbn [create_counters_m create_counters].
    - exists r, h, [], true. split; [done|]. split; [by apply spent_refl|]. split; [done|]. done.
    - destruct (create_m_ok r h) as (r1&h1&o&E&HS&HC). rewrite E. destruct o as [c|].
      + destruct (IH r1 h1) as (r2&h2&cs&ok&E2&HS2&HC2&HI2). rewrite E2. exists r2, h2, (c :: cs), ok. split; [done|].
        split; [by eapply spent_trans|]. split; [intros Hok; rewrite HC, (HC2 Hok); done|].
        intros h0 L0 ls HI. pose proof (inv_create alloc Halloc _ _ _ _ HI) as HI1. rewrite HC in HI1. apply HI2 in HI1.
        eapply inv_perm; [|exact HI1]. cbn. by rewrite <- Permutation_middle.
      + exists r1, h1, [], false. split; [done|]. split; [eapply spent_mono; [exact HS|]; by intros [? ?]|]. split; [done|]. subst h1. done.
  Qed.
  Lemma sort_m_ok comp (Hc : StrictWeakOrder comp) r h l cs : is_list h l cs -> (Z.of_nat (length cs) < 2 ^ 64)%Z ->
    exists r' h' l', sort_by_m alloc comp r h l = Ok (r', h', l') /\
      (c_list_sort_by alloc comp h l = Ok (h', l') /\ spent r r' True \/
       l' = l /\ upd h h' l cs cs [] /\ spent r r' False).
  Proof.
    intros HL Hlen. destruct (sort_ok alloc Halloc comp Hc h l cs HL Hlen) as (hs&ls&css&Es&_).
    unfold sort_by_m. unfold c_list_sort_by in *. rewrite (empty_ok _ _ _ HL) in *. cbn [rbind] in *.
    case_bool_decide as Hcs; [exists r, h, l; split; [done|]; left; split; [done|]; by apply spent_refl|].
    rewrite (size_ok _ _ _ HL) in *. cbn [rbind] in *. destruct (length cs =? 1); [exists r, h, l; split; [done|]; left; split; [done|]; by apply spent_refl|].
    destruct (create_m_ok r h) as (r1&h1&o&E&HS&HC). rewrite E. destruct o as [carry|].
    2:{ subst h1. exists r1, h, l. split; [done|]. right. split; [done|]. split; [by apply upd_refl|]. eapply spent_mono; [exact HS|]. by intros [? ?]. }
    rewrite HC in *.
    assert (inv h (nodes l cs) h1 [(carry, []); (l, cs)]) as HI1.
    { assert (inv h (nodes l cs) h [(l, cs)]) as HI0.
      { split_and!; [by apply lists_one| |done]. rewrite all_nodes_one. by apply step_refl. }
      pose proof (inv_create alloc Halloc _ _ _ _ HI0) as HI1. by rewrite HC in HI1. }
    destruct (create_counters_m_ok 64 r1 h1) as (r2&h2&cts&ok&E2&HS2&HC2&HI2). rewrite E2. apply HI2 in HI1. destruct ok.
    - cbn [negb]. rewrite (HC2 eq_refl) in *. clear E E2 HC HC2 HI2 HI1 Hlen.
      destruct (sort_loop comp (fuel_of h2) h2 l carry cts 0) as [[[[h3 carry3] cts3] fill]| |]; cbn [rbind] in *; [|discriminate..].
      destruct (merge_up comp (fill - 1) 1 h3 cts3) as [h4| |]; cbn [rbind] in *; [|discriminate..].
      destruct (cget cts3 (fill - 1)) as [c| |]; cbn [rbind] in *; [|discriminate..].
      destruct (cset cts3 (fill - 1) l) as [cts4| |]; cbn [rbind] in *; [|discriminate..].
      destruct (destroy_all h4 cts4) as [h5| |]; cbn [rbind] in *; [|discriminate..].
      destruct (c_list_destroy h5 carry3) as [h6| |]; cbn [rbind] in *; [|discriminate..]. injection Es as <- <-.
      exists r2, h6, c. split; [done|]. left. split; [done|]. by eapply spent_trans.
    - cbn [negb]. destruct (destroy_all_ok _ _ _ _ _ HI1) as (h3&E3&HI3). rewrite E3. cbn [rbind].
      destruct (inv_destroy _ _ _ _ _ HI3) as (h4&E4&(H1&H2&H3)). rewrite E4. cbn [rbind].
      exists r2, h4, l. split; [done|]. right. split; [done|]. split; [|eapply spent_trans; [exact HS|exact HS2|]; done].
      apply lists_one in H1. rewrite all_nodes_one in H2. split; [done|]. split; [done|]. by rewrite H3, app_nil_r.
  Qed.

  (** ** one operation of the client *)
  Definition goes_m r h L o : Prop :=
    exists r' h' L' gone, lop_run_m dflt alloc (r, h, L.*1) o = Ok (r', h', L'.*1) /\ world h' L' /\
      lop_may dflt (vals L) o (vals L') gone /\ dead h' = dead h ++ gone /\
      spent r r' (lop_spec dflt (vals L) o = Some (vals L', gone)).
  Lemma goes_m1 r h L i s cs h' cs' (ds : list A) o r' : world h L -> L !! i = Some (s, cs) -> upd h h' s cs cs' ds ->
    lop_run_m dflt alloc (r, h, L.*1) o = Ok (r', h', L.*1) -> lop_may dflt (vals L) o (<[i := cs'.*2]> (vals L)) ds ->
    spent r r' (lop_spec dflt (vals L) o = Some (<[i := cs'.*2]> (vals L), ds)) -> goes_m r h L o.
  Proof.
    intros HW Hi HU He Hm HS. destruct (world_upd _ _ _ _ _ _ _ _ HW Hi HU) as [HW' Hd].
    exists r', h', (<[i := (s, cs')]> L), ds. rewrite (fst_insert _ _ _ _ _ Hi), vals_insert. done.
  Qed.
  Lemma goes_m_new r h L h' s cs o r' : world h L -> is_list h' s cs -> step h h' [] (nodes s cs) -> dead h' = dead h ->
    lop_run_m dflt alloc (r, h, L.*1) o = Ok (r', h', L.*1 ++ [s]) -> lop_may dflt (vals L) o (vals L ++ [cs.*2]) [] ->
    spent r r' (lop_spec dflt (vals L) o = Some (vals L ++ [cs.*2], [])) -> goes_m r h L o.
  Proof.
    intros HW HL Hst Hd He Hm HS. exists r', h', (L ++ [(s, cs)]), []. rewrite fmap_app.
    split; [done|]. split.
    { eapply (world_step h h' L [] [(s, cs)] L); [done|done|by apply lists_one|by rewrite all_nodes_one|]. by rewrite Permutation_app_comm. }
    unfold vals in *. rewrite map_app. cbn [map]. rewrite app_nil_r. done.
  Qed.
  Lemma goes_m_same r h L o r' : world h L -> lop_run_m dflt alloc (r, h, L.*1) o = Ok (r', h, L.*1) -> lop_may dflt (vals L) o (vals L) [] ->
    spent r r' False -> goes_m r h L o.
  Proof.
    intros HW He Hm HS. exists r', h, L, []. rewrite app_nil_r. split; [done|]. split; [done|]. split; [done|]. split; [done|]. by eapply spent_mono.
  Qed.
  Ltac use_list HW Hl s cs Hi HL := apply vals_lookup in Hl as (s&cs&Hi&->);
    pose proof (world_in _ _ _ _ _ HW Hi) as HL.
  Lemma goes_goes_m r h L o ls' gone : goes dflt alloc h L o ls' gone -> lop_spec dflt (vals L) o = Some (ls', gone) ->
    (forall h env, lop_run_m dflt alloc (r, h, env) o = do (h, env) <- lop_run dflt alloc (h, env) o; Ok (r, h, env)) -> goes_m r h L o.
  Proof.
    intros (h'&L'&E&HW'&Hv&Hd) Hs Hr. exists r, h', L', gone. rewrite Hr, E. cbn [rbind]. rewrite Hv. split; [done|]. split; [done|].
    split; [by apply may_done|]. split; [done|]. by apply spent_refl.
  Qed.
  Lemma lop_m_ok r h L o ls' gone : world h L -> lop_order o -> lop_spec dflt (vals L) o = Some (ls', gone) -> goes_m r h L o.
  Proof.
    intros HW Ho Hs. pose proof (lop_ok dflt alloc Halloc h L o ls' gone HW Ho Hs) as HG. pose proof Hs as Hs0.
    destruct o; cbn [lop_spec] in Hs; try (by eapply goes_goes_m).
    - (* create *) injection Hs as <- <-. destruct (create_m_ok r h) as (r1&h1&o&E&HS&HC). destruct o as [s|].
      + pose proof (create_ok alloc Halloc h) as Hc. rewrite HC in Hc. destruct Hc as (H1&H2&H3&_).
        eapply (goes_m_new r h L h1 s []); [done..|cbn [lop_run_m]; by rewrite E|by apply may_done|]. by eapply spent_mono.
      + subst h1. eapply goes_m_same; [done|cbn [lop_run_m]; by rewrite E|apply may_no_list|]. eapply spent_mono; [exact HS|]. by intros [? ?].
    - (* create_from *) apply bind_Some in Hs as (?&Hc&Hs). pose proof Hc as Hc0. apply check_Some in Hc. injection Hs as <- <-.
      destruct (create_from_m_ok r h vs) as (r1&h1&o&E&H); [by destruct vs|]. destruct o as [s|].
      + destruct H as (cs&H1&H2&H3&H4&H5). eapply (goes_m_new r h L h1 s cs); [done..|cbn [lop_run_m]; by rewrite E|by apply may_from_some|].
        eapply spent_mono; [exact H5|]. intros ->. cbn [lop_spec]. by rewrite Hc0.
      + destruct H as [-> HS]. eapply goes_m_same; [done|cbn [lop_run_m]; by rewrite E|apply may_no_list_from|done].
    - (* copy *) apply bind_Some in Hs as (l&Hl&Hs). pose proof Hl as Hl0. injection Hs as <- <-. use_list HW Hl s cs Hi HL.
      destruct (copy_m_ok r h s cs HL) as (r1&h1&o&E&H). destruct o as [s'|].
      + destruct H as (cs'&H1&H2&H3&H4&H5). eapply (goes_m_new r h L h1 s' cs'); [done..| |by eapply may_copy_some|].
        * cbn [lop_run_m]. rewrite (handle_ok _ _ _ _ Hi). cbn [rbind]. by rewrite E.
        * eapply spent_mono; [exact H5|]. intros ->. done.
      + destruct H as [-> HS]. eapply goes_m_same; [done| |apply may_no_copy|done].
        cbn [lop_run_m]. rewrite (handle_ok _ _ _ _ Hi). cbn [rbind]. by rewrite E.
    - (* assign *) apply bind_Some in Hs as (l&Hl&Hs). apply bind_Some in Hs as (l'&Hl'&Hs). pose proof Hl as Hl0. pose proof Hl' as Hl0'.
      use_list HW Hl s cs Hi HL. use_list HW Hl' t ds Hj HLt.
      destruct (decide (i = j)) as [<-|Hij].
      + injection Hs as <- <-. exists r, h, L, []. cbn [lop_run_m]. unfold on1_m. rewrite (handle_ok _ _ _ _ Hi). cbn [rbind].
        unfold assign_m. rewrite decide_True by done. cbn [rbind]. rewrite app_nil_r. split; [done|]. split; [done|]. split; [by apply may_done|].
        split; [done|]. by apply spent_refl.
      + injection Hs as <- <-. pose proof (world_two _ _ _ _ _ _ _ _ HW Hij Hi Hj) as HL2.
        destruct (assign_m_ok r h s cs t ds HL2) as (r1&h1&cs'&E&HU&Hv&HS).
        eapply (goes_m1 r h L i s cs h1 cs'); [done..| |by eapply may_assign_some|].
        * cbn [lop_run_m]. unfold on1_m. rewrite (handle_ok _ _ _ _ Hi). cbn [rbind]. rewrite (handle_ok _ _ _ _ Hj). cbn [rbind]. by rewrite E.
        * eapply spent_mono; [exact HS|]. by intros ->.
    - (* push_back *) apply bind_Some in Hs as (l&Hl&Hs). apply bind_Some in Hs as (a&Ha&Hs). injection Hs as <- <-.
      destruct (arg_ok _ _ _ _ HW Ha) as (v'&Er&Hr&_). pose proof Hl as Hl0. use_list HW Hl s cs Hi HL.
      destruct (push_back_m_ok r h s cs v' a HL Hr) as (r1&h1&new&E&HU&_&Hn&HS).
      eapply (goes_m1 r h L i s cs); [done..|exact HU| | |].
      + cbn [lop_run_m]. unfold on1_m. rewrite (handle_ok _ _ _ _ Hi). cbn [rbind]. rewrite Er. cbn [rbind]. by rewrite E.
      + rewrite fmap_app. destruct Hn as [->| ->]; [|by apply may_done]. rewrite app_nil_r, list_insert_id by done. apply may_not_push_back.
      + eapply spent_mono; [exact HS|]. intros Hn'. by rewrite fmap_app, Hn'.
    - (* push_front *) apply bind_Some in Hs as (l&Hl&Hs). apply bind_Some in Hs as (a&Ha&Hs). injection Hs as <- <-.
      destruct (arg_ok _ _ _ _ HW Ha) as (v'&Er&Hr&_). pose proof Hl as Hl0. use_list HW Hl s cs Hi HL.
      destruct (push_front_m_ok r h s cs v' a HL Hr) as (r1&h1&new&E&HU&Hn&HS).
      eapply (goes_m1 r h L i s cs); [done..|exact HU| | |].
      + cbn [lop_run_m]. unfold on1_m. rewrite (handle_ok _ _ _ _ Hi). cbn [rbind]. rewrite Er. cbn [rbind]. by rewrite E.
      + rewrite fmap_app. destruct Hn as [->| ->]; [|by apply may_done]. cbn [fmap list_fmap app]. rewrite list_insert_id by done. apply may_not_push_front.
      + eapply spent_mono; [exact HS|]. intros Hn'. by rewrite fmap_app, Hn'.
    - (* insert *) apply bind_Some in Hs as (l&Hl&Hs). apply bind_Some in Hs as (a&Ha&Hs). apply bind_Some in Hs as (?&Hc&Hs).
      apply check_Some, Nat.leb_le in Hc. injection Hs as <- <-.
      destruct (arg_ok _ _ _ _ HW Ha) as (v'&Er&Hr&_). pose proof Hl as Hl0. use_list HW Hl s cs Hi HL. rewrite fmap_length in Hc.
      destruct (insert_m_ok r h s (take k cs) (drop k cs) v' a) as (r1&h1&new&p&E&HU&_&Hn&HS); [by rewrite take_drop|done|].
      rewrite take_drop in HU.
      assert (new.*2 = [a] -> (take k cs ++ new ++ drop k cs).*2 = seq_insert k [a] cs.*2) as Hfull.
      { intros Hn'. unfold seq_insert. by rewrite !fmap_app, Hn', fmap_take, fmap_drop. }
      eapply (goes_m1 r h L i s cs); [done..|exact HU| | |].
      + cbn [lop_run_m]. unfold on1_m. rewrite (handle_ok _ _ _ _ Hi). cbn [rbind]. rewrite (position_ok h s cs k HL Hc). cbn [rbind].
        rewrite Er. cbn [rbind]. by rewrite E.
      + destruct Hn as [->|Hn]; [|rewrite Hfull by done; by apply may_done]. cbn [app]. rewrite take_drop, list_insert_id by done. apply may_not_insert.
      + eapply spent_mono; [exact HS|]. intros Hn'. by rewrite Hfull.
    - (* resize *) apply bind_Some in Hs as (l&Hl&Hs). injection Hs as <- <-. pose proof Hl as Hl0. use_list HW Hl s cs Hi HL.
      destruct (resize_m_ok r h s cs n None dflt HL eq_refl) as (r1&h1&new&k&E&HU&Hv&Hk&HS).
      assert (k = n - length cs -> (take n cs ++ new).*2 = seq_resize n dflt cs.*2 /\ (drop n cs).*2 = drop n cs.*2) as Hfull.
      { intros ->. unfold seq_resize. by rewrite fmap_app, Hv, fmap_take, fmap_drop, fmap_length. }
      eapply (goes_m1 r h L i s cs); [done..|exact HU| | |].
      + cbn [lop_run_m]. unfold on1_m. rewrite (handle_ok _ _ _ _ Hi). cbn [rbind]. by rewrite E.
      + destruct (decide (k = n - length cs)) as [Hk'|Hk']; [destruct (Hfull Hk') as [-> ->]; by apply may_done|].
        rewrite take_ge, drop_ge by lia. rewrite fmap_app, Hv. eapply may_resize_some; [done|]. rewrite fmap_length. lia.
      + eapply spent_mono; [exact HS|]. intros Hk'. by destruct (Hfull Hk') as [-> ->].
    - (* resize_with_value *) apply bind_Some in Hs as (l&Hl&Hs). apply bind_Some in Hs as (a&Ha&Hs). injection Hs as <- <-.
      destruct (arg_ok _ _ _ _ HW Ha) as (v'&Er&Hr&_). pose proof Hl as Hl0. use_list HW Hl s cs Hi HL.
      destruct (resize_m_ok r h s cs n (Some v') a HL Hr) as (r1&h1&new&k&E&HU&Hv&Hk&HS).
      assert (k = n - length cs -> (take n cs ++ new).*2 = seq_resize n a cs.*2 /\ (drop n cs).*2 = drop n cs.*2) as Hfull.
      { intros ->. unfold seq_resize. by rewrite fmap_app, Hv, fmap_take, fmap_drop, fmap_length. }
      eapply (goes_m1 r h L i s cs); [done..|exact HU| | |].
      + cbn [lop_run_m]. unfold on1_m. rewrite (handle_ok _ _ _ _ Hi). cbn [rbind]. rewrite Er. cbn [rbind]. by rewrite E.
      + destruct (decide (k = n - length cs)) as [Hk'|Hk']; [destruct (Hfull Hk') as [-> ->]; by apply may_done|].
        rewrite take_ge, drop_ge by lia. rewrite fmap_app, Hv. eapply may_resize_with_some; [done..|]. rewrite fmap_length. lia.
      + eapply spent_mono; [exact HS|]. intros Hk'. by destruct (Hfull Hk') as [-> ->].
    - (* sort *) apply bind_Some in Hs as (l&Hl&Hs). apply bind_Some in Hs as (?&Hc&Hs). apply check_Some in Hc.
      injection Hs as <- <-. pose proof Hl as Hl0. use_list HW Hl s cs Hi HL. rewrite fmap_length in Hc. apply Z.ltb_lt in Hc. cbn in Ho.
      destruct (sort_m_ok comp Ho r h s cs HL Hc) as (r1&h1&s'&E&[[E' HS]|(->&HU&HS)]).
      + destruct HG as (h2&L'&EG&HW'&Hv&Hd). cbn [lop_run] in EG. rewrite (handle_ok _ _ _ _ Hi) in EG. cbn [rbind] in EG. rewrite E' in EG. cbn [rbind] in EG.
        injection EG as <- EG. exists r1, h1, L', []. cbn [lop_run_m]. rewrite (handle_ok _ _ _ _ Hi). cbn [rbind]. rewrite E. cbn [rbind]. rewrite EG.
        split; [done|]. split; [done|]. rewrite Hv. split; [by apply may_done|]. split; [done|]. by eapply spent_mono.
      + eapply (goes_m1 r h L i s cs); [done..|exact HU| | |].
        * cbn [lop_run_m]. rewrite (handle_ok _ _ _ _ Hi). cbn [rbind]. rewrite E. cbn [rbind]. rewrite list_insert_id; [done|].
          by rewrite list_lookup_fmap, Hi.
        * rewrite list_insert_id by done. apply may_not_sort.
        * by eapply spent_mono.
  Qed.
  (** a history: executed to the end, or up to an operation that refers to a list or position that does not exist *)
  Lemma lhist_m_ok os : forall r h L, world h L -> Forall lop_order os ->
    exists n r' h' L' gone, lhist_run_m dflt alloc (r, h, L.*1) (take n os) = Ok (r', h', L'.*1) /\ world h' L' /\
      lhist_may dflt (vals L) (take n os) (vals L') gone /\ dead h' = dead h ++ gone /\
      (n = length os \/ exists o, os !! n = Some o /\ lop_spec dflt (vals L') o = None) /\
      spent r r' (lhist_spec dflt (vals L) (take n os) = Some (vals L', gone)).
  Proof.
    induction os as [|o os IH]; intros r h L HW Ho.
    - exists 0, r, h, L, []. split; [done|]. split; [done|]. split; [constructor|]. split; [by rewrite app_nil_r|]. split; [by left|]. by apply spent_refl.
    - inversion Ho as [|? ? Ho1 Ho2]; subst. destruct (lop_spec dflt (vals L) o) as [[ls' gone]|] eqn:Es.
      + destruct (lop_m_ok r h L o ls' gone HW Ho1 Es) as (r1&h1&L1&g1&E1&HW1&Hm1&Hd1&HS1).
        destruct (IH r1 h1 L1 HW1 Ho2) as (n&r2&h2&L2&g2&E2&HW2&Hm2&Hd2&Hn&HS2).
        exists (S n), r2, h2, L2, (g1 ++ g2). cbn [take lhist_run_m]. rewrite E1. cbn [rbind]. split; [done|]. split; [done|].
        split; [by econstructor|]. split; [rewrite Hd2, Hd1; by rewrite app_assoc|]. split; [destruct Hn as [->|Hn]; [by left|by right]|].
        eapply spent_trans; [exact HS1|exact HS2|]. intros H1 H2. cbn [lhist_spec]. rewrite H1. cbn. rewrite H2. done.
      + exists 0, r, h, L, []. split; [done|]. split; [done|]. split; [constructor|]. split; [by rewrite app_nil_r|].
        split; [right; by exists o|]. by apply spent_refl.
  Qed.
End proofs.
