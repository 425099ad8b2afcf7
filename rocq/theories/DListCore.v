(** DListCore.v — segments, framing, linking, unlinking and moving of nodes (used by DListProofs.v). *)
From Verif Require Import Base Spec SpecSeq DList Path SpecList.
From stdpp Require Import list gmap.

Section proofs.
  Context {A : Type}.
  Implicit Types h : heap A.
  Notation cell := (loc * A)%type.
  Implicit Types cs ds : list cell.

  (** ** dpath *)
  Lemma dpath_app h xs ys e : dpath h (xs ++ ys) e <-> dpath h xs (hd e ys) /\ dpath h ys e.
  Proof. induction xs as [|x xs IH]; cbn; [tauto|]. rewrite IH, hd_app. tauto. Qed.
  Lemma dpath_frame h h' xs e : dpath h xs e ->
    (forall y, y ∈ xs -> nx h' !! y = nx h !! y) ->
    (forall y, y ∈ tail (xs ++ [e]) -> pv h' !! y = pv h !! y) -> dpath h' xs e.
  Proof.
    induction xs as [|x xs IH]; cbn; [done|]. intros [H1 [H2 H3]] Hn Hp. split_and!.
    - rewrite Hn; [done|left].
    - rewrite Hp; [done|]. destruct xs; cbn; [set_solver|set_solver].
    - apply IH; [done|set_solver|]. intros y Hy. apply Hp. destruct xs; cbn in *; [set_solver|by right].
  Qed.
  Lemma dpath_last h x xs e : dpath h (x :: xs) e -> nx h !! lst x xs = Some e /\ pv h !! e = Some (lst x xs).
  Proof.
    revert x. induction xs as [|y xs IH]; intros x (H1 & H2 & H3); [done|]. by apply IH.
  Qed.
  Lemma dpath_nx h xs e y : dpath h xs e -> y ∈ xs -> is_Some (nx h !! y).
  Proof. induction xs as [|x xs IH]; cbn; [set_solver|]. intros (H1&H2&H3) Hy. apply elem_of_cons in Hy as [->|Hy]; [rewrite H1; eauto|eauto]. Qed.
  Lemma dpath_pv h xs e y : dpath h xs e -> y ∈ tail xs -> is_Some (pv h !! y).
  Proof.
    induction xs as [|x xs IH]; cbn; [set_solver|]. intros (H1&H2&H3) Hy. destruct xs as [|z xs]; [set_solver|].
    cbn in H2. apply elem_of_cons in Hy as [->|Hy]; [rewrite H2; eauto|]. apply IH; [done|]. done.
  Qed.
  Lemma lst_last (x : loc) xs : exists pre, x :: xs = pre ++ [lst x xs].
  Proof.
    revert x. induction xs as [|y xs IH]; intros x; [by exists []|]. destruct (IH y) as [pre Hp]. exists (x :: pre).
    cbn. cbn in Hp. by rewrite Hp.
  Qed.
  (** changing only where a segment ends *)
  Lemma dpath_reend h h' x xs e e' : NoDup (x :: xs) -> dpath h (x :: xs) e ->
    nx h' !! lst x xs = Some e' -> pv h' !! e' = Some (lst x xs) ->
    (forall y, y ∈ x :: xs -> y ≠ lst x xs -> nx h' !! y = nx h !! y) ->
    (forall y, y ∈ xs -> pv h' !! y = pv h !! y) ->
    dpath h' (x :: xs) e'.
  Proof.
    intros Hnd Hp Hn Hv Hfn Hfp. destruct (lst_last x xs) as [pre Hpre].
    rewrite Hpre in Hnd, Hp |- *. apply dpath_app in Hp as [Hp1 _]. apply dpath_app. split.
    - apply NoDup_app in Hnd as (_ & Hnd & _). destruct pre as [|z pre]; [done|]. eapply dpath_frame; [exact Hp1| |].
      + intros y Hy. apply Hfn; [rewrite Hpre; set_solver|]. intros ->. eapply Hnd; [done|]. set_solver.
      + intros y Hy. apply Hfp. injection Hpre as <- Hxs. rewrite Hxs. done.
    - cbn. done.
  Qed.

  (** ** is_list *)
  Lemma is_list_vl h s cs y : is_list h s cs -> y ∈ nodes s cs -> is_Some (vl h !! y).
  Proof.
    intros (_&_&Hs&Hf) Hy. apply elem_of_cons in Hy as [->|Hy]; [eauto|].
    apply elem_of_list_fmap in Hy as [c [-> Hc]]. rewrite Forall_forall in Hf. rewrite (Hf c Hc). eauto.
  Qed.
  Lemma is_list_length h s cs : is_list h s cs -> S (length cs) <= size (vl h).
  Proof.
    intros HL. pose proof (nodup_size (vl h) (nodes s cs)) as Hn. unfold nodes in Hn at 3. cbn in Hn.
    rewrite fmap_length in Hn. apply Hn; [apply HL|]. intros y Hy. by eapply is_list_vl.
  Qed.
  Lemma is_list_frame h h' s cs : is_list h s cs ->
    (forall y, y ∈ nodes s cs -> vl h' !! y = vl h !! y /\ nx h' !! y = nx h !! y /\ pv h' !! y = pv h !! y) ->
    is_list h' s cs.
  Proof.
    intros (Hnd&Hp&Hs&Hf) Hfr. split_and!; [done| | |].
    - eapply dpath_frame; [done| |].
      + intros y Hy. apply Hfr. done.
      + intros y Hy. apply Hfr. cbn in Hy. unfold nodes. set_solver.
    - destruct (Hfr s) as [-> _]; [left|done].
    - rewrite Forall_forall in *. intros c Hc. destruct (Hfr c.1) as [-> _]; [|by apply Hf].
      right. apply elem_of_list_fmap. eauto.
  Qed.
  Lemma step_frame h h' old new s cs : step h h' old new -> is_list h s cs ->
    (forall y, y ∈ nodes s cs -> y ∉ old) -> is_list h' s cs.
  Proof.
    intros (H1&H2&H3) HL Hd. eapply is_list_frame; [done|]. intros y Hy.
    pose proof (is_list_vl _ _ _ _ HL Hy) as Hs. destruct (H1 y) as [Hv Hnp]; [by apply Hd| |].
    - intros Hnew. rewrite (H3 y) in Hs; [by destruct Hs|by apply Hd|done].
    - destruct (Hnp Hs). done.
  Qed.
  Lemma step_refl h old new : (forall y, y ∈ old <-> y ∈ new) -> step h h old new.
  Proof. intros H. split_and!; [done| |]; intros y ? ?; exfalso; naive_solver. Qed.
  Lemma step_trans h1 h2 h3 a b c : step h1 h2 a b -> step h2 h3 b c -> step h1 h3 a c.
  Proof.
    intros (A1&A2&A3) (B1&B2&B3). split_and!; intros y H1 H2; destruct (decide (y ∈ b)) as [Hb|Hb].
    - rewrite (A3 y), (B2 y) by done. split; [done|]. intros [? ?]; done.
    - destruct (A1 y) as [Ha Ha']; [done..|]. destruct (B1 y) as [Hc Hc']; [done..|]. rewrite Hc, Ha. split; [done|].
      intros Hs. destruct (Ha' Hs) as [<- <-]. rewrite <- Ha in Hs. by apply Hc'.
    - by apply B2.
    - destruct (B1 y) as [Hc _]; [done..|]. rewrite Hc. by apply A2.
    - by apply A3.
    - destruct (A1 y) as [Hc _]; [done..|]. rewrite <- Hc. by apply B3.
  Qed.
  Lemma step_equiv h h' a b a' b' : step h h' a b -> (forall y, y ∈ a <-> y ∈ a') -> (forall y, y ∈ b <-> y ∈ b') ->
    step h h' a' b'.
  Proof. intros (A1&A2&A3) Ha Hb. split_and!; intros y; rewrite <- Ha, <- Hb; eauto. Qed.
  Lemma step_weaken h h' a b c : step h h' a b -> step h h' (c ++ a) (c ++ b).
  Proof.
    intros (A1&A2&A3). split_and!; intros y; rewrite !not_elem_of_app, ?elem_of_app; intros ? ?.
    - apply A1; tauto.
    - apply A2; tauto.
    - apply A3; tauto.
  Qed.

  (** ** several lists *)
  Lemma lists_perm h ls ls' : ls ≡ₚ ls' -> lists h ls -> lists h ls'.
  Proof.
    intros Hp [H1 H2]. split; [|by rewrite <- Hp].
    enough (concat (map (fun l => nodes l.1 l.2) ls) ≡ₚ concat (map (fun l => nodes l.1 l.2) ls')) as <- by done.
    clear -Hp. induction Hp; cbn [map concat]; [done| | |].
    - by rewrite IHHp.
    - rewrite !app_assoc. f_equiv. apply Permutation_app_comm.
    - by etrans.
  Qed.
  Definition all_nodes (ls : list (loc * list cell)) : list loc := concat (map (fun l => nodes l.1 l.2) ls).
  Lemma all_nodes_app ls ls' : all_nodes (ls ++ ls') = all_nodes ls ++ all_nodes ls'.
  Proof. unfold all_nodes. by rewrite map_app, concat_app. Qed.
  Lemma all_nodes_in ls y : y ∈ all_nodes ls <-> exists l, l ∈ ls /\ y ∈ nodes l.1 l.2.
  Proof.
    induction ls as [|l ls IH]; cbn.
    - split; [set_solver|]. intros [l [H _]]. set_solver.
    - fold (all_nodes ls). rewrite elem_of_app, IH. split.
      + intros [H|[l' [H1 H2]]]; [exists l; split; [left|done]|exists l'; split; [by right|done]].
      + intros [l' [H1 H2]]. apply elem_of_cons in H1 as [->|H1]; [by left|right; eauto].
  Qed.
  Lemma lists_in h ls l : lists h ls -> l ∈ ls -> is_list h l.1 l.2.
  Proof. intros [_ H]. rewrite Forall_forall in H. apply H. Qed.
  Lemma lists_vl h ls y : lists h ls -> y ∈ all_nodes ls -> is_Some (vl h !! y).
  Proof. intros H Hy. apply all_nodes_in in Hy as [l [H1 H2]]. eapply is_list_vl; [|done]. by eapply lists_in. Qed.
  Lemma lists_app h ls ls' : lists h (ls ++ ls') <->
    lists h ls /\ lists h ls' /\ (forall y, y ∈ all_nodes ls -> y ∉ all_nodes ls').
  Proof.
    unfold lists. fold (all_nodes (ls ++ ls')) (all_nodes ls) (all_nodes ls').
    rewrite all_nodes_app, NoDup_app, Forall_app. tauto.
  Qed.
  (** an operation that touches only the lists [ls] leaves the others alone *)
  Lemma lists_step h h' ls ls' rest : lists h (ls ++ rest) -> lists h' ls' ->
    step h h' (all_nodes ls) (all_nodes ls') -> lists h' (ls' ++ rest).
  Proof.
    intros HL HL' Hst. apply lists_app in HL as (H1&H2&H3). apply lists_app. split_and!; [done| |].
    - split; [apply H2|]. apply Forall_forall. intros l Hl. eapply step_frame; [exact Hst|by eapply lists_in|].
      intros y Hy Hy'. eapply H3; [done|]. apply all_nodes_in. eauto.
    - intros y Hy Hy'. destruct (decide (y ∈ all_nodes ls)) as [Hi|Hi]; [by eapply H3|].
      pose proof (lists_vl _ _ _ H2 Hy') as Hs. destruct Hst as (_&_&Hst). rewrite Hst in Hs; [by destruct Hs|done..].
  Qed.
  Lemma lists_nil h : lists h [].
  Proof. split; constructor. Qed.
  Lemma lists_one h s cs : lists h [(s, cs)] <-> is_list h s cs.
  Proof.
    unfold lists. cbn. rewrite app_nil_r. rewrite Forall_cons, Forall_nil. cbn. unfold is_list. tauto.
  Qed.
  Lemma all_nodes_one s cs : all_nodes [(s, cs)] = nodes s cs.
  Proof. cbn. by rewrite app_nil_r. Qed.
  Lemma lists_two h s cs t ds : lists h [(s, cs); (t, ds)] <->
    is_list h s cs /\ is_list h t ds /\ (forall y, y ∈ nodes s cs -> y ∉ nodes t ds).
  Proof.
    change [(s, cs); (t, ds)] with ([(s, cs)] ++ [(t, ds)]). rewrite lists_app, !lists_one, !all_nodes_one. tauto.
  Qed.
  Lemma all_nodes_two s cs t ds : all_nodes [(s, cs); (t, ds)] = nodes s cs ++ nodes t ds.
  Proof. cbn. by rewrite app_nil_r. Qed.

  (** ** field accesses *)
  Lemma next_ok h x y : nx h !! x = Some y -> next h x = Ok y.
  Proof. unfold next. by intros ->. Qed.
  Lemma prev_ok h x y : pv h !! x = Some y -> prev h x = Ok y.
  Proof. unfold prev. by intros ->. Qed.
  Lemma value_ok h x a : vl h !! x = Some (Some a) -> value h x = Ok a.
  Proof. unfold value. by intros ->. Qed.
  Lemma set_next_ok h x y : is_Some (nx h !! x) ->
    set_next h x y = Ok (Heap (<[x := y]> (nx h)) (pv h) (vl h) (dead h)).
  Proof. intros [z Hz]. unfold set_next. by rewrite Hz. Qed.
  Lemma set_prev_ok h x y : is_Some (pv h !! x) ->
    set_prev h x y = Ok (Heap (nx h) (<[x := y]> (pv h)) (vl h) (dead h)).
  Proof. intros [z Hz]. unfold set_prev. by rewrite Hz. Qed.
  (** ** taking a list apart *)
  Lemma is_list_split h s c1 c2 : is_list h s (c1 ++ c2) ->
    dpath h (s :: c1.*1) (hd s c2.*1) /\ dpath h c2.*1 s /\
    pv h !! hd s c2.*1 = Some (lst s c1.*1) /\ nx h !! lst s c1.*1 = Some (hd s c2.*1).
  Proof.
    intros (_&Hp&_&_). unfold nodes in Hp. rewrite fmap_app in Hp. rewrite app_comm_cons in Hp.
    apply dpath_app in Hp as [H1 H2]. destruct (dpath_last _ _ _ _ H1) as [H3 H4]. done.
  Qed.
  Lemma is_list_nx h s cs y : is_list h s cs -> y ∈ nodes s cs -> is_Some (nx h !! y).
  Proof. intros (_&Hp&_&_). by eapply dpath_nx. Qed.
  Lemma is_list_pv h s cs y : is_list h s cs -> y ∈ nodes s cs -> is_Some (pv h !! y).
  Proof.
    intros (_&Hp&_&_) Hy. apply elem_of_cons in Hy as [->|Hy].
    - destruct (dpath_last _ _ _ _ Hp) as [_ H]. eauto.
    - by eapply dpath_pv.
  Qed.
  Lemma lst_nodes (s : loc) (c1 c2 : list cell) : lst s c1.*1 ∈ nodes s (c1 ++ c2).
  Proof. unfold nodes. rewrite fmap_app, app_comm_cons. apply elem_of_app. left. apply lst_in. Qed.
  Lemma hd_nodes (s : loc) (c1 c2 : list cell) : hd s c2.*1 ∈ nodes s (c1 ++ c2).
  Proof. unfold nodes. rewrite fmap_app. destruct c2 as [|c c2]; cbn; [left|]. right. apply elem_of_app. right. left. Qed.
  Lemma nodes_app (s : loc) (c1 c2 : list cell) : nodes s (c1 ++ c2) = s :: c1.*1 ++ c2.*1.
  Proof. unfold nodes. by rewrite fmap_app. Qed.

  Lemma hd_not_tail (e : loc) xs : NoDup (xs ++ [e]) -> hd e xs ∉ tail (xs ++ [e]).
  Proof. destruct xs as [|x xs]; cbn; [set_solver|]. by intros [? _]%NoDup_cons. Qed.
  (** ** linking a new node *)
  Lemma link_before_ok h s c1 c2 x a :
    is_list h s (c1 ++ c2) -> x ∉ nodes s (c1 ++ c2) -> vl h !! x = Some (Some a) ->
    is_Some (nx h !! x) -> is_Some (pv h !! x) ->
    exists h', link_before h x (hd s c2.*1) = Ok h' /\ is_list h' s (c1 ++ (x, a) :: c2) /\
      vl h' = vl h /\ dead h' = dead h /\
      (forall y, y ∉ x :: nodes s (c1 ++ c2) -> nx h' !! y = nx h !! y /\ pv h' !! y = pv h !! y).
  Proof.
    intros HL Hx Hv Hnx Hpv.
    destruct (is_list_split _ _ _ _ HL) as (Hp1&Hp2&Hpp&Hnq).
    set (p := hd s c2.*1) in *. set (q := lst s c1.*1) in *.
    assert (q ∈ nodes s (c1 ++ c2)) as Hq by apply lst_nodes.
    assert (p ∈ nodes s (c1 ++ c2)) as Hp by apply hd_nodes.
    assert (x ≠ q) as Hxq by (intros ->; done). assert (x ≠ p) as Hxp by (intros ->; done).
    unfold link_before. rewrite set_next_ok by done. cbn [rbind].
    rewrite (prev_ok _ _ q) by done. cbn [rbind]. rewrite set_prev_ok by done. cbn [rbind].
    rewrite (prev_ok _ _ q) by (cbn; by rewrite lookup_insert_ne). cbn [rbind].
    rewrite set_next_ok by (cbn; rewrite lookup_insert_ne by done; eauto). cbn [rbind].
    rewrite set_prev_ok by (cbn; rewrite lookup_insert_ne by done; eauto). cbn.
    eexists. split; [done|]. cbn.
    pose proof HL as (Hnd&_&Hs&Hf).
    split_and!; [|done|done|].
    2:{ intros y Hy. apply not_elem_of_cons in Hy as [Hy1 Hy2].
        assert (y ≠ q) by (intros ->; done). assert (y ≠ p) by (intros ->; done). cbn.
        rewrite !lookup_insert_ne by done. done. }
    assert (NoDup (s :: c1.*1)) as Hnd1.
    { rewrite nodes_app, app_comm_cons in Hnd. by apply NoDup_app in Hnd as [? _]. }
    rewrite nodes_app in Hx. rewrite nodes_app in Hnd.
    assert (forall y, y ∈ c1.*1 -> y ≠ p) as Hc1p.
    { intros y Hy ->. subst p. destruct c2 as [|c2 c2']; cbn in *.
      - apply NoDup_cons in Hnd as [Hnd _]. apply Hnd. apply elem_of_app. by left.
      - apply NoDup_cons in Hnd as [_ Hnd]. apply NoDup_app in Hnd as (_&Hnd&_). eapply Hnd; [done|]. left. }
    assert (forall y, y ∈ c2.*1 -> y ≠ q) as Hc2q.
    { intros y Hy ->. rewrite app_comm_cons in Hnd. apply NoDup_app in Hnd as (_&Hnd&_). eapply Hnd; [|done]. apply lst_in. }
    split_and!; cbn.
    - rewrite nodes_app. cbn. eapply (NoDup_Permutation_proper _ (x :: s :: c1.*1 ++ c2.*1)).
      { symmetry. apply (Permutation_middle (s :: c1.*1) c2.*1 x). }
      apply NoDup_cons. done.
    - rewrite nodes_app. rewrite app_comm_cons. apply dpath_app. cbn [fmap list_fmap fst hd]. split.
      + eapply dpath_reend; [done|exact Hp1| | | |].
        * cbn. fold q. by rewrite lookup_insert.
        * cbn. fold q. rewrite lookup_insert_ne by done. by rewrite lookup_insert.
        * cbn. fold q. intros y Hy Hyq. rewrite lookup_insert_ne by done. rewrite lookup_insert_ne; [done|].
          intros ->. apply Hx. rewrite app_comm_cons. apply elem_of_app. by left.
        * cbn. intros y Hy. rewrite lookup_insert_ne by (intros <-; by eapply Hc1p). rewrite lookup_insert_ne; [done|].
          intros ->. apply Hx. right. apply elem_of_app. by left.
      + cbn. fold p. split_and!.
        * rewrite lookup_insert_ne by done. by rewrite lookup_insert.
        * by rewrite lookup_insert.
        * eapply dpath_frame; [exact Hp2| |].
          -- cbn. intros y Hy. rewrite lookup_insert_ne by (intros <-; by eapply Hc2q).
             rewrite lookup_insert_ne; [done|]. intros ->. apply Hx. right. apply elem_of_app. by right.
          -- cbn. intros y Hy. rewrite lookup_insert_ne.
             ++ rewrite lookup_insert_ne; [done|]. intros <-. apply Hx.
                destruct c2; cbn in *; [by apply elem_of_nil in Hy|]. apply elem_of_app in Hy as [Hy|Hy].
                ** right. apply elem_of_app. right. by right.
                ** apply elem_of_list_singleton in Hy as ->. left.
             ++ intros <-. revert Hy. apply hd_not_tail. apply NoDup_app. split_and!.
                ** rewrite app_comm_cons in Hnd. by apply NoDup_app in Hnd as (_&_&?).
                ** intros z Hz Hzs. apply elem_of_list_singleton in Hzs as ->.
                   apply NoDup_cons in Hnd as [Hnd _]. apply Hnd. apply elem_of_app. by right.
                ** apply NoDup_singleton.
    - done.
    - apply Forall_app in Hf as [Hf1 Hf2]. apply Forall_app. split; [done|]. by constructor.
  Qed.

  (** facts about the two ends of a split used throughout *)
  Lemma split_facts (s : loc) (c1 c2 : list cell) : NoDup (nodes s (c1 ++ c2)) ->
    NoDup (s :: c1.*1) /\ NoDup (c2.*1 ++ [s]) /\
    (forall y, y ∈ c1.*1 -> y ≠ hd s c2.*1) /\ (forall y, y ∈ c2.*1 -> y ≠ lst s c1.*1) /\
    (forall y, y ∈ tail (c2.*1 ++ [s]) -> y ≠ hd s c2.*1).
  Proof.
    intros Hnd. rewrite nodes_app in Hnd.
    assert (NoDup (c2.*1 ++ [s])) as Hnd2.
    { apply NoDup_app. split_and!.
      - rewrite app_comm_cons in Hnd. by apply NoDup_app in Hnd as (_&_&?).
      - intros z Hz Hzs. apply elem_of_list_singleton in Hzs as ->. apply NoDup_cons in Hnd as [Hnd _]. apply Hnd.
        apply elem_of_app. by right.
      - apply NoDup_singleton. }
    split_and!; [|done| | |].
    - rewrite app_comm_cons in Hnd. by apply NoDup_app in Hnd as (?&_&_).
    - intros y Hy ->. destruct c2 as [|c2 c2']; cbn in *.
      + apply NoDup_cons in Hnd as [Hnd _]. apply Hnd. apply elem_of_app. by left.
      + apply NoDup_cons in Hnd as [_ Hnd]. apply NoDup_app in Hnd as (_&Hnd&_). eapply Hnd; [done|]. left.
    - intros y Hy ->. rewrite app_comm_cons in Hnd. apply NoDup_app in Hnd as (_&Hnd&_). eapply Hnd; [|done]. apply lst_in.
    - intros y Hy ->. revert Hy. by apply hd_not_tail.
  Qed.
  Lemma tail_nodes (s y : loc) (c1 c2 : list cell) : y ∈ tail (c2.*1 ++ [s]) -> y ∈ nodes s (c1 ++ c2).
  Proof.
    intros Hy. rewrite nodes_app. destruct c2 as [|c c2]; cbn in *; [by apply elem_of_nil in Hy|].
    apply elem_of_app in Hy as [Hy|Hy]; [|apply elem_of_list_singleton in Hy as ->; left].
    right. apply elem_of_app. right. by right.
  Qed.
  (** ** unlinking a node *)
  Lemma pop_node_ok h s c1 c2 x a : is_list h s (c1 ++ (x, a) :: c2) ->
    exists h', pop_node h s x = Ok (h', hd s c2.*1) /\ is_list h' s (c1 ++ c2) /\
      step h h' (nodes s (c1 ++ (x, a) :: c2)) (nodes s (c1 ++ c2)) /\ dead h' = dead h ++ [a].
  Proof.
    intros HL. pose proof HL as (Hnd&_&Hs&Hf).
    assert (x ∉ nodes s (c1 ++ c2) /\ NoDup (nodes s (c1 ++ c2))) as [Hx Hnd'].
    { apply NoDup_cons. rewrite nodes_app in Hnd. cbn in Hnd. rewrite nodes_app.
      eapply (NoDup_Permutation_proper _ (s :: c1.*1 ++ x :: c2.*1)); [|done].
      apply (Permutation_middle (s :: c1.*1) c2.*1 x). }
    destruct (is_list_split _ _ _ _ HL) as (Hp1&Hp2&Hpx&Hnq).
    cbn in Hp1, Hp2, Hpx, Hnq. destruct Hp2 as (Hnx&Hpp&Hp2).
    destruct (split_facts _ _ _ Hnd') as (Hnd1&Hnd2&Hc1p&Hc2q&Htp).
    set (p := hd s c2.*1) in *. set (q := lst s c1.*1) in *.
    assert (q ∈ nodes s (c1 ++ c2)) as Hq by apply lst_nodes.
    assert (p ∈ nodes s (c1 ++ c2)) as Hp by apply hd_nodes.
    assert (x ≠ q) as Hxq by (intros ->; done). assert (x ≠ p) as Hxp by (intros ->; done).
    assert (s ≠ x) as Hsx by (intros ->; apply Hx; left).
    unfold pop_node. rewrite decide_False by done.
    rewrite (next_ok _ _ p) by done. cbn [rbind]. rewrite (prev_ok _ _ q) by done. cbn [rbind].
    rewrite set_prev_ok by eauto. cbn [rbind]. rewrite set_next_ok by (cbn; eauto). cbn [rbind].
    unfold free_node. apply Forall_app in Hf as [Hf1 Hf2]. apply Forall_cons in Hf2 as [Hfx Hf2]. cbn in Hfx.
    rewrite (value_ok _ _ a) by done. cbn.
    eexists. split; [done|]. cbn. split_and!; [split_and!| |done].
    - done.
    - rewrite nodes_app, app_comm_cons. apply dpath_app. split.
      + fold p. eapply dpath_reend; [done|exact Hp1| | | |]; cbn; fold q.
        * rewrite lookup_delete_ne by done. by rewrite lookup_insert.
        * rewrite lookup_delete_ne by done. by rewrite lookup_insert.
        * intros y Hy Hyq. rewrite lookup_delete_ne, lookup_insert_ne; [done..|].
          intros ->. apply Hx. rewrite nodes_app, app_comm_cons. apply elem_of_app. by left.
        * intros y Hy. rewrite lookup_delete_ne, lookup_insert_ne; [done| |].
          -- intros <-. by eapply Hc1p.
          -- intros ->. apply Hx. rewrite nodes_app. right. apply elem_of_app. by left.
      + eapply dpath_frame; [exact Hp2| |]; cbn.
        * intros y Hy. rewrite lookup_delete_ne, lookup_insert_ne; [done| |].
          -- intros <-. by eapply Hc2q.
          -- intros ->. apply Hx. rewrite nodes_app. right. apply elem_of_app. by right.
        * intros y Hy. rewrite lookup_delete_ne, lookup_insert_ne; [done| |].
          -- intros <-. by eapply Htp.
          -- intros ->. apply Hx. by apply tail_nodes.
    - cbn. by rewrite lookup_delete_ne.
    - cbn. apply Forall_forall. intros c Hc. rewrite lookup_delete_ne.
      + apply elem_of_app in Hc as [Hc|Hc].
        * rewrite Forall_forall in Hf1. by apply Hf1.
        * rewrite Forall_forall in Hf2. by apply Hf2.
      + intros ->. apply Hx. right. apply elem_of_list_fmap. eauto.
    - rewrite nodes_app. cbn [fmap list_fmap fst]. rewrite nodes_app. split_and!; cbn.
      + intros y Hy Hy'. assert (y ≠ x) by (intros ->; apply Hy; right; apply elem_of_app; right; left).
        rewrite lookup_delete_ne by done. split; [done|]. intros _.
        assert (y ≠ q) by (intros ->; rewrite nodes_app in Hq; done).
        assert (y ≠ p) by (intros ->; rewrite nodes_app in Hp; done).
        rewrite !lookup_delete_ne, !lookup_insert_ne by done. done.
      + intros y Hy Hy'. assert (y = x) as ->.
        { apply elem_of_cons in Hy as [->|Hy]; [exfalso; apply Hy'; left|].
          apply elem_of_app in Hy as [Hy|Hy]; [exfalso; apply Hy'; right; apply elem_of_app; by left|].
          apply elem_of_cons in Hy as [->|Hy]; [done|exfalso; apply Hy'; right; apply elem_of_app; by right]. }
        by rewrite lookup_delete.
      + intros y Hy Hy'. exfalso. apply Hy. apply elem_of_cons in Hy' as [->|Hy']; [left|].
        right. apply elem_of_app. apply elem_of_app in Hy' as [Hy'|Hy']; [by left|right; by right].
  Qed.

  (** ** moving a segment *)
  Lemma transfer_raw h pos first last q r e :
    pos ≠ last -> first ≠ last -> first ≠ pos ->
    pv h !! pos = Some q -> pv h !! first = Some r -> pv h !! last = Some e ->
    is_Some (nx h !! q) -> is_Some (nx h !! r) -> is_Some (nx h !! e) ->
    transfer h pos first last = Ok (Heap (<[e := pos]> (<[r := last]> (<[q := first]> (nx h))))
      (<[first := q]> (<[last := r]> (<[pos := e]> (pv h)))) (vl h) (dead h)).
  Proof.
    intros H1 H2 H3 Hq Hr He Nq Nr Ne. unfold transfer. rewrite !decide_False by done.
    assert (forall (m : gmap loc loc) k k' v, is_Some (m !! k) -> is_Some (<[k' := v]> m !! k)) as Hi.
    { intros m k k' v Hk. destruct (decide (k = k')) as [->|]; [rewrite lookup_insert; eauto|by rewrite lookup_insert_ne]. }
    repeat (first [rewrite (prev_ok _ pos q) by done | rewrite (prev_ok _ first r) by done
      | rewrite (prev_ok _ last e) by done]; cbn [rbind]; rewrite set_next_ok by (cbn; auto); cbn [rbind]).
    rewrite (prev_ok _ pos q) by done. cbn [rbind]. rewrite (prev_ok _ last e) by done. cbn [rbind].
    rewrite set_prev_ok by (cbn; eauto). cbn [rbind].
    rewrite (prev_ok _ first r) by (cbn; by rewrite lookup_insert_ne). cbn [rbind].
    rewrite set_prev_ok by (cbn; eauto). cbn [rbind]. rewrite set_prev_ok by (cbn; eauto). done.
  Qed.

  Lemma transfer_segs h pos first last x xs y ys d :
    dpath h (x :: xs) pos -> dpath h (y :: ys) first -> dpath h (first :: d) last ->
    NoDup (x :: xs) -> NoDup (y :: ys) -> NoDup (first :: d) ->
    (forall z, z ∈ x :: xs -> z ∉ y :: ys) -> (forall z, z ∈ x :: xs -> z ∉ first :: d) ->
    (forall z, z ∈ y :: ys -> z ∉ first :: d) ->
    pos ≠ last -> pos ∉ xs -> pos ∉ ys -> pos ∉ first :: d -> last ∉ xs -> last ∉ ys -> last ∉ first :: d ->
    exists h', transfer h pos first last = Ok h' /\
      dpath h' (x :: xs) first /\ dpath h' (y :: ys) last /\ dpath h' (first :: d) pos /\
      vl h' = vl h /\ dead h' = dead h /\
      (forall z, z ∉ x :: xs -> z ∉ y :: ys -> z ∉ first :: d -> nx h' !! z = nx h !! z) /\
      (forall z, z ≠ first -> z ≠ last -> z ≠ pos -> pv h' !! z = pv h !! z).
  Proof.
    intros Hx Hy Hd Nx Ny Nd Dxy Dxd Dyd Hpl Px Py Pd Lx Ly Ld.
    destruct (dpath_last _ _ _ _ Hx) as [Hnq Hpq]. destruct (dpath_last _ _ _ _ Hy) as [Hnr Hpr].
    destruct (dpath_last _ _ _ _ Hd) as [Hne Hpe].
    set (q := lst x xs) in *. set (r := lst y ys) in *. set (e := lst first d) in *.
    assert (q ∈ x :: xs) as Hq by apply lst_in. assert (r ∈ y :: ys) as Hr by apply lst_in.
    assert (e ∈ first :: d) as He by apply lst_in.
    assert (first ∈ first :: d) as Hfd by left.
    assert (q ≠ r) as Hqr by (intros ->; by eapply Dxy). assert (q ≠ e) as Hqe by (intros ->; by eapply Dxd).
    assert (r ≠ e) as Hre by (intros ->; by eapply Dyd).
    assert (first ≠ last) as Hfl by (intros ->; done). assert (first ≠ pos) as Hfp by (intros ->; done).
    assert (first ∉ xs) as Fx by (intros H; eapply Dxd; [by right|done]).
    assert (first ∉ ys) as Fy by (intros H; eapply Dyd; [by right|done]).
    assert (first ∉ d) as Fd by (by apply NoDup_cons in Nd as [? _]).
    rewrite (transfer_raw h pos first last q r e) by eauto.
    eexists. split; [done|]. refine (conj _ (conj _ (conj _ (conj eq_refl (conj eq_refl (conj _ _)))))).
    - eapply dpath_reend; [done|exact Hx| | | |]; cbn; fold q.
      + rewrite !lookup_insert_ne by done. by rewrite lookup_insert.
      + by rewrite lookup_insert.
      + intros z Hz Hzq. rewrite !lookup_insert_ne; [done|done| |]; intros <-; [by eapply Dxy|by eapply Dxd].
      + intros z Hz. rewrite !lookup_insert_ne; [done| | |]; intros ->; done.
    - eapply dpath_reend; [done|exact Hy| | | |]; cbn; fold r.
      + rewrite lookup_insert_ne by done. by rewrite lookup_insert.
      + rewrite lookup_insert_ne by done. by rewrite lookup_insert.
      + intros z Hz Hzq. rewrite !lookup_insert_ne; [done| |done|]; intros <-; [by eapply Dxy|by eapply Dyd].
      + intros z Hz. rewrite !lookup_insert_ne; [done| | |]; intros ->; done.
    - eapply dpath_reend; [done|exact Hd| | | |]; cbn; fold e.
      + by rewrite lookup_insert.
      + rewrite !lookup_insert_ne by done. by rewrite lookup_insert.
      + intros z Hz Hzq. rewrite !lookup_insert_ne; [done| | |done]; intros <-; [by eapply Dxd|by eapply Dyd].
      + intros z Hz. rewrite !lookup_insert_ne; [done| | |]; intros ->; [apply Pd; by right|apply Ld; by right|done].
    - intros z H1 H2 H3. cbn. rewrite !lookup_insert_ne; [done| | |]; intros <-; done.
    - intros z H1 H2 H3. cbn. rewrite !lookup_insert_ne by done. done.
  Qed.

  (** [relink h h' D]: only links of nodes in [D] change *)
  Definition relink h h' (D : list loc) : Prop :=
    vl h' = vl h /\ dead h' = dead h /\
    forall y, y ∉ D -> nx h' !! y = nx h !! y /\ pv h' !! y = pv h !! y.
  Lemma relink_step h h' D old new : relink h h' D -> (forall y, y ∈ D -> y ∈ old) ->
    (forall y, y ∈ old <-> y ∈ new) -> step h h' old new.
  Proof.
    intros (H1&_&H2) HD Hon. split_and!; intros y Hy Hy'; rewrite ?H1.
    - split; [done|]. intros _. apply H2. auto.
    - exfalso. naive_solver.
    - exfalso. naive_solver.
  Qed.
  Lemma relink_trans h1 h2 h3 D : relink h1 h2 D -> relink h2 h3 D -> relink h1 h3 D.
  Proof.
    intros (A1&A2&A3) (B1&B2&B3). split_and!; [congruence..|]. intros y Hy.
    destruct (A3 y Hy) as [<- <-]. by apply B3.
  Qed.
  Lemma relink_mono h h' D D' : relink h h' D -> (forall y, y ∈ D -> y ∈ D') -> relink h h' D'.
  Proof. intros (A1&A2&A3) HD. split_and!; [done..|]. intros y Hy. apply A3. auto. Qed.
  Lemma relink_refl h D : relink h h D.
  Proof. done. Qed.

  Lemma nodup_ne (l1 l2 : list loc) y z : NoDup (l1 ++ l2) -> y ∈ l1 -> z ∈ l2 -> y ≠ z.
  Proof. intros (_&H&_)%NoDup_app Hy Hz ->. by eapply H. Qed.

  Lemma transfer_two h s c1 c2 t d1 d2 d3 :
    lists h [(s, c1 ++ c2); (t, d1 ++ d2 ++ d3)] ->
    exists h', transfer h (hd s c2.*1) (hd t (d2 ++ d3).*1) (hd t d3.*1) = Ok h' /\
      lists h' [(s, c1 ++ d2 ++ c2); (t, d1 ++ d3)] /\
      relink h h' (nodes s (c1 ++ c2) ++ nodes t (d1 ++ d2 ++ d3)).
  Proof.
    intros HL. apply lists_two in HL as (H1&H2&Hdis). destruct d2 as [|[f a] d2].
    { exists h. cbn. split_and!; [|by apply lists_two|done..]. unfold transfer.
      rewrite (decide_True _ _ (eq_refl (hd t d3.*1))). by destruct (decide _). }
    pose proof H1 as (Nd1&_&Hs&Hf1). pose proof H2 as (Nd2&_&Ht&Hf2).
    destruct (is_list_split _ _ _ _ H1) as (Px&Pc2&_&_).
    destruct (is_list_split _ _ _ _ H2) as (Py&Pd2&_&_).
    rewrite fmap_app in Pd2. apply dpath_app in Pd2 as [Pd Pd3].
    cbn [fmap list_fmap fst] in Py, Pd. cbn [hd app] in Py.
    cbn [fmap list_fmap app hd fst]. fold (@fmap list _ _ _ (@fst loc A)).
    destruct (split_facts _ _ _ Nd1) as (Nx&Nc2&Fx1&Fx2&Fx3).
    destruct (split_facts _ _ _ Nd2) as (Ny&_&_&_&_).
    pose proof Nd2 as Nd2'. replace (d1 ++ ((f, a) :: d2) ++ d3) with ((d1 ++ (f, a) :: d2) ++ d3) in Nd2' by by rewrite <- app_assoc.
    destruct (split_facts _ _ _ Nd2') as (_&Nd3&Fy1&Fy2&Fy3).
    assert (hd s c2.*1 ∈ nodes s (c1 ++ c2)) as Hp by apply hd_nodes.
    assert (hd t d3.*1 ∈ nodes t (d1 ++ ((f, a) :: d2) ++ d3)) as Hl.
    { replace (d1 ++ ((f, a) :: d2) ++ d3) with ((d1 ++ (f, a) :: d2) ++ d3) by by rewrite <- app_assoc. apply hd_nodes. }
    assert (forall z, z ∈ s :: c1.*1 -> z ∈ nodes s (c1 ++ c2)) as Ix.
    { intros z Hz. rewrite nodes_app, app_comm_cons. apply elem_of_app. by left. }
    assert (forall z, z ∈ t :: d1.*1 -> z ∈ nodes t (d1 ++ ((f, a) :: d2) ++ d3)) as Iy.
    { intros z Hz. rewrite nodes_app, app_comm_cons. apply elem_of_app. by left. }
    assert (forall z, z ∈ f :: d2.*1 -> z ∈ nodes t (d1 ++ ((f, a) :: d2) ++ d3)) as Id.
    { intros z Hz. rewrite nodes_app. right. apply elem_of_app. right. rewrite fmap_app. apply elem_of_app. by left. }
    assert (forall z, z ∈ t :: d1.*1 -> z ∉ f :: d2.*1) as Dyd.
    { intros z Hz Hz'. rewrite nodes_app, app_comm_cons, fmap_app in Nd2. apply NoDup_app in Nd2 as (_&Nd2&_).
      eapply Nd2; [done|]. apply elem_of_app. by left. }
    assert (NoDup (f :: d2.*1)) as Nf.
    { rewrite nodes_app, app_comm_cons, fmap_app in Nd2. apply NoDup_app in Nd2 as (_&_&Nd2).
      by apply NoDup_app in Nd2 as [? _]. }
    destruct (transfer_segs h (hd s c2.*1) f (hd t d3.*1) s c1.*1 t d1.*1 d2.*1)
      as (h'&E&Px'&Py'&Pd'&Hv&Hde&Hnx&Hpv); [done..| | | | | | | | | | |].
    - intros z Hz Hz'. eapply Hdis; [by apply Ix|by apply Iy].
    - intros z Hz Hz'. eapply Hdis; [by apply Ix|by apply Id].
    - done.
    - intros Heq. rewrite Heq in Hp. by eapply Hdis.
    - intros H. by eapply Fx1.
    - intros H. eapply Hdis; [done|]. apply Iy. by right.
    - intros H. eapply Hdis; [done|]. by apply Id.
    - intros H. eapply Hdis; [|done]. apply Ix. by right.
    - intros H. eapply Fy1; [|done]. rewrite fmap_app. apply elem_of_app. by left.
    - intros H. eapply Fy1; [|done]. rewrite fmap_app. apply elem_of_app. by right.
    - exists h'. split; [done|].
      assert (forall z, z ∈ d3.*1 -> z ∈ nodes t (d1 ++ ((f, a) :: d2) ++ d3)) as Id3.
      { intros z Hz. rewrite nodes_app. right. apply elem_of_app. right. rewrite fmap_app. apply elem_of_app. by right. }
      assert (forall z, z ∈ c2.*1 -> z ∈ nodes s (c1 ++ c2)) as Ic2.
      { intros z Hz. rewrite nodes_app. right. apply elem_of_app. by right. }
      assert (NoDup ((nodes s (c1 ++ c2)) ++ nodes t (d1 ++ ((f, a) :: d2) ++ d3))) as Nall by (by apply NoDup_app).
      assert (nodes s (c1 ++ (f, a) :: d2 ++ c2) ++ nodes t (d1 ++ d3) ≡ₚ
        nodes s (c1 ++ c2) ++ nodes t (d1 ++ ((f, a) :: d2) ++ d3)) as Hperm.
      { rewrite !nodes_app. cbn. rewrite !fmap_app. cbn. solve_Permutation. }
      rewrite <- Hperm in Nall. apply NoDup_app in Nall as (N1&N12&N2).
      apply Forall_app in Hf1 as [Hf11 Hf12]. rewrite !Forall_app in Hf2. destruct Hf2 as (Hf21&Hf22&Hf23).
      split; [apply lists_two; refine (conj _ (conj _ _))|refine (conj _ (conj _ _))].
      + split_and!; [done| | |].
        * rewrite nodes_app. cbn [fmap list_fmap fst]. rewrite app_comm_cons, fmap_app. apply dpath_app. cbn [hd]. split; [done|].
          rewrite app_comm_cons. apply dpath_app. split; [done|].
          eapply dpath_frame; [exact Pc2| |].
          -- intros z Hz. apply Hnx.
             ++ intros Hz'. rewrite nodes_app, app_comm_cons in Nd1. by eapply (nodup_ne _ _ z z Nd1).
             ++ intros Hz'. eapply Hdis; [by apply Ic2|by apply Iy].
             ++ intros Hz'. eapply Hdis; [by apply Ic2|by apply Id].
          -- intros z Hz. pose proof (tail_nodes s z c1 c2 Hz) as Hzn. apply Hpv.
             ++ intros ->. eapply Hdis; [done|]. apply Id. left.
             ++ intros ->. by eapply Hdis.
             ++ by apply Fx3.
        * by rewrite Hv.
        * rewrite Hv. rewrite app_comm_cons. by rewrite !Forall_app.
      + split_and!; [done| | |].
        * rewrite nodes_app. rewrite app_comm_cons. apply dpath_app. split; [done|].
          eapply dpath_frame; [exact Pd3| |].
          -- intros z Hz. apply Hnx.
             ++ intros Hz'. eapply Hdis; [by apply Ix|by apply Id3].
             ++ intros Hz'. rewrite nodes_app, app_comm_cons, !fmap_app in Nd2. eapply (nodup_ne _ _ z z Nd2); [done| |done]. apply elem_of_app. by right.
             ++ intros Hz'. rewrite nodes_app, app_comm_cons, !fmap_app in Nd2. apply NoDup_app in Nd2 as (_&_&Nd2).
                by eapply (nodup_ne _ _ z z Nd2).
          -- intros z Hz. pose proof (tail_nodes t z (d1 ++ (f, a) :: d2) d3 Hz) as Hzn. rewrite <- app_assoc in Hzn. apply Hpv.
             ++ intros ->. destruct d3 as [|dd d3]; [by apply elem_of_nil in Hz|]. cbn in Hz.
                apply elem_of_app in Hz as [Hz|Hz].
                ** rewrite nodes_app, app_comm_cons, !fmap_app in Nd2. apply NoDup_app in Nd2 as (_&_&Nd2).
                   eapply (nodup_ne _ _ f f Nd2); [left|by right|done].
                ** apply elem_of_list_singleton in Hz as ->. eapply Dyd; left.
             ++ by apply Fy3.
             ++ intros ->. by eapply Hdis.
        * by rewrite Hv.
        * rewrite Hv. by rewrite !Forall_app.
      + intros y Hy Hy'. by eapply N12.
      + done.
      + done.
      + intros y Hy. apply not_elem_of_app in Hy as [Hy1 Hy2]. split.
        * apply Hnx; intros Hz; [apply Hy1|apply Hy2..]; auto.
        * apply Hpv; intros ->; [apply Hy2, Id; left|done|done].
  Qed.

  Lemma nodup4 (l1 l2 l3 l4 : list loc) : NoDup (l1 ++ l2 ++ l3 ++ l4) ->
    NoDup l1 /\ NoDup l2 /\ NoDup l3 /\ NoDup l4 /\
    (forall z, z ∈ l1 -> z ∉ l2) /\ (forall z, z ∈ l1 -> z ∉ l3) /\ (forall z, z ∈ l1 -> z ∉ l4) /\
    (forall z, z ∈ l2 -> z ∉ l3) /\ (forall z, z ∈ l2 -> z ∉ l4) /\ (forall z, z ∈ l3 -> z ∉ l4).
  Proof.
    rewrite !NoDup_app. setoid_rewrite elem_of_app. setoid_rewrite elem_of_app. naive_solver.
  Qed.
  Lemma swap_segs h s c1 p a ps q b qs c3 :
    is_list h s (c1 ++ ((p, a) :: ps) ++ ((q, b) :: qs) ++ c3) ->
    let r := hd s c3.*1 in
    let post h' := is_list h' s (c1 ++ ((q, b) :: qs) ++ ((p, a) :: ps) ++ c3) /\
      relink h h' (nodes s (c1 ++ ((p, a) :: ps) ++ ((q, b) :: qs) ++ c3)) in
    (exists h', transfer h p q r = Ok h' /\ post h') /\ (exists h', transfer h r p q = Ok h' /\ post h').
  Proof.
    intros HL r post. pose proof HL as (Nd&Pall&Hs&Hf).
    assert (nodes s (c1 ++ ((p, a) :: ps) ++ ((q, b) :: qs) ++ c3) =
      (s :: c1.*1) ++ (p :: ps.*1) ++ (q :: qs.*1) ++ c3.*1) as Hno.
    { rewrite nodes_app, !fmap_app. done. }
    rewrite Hno in Nd, Pall.
    apply dpath_app in Pall as [P1 Pall]. apply dpath_app in Pall as [P2 Pall]. apply dpath_app in Pall as [P3 P4].
    cbn [hd app] in P1, P2, P3. fold r in P3.
    destruct (nodup4 _ _ _ _ Nd) as (N1&N2&N3&N4&D12&D13&D14&D23&D24&D34).
    assert (forall z, z ∈ r :: nil -> z ∉ c1.*1 /\ z ∉ p :: ps.*1 /\ z ∉ q :: qs.*1) as Hr.
    { intros z Hz. apply elem_of_list_singleton in Hz as ->. subst r. destruct c3 as [|c c3]; cbn.
      - split_and!; [by apply NoDup_cons in N1 as [? _]|apply D12; left|apply D13; left].
      - split_and!; intros H; [eapply D14; [right; done|left]|eapply D24; [done|left]|eapply D34; [done|left]]. }
    destruct (Hr r) as (R1&R2&R3); [left|].
    assert (forall h', dpath h' (s :: c1.*1) q -> dpath h' (q :: qs.*1) p -> dpath h' (p :: ps.*1) r ->
      vl h' = vl h -> dead h' = dead h ->
      (forall z, z ∉ s :: c1.*1 -> z ∉ p :: ps.*1 -> z ∉ q :: qs.*1 -> nx h' !! z = nx h !! z) ->
      (forall z, z ≠ p -> z ≠ q -> z ≠ r -> pv h' !! z = pv h !! z) -> post h') as Hpost.
    { intros h' Q1 Q2 Q3 Hv Hd Hn Hp. split; [split_and!|refine (conj Hv (conj Hd _))].
      - eapply (NoDup_Permutation_proper _ (nodes s (c1 ++ ((p, a) :: ps) ++ ((q, b) :: qs) ++ c3))); [|apply HL].
        rewrite Hno, nodes_app, !fmap_app. cbn. solve_Permutation.
      - rewrite nodes_app, !fmap_app, app_comm_cons. cbn [fmap list_fmap fst].
        apply dpath_app. cbn [hd app]. split; [done|]. rewrite app_comm_cons. apply dpath_app. cbn [hd app]. split; [done|].
        rewrite app_comm_cons. apply dpath_app. fold r. split; [done|].
        eapply dpath_frame; [exact P4| |].
        + intros z Hz. apply Hn; intros Hz'; [by eapply D14|by eapply D24|by eapply D34].
        + intros z Hz.
          assert (z ∈ s :: c3.*1) as Hz'.
          { destruct c3 as [|c c3]; cbn in *; [by apply elem_of_nil in Hz|]. apply elem_of_app in Hz as [Hz|Hz].
            - right. by right.
            - apply elem_of_list_singleton in Hz as ->. left. }
          apply Hp.
          * intros ->. apply elem_of_cons in Hz' as [->|Hz']; [eapply D12; left|eapply D24; [left|done]].
          * intros ->. apply elem_of_cons in Hz' as [->|Hz']; [eapply D13; left|eapply D34; [left|done]].
          * intros ->. revert Hz. apply hd_not_tail. apply NoDup_app. split_and!; [done| |apply NoDup_singleton].
            intros z Hz ->%elem_of_list_singleton. eapply D14; [left|done].
      - by rewrite Hv.
      - rewrite Hv. rewrite !Forall_app in Hf |- *. tauto.
      - intros y Hy. rewrite Hno in Hy. rewrite !not_elem_of_app in Hy. destruct Hy as (Hy1&Hy2&Hy3&Hy4). split; [by apply Hn|].
        apply Hp; intros ->; [apply Hy2; left|apply Hy3; left|]. subst r. destruct c3 as [|c c3]; cbn in *; [apply Hy1; left|apply Hy4; left]. }
    split.
    - destruct (transfer_segs h p q r s c1.*1 p ps.*1 qs.*1) as (h'&E&Q1&Q2&Q3&Hv&Hd&Hn&Hp); try done.
      + intros ->. apply R2. left.
      + intros H. eapply D12; [right; done|left].
      + by apply NoDup_cons in N2 as [? _].
      + apply D23. left.
      + intros H. apply R2. by right.
      + exists h'. split; [done|]. apply Hpost; auto.
    - destruct (transfer_segs h r p q q qs.*1 s c1.*1 ps.*1) as (h'&E&Q1&Q2&Q3&Hv&Hd&Hn&Hp); try done.
      + intros z Hz Hz'. by eapply D13.
      + intros z Hz Hz'. by eapply D23.
      + intros ->. apply R3. left.
      + intros H. apply R3. by right.
      + by apply NoDup_cons in N3 as [? _].
      + intros H. eapply D13; [right; done|left].
      + intros H. eapply D23; [done|left].
      + exists h'. split; [done|]. apply Hpost; auto.
  Qed.
  (** moving a segment within one list, towards the front ... *)
  Lemma transfer_front h s c1 c2 d2 c3 : is_list h s (c1 ++ c2 ++ d2 ++ c3) -> (c2 = [] -> d2 = []) ->
    exists h', transfer h (hd s (c2 ++ d2 ++ c3).*1) (hd s (d2 ++ c3).*1) (hd s c3.*1) = Ok h' /\
      is_list h' s (c1 ++ d2 ++ c2 ++ c3) /\ relink h h' (nodes s (c1 ++ c2 ++ d2 ++ c3)).
  Proof.
    intros HL Hc. destruct d2 as [|[q b] d2].
    { exists h. split_and!; [|done..]. unfold transfer. rewrite (decide_True _ _ (eq_refl (hd s c3.*1))). by destruct (decide _). }
    destruct c2 as [|[p a] c2]; [discriminate (Hc eq_refl)|].
    destruct (swap_segs _ _ _ _ _ _ _ _ _ _ HL) as [(h'&H1&H2&H3) _]. exists h'. done.
  Qed.
  (** ... and towards the back *)
  Lemma transfer_back h s c1 d2 c2 c3 : is_list h s (c1 ++ d2 ++ c2 ++ c3) ->
    exists h', transfer h (hd s c3.*1) (hd s (d2 ++ c2 ++ c3).*1) (hd s (c2 ++ c3).*1) = Ok h' /\
      is_list h' s (c1 ++ c2 ++ d2 ++ c3) /\ relink h h' (nodes s (c1 ++ d2 ++ c2 ++ c3)).
  Proof.
    intros HL. destruct c2 as [|[q b] c2].
    { exists h. split_and!; [|done..]. unfold transfer. cbn [app]. by rewrite (decide_True _ _ (eq_refl (hd s c3.*1))). }
    destruct d2 as [|[p a] d2].
    { exists h. split_and!; [|done..]. unfold transfer. destruct (decide _); [done|]. by rewrite decide_True. }
    destruct (swap_segs _ _ _ _ _ _ _ _ _ _ HL) as [_ (h'&H1&H2&H3)]. exists h'. done.
  Qed.
End proofs.
