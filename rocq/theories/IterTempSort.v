(** IterTempSort.v — temporaries of algo_sort_by, algo_partial_sort_by, algo_push_heap_by, algo_generate. *)
From stdpp Require Import list gmap.
From Verif Require Import Base Iter IterNonMod IterMod IterOrd IterHeap IterSort AlgoSort IterWorld IterTemp IterTempProofs.
From stdpp Require Import list.

(** ** Programs that change no iterator objects but their own *)
Section keeps.
  Context {A : Type} (W : world A) (D : iid -> Prop).
  Definition keeps {R} (p : prog A R) (Q : R -> Prop) : Prop := forall fuel st r st',
    (forall i, D i -> is_Some (st.2 !! i)) -> run W fuel p st = Ok (r, st') -> (forall i, D i -> st'.2 !! i = st.2 !! i) /\ Q r.
  Lemma keeps_mono {R} (p : prog A R) (Q Q' : R -> Prop) : keeps p Q -> (forall r, Q r -> Q' r) -> keeps p Q'.
  Proof. intros H HQ fuel st r st' Hd Hr. destruct (H fuel st r st' Hd Hr). auto. Qed.
  Lemma keeps_ret {R} (r : R) (Q : R -> Prop) : Q r -> keeps (Ret r) Q.
  Proof. intros H fuel st r' st' Hd [= <- <-]. auto. Qed.
  Lemma keeps_fail {R} (Q : R -> Prop) : keeps Fail Q.
  Proof. by intros fuel st r' st' Hd [=]. Qed.
  Lemma keeps_bind {X R} (p : prog A X) (k : X -> prog A R) K Q :
    keeps p K -> (forall x, K x -> keeps (k x) Q) -> keeps (Bind p k) Q.
  Proof.
    intros H1 H2 fuel st r st' Hd. cbn [run]. intros ([x s]&Hp&Hk)%rbind_Ok.
    destruct (H1 _ _ _ _ Hd Hp) as [Hs HK].
    assert (forall i, D i -> is_Some (s.2 !! i)) as Hd' by (intros i Hi; rewrite (Hs i Hi); by apply Hd).
    destruct (H2 x HK _ _ _ _ Hd' Hk) as [Hs' HQ]. split; [|done]. intros i Hi. by rewrite (Hs' i Hi), (Hs i Hi).
  Qed.
  Lemma keeps_loop {X R} (Inv : X -> Prop) x (body : X -> prog A (X + R)) Q : Inv x ->
    (forall x, Inv x -> keeps (body x) (fun y => match y with inl x' => Inv x' | inr r => Q r end)) -> keeps (Loop x body) Q.
  Proof.
    intros Hx HB fuel st r st' Hd. rewrite run_Loop. generalize fuel at 2. intros n. revert x st Hx Hd.
    induction n as [|n IH]; intros x st Hx Hd; [intros [=]|]. cbn [run_loop]. intros ([y s]&Hp&Hk)%rbind_Ok.
    destruct (HB x Hx _ _ _ _ Hd Hp) as [Hs HI].
    assert (forall i, D i -> is_Some (s.2 !! i)) as Hd' by (intros i Hi; rewrite (Hs i Hi); by apply Hd).
    destruct y as [x'|r'].
    - destruct (IH x' s HI Hd' Hk) as [Hs' HQ]. split; [|done]. intros i Hi. by rewrite (Hs' i Hi), (Hs i Hi).
    - injection Hk as <- <-. auto.
  Qed.
  Lemma keeps_new src : keeps (New src) (fun i => ~ D i).
  Proof.
    intros fuel st r st' Hd. cbn [run]. intros (p&Hp&[= <- <-])%rbind_Ok. cbn [fst snd].
    assert (~ D (fresh (dom st.2))) as Hf.
    { intros Hi. apply Hd in Hi. apply elem_of_dom in Hi. by apply (is_fresh (dom st.2)) in Hi. }
    split; [|done]. intros i Hi. rewrite lookup_insert_ne; [done|]. congruence.
  Qed.
  Local Ltac own := intros Hi fuel st r st' Hd; cbn [run];
    repeat (let H := fresh in let x := fresh in intros (x&?&H)%rbind_Ok; revert H); intros [= <- <-]; cbn [fst snd];
    (split; [|done]); intros ? ?; first [rewrite lookup_insert_ne | rewrite lookup_delete_ne]; [done|congruence].
  Lemma keeps_free i : ~ D i -> keeps (Free i) (fun _ => True).
  Proof. own. Qed.
  Lemma keeps_assign i j : ~ D i -> keeps (Assign i j) (fun _ => True).
  Proof. own. Qed.
  Lemma keeps_inc i : ~ D i -> keeps (Inc i) (fun _ => True).
  Proof. own. Qed.
  Lemma keeps_dec i : ~ D i -> keeps (Dec i) (fun _ => True).
  Proof. own. Qed.
  Lemma keeps_adv i n : ~ D i -> keeps (Adv i n) (fun _ => True).
  Proof. own. Qed.
  Local Ltac reads := intros fuel st r st' Hd; cbn [run];
    repeat (let H := fresh in let x := fresh in intros (x&?&H)%rbind_Ok; revert H); intros [= <- <-]; cbn [fst snd]; done.
  Lemma keeps_dist i j : keeps (Dist i j) (fun _ => True).
  Proof. reads. Qed.
  Lemma keeps_eq i j : keeps (Eq i j) (fun _ => True).
  Proof. reads. Qed.
  Lemma keeps_deref i : keeps (Deref i) (fun _ => True).
  Proof. reads. Qed.
  Lemma keeps_write i v : keeps (Write i v) (fun _ => True).
  Proof. reads. Qed.
  Lemma keeps_cat i : keeps (Cat i) (fun _ => True).
  Proof. reads. Qed.
  Lemma keeps_mutable i : keeps (Mutable i) (fun _ => True).
  Proof. reads. Qed.

  Definition notin (o : option iid) : Prop := match o with Some i => ~ D i | None => True end.
  Lemma keeps_copy_and_move o src n : notin o -> keeps (copy_and_move o src n) (fun i => ~ D i).
  Proof.
    intros Ho. destruct o as [i|]; cbn [copy_and_move] in *.
    - eapply keeps_bind; [|intros _ _; by apply keeps_ret].
      eapply keeps_bind; [by apply keeps_assign|]. intros _ _. by apply keeps_adv.
    - eapply keeps_bind; [apply keeps_new|]. intros i Hi. eapply keeps_bind; [by apply keeps_adv|]. intros _ _. by apply keeps_ret.
  Qed.
  Lemma keeps_free_opt o : notin o -> keeps (free_opt o) (fun _ => True).
  Proof. intros Ho. destruct o as [i|]; [by apply keeps_free|by apply keeps_ret]. Qed.
  Lemma keeps_passert b : keeps (passert b) (fun _ => True).
  Proof. destruct b; [by apply keeps_ret|apply keeps_fail]. Qed.
  Lemma keeps_iter_swap x y : keeps (iter_swap_p x y) (fun _ => True).
  Proof.
    unfold iter_swap_p, at_least, is_mutable, swap_p, DerefAssign.
    repeat (eapply keeps_bind; [first [apply keeps_cat | apply keeps_mutable | apply keeps_deref | apply keeps_write |
      eapply keeps_bind; [first [apply keeps_cat | apply keeps_mutable | apply keeps_deref]|intros; first [apply keeps_passert | apply keeps_write]]]|
      intros ? _]). apply keeps_write.
  Qed.
  Definition notin4 (v : vars4) : Prop := let '(h, s, l, r) := v in notin h /\ notin s /\ notin l /\ notin r.
  Lemma keeps_percolate_step comp F len hole v : notin4 v ->
    keeps (percolate_step_p comp F len hole v) (fun y => match y with inl (_, v) => notin4 v | inr v => notin4 v end).
  Proof.
    destruct v as [[[h s] l] r]. intros (Hh&Hs&Hl&Hr). unfold percolate_step_p.
    eapply keeps_bind; [by apply keeps_copy_and_move|]. intros h' Hh'.
    eapply keeps_bind; [by apply keeps_copy_and_move|]. intros s' Hs'.
    eapply keeps_bind; [by apply keeps_copy_and_move|]. intros l' Hl'.
    apply (keeps_bind _ _ (fun _ => True)).
    { destruct (_ <? _)%Z; [|by apply keeps_ret]. do 2 (eapply keeps_bind; [apply keeps_deref|]; intros ? _).
      destruct (comp _ _); [|by apply keeps_ret]. eapply keeps_bind; [by apply (keeps_copy_and_move (Some s'))|]. intros; by apply keeps_ret. }
    intros w _. eapply keeps_bind; [by apply keeps_copy_and_move|]. intros r' Hr'.
    apply (keeps_bind _ _ (fun _ => True)).
    { destruct (_ <? _)%Z; [|by apply keeps_ret]. do 2 (eapply keeps_bind; [apply keeps_deref|]; intros ? _).
      destruct (comp _ _); [|by apply keeps_ret]. eapply keeps_bind; [by apply (keeps_copy_and_move (Some s'))|]. intros; by apply keeps_ret. }
    intros w' _. destruct (_ =? _)%Z; [by apply keeps_ret|].
    eapply keeps_bind; [apply keeps_iter_swap|]. intros _ _. by apply keeps_ret.
  Qed.
  Lemma keeps_percolate_down comp F len hole : keeps (percolate_down_p comp F len hole) (fun _ => True).
  Proof.
    unfold percolate_down_p. eapply keeps_bind; [apply keeps_new|]. intros F' HF.
    apply (keeps_bind _ _ notin4).
    - apply (keeps_loop (fun y => notin4 y.2)); [done|]. intros [hole' v] Hv. cbn [snd] in Hv.
      eapply keeps_mono; [by apply keeps_percolate_step|]. by intros [[? ?]|?].
    - intros [[[h s] l] r] (Hh&Hs&Hl&Hr). do 4 (eapply keeps_bind; [by apply keeps_free_opt|]; intros _ _). by apply keeps_free.
  Qed.
  Lemma keeps_make_heap comp a b : keeps (make_heap_by_p comp a b) (fun _ => True).
  Proof.
    unfold make_heap_by_p, random2, exactly.
    eapply keeps_bind; [eapply keeps_bind; [|intros ? _]; (eapply keeps_bind; [apply keeps_cat|intros; apply keeps_passert])|]. intros _ _.
    eapply keeps_bind; [apply keeps_dist|]. intros d _. destruct (_ <? _)%Z; [by apply keeps_ret|].
    do 2 (eapply keeps_bind; [apply keeps_new|]; intros ? ?).
    apply (keeps_bind _ _ (fun _ => True)); [|intros _ _; eapply keeps_bind; [by apply keeps_free|]; intros _ _; by apply keeps_free].
    unfold heapify_p. do 2 (eapply keeps_bind; [apply keeps_new|]; intros ? ?). eapply keeps_bind; [apply keeps_dist|]. intros len _.
    apply (keeps_bind _ _ (fun _ => True)); [|intros _ _; eapply keeps_bind; [by apply keeps_free|]; intros _ _; by apply keeps_free].
    unfold WhileV. apply (keeps_loop (fun _ => True)); [done|]. intros hole _. eapply keeps_bind; [by apply (keeps_ret _ (fun _ => True))|].
    intros c _. destruct c; [|by apply keeps_ret]. apply (keeps_bind _ _ (fun _ => True)).
    - eapply keeps_bind; [apply keeps_percolate_down|]. intros; by apply keeps_ret.
    - intros; by apply keeps_ret.
  Qed.
End keeps.

(** ** Simulation from a given state *)
Section simat.
  Context {A : Type} (W : world A).
  Definition simat {R} fuel st g (t : tprog A R) (p : prog A R) (J : R -> temps A -> Prop) : Prop :=
    match run W fuel p st with
    | Ok (r, s) => exists g', trun W fuel t (st, g) = Ok (r, (s, g')) /\ J r g'
    | UB => trun W fuel t (st, g) = UB
    | NoFuel => trun W fuel t (st, g) = NoFuel
    end.
  Lemma simat_sim {R} fuel st g (t : tprog A R) p (J : R -> temps A -> Prop) : sim W (fun g' => g' = g) t p J -> simat fuel st g t p J.
  Proof. intros H. by apply H. Qed.
  Lemma simat_bind {X R} fuel st g (t : tprog A X) p K (k : X -> tprog A R) k' (J : R -> temps A -> Prop) :
    simat fuel st g t p K ->
    (forall x s g', run W fuel p st = Ok (x, s) -> K x g' -> simat fuel s g' (k x) (k' x) J) -> simat fuel st g (TBind t k) (Bind p k') J.
  Proof.
    unfold simat. intros H1 H2. cbn [trun run]. destruct (run W fuel p st) as [[x s]| |]; cbn [rbind].
    - destruct H1 as (g'&->&HK). cbn [rbind]. by apply (H2 x s).
    - by rewrite H1.
    - by rewrite H1.
  Qed.
  Lemma simat_same {X R} fuel st g (t : tprog A X) p (k : X -> tprog A R) k' (J : R -> temps A -> Prop) : same W t p ->
    (forall x s, run W fuel p st = Ok (x, s) -> simat fuel s g (k x) (k' x) J) -> simat fuel st g (TBind t k) (Bind p k') J.
  Proof. intros H1 H2. eapply simat_bind; [apply simat_sim, H1|]. cbn. intros x s g' Hr ->. by apply H2. Qed.
  Lemma simat_lift {X R} fuel st g (p : prog A X) (k : X -> tprog A R) k' (J : R -> temps A -> Prop) :
    (forall x s, run W fuel p st = Ok (x, s) -> simat fuel s g (k x) (k' x) J) -> simat fuel st g (TBind (TLift p) k) (Bind p k') J.
  Proof. apply simat_same, same_lift. Qed.
  (** the tests at the beginning of a function change nothing *)
  Lemma exactly_run fuel i c (st : istate W) s u : run W fuel (exactly i c) st = Ok (u, s) -> s = st.
  Proof.
    unfold exactly. cbn [run]. intros ([x s']&H1&H2)%rbind_Ok. apply rbind_Ok in H1 as (p&Hp&H1). apply rbind_Ok in H1 as (q&Hq&[= <- <-]).
    unfold passert in H2. destruct (c =? q); cbn [run] in H2; congruence.
  Qed.
  Lemma random2_run fuel i j (st : istate W) s u : run W fuel (random2 i j) st = Ok (u, s) -> s = st.
  Proof. unfold random2. cbn [run]. intros ([x s']&H1&H2)%rbind_Ok. apply exactly_run in H1 as ->. by apply exactly_run in H2. Qed.
  Lemma is_mutable_run fuel i (st : istate W) s u : run W fuel (is_mutable i) st = Ok (u, s) -> s = st.
  Proof.
    unfold is_mutable. cbn [run]. intros ([x s']&H1&H2)%rbind_Ok. apply rbind_Ok in H1 as (p&Hp&H1). apply rbind_Ok in H1 as (q&Hq&[= <- <-]).
    unfold passert in H2. destruct q; cbn [run] in H2; congruence.
  Qed.
  Lemma new_run fuel i (st : istate W) j s : run W fuel (New i) st = Ok (j, s) ->
    exists p, st.2 !! i = Some p /\ st.2 !! j = None /\ s = (st.1, <[j := p]> st.2).
  Proof.
    cbn [run]. unfold Iter.get. intros (p&Hp&[= <- <-])%rbind_Ok. destruct (st.2 !! i) as [q|] eqn:E; [|done]. injection Hp as <-.
    exists q. split; [done|]. split; [|done]. apply not_elem_of_dom, is_fresh.
  Qed.
  Lemma dist_run fuel i j (st : istate W) d s : run W fuel (Dist i j) st = Ok (d, s) ->
    s = st /\ exists p q, st.2 !! i = Some p /\ st.2 !! j = Some q /\ w_dist W st.1 p q = Ok d.
  Proof.
    cbn [run]. unfold Iter.get. intros (p&Hp&(q&Hq&(n&Hn&[= <- <-])%rbind_Ok)%rbind_Ok)%rbind_Ok.
    destruct (st.2 !! i); [|done]. destruct (st.2 !! j); [|done]. injection Hp as <-. injection Hq as <-. split; [done|]. by eexists _, _.
  Qed.
  Lemma eq_run fuel i j (st : istate W) b s : run W fuel (Eq i j) st = Ok (b, s) ->
    s = st /\ exists p q, st.2 !! i = Some p /\ st.2 !! j = Some q /\ w_eq W p q = Ok b.
  Proof.
    cbn [run]. unfold Iter.get. intros (p&Hp&(q&Hq&(n&Hn&[= <- <-])%rbind_Ok)%rbind_Ok)%rbind_Ok.
    destruct (st.2 !! i); [|done]. destruct (st.2 !! j); [|done]. injection Hp as <-. injection Hq as <-. split; [done|]. by eexists _, _.
  Qed.
  Lemma simat_weaken {R} fuel st g (t : tprog A R) p (J J' : R -> temps A -> Prop) :
    simat fuel st g t p J -> (forall r g, J r g -> J' r g) -> simat fuel st g t p J'.
  Proof. unfold simat. intros H HJ. destruct (run W fuel p st) as [[r s]| |]; [|done..]. destruct H as (g'&H&Hg). exists g'. auto. Qed.
  Lemma adv_run fuel i n (st : istate W) u s : run W fuel (Adv i n) st = Ok (u, s) ->
    exists p q, st.2 !! i = Some p /\ w_adv W st.1 p n = Ok q /\ s = (st.1, <[i := q]> st.2).
  Proof.
    cbn [run]. unfold Iter.get. intros (p&Hp&(q&Hq&[= <- <-])%rbind_Ok)%rbind_Ok.
    destruct (st.2 !! i); [|done]. injection Hp as <-. by eexists _, _.
  Qed.

  Lemma lift_ret_bind {X R} x (I : temps A -> Prop) (k : X -> tprog A R) p (J : R -> temps A -> Prop) :
    sim W I (k x) p J -> sim W I (TBind (TLift (Ret x)) k) p J.
  Proof. intros H fuel st g Hg. cbn [trun run fst snd rbind]. by apply H. Qed.

  (** an iterator equals itself *)
  Context (HW : forall p b, w_eq W p p = Ok b -> b = true).
  Context (comp : A -> A -> bool).
  (** algo_partial_sort_by on [first, last, last) makes a heap and sorts it; it replaces no element *)
  Lemma partial_sort_whole_same F E : same W (partial_sort_by_t comp F E E) (partial_sort_by_p comp F E E).
  Proof.
    intros g fuel st g' ->. change (simat fuel st g (partial_sort_by_t comp F E E) (partial_sort_by_p comp F E E) (fun _ g' => g' = g)).
    unfold partial_sort_by_t, partial_sort_by_p.
    do 5 (apply simat_lift; intros _ ? _). clear st. rename s3 into st. clear s s0 s1 s2.
    apply simat_lift. intros [] s' [-> _]%eq_run; [by apply simat_sim, sim_ret|].
    apply simat_lift. intros F' s1 (pF&HpF&HF'&->)%new_run. cbn [fst snd].
    apply simat_lift. intros X s2 (pX&HpX&HX&->)%new_run. cbn [fst snd] in *.
    apply simat_lift. intros E' s3 (pE&HpE&HE'&->)%new_run. cbn [fst snd] in *.
    assert (pE = pX) as ->. { rewrite lookup_insert_ne in HpE by congruence. congruence. }
    apply simat_lift. intros i s4 (pi&Hpi&Hi&->)%new_run. cbn [fst snd] in *.
    assert (pi = pX) as ->. { rewrite lookup_insert_ne in Hpi by (intros ->; by rewrite lookup_insert in HE'). rewrite lookup_insert in Hpi. congruence. }
    match goal with |- simat _ (?m0, ?S0) _ _ _ _ => set (m := m0); set (S := S0) end.
    assert (S !! i = Some pX) as Si by (subst S; by rewrite lookup_insert).
    assert (S !! E' = Some pX) as SE by (subst S; rewrite lookup_insert_ne by (intros ->; by rewrite lookup_insert in Hi); by rewrite lookup_insert).
    clearbody S m. clear - HW Si SE.
    pose (D := fun j => j = i \/ j = E').
    assert (forall j, D j -> is_Some (S !! j)) as HD by (intros ? [->| ->]; eauto).
    apply simat_lift. intros p s5 Hs5.
    destruct (keeps_copy_and_move W D None X (-1)%Z I _ (m, S) _ _ HD Hs5) as [H5 _]. cbn [snd] in H5.
    apply simat_same; [apply make_heap_same|]. intros u s6 Hs6.
    assert (forall j, D j -> is_Some (s5.2 !! j)) as HD5 by (intros j Hj; rewrite (H5 j Hj); by apply HD).
    destruct (keeps_make_heap W D comp F' X _ _ _ _ HD5 Hs6) as [H6 _].
    assert (s6.2 !! i = Some pX) as S6i by (rewrite H6, H5 by (subst D; cbn; auto); done).
    assert (s6.2 !! E' = Some pX) as S6E by (rewrite H6, H5 by (subst D; cbn; auto); done).
    clear - HW S6i S6E.
    eapply simat_bind with (K := fun _ g' => g' = g).
    { unfold TWhile, While, simat. rewrite trun_Loop, run_Loop. destruct fuel as [|fuel]; [done|]. cbn [run_loop trun_loop trun run].
      unfold Ne. cbn [run]. unfold Iter.get. cbn [fst snd]. rewrite S6i, S6E. cbn [rbind]. destruct (w_eq W pX pX) as [b| |] eqn:Hb; cbn [rbind]; [|done..].
      apply HW in Hb as ->. cbn. by eexists. }
    cbn. intros _ s7 g' _ ->.
    apply simat_same; [apply sort_heap_same|]. intros _ s8 _. apply simat_sim. tsame (@same_lift A W).
    repeat (apply lift_bind; intros ?). by apply sim_lift.
  Qed.
  Lemma introsort_loop_same n : forall F E mid prev, same W (introsort_loop_t comp n F E mid prev) (introsort_loop_p comp n F E mid prev).
  Proof.
    induction n as [|n IH]; intros F E mid prev g; cbn [introsort_loop_t introsort_loop_p];
      (apply lift_bind; intros d; destruct (_ <? _)%Z; [|by apply sim_ret]).
    - apply same_bind_sim; [apply partial_sort_whole_same|]. intros _. by apply sim_ret.
    - do 3 (apply lift_bind; intros ?). rename x0 into mid', x1 into prev'. unfold median_of_three_t.
      apply sim_assoc. apply malloc_bind. intros t Ht.
      apply sim_assoc. apply lift_bind. intros a. apply sim_assoc. apply lift_bind. intros b. apply sim_assoc. apply lift_bind. intros c.
      apply sim_assoc. apply copy_bind. fold (median_of_three comp a b c). set (v := median_of_three comp a b c).
      apply lift_ret_bind.
      apply (sim_bind W _ _ _ (fun _ g' => g' = also g t (Some v))).
      { apply partition_by_sim. cbn. by rewrite lookup_insert. }
      intros [part|]; [|by intros ? ? ? ?].
      do 2 (apply lift_bind; intros ?). rename x0 into F', x1 into E'.
      apply (same_bind_sim W); [apply IH|]. intros w. do 5 (apply lift_bind; intros _).
      apply destroy_bind. apply free_bind; [done|]. apply lift_bind. intros _. apply IH.
  Qed.
  Lemma introsort_same F E n : same W (introsort_t comp F E n) (introsort_p comp F E n).
  Proof. unfold introsort_t, introsort_p. tsame introsort_loop_same. Qed.
  Lemma sort_same F E : same W (sort_by_t comp F E) (sort_by_p comp F E).
  Proof. unfold sort_by_t, sort_by_p. tsame introsort_same. apply final_insertion_same. Qed.

  (** *** algo_push_heap_by: the copy of the new element is never destroyed *)
  Lemma push_heap_step_sim g F t v hole parent o : t_obj g !! t = Some (Some v) ->
    sim W (fun g' => g' = g) (push_heap_step_t comp F t hole parent o) (push_heap_step_p comp F v hole parent o) (fun _ g' => g' = g).
  Proof.
    intros Ht. destruct o as [p h]. unfold push_heap_step_t, push_heap_step_p. destruct (_ <? _)%Z; [|by apply sim_ret].
    do 3 (apply lift_bind; intros ?). eapply read_bind; [by intros ? ->|]. destruct (comp _ _); by tlift.
  Qed.
  (** the part behind the test of the length *)
  Lemma push_heap_long_sim g first last :
    sim W (fun g' => g' = g)
      (F <~ New first;; E <~ New last;;
       Dec E;;;
       hole <~ Dist F E;;
       t <~ TMalloc;;
       value <~ Deref E;; TCopy t value;;;
       r <~ TLoop (hole, get_parent_z hole, (None, None)) (fun '(hole, parent, v) => push_heap_step_t comp F t hole parent v);;
       let '(hole, (p, h)) := r in
       h' <~ copy_and_move h F hole;;
       value <~ TRead t;; Write h' value;;;
       TFree t;;;
       Free h';;; free_opt p;;;
       Free F;;; Free E)
      (F <~ New first;; E <~ New last;;
       Dec E;;;
       hole <~ Dist F E;;
       value <~ Deref E;;
       r <~ Loop (hole, get_parent_z hole, (None, None)) (fun '(hole, parent, v) => push_heap_step_p comp F value hole parent v);;
       let '(hole, (p, h)) := r in
       h' <~ copy_and_move h F hole;;
       Write h' value;;;
       Free h';;; free_opt p;;;
       Free F;;; Free E)%prog
      (fun _ g' => g' = lose 1 g).
  Proof.
    do 4 (apply lift_bind; intros ?). apply malloc_bind. intros t Ht. apply lift_bind. intros v. apply copy_bind.
    apply (sim_bind W _ _ _ (fun _ g' => g' = also g t (Some v))).
    - apply (sim_loop W (fun _ g' => g' = also g t (Some v))). intros [[hole parent] o].
      eapply sim_weaken; [eapply (push_heap_step_sim (also g t (Some v)) _ t v)|done|].
      + cbn. by rewrite lookup_insert.
      + by intros [?|?] ? ->.
    - intros [hole [p h]]. apply lift_bind. intros h'. eapply read_bind; [apply also_here|]. apply lift_bind. intros _.
      apply free_bind; [done|]. cbn [lost]. by tlift.
  Qed.
  Lemma push_heap_at fuel st g first last pf pl d : st.2 !! first = Some pf -> st.2 !! last = Some pl -> w_dist W st.1 pf pl = Ok d ->
    simat fuel st g (push_heap_by_t comp first last) (push_heap_by_p comp first last)
      (fun _ g' => g' = if (d <? 2)%Z then g else lose 1 g).
  Proof.
    intros Hf Hl Hd. unfold push_heap_by_t, push_heap_by_p. apply simat_lift. intros u s ->%random2_run.
    apply simat_lift. intros d' s (->&p&q&Hp&Hq&Hd')%dist_run. assert (d' = d) as -> by congruence.
    destruct (d <? 2)%Z; [by apply simat_sim, sim_ret|]. apply simat_sim, push_heap_long_sim.
  Qed.
  Lemma push_heap_sim (n : nat) g0 g first last : g = lose n g0 ->
    sim W (fun g' => g' = g) (push_heap_by_t comp first last) (push_heap_by_p comp first last) (fun _ g' => exists k, g' = lose k g0).
  Proof.
    intros ->. unfold push_heap_by_t, push_heap_by_p. do 2 (apply lift_bind; intros ?).
    destruct (_ <? _)%Z; [apply sim_ret; eauto|]. eapply sim_weaken; [apply (push_heap_long_sim (lose n g0))|done|].
    cbn. intros _ g ->. by exists (S n).
  Qed.

  (** *** algo_partial_sort_by, algo_partial_sort_copy_by *)
  Definition leaks (g0 g : temps A) : Prop := exists k, g = lose k g0.
  Lemma partial_sort_sim g F X E : sim W (leaks g) (partial_sort_by_t comp F X E) (partial_sort_by_p comp F X E) (fun _ => leaks g).
  Proof.
    unfold partial_sort_by_t, partial_sort_by_p. do 6 (apply lift_bind; intros ?). destruct x4; [by apply sim_ret|].
    do 5 (apply lift_bind; intros ?). apply same_bind_sim; [apply make_heap_same|]. intros _.
    apply (sim_bind W _ _ _ (fun _ => leaks g)).
    - unfold TWhile, While. apply (sim_loop W (fun _ => leaks g)). intros _. apply lift_bind. intros []; [|by apply sim_ret].
      apply (sim_bind W _ _ _ (fun _ => leaks g)); [|intros; by apply sim_ret].
      do 2 (apply lift_bind; intros ?). apply (sim_bind W _ _ _ (fun _ => leaks g)); [|intros; by tlift].
      destruct (comp _ _); [|by apply sim_ret].
      apply same_bind_sim; [apply pop_heap_same|]. intros _. apply same_bind_sim; [apply iter_swap_same|]. intros _.
      apply sim_ex. intros k. by eapply push_heap_sim.
    - intros _. apply same_bind_sim; [apply sort_heap_same|]. intros _. by tlift.
  Qed.
  Lemma partial_sort_copy_sim g F E DF DE o :
    sim W (leaks g) (partial_sort_copy_by_t comp F E DF DE o) (partial_sort_copy_by_p comp F E DF DE o) (fun _ => leaks g).
  Proof.
    unfold partial_sort_copy_by_t, partial_sort_copy_by_p. do 6 (apply lift_bind; intros ?).
    apply same_bind_sim; [tsame (@same_lift A W)|]. intros []; [by tlift|].
    do 6 (apply lift_bind; intros ?). apply same_bind_sim; [tsame (@same_lift A W)|]. intros n.
    apply lift_bind. intros p. apply same_bind_sim; [apply make_heap_same|]. intros _.
    apply (sim_bind W _ _ _ (fun _ => leaks g)).
    - unfold TWhile, While. apply (sim_loop W (fun _ => leaks g)). intros _. apply lift_bind. intros []; [|by apply sim_ret].
      apply (sim_bind W _ _ _ (fun _ => leaks g)); [|intros; by apply sim_ret].
      do 2 (apply lift_bind; intros ?). apply (sim_bind W _ _ _ (fun _ => leaks g)); [|intros; by tlift].
      destruct (comp _ _); [|by apply sim_ret].
      apply same_bind_sim; [apply pop_heap_same|]. intros _. apply lift_bind. intros _.
      apply sim_ex. intros k. by eapply push_heap_sim.
    - intros _. apply same_bind_sim; [apply sort_heap_same|]. intros _. by tlift.
  Qed.
End simat.

(** ** algo_generate, algo_generate_n *)
Section generate.
  Context {A : Type} (W : world A) {St : Type} (gen : St -> St * A).
  (** after [n] rounds: each round but the last has lost the element of the round before *)
  Definition after_rounds g0 (t : tid) (n : nat) (g : temps A) : Prop :=
    match n with 0 => g = also g0 t None | S n' => exists v, g = also (lose n' g0) t (Some v) end.
  (** the first statements of a round *)
  Lemma generated_round {R} g0 t n v (k : A -> tprog A R) p (J : R -> temps A -> Prop) :
    sim W (after_rounds g0 t (S n)) (k v) p J -> sim W (after_rounds g0 t n) (TZero t;;; TCopy t v;;; x <~ TRead t;; k x) p J.
  Proof.
    intros H. destruct n as [|n].
    - apply zero_bind. cbn [lost]. apply copy_bind. eapply read_bind; [apply also_here|].
      eapply sim_weaken; [exact H| |done]. cbn. intros g ->. exists v. by destruct g0.
    - apply sim_ex. intros w. apply zero_bind. cbn [lost]. apply copy_bind. eapply read_bind; [apply also_here|].
      eapply sim_weaken; [exact H| |done]. cbn. intros g ->. by exists v.
  Qed.
  Definition outcome {R} (len : R -> nat) fuel (st : istate W) g g0 (t : tprog A R) (p : prog A R) : Prop :=
    match run W fuel p st with
    | Ok (r, s) => match len r with 0 => trun W fuel t (st, g) = UB | S n => trun W fuel t (st, g) = Ok (r, (s, lose n g0)) end
    | _ => True
    end.
  Lemma outcome_bind {X R} (len : R -> nat) fuel st g g0 (t : tprog A X) p K (k : X -> tprog A R) k' :
    sim W (fun g' => g' = g) t p K -> (forall x s g', K x g' -> outcome len fuel s g' g0 (k x) (k' x)) ->
    outcome len fuel st g g0 (TBind t k) (Bind p k').
  Proof.
    intros H1 H2. unfold outcome. cbn [trun run]. specialize (H1 fuel st g eq_refl).
    destruct (run W fuel p st) as [[x s]| |]; cbn [rbind]; [|done..]. destruct H1 as (g'&->&HK). cbn [rbind]. by apply H2.
  Qed.
  Lemma outcome_lift {X R} (len : R -> nat) fuel st g g0 (p : prog A X) (k : X -> tprog A R) k' :
    (forall x s, outcome len fuel s g g0 (k x) (k' x)) -> outcome len fuel st g g0 (TBind (TLift p) k) (Bind p k').
  Proof. intros H. eapply outcome_bind; [apply same_lift|]. cbn. intros x s g' ->. apply H. Qed.
  Lemma outcome_malloc {R} (len : R -> nat) fuel st g g0 (k : tid -> tprog A R) p :
    (forall t, t_obj g !! t = None -> outcome len fuel st (also g t None) g0 (k t) p) -> outcome len fuel st g g0 (TBind TMalloc k) p.
  Proof. intros H. unfold outcome. cbn [trun fst snd rbind]. apply (H (fresh (dom (t_obj g)))), not_elem_of_dom, is_fresh. Qed.
  Lemma outcome_sim {R} (len : R -> nat) fuel st g g0 n (t : tprog A R) p :
    sim W (fun g' => g' = g) t p (fun r g' => len r = S n /\ g' = lose n g0) -> outcome len fuel st g g0 t p.
  Proof.
    intros H. specialize (H fuel st g eq_refl). unfold outcome. destruct (run W fuel p st) as [[r s]| |]; [|done..].
    destruct H as (g'&H&->&->). exact H.
  Qed.
  Lemma generate_outcome fuel st g first last x :
    outcome snd fuel st g g (generate_t first last gen x) (generate_p first last gen x).
  Proof.
    unfold generate_t, generate_p. do 5 (apply outcome_lift; intros ? ?). rename x3 into F, x4 into E.
    assert (forall t, t_obj g !! t = None ->
      sim W (fun g' => g' = also g t None)
        (TWhileV (x, 0) (fun _ => Ne F E) (fun '(st, n) =>
          TZero t;;; TCopy t (gen st).2;;; x <~ TRead t;; Write F x;;; Inc F;;; Ret ((gen st).1, S n)))
        (WhileV (x, 0) (fun _ => Ne F E) (fun '(st, n) => Write F (gen st).2;;; Inc F;;; Ret ((gen st).1, S n))%prog)
        (fun r => after_rounds g t r.2)) as HL.
    { intros t Ht. unfold TWhileV, WhileV.
      apply (sim_loop W (fun r => after_rounds g t r.2) (x, 0)). intros [y n]. cbn [snd]. apply lift_bind. intros []; [|by apply sim_ret].
      apply (sim_bind W _ _ _ (fun r => after_rounds g t r.2)); [|intros ?; by apply sim_ret].
      apply (generated_round g t n _ (fun z => Write F z;;; Inc F;;; Ret ((gen y).1, S n))). by tlift. }
    apply outcome_malloc. intros t Ht. eapply outcome_bind; [by apply HL|]. intros [y n] s' g' Hg. cbn [snd] in Hg. destruct n as [|n].
    - cbn in Hg. subst g'. unfold outcome. cbn [trun run]. destruct (rbind _ _) as [[r s'']| |] eqn:Hr; [|done..].
      apply rbind_Ok in Hr as ([? ?]&_&Hr). apply rbind_Ok in Hr as ([? ?]&_&Hr). injection Hr as <- <-. cbn [snd fst].
      unfold element, storage. cbn [t_obj also]. by rewrite lookup_insert.
    - destruct Hg as [v ->]. apply (outcome_sim _ _ _ _ _ n). apply destroy_bind. apply free_bind; [done|]. cbn [lost].
      do 2 (apply lift_bind; intros ?). by apply sim_ret.
  Qed.
  Lemma ret_bind {X R} x (I : temps A -> Prop) (k : X -> tprog A R) k' (J : R -> temps A -> Prop) :
    sim W I (k x) (k' x) J -> sim W I (TBind (TLift (Ret x)) k) (Bind (Ret x) k') J.
  Proof. intros H fuel st g Hg. cbn [trun run fst snd rbind]. by apply H. Qed.
  Lemma generate_n_sim g first n x last :
    sim W (fun g' => g' = g) (generate_n_t first n gen last x) (generate_n_p first n gen last x) (fun _ g' => g' = lose (n - 1) g).
  Proof.
    unfold generate_n_t, generate_n_p. do 2 (apply lift_bind; intros ?). destruct (Nat.eqb_spec n 0) as [->|Hn].
    { apply lift_bind. intros ?. apply sim_ret. intros ? ->. by destruct g. }
    apply lift_bind. intros F. apply malloc_bind. intros t Ht.
    apply (sim_bind W _ _ _ (fun _ => after_rounds g t n)).
    - unfold TWhileV, WhileV.
      apply (sim_weaken W (fun g' => n <= n /\ after_rounds g t (n - n) g') _ _ _ (fun _ => after_rounds g t n)); [|intros ? ->; by rewrite Nat.sub_diag|done].
      apply (sim_loop W (fun r g' => r.1 <= n /\ after_rounds g t (n - r.1) g') (n, x)). intros [i y]. cbn [fst].
      apply ret_bind. destruct (Nat.eqb_spec i 0) as [->|Hi]; cbn [negb].
      + apply sim_ret. intros g' [_ Hg]. by rewrite Nat.sub_0_r in Hg.
      + apply (sim_bind W _ _ _ (fun r g' => r.1 <= n /\ after_rounds g t (n - r.1) g')); [|intros ?; by apply sim_ret].
        intros fuel st g' [Hin Hg]. revert fuel st g' Hg.
        apply (generated_round g t (n - i) _ (fun z => Write F z;;; Inc F;;; Ret (i - 1, (gen y).1))).
        do 2 (apply lift_bind; intros ?). apply sim_ret. cbn [fst]. intros g' Hg. split; [lia|]. by replace (n - (i - 1)) with (S (n - i)) by lia.
    - intros r. destruct n as [|n]; [done|]. apply sim_ex. intros v. apply lift_bind. intros w. apply destroy_bind. apply free_bind; [done|].
      cbn [lost]. apply lift_bind. intros _. apply sim_ret. intros ? ->. by replace (S n - 1) with n by lia.
  Qed.
End generate.

(** ** Outcomes *)
Section outcomes.
  Context {A : Type} (W : world A).
  Lemma trun_mono {R : Type} (p : tprog A R) : forall n n' st x, n <= n' -> trun W n p st = Ok x -> trun W n' p st = Ok x.
  Proof.
    induction p as [R p|X R p IHp k IHk|X R x body IH| | | | | | |]; intros n n' st y Hn; try (intros H; exact H).
    - cbn [trun]. intros ([r s]&H1&H2)%rbind_Ok. by rewrite (run_mono _ _ n n' _ _ Hn H1).
    - cbn [trun]. intros [[x st1] [H1 H2]]%rbind_Ok. rewrite (IHp n n' st _ Hn H1). cbn [rbind]. by eapply IHk.
    - rewrite !trun_Loop.
      enough (forall a a' x st, a <= a' -> trun_loop W n body a x st = Ok y -> trun_loop W n' body a' x st = Ok y) as H
        by (apply H; done).
      intros a. induction a as [|a IHa]; intros a' z st0 Ha; [intros [=]|].
      destruct a' as [|a']; [lia|]. cbn [trun_loop].
      intros [[w st1] [H1 H2]]%rbind_Ok. rewrite (IH z n n' st0 _ Hn H1). cbn [rbind].
      destruct w as [x'|r]; [|done]. eapply IHa; [lia|done].
  Qed.
  (** a program has at most one outcome *)
  Lemma texec_det {R : Type} (p : tprog A R) st r1 st1 r2 st2 : texec W p st r1 st1 -> texec W p st r2 st2 -> r1 = r2 /\ st1 = st2.
  Proof.
    intros [n1 H1] [n2 H2]. apply (trun_mono _ _ (max n1 n2)) in H1; [|lia].
    apply (trun_mono _ _ (max n1 n2)) in H2; [|lia]. rewrite H1 in H2. by injection H2.
  Qed.
  (** the outcomes with and without temporaries are the same *)
  Lemma same_iff {R} (t : tprog A R) p st g r s g' : same W t p ->
    texec W t (st, g) r (s, g') <-> exec W p st r s /\ g' = g.
  Proof.
    intros H. split; [|intros [He ->]; by eapply same_exec]. intros [f Hf]. specialize (H g f st g eq_refl).
    destruct (run W f p st) as [[r1 s1]| |] eqn:Hr; [|congruence..]. destruct H as (g1&H&->). rewrite Hf in H. injection H as -> -> ->.
    split; [by exists f|done].
  Qed.
  (** the temporaries [g], [k] more elements lost *)
  Lemma leaks_iff {R} (t : tprog A R) p st g r s g' : sim W (leaks g) t p (fun _ => leaks g) ->
    texec W t (st, g) r (s, g') -> exec W p st r s /\ t_obj g' = t_obj g /\ t_lost g <= t_lost g'.
  Proof.
    intros H [f Hf]. specialize (H f st g). assert (leaks g g) as Hg by (exists 0; by destruct g). specialize (H Hg).
    destruct (run W f p st) as [[r1 s1]| |] eqn:Hr; [|congruence..]. destruct H as (g1&H&k&->). rewrite Hf in H. injection H as -> -> ->.
    split; [by exists f|]. cbn. split; [done|lia].
  Qed.
End outcomes.
Lemma cworld_eq_refl {A} {CK : Checked} : forall (p : w_pos (cworld A)) b, w_eq (cworld A) p p = Ok b -> b = true.
Proof.
  intros p b. cbn [w_eq cworld]. destruct p as [r x|x|d r v i|r x]; cbn [c_eq].
  - rewrite bool_decide_eq_true_2 by done. congruence.
  - rewrite bool_decide_eq_true_2 by done. congruence.
  - rewrite bool_decide_eq_true_2 by done. rewrite Nat.eqb_refl, Z.eqb_refl. congruence.
  - rewrite bool_decide_eq_true_2 by done. congruence.
Qed.
