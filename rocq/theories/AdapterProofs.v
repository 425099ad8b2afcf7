(** AdapterProofs.v — proofs about the adapters of Adapters.v. *)
From stdpp Require Import list gmap.
From Verif Require Import Base Spec SpecSeq SpecAdapters Facts Buffer BufferProofs AlgoHeap AlgoHeapProofs Vector VectorProofs
  Deque DequeProofs DList SpecList Path DListCore DListProofs DListRunProofs Adapters.
From stdpp Require Import list.

Section proofs.
  Context {A : Type} (dflt : A) (alloc : heap A -> loc) (HA : malloc_ok alloc).
  Implicit Types h : heap A.
  Implicit Types b : backend A.
  Implicit Types l : list A.

  (** the backend [b] holds the sequence [l] in the nodes [g] of the heap *)
  Definition brep h b (k : bkind) l (g : list loc) : Prop :=
    bops b = k /\
    match bimpl b with
    | IVec v => k = KVector /\ vrep v l /\ g = []
    | IDeq d => k = KDeque /\ drep d l /\ g = []
    | IList s => k = KList /\ exists cs, is_list h s cs /\ l = cs.*2 /\ g = nodes s cs
    end.
  Lemma brep_inv h b k l g : brep h b k l g ->
    (exists v, b = Backend KVector (IVec v) /\ k = KVector /\ vrep v l /\ g = []) \/
    (exists d, b = Backend KDeque (IDeq d) /\ k = KDeque /\ drep d l /\ g = []) \/
    (exists s cs, b = Backend KList (IList s) /\ k = KList /\ is_list h s cs /\ l = cs.*2 /\ g = nodes s cs).
  Proof.
    destruct b as [o [v|d|s]]; intros [H1 H2]; cbn in H1, H2.
    - left. exists v. destruct H2 as (->&?&?). by subst.
    - right; left. exists d. destruct H2 as (->&?&?). by subst.
    - right; right. destruct H2 as (->&cs&?&?&?). exists s, cs. by subst.
  Qed.
  Lemma brep_vec h v l : vrep v l -> brep h (Backend KVector (IVec v)) KVector l [].
  Proof. done. Qed.
  Lemma brep_deq h d l : drep d l -> brep h (Backend KDeque (IDeq d)) KDeque l [].
  Proof. done. Qed.
  Lemma brep_list h s cs : is_list h s cs -> brep h (Backend KList (IList s)) KList cs.*2 (nodes s cs).
  Proof. intros H. split; [done|]. split; [done|]. by exists cs. Qed.
  Lemma brep_frame h h' b k l g old new : step h h' old new -> brep h b k l g -> (forall y, y ∈ g -> y ∉ old) ->
    brep h' b k l g.
  Proof.
    intros Hst Hb Hg. destruct (brep_inv _ _ _ _ _ Hb) as [(v&->&->&?&->)|[(d&->&->&?&->)|(s&cs&->&->&HL&->&->)]]; [done..|].
    apply brep_list. by eapply step_frame.
  Qed.
  Lemma brep_alloc h b k l g y : brep h b k l g -> y ∈ g -> is_Some (vl h !! y).
  Proof.
    intros Hb. destruct (brep_inv _ _ _ _ _ Hb) as [(v&->&->&?&->)|[(d&->&->&?&->)|(s&cs&->&->&HL&->&->)]]; [by intros ?%elem_of_nil..|].
    by apply is_list_vl.
  Qed.
  Lemma brep_NoDup h b k l g : brep h b k l g -> NoDup g.
  Proof.
    intros Hb. destruct (brep_inv _ _ _ _ _ Hb) as [(v&->&->&?&->)|[(d&->&->&?&->)|(s&cs&->&->&HL&->&->)]]; [by constructor..|].
    by destruct HL.
  Qed.

  (** ** observers *)
  Ltac cases H := destruct (brep_inv _ _ _ _ _ H) as [(v&->&->&HV&->)|[(d&->&->&HD&->)|(s&cs&->&->&HL&->&->)]].
  Lemma be_front_ok h b k l g : brep h b k l g -> be_front h b = Ok (head l).
  Proof. intros H. cases H; cbn; [by apply vrep_front|by apply drep_front|by apply front_ok]. Qed.
  Lemma be_back_ok h b k l g : brep h b k l g -> be_back h b = Ok (last l).
  Proof. intros H. cases H; cbn; [by apply vrep_back|by apply drep_back|by apply back_ok]. Qed.
  Lemma be_size_ok h b k l g : brep h b k l g -> be_size h b = Ok (length l).
  Proof.
    intros H. cases H; cbn; [|by rewrite (proj1 (drep_size _ _ HD))|rewrite (size_ok _ _ _ HL); by rewrite fmap_length].
    destruct HV as (r&_&Hf). unfold vec_size. by rewrite Hf.
  Qed.
  Lemma be_empty_ok h b k l g : brep h b k l g -> be_empty h b = Ok (length l =? 0).
  Proof.
    intros H. cases H; cbn; [|by rewrite (proj2 (drep_size _ _ HD))|rewrite (empty_ok _ _ _ HL); by destruct cs].
    destruct HV as (r&_&Hf). unfold vec_empty. by rewrite Hf.
  Qed.

  (** ** modifiers: each turns one backend into another, touching only its own nodes *)
  Definition bupd h h' b b' (k : bkind) l l' g : Prop :=
    exists g', brep h' b' k l' g' /\ step h h' g g'.
  Lemma step_id h : step h h [] [].
  Proof. by apply step_refl. Qed.
  Lemma create_backend_ok h k : let '(h', b) := create_backend alloc h k in
    exists g, brep h' b k [] g /\ step h h' [] g.
  Proof.
    destruct k; cbn [create_backend].
    - exists []. split; [apply brep_vec, VectorProofs.create_ok|apply step_id].
    - exists []. split; [apply brep_deq, dcreate_ok|apply step_id].
    - pose proof (DListProofs.create_ok alloc HA h) as Hc. destruct (c_list_create alloc h) as [h' s]. destruct Hc as (Hc&Hs&_).
      exists [s]. split; [|done]. by apply (brep_list h' s []).
  Qed.
  Lemma be_destroy_ok h b k l g : brep h b k l g -> exists h', be_destroy h b = Ok h' /\ step h h' g [].
  Proof.
    intros H. cases H; cbn.
    - destruct (VectorProofs.clear_ok v l HV) as (v'&Hv&_). unfold vec_destroy. rewrite Hv. cbn. exists h. split; [done|apply step_id].
    - destruct (dclear_ok d l HD) as (d'&Hd&_). unfold deq_destroy. rewrite Hd. cbn. exists h. split; [done|apply step_id].
    - destruct (destroy_ok h s cs HL) as (h'&Hd&Hs&_). exists h'. done.
  Qed.
  (** the reference [r] denotes the value [a] throughout a push to a backend of kind [k] *)
  Definition good_ref h (k : bkind) (r : bref A) (a : A) : Prop :=
    match r with
    | RVal x => x = a
    | ROwn _ _ => False
    | RNode x => value h x = Ok a
    end.
  Lemma be_push_back_ok h b k l g r a : brep h b k l g -> good_ref h k r a ->
    exists h' b', be_push_back dflt alloc h b r = Ok (h', b') /\ bupd h h' b b' k l (l ++ [a]) g.
  Proof.
    intros H Hr. cases H; cbn [be_push_back bops bimpl].
    - destruct (VectorProofs.push_back_ok v l a HV) as (v'&Hp&HV'&_).
      assert (block_arg h r = Ok (Val a)) as ->.
      { destruct r; cbn in Hr |- *; [by subst|done|by rewrite Hr]. }
      cbn [rbind]. rewrite Hp. cbn [rbind]. eexists _, _. split; [done|]. exists []. split; [by apply brep_vec|apply step_id].
    - destruct (dpush_back_ok d l a HD) as (d'&Hp&HD'&_).
      assert (block_arg h r = Ok (Val a)) as ->.
      { destruct r; cbn in Hr |- *; [by subst|done|by rewrite Hr]. }
      cbn [rbind]. rewrite Hp. cbn [rbind]. eexists _, _. split; [done|]. exists []. split; [by apply brep_deq|apply step_id].
    - assert (exists v, list_arg r = Ok v /\ deref h v = Ok a) as (v&->&Hv).
      { destruct r; cbn in Hr |- *; [exists (LVal a0); by subst|done|by exists (LNode x)]. }
      destruct (DListProofs.push_back_ok dflt alloc HA h s cs v a HL Hv) as (h'&Hp&(HL'&Hs&_)&_).
      cbn [rbind]. rewrite Hp. cbn [rbind]. eexists _, _. split; [done|]. exists (nodes s (cs ++ [(alloc h, a)])). split; [|done].
      replace (cs.*2 ++ [a]) with ((cs ++ [(alloc h, a)]).*2) by (by rewrite fmap_app). by apply brep_list.
  Qed.
  Lemma fmap_take' (cs : list (loc * A)) n : (take n cs).*2 = take n cs.*2.
  Proof. by rewrite fmap_take. Qed.
  Lemma be_pop_back_ok h b k l g : brep h b k l g ->
    exists h' b', be_pop_back h b = Ok (h', b') /\ bupd h h' b b' k l (take (length l - 1) l) g.
  Proof.
    intros H. cases H; cbn [be_pop_back bops bimpl].
    - destruct (VectorProofs.pop_back_ok v l HV) as (v'&Hp&HV'&_). rewrite Hp. cbn [rbind].
      eexists _, _. split; [done|]. exists []. split; [by apply brep_vec|apply step_id].
    - destruct (dpop_back_ok d l HD) as (d'&Hp&HD'&_). rewrite Hp. cbn [rbind].
      eexists _, _. split; [done|]. exists []. split; [by apply brep_deq|apply step_id].
    - destruct (DListProofs.pop_back_ok h s cs HL) as (h'&Hp&(HL'&Hs&_)). rewrite Hp. cbn [rbind].
      eexists _, _. split; [done|]. exists (nodes s (take (length cs - 1) cs)). split; [|done].
      rewrite fmap_length, <- fmap_take'. by apply brep_list.
  Qed.
  Lemma be_pop_front_ok h b k l g : brep h b k l g -> k ≠ KVector ->
    exists h' b', be_pop_front h b = Ok (h', b') /\ bupd h h' b b' k l (tail l) g.
  Proof.
    intros H Hk. cases H; cbn [be_pop_front bops bimpl]; [done| |].
    - destruct (dpop_front_ok d l HD) as (d'&Hp&HD'&_). rewrite Hp. cbn [rbind].
      eexists _, _. split; [done|]. exists []. split; [apply brep_deq; by destruct l|apply step_id].
    - destruct (DListProofs.pop_front_ok h s cs HL) as (h'&Hp&(HL'&Hs&_)). rewrite Hp. cbn [rbind].
      eexists _, _. split; [done|]. exists (nodes s (drop 1 cs)). split; [|done].
      replace (tail cs.*2) with ((drop 1 cs).*2) by (by destruct cs). by apply brep_list.
  Qed.
  Lemma be_pop_front_vec h b l g : brep h b KVector l g -> be_pop_front h b = UB.
  Proof.
    intros H. destruct (brep_inv _ _ _ _ _ H) as [(v&->&_)|[(d&_&[=]&_)|(s&cs&_&[=]&_)]]. done.
  Qed.
  Lemma be_swap_ok h b k l g b' l' g' : brep h b k l g -> brep h b' k l' g' -> be_swap b b' = Ok (b', b).
  Proof.
    intros H H'. cases H; destruct (brep_inv _ _ _ _ _ H') as [(v'&->&E&HV'&->)|[(d'&->&E&HD'&->)|(s'&cs'&->&E&HL'&->&->)]]; try discriminate E; done.
  Qed.
  Lemma be_swap_bad h b k l g b' k' l' g' : brep h b k l g -> brep h b' k' l' g' -> k ≠ k' -> be_swap b b' = UB.
  Proof.
    intros H H' Hk. cases H; destruct (brep_inv _ _ _ _ _ H') as [(v'&->&E&HV'&->)|[(d'&->&E&HD'&->)|(s'&cs'&->&E&HL'&->&->)]]; subst; done.
  Qed.

  (** ** references *)
  Lemma front_ref_ok h b k l g : brep h b k l g ->
    exists r, front_ref h b = Ok r /\
    match head l with
    | None => r = None
    | Some a => exists r', r = Some r' /\ (k = KList -> good_ref h k r' a) /\
        (exists r'', foreign h b r = Ok (Some r'') /\ forall k', good_ref h k' r'' a)
    end.
  Proof.
    intros H. cases H; cbn [front_ref bops bimpl].
    - destruct HV as (r&Hb&Hf). unfold vec_empty. rewrite Hf. destruct l as [|a l]; [by eexists|]. cbn [length Nat.eqb head].
      eexists. split; [done|]. eexists. split; [done|]. split; [done|]. exists (RVal a). split; [|done].
      unfold foreign. cbn [bimpl arg_get]. rewrite Nat.eqb_refl, Hb. done.
    - pose proof HD as (p&r&Hb&Hs&Hf). rewrite (proj2 (drep_size _ _ HD)). destruct l as [|a l]; [by eexists|]. cbn [length Nat.eqb head].
      eexists. split; [done|]. eexists. split; [done|]. split; [done|]. exists (RVal a). split; [|done].
      unfold foreign. cbn [bimpl arg_get]. rewrite Nat.eqb_refl, Hb. by rewrite (get_seg p (a :: l) r 0 _ a) by (done || lia).
    - rewrite (empty_ok _ _ _ HL). cbn [rbind]. destruct cs as [|[x a] cs]; cbn [fmap list_fmap head].
      + rewrite bool_decide_true by done. by eexists.
      + rewrite bool_decide_false by done. pose proof HL as (_&Hp&_&Hv). destruct Hp as [Hn _]. cbn in Hn.
        rewrite (next_ok _ _ _ Hn). cbn [rbind]. apply Forall_cons in Hv as [Hv _]. cbn in Hv. apply value_ok in Hv.
        eexists. split; [done|]. eexists. split; [done|]. split; [done|]. by eexists.
  Qed.
  Lemma back_ref_ok h b k l g : brep h b k l g ->
    exists r, back_ref h b = Ok r /\
    match last l with
    | None => r = None
    | Some a => exists r', r = Some r' /\ (k = KList -> good_ref h k r' a) /\
        (exists r'', foreign h b r = Ok (Some r'') /\ forall k', good_ref h k' r'' a)
    end.
  Proof.
    intros H. cases H; cbn [back_ref bops bimpl].
    - destruct HV as (r&Hb&Hf). unfold vec_empty. rewrite Hf. destruct l as [|a l _] using rev_ind; [by eexists|].
      rewrite last_snoc, app_length, Nat.add_comm. cbn [length Nat.eqb Nat.add Nat.sub]. rewrite Nat.sub_0_r.
      eexists. split; [done|]. eexists. split; [done|]. split; [done|]. exists (RVal a). split; [|done].
      unfold foreign. cbn [bimpl arg_get]. rewrite Nat.eqb_refl, Hb.
      by rewrite (get_map (l ++ [a]) r (length l) a) by (by apply list_lookup_middle).
    - pose proof HD as (p&r&Hb&Hs&Hf). rewrite (proj2 (drep_size _ _ HD)). destruct l as [|a l _] using rev_ind; [by eexists|].
      rewrite last_snoc, app_length, Nat.add_comm. cbn [length Nat.eqb Nat.add Nat.sub].
      eexists. split; [done|]. eexists. split; [done|]. split; [done|]. exists (RVal a). split; [|done].
      unfold foreign. cbn [bimpl arg_get]. rewrite Nat.eqb_refl, Hb. rewrite app_length in Hf. cbn in Hf.
      by rewrite (get_seg p (l ++ [a]) r (length l) _ a) by (lia || by apply list_lookup_middle).
    - rewrite (empty_ok _ _ _ HL). cbn [rbind]. destruct cs as [|[x a] cs _] using rev_ind.
      + rewrite bool_decide_true by done. by eexists.
      + rewrite bool_decide_false by (by destruct cs). rewrite fmap_app. cbn [fmap list_fmap]. rewrite last_snoc.
        pose proof HL as (_&_&_&Hv). apply Forall_app in Hv as [_ Hv]. apply Forall_cons in Hv as [Hv _]. cbn in Hv. apply value_ok in Hv.
        pose proof HL as HL'. rewrite <- (app_nil_r (cs ++ _)) in HL'. apply is_list_split in HL' as (_&_&Hp&_). cbn in Hp.
        rewrite fmap_app in Hp. cbn in Hp.
        assert (lst s (cs.*1 ++ [x]) = x) as Hx.
        { destruct (lst_last s (cs.*1 ++ [x])) as (pre&E). rewrite app_comm_cons in E. by apply app_inj_tail in E as [_ <-]. }
        rewrite Hx in Hp. rewrite (prev_ok _ _ _ Hp). cbn [rbind].
        eexists. split; [done|]. eexists. split; [done|]. split; [done|]. by eexists.
  Qed.

  (** ** a client's adapters *)
  Notation item := (backend A * (bkind * list A * list loc))%type.
  Implicit Types W : list item.
  Definition ikind (w : item) : bkind := w.2.1.1.
  Definition ielems (w : item) : list A := w.2.1.2.
  Definition inodes (w : item) : list loc := w.2.2.
  Definition feet W : list loc := concat (map inodes W).
  (** every adapter of the client is well formed, they share no node, and no other node is allocated *)
  Definition bworld h W : Prop :=
    NoDup (feet W) /\ Forall (fun w => brep h w.1 (ikind w) (ielems w) (inodes w)) W /\
    forall y, is_Some (vl h !! y) -> y ∈ feet W.
  Lemma feet_app W W' : feet (W ++ W') = feet W ++ feet W'.
  Proof. unfold feet. by rewrite map_app, concat_app. Qed.
  Lemma feet_perm W W' : W ≡ₚ W' -> feet W ≡ₚ feet W'.
  Proof. unfold feet. intros H. by rewrite H. Qed.
  Lemma bworld_step h h' W o n r W' : bworld h W -> W ≡ₚ o ++ r -> W' ≡ₚ n ++ r -> NoDup (feet n) ->
    Forall (fun w => brep h' w.1 (ikind w) (ielems w) (inodes w)) n -> step h h' (feet o) (feet n) -> bworld h' W'.
  Proof.
    intros (HN&HF&HO) Ho Hn Hnd HFn Hst.
    rewrite (feet_perm _ _ Ho), feet_app in HN. apply NoDup_app in HN as (HN1&HN2&HN3).
    rewrite Ho in HF. apply Forall_app in HF as [HFo HFr].
    assert (forall y, y ∈ feet r -> is_Some (vl h !! y)) as Hal.
    { intros y. unfold feet. rewrite elem_of_list_In, in_concat. intros (g&Hg&Hy). apply in_map_iff in Hg as (w&<-&Hw).
      rewrite Forall_forall in HFr. eapply brep_alloc; [apply HFr; by apply elem_of_list_In|by apply elem_of_list_In]. }
    assert (forall y, y ∈ feet n -> y ∉ feet r) as Hdis.
    { intros y Hy Hy'. destruct (decide (y ∈ feet o)) as [Hi|Hi]; [by eapply HN2|].
      destruct Hst as (_&_&Hst). pose proof (Hal y Hy') as Hs. rewrite Hst in Hs; [by destruct Hs|done..]. }
    split; [|split].
    - rewrite (feet_perm _ _ Hn), feet_app. apply NoDup_app. split; [done|]. split; [done|]. done.
    - rewrite Hn. apply Forall_app. split; [done|]. apply Forall_forall. intros w Hw. rewrite Forall_forall in HFr.
      eapply brep_frame; [exact Hst|by apply HFr|]. intros y Hy Hy'. eapply HN2; [done|].
      unfold feet. rewrite elem_of_list_In, in_concat. exists (inodes w). split; [|by apply elem_of_list_In].
      apply in_map_iff. exists w. split; [done|by apply elem_of_list_In].
    - intros y Hy. rewrite (feet_perm _ _ Hn), feet_app, elem_of_app.
      destruct (decide (y ∈ feet n)) as [Hi|Hi]; [by left|right].
      destruct (decide (y ∈ feet o)) as [Hi'|Hi'].
      + destruct Hst as (_&Hst&_). rewrite Hst in Hy by done. by destruct Hy.
      + destruct Hst as (Hst&_&_). destruct (Hst y) as [Hv _]; [done..|]. rewrite Hv in Hy. apply HO in Hy.
        rewrite (feet_perm _ _ Ho), feet_app, elem_of_app in Hy. by destruct Hy.
  Qed.
  Lemma feet_one (w : item) : feet [w] = inodes w.
  Proof. unfold feet. cbn. by rewrite app_nil_r. Qed.
  Lemma bworld_at h W i w : bworld h W -> W !! i = Some w -> brep h w.1 (ikind w) (ielems w) (inodes w).
  Proof. intros (_&HF&_) Hi. by eapply Forall_lookup_1 in HF. Qed.
  Lemma bworld_upd h h' W i w b' l' : bworld h W -> W !! i = Some w ->
    bupd h h' w.1 b' (ikind w) (ielems w) l' (inodes w) ->
    exists g', bworld h' (<[i := (b', (ikind w, l', g'))]> W).
  Proof.
    intros HW Hi (g'&Hb&Hs). exists g'. destruct (list_at W i _ Hi) as [Hp Hp'].
    eapply (bworld_step h h' W [w] [(b', (ikind w, l', g'))]); [done|exact Hp|apply Hp'| | |].
    - rewrite feet_one. by eapply brep_NoDup.
    - apply Forall_cons. by split; [|constructor].
    - by rewrite !feet_one.
  Qed.
  Lemma bworld_new h h' W b k g : bworld h W -> brep h' b k [] g -> step h h' [] g ->
    bworld h' (W ++ [(b, (k, [], g))]).
  Proof.
    intros HW Hb Hs. eapply (bworld_step h h' W [] [(b, (k, [], g))] W); [done|done|apply Permutation_app_comm| | |].
    - rewrite feet_one. by eapply brep_NoDup.
    - apply Forall_cons. by split; [|constructor].
    - by rewrite feet_one.
  Qed.
  Lemma bworld_del h h' W i w : bworld h W -> W !! i = Some w -> step h h' (inodes w) [] -> bworld h' (delete i W).
  Proof.
    intros HW Hi Hs. destruct (list_at W i _ Hi) as [Hp _].
    eapply (bworld_step h h' W [w] [] (delete i W)); [done|exact Hp|done|constructor|constructor|by rewrite feet_one].
  Qed.
  Lemma bworld_swap h W i j w u : bworld h W -> W !! i = Some w -> W !! j = Some u ->
    bworld h (<[j := w]> (<[i := u]> W)).
  Proof.
    intros HW Hi Hj. destruct (decide (i = j)) as [<-|Hij].
    { rewrite Hi in Hj. injection Hj as <-. by rewrite list_insert_insert, list_insert_id. }
    destruct (two_at W i j _ _ Hij Hi Hj) as (r&Hr&Hr').
    assert (<[j := w]> (<[i := u]> W) ≡ₚ W) as Hp by (rewrite Hr', Hr; constructor).
    destruct HW as (HN&HF&HO). split; [|split].
    - by rewrite (feet_perm _ _ Hp).
    - by rewrite Hp.
    - intros y Hy. rewrite (feet_perm _ _ Hp). by apply HO.
  Qed.
  Lemma bworld_nil : bworld (DListRun.heap0 : heap A) [].
  Proof. split; [constructor|]. split; [constructor|]. intros y [? Hy]. cbn in Hy. by rewrite lookup_empty in Hy. Qed.

  (** ** arguments *)
  Lemma nth_fmap W i w : W !! i = Some w -> nth_res W.*1 i = Ok w.1.
  Proof. intros H. unfold nth_res. by rewrite list_lookup_fmap, H. Qed.
  (** [v], in a push to adapter [i] of kind [k], denotes [a] *)
  Definition denotes W (k : bkind) (i : nat) (v : barg A) (a : option A) : Prop :=
    match v with
    | BVal x => a = Some x
    | BFront j => own_ok k i j = true /\ exists w, W !! j = Some w /\ a = head (ielems w)
    | BBack j => own_ok k i j = true /\ exists w, W !! j = Some w /\ a = last (ielems w)
    end.
  Lemma resolve_ok h W i w v a : bworld h W -> W !! i = Some w -> denotes W (ikind w) i v a ->
    exists r, resolve h W.*1 i v = Ok r /\
      match a with None => r = None | Some a => exists r', r = Some r' /\ good_ref h (ikind w) r' a end.
  Proof.
    intros HW Hi Hv.
    assert (forall j u, W !! j = Some u -> own_ok (ikind w) i j = true -> i = j -> ikind u = KList) as Hown.
    { intros j u Hj Ho <-. rewrite Hi in Hj. injection Hj as <-. unfold own_ok in Ho. rewrite Nat.eqb_refl in Ho. cbn in Ho.
      by apply bool_decide_eq_true in Ho. }
    destruct v as [x|j|j]; cbn [denotes] in Hv.
    - subst a. eexists. split; [done|]. by eexists.
    - destruct Hv as (Ho&u&Hj&->). cbn [resolve]. rewrite (nth_fmap _ _ _ Hj). cbn [rbind].
      destruct (front_ref_ok _ _ _ _ _ (bworld_at _ _ _ _ HW Hj)) as (r&->&Hr). cbn [rbind].
      destruct (head (ielems u)) as [a|].
      + destruct Hr as (r'&->&H1&r''&H2&H3). destruct (decide (i = j)) as [E|E].
        * eexists. split; [done|]. exists r'. split; [done|]. pose proof (Hown j u Hj Ho E) as Hk. subst j.
          rewrite Hi in Hj. injection Hj as <-. by apply H1.
        * rewrite H2. eexists. split; [done|]. exists r''. split; [done|]. apply H3.
      + subst r. destruct (decide (i = j)); by eexists.
    - destruct Hv as (Ho&u&Hj&->). cbn [resolve]. rewrite (nth_fmap _ _ _ Hj). cbn [rbind].
      destruct (back_ref_ok _ _ _ _ _ (bworld_at _ _ _ _ HW Hj)) as (r&->&Hr). cbn [rbind].
      destruct (last (ielems u)) as [a|].
      + destruct Hr as (r'&->&H1&r''&H2&H3). destruct (decide (i = j)) as [E|E].
        * eexists. split; [done|]. exists r'. split; [done|]. pose proof (Hown j u Hj Ho E) as Hk. subst j.
          rewrite Hi in Hj. injection Hj as <-. by apply H1.
        * rewrite H2. eexists. split; [done|]. exists r''. split; [done|]. apply H3.
      + subst r. destruct (decide (i = j)); by eexists.
  Qed.

  (** a push, common to stacks and queues *)
  Lemma push_common h W i w v a : bworld h W -> W !! i = Some w -> denotes W (ikind w) i v a ->
    exists r h' b' g', resolve h W.*1 i v = Ok r /\
      match r with None => Ok (h, w.1) | Some r => be_push_back dflt alloc h w.1 r end = Ok (h', b') /\
      bworld h' (<[i := (b', (ikind w, push_opt (fun a l => l ++ [a]) a (ielems w), g'))]> W).
  Proof.
    intros HW Hi Hv. destruct (resolve_ok h W i w v a HW Hi Hv) as (r&Hr&Ha). exists r. destruct a as [a|]; cbn [push_opt].
    - destruct Ha as (r'&->&Hg). destruct (be_push_back_ok _ _ _ _ _ _ _ (bworld_at _ _ _ _ HW Hi) Hg) as (h'&b'&Hp&Hu).
      destruct (bworld_upd _ _ _ _ _ _ _ HW Hi Hu) as (g'&HW'). exists h', b', g'. done.
    - subst r. exists h, w.1, (inodes w). split; [done|]. split; [done|].
      replace (w.1, (ikind w, ielems w, inodes w)) with w by (by destruct w as [? [[? ?] ?]]).
      by rewrite list_insert_id.
  Qed.

  Definition kl (w : item) : bkind * list A := (ikind w, ielems w).
  (** ** stacks: the backend holds the stack from bottom to top *)
  Definition srel W (ls : list (bkind * list A)) : Prop := ls = map (fun w => (ikind w, rev (ielems w))) W.
  Lemma srel_at W ls i t : srel W ls -> ls !! i = Some t -> exists w, W !! i = Some w /\ t = (ikind w, rev (ielems w)).
  Proof.
    unfold srel. change (map ?f W) with (f <$> W). intros -> Hi. rewrite list_lookup_fmap in Hi.
    destruct (W !! i) as [w|]; [|done]. injection Hi as <-. by exists w.
  Qed.
  Lemma head_rev (l : list A) : head (rev l) = last l.
  Proof. destruct l as [|a l _] using rev_ind; [done|]. by rewrite rev_unit, last_snoc. Qed.
  Lemma rev_take_tail (l : list A) : rev (take (length l - 1) l) = tail (rev l).
  Proof.
    destruct l as [|a l _] using rev_ind; [done|]. rewrite rev_unit, app_length. cbn.
    replace (length l + 1 - 1) with (length l) by lia. by rewrite take_app.
  Qed.
  Lemma stack_step_ok h W ls o ls' : bworld h W -> srel W ls -> stack_spec ls o = Some ls' ->
    exists h' W', sop_run dflt alloc (h, W.*1) o = Ok (h', W'.*1) /\ bworld h' W' /\ srel W' ls'.
  Proof.
    intros HW HR Hs. destruct o as [k|i v|i|i j|i]; cbn [stack_spec] in Hs.
    - injection Hs as <-. cbn [sop_run]. unfold c_stack_create. pose proof (create_backend_ok h k) as Hc.
      destruct (create_backend alloc h k) as [h' b]. destruct Hc as (g&Hb&Hst).
      exists h', (W ++ [(b, (k, [], g))]). split; [by rewrite fmap_app|]. split; [by eapply bworld_new|].
      unfold srel in *. by rewrite map_app, HR.
    - apply bind_Some in Hs as (t&Ht&Hs). apply bind_Some in Hs as (a&Ha&Hs). injection Hs as <-.
      destruct (srel_at _ _ _ _ HR Ht) as (w&Hi&->). cbn [fst snd] in *.
      assert (denotes W (ikind w) i v a) as Hd.
      { destruct v as [x|j|j]; cbn in Ha |- *; [congruence|done|]. destruct (own_ok (ikind w) i j); [|done]. split; [done|].
        apply fmap_Some in Ha as (u&Hu&->). destruct (srel_at _ _ _ _ HR Hu) as (w'&Hj&->). exists w'. split; [done|]. apply head_rev. }
      destruct (push_common h W i w v a HW Hi Hd) as (r&h'&b'&g'&Hr&Hp&HW').
      exists h'. eexists. split; [|split; [exact HW'|]].
      + cbn [sop_run]. rewrite (nth_fmap _ _ _ Hi). cbn [rbind]. rewrite Hr. cbn [rbind]. unfold c_stack_push. rewrite Hp. cbn [rbind].
        by rewrite list_fmap_insert.
      + unfold srel in *. change (map ?f ?l) with (f <$> l) in *. rewrite list_fmap_insert, <- HR. cbn. f_equal. f_equal.
        destruct a as [a|]; [|done]. cbn [push_opt]. by rewrite rev_unit.
    - apply bind_Some in Hs as (t&Ht&Hs). injection Hs as <-. destruct (srel_at _ _ _ _ HR Ht) as (w&Hi&->). cbn [fst snd] in *.
      destruct (be_pop_back_ok _ _ _ _ _ (bworld_at _ _ _ _ HW Hi)) as (h'&b'&Hp&Hu).
      destruct (bworld_upd _ _ _ _ _ _ _ HW Hi Hu) as (g'&HW'). exists h'. eexists. split; [|split; [exact HW'|]].
      + cbn [sop_run]. rewrite (nth_fmap _ _ _ Hi). cbn [rbind]. unfold c_stack_pop. rewrite Hp. cbn [rbind]. by rewrite list_fmap_insert.
      + unfold srel in *. change (map ?f ?l) with (f <$> l) in *. rewrite list_fmap_insert, <- HR. cbn. by rewrite rev_take_tail.
    - apply bind_Some in Hs as (t&Ht&Hs). apply bind_Some in Hs as (u&Hu&Hs). case_bool_decide as Hk; [|done]. injection Hs as <-.
      destruct (srel_at _ _ _ _ HR Ht) as (w&Hi&->). destruct (srel_at _ _ _ _ HR Hu) as (w'&Hj&->). cbn in Hk.
      exists h, (<[j := w]> (<[i := w']> W)). split; [|split; [by apply bworld_swap|]].
      + cbn [sop_run]. rewrite (nth_fmap _ _ _ Hi). cbn [rbind]. rewrite (nth_fmap _ _ _ Hj). cbn [rbind]. unfold c_stack_swap.
        pose proof (bworld_at _ _ _ _ HW Hj) as Hb'. rewrite <- Hk in Hb'.
        rewrite (be_swap_ok _ _ _ _ _ _ _ _ (bworld_at _ _ _ _ HW Hi) Hb'). cbn [rbind]. by rewrite !list_fmap_insert.
      + unfold srel in *. change (map ?f ?l) with (f <$> l) in *. by rewrite !list_fmap_insert, <- HR.
    - apply bind_Some in Hs as (t&Ht&Hs). injection Hs as <-. destruct (srel_at _ _ _ _ HR Ht) as (w&Hi&->).
      destruct (be_destroy_ok _ _ _ _ _ (bworld_at _ _ _ _ HW Hi)) as (h'&Hd&Hst).
      exists h', (delete i W). split; [|split; [by eapply bworld_del|]].
      + cbn [sop_run]. rewrite (nth_fmap _ _ _ Hi). cbn [rbind]. unfold c_stack_destroy. rewrite Hd. cbn [rbind]. by rewrite list_fmap_delete.
      + unfold srel in *. change (map ?f ?l) with (f <$> l) in *. by rewrite list_fmap_delete, <- HR.
  Qed.
  Lemma stack_hist_ok os : forall h W ls ls', bworld h W -> srel W ls -> stack_hist ls os = Some ls' ->
    exists h' W', shist_run dflt alloc (h, W.*1) os = Ok (h', W'.*1) /\ bworld h' W' /\ srel W' ls'.
  Proof.
    induction os as [|o os IH]; intros h W ls ls' HW HR Hs; cbn [stack_hist] in Hs.
    - injection Hs as <-. by exists h, W.
    - apply bind_Some in Hs as (l1&H1&Hs). destruct (stack_step_ok _ _ _ _ _ HW HR H1) as (h1&W1&Hr&HW1&HR1).
      destruct (IH _ _ _ _ HW1 HR1 Hs) as (h2&W2&Hr2&HW2&HR2). exists h2, W2. split; [|done].
      cbn [shist_run]. rewrite Hr. cbn [rbind]. done.
  Qed.

  (** ** queues *)
  Definition qrel W (ls : list (bkind * list A)) : Prop := ls = map kl W.
  Lemma qrel_at W ls i t : qrel W ls -> ls !! i = Some t -> exists w, W !! i = Some w /\ t = kl w.
  Proof.
    unfold qrel. change (map ?f W) with (f <$> W). intros -> Hi. rewrite list_lookup_fmap in Hi.
    destruct (W !! i) as [w|]; [|done]. injection Hi as <-. by exists w.
  Qed.
  Lemma queue_step_ok h W ls o ls' : bworld h W -> qrel W ls -> queue_spec ls o = Some ls' ->
    exists h' W', qop_run dflt alloc (h, W.*1) o = Ok (h', W'.*1) /\ bworld h' W' /\ qrel W' ls'.
  Proof.
    intros HW HR Hs. destruct o as [k|i v|i|i j|i]; cbn [queue_spec] in Hs.
    - injection Hs as <-. cbn [qop_run]. unfold c_queue_create. pose proof (create_backend_ok h k) as Hc.
      destruct (create_backend alloc h k) as [h' b]. destruct Hc as (g&Hb&Hst).
      exists h', (W ++ [(b, (k, [], g))]). split; [by rewrite fmap_app|]. split; [by eapply bworld_new|].
      unfold qrel in *. by rewrite map_app, HR.
    - apply bind_Some in Hs as (t&Ht&Hs). apply bind_Some in Hs as (a&Ha&Hs). injection Hs as <-.
      destruct (qrel_at _ _ _ _ HR Ht) as (w&Hi&->). cbn [fst snd kl] in *.
      assert (denotes W (ikind w) i v a) as Hd.
      { destruct v as [x|j|j]; cbn in Ha |- *; [congruence| |].
        - destruct (own_ok (ikind w) i j); [|done]. split; [done|].
          apply fmap_Some in Ha as (u&Hu&->). destruct (qrel_at _ _ _ _ HR Hu) as (w'&Hj&->). by exists w'.
        - destruct (own_ok (ikind w) i j); [|done]. split; [done|].
          apply fmap_Some in Ha as (u&Hu&->). destruct (qrel_at _ _ _ _ HR Hu) as (w'&Hj&->). by exists w'. }
      destruct (push_common h W i w v a HW Hi Hd) as (r&h'&b'&g'&Hr&Hp&HW').
      exists h'. eexists. split; [|split; [exact HW'|]].
      + cbn [qop_run]. rewrite (nth_fmap _ _ _ Hi). cbn [rbind]. rewrite Hr. cbn [rbind]. unfold c_queue_push. rewrite Hp. cbn [rbind].
        by rewrite list_fmap_insert.
      + unfold qrel in *. change (map ?f ?l) with (f <$> l) in *. by rewrite list_fmap_insert, <- HR.
    - apply bind_Some in Hs as (t&Ht&Hs). case_bool_decide as Hk; [done|]. injection Hs as <-.
      destruct (qrel_at _ _ _ _ HR Ht) as (w&Hi&->). cbn [fst snd kl] in *.
      destruct (be_pop_front_ok _ _ _ _ _ (bworld_at _ _ _ _ HW Hi) Hk) as (h'&b'&Hp&Hu).
      destruct (bworld_upd _ _ _ _ _ _ _ HW Hi Hu) as (g'&HW'). exists h'. eexists. split; [|split; [exact HW'|]].
      + cbn [qop_run]. rewrite (nth_fmap _ _ _ Hi). cbn [rbind]. unfold c_queue_pop. rewrite Hp. cbn [rbind]. by rewrite list_fmap_insert.
      + unfold qrel in *. change (map ?f ?l) with (f <$> l) in *. by rewrite list_fmap_insert, <- HR.
    - apply bind_Some in Hs as (t&Ht&Hs). apply bind_Some in Hs as (u&Hu&Hs). case_bool_decide as Hk; [|done]. injection Hs as <-.
      destruct (qrel_at _ _ _ _ HR Ht) as (w&Hi&->). destruct (qrel_at _ _ _ _ HR Hu) as (w'&Hj&->). cbn in Hk.
      exists h, (<[j := w]> (<[i := w']> W)). split; [|split; [by apply bworld_swap|]].
      + cbn [qop_run]. rewrite (nth_fmap _ _ _ Hi). cbn [rbind]. rewrite (nth_fmap _ _ _ Hj). cbn [rbind]. unfold c_queue_swap.
        pose proof (bworld_at _ _ _ _ HW Hj) as Hb'. rewrite <- Hk in Hb'.
        rewrite (be_swap_ok _ _ _ _ _ _ _ _ (bworld_at _ _ _ _ HW Hi) Hb'). cbn [rbind]. by rewrite !list_fmap_insert.
      + unfold qrel in *. change (map ?f ?l) with (f <$> l) in *. by rewrite !list_fmap_insert, <- HR.
    - apply bind_Some in Hs as (t&Ht&Hs). injection Hs as <-. destruct (qrel_at _ _ _ _ HR Ht) as (w&Hi&->).
      destruct (be_destroy_ok _ _ _ _ _ (bworld_at _ _ _ _ HW Hi)) as (h'&Hd&Hst).
      exists h', (delete i W). split; [|split; [by eapply bworld_del|]].
      + cbn [qop_run]. rewrite (nth_fmap _ _ _ Hi). cbn [rbind]. unfold c_queue_destroy. rewrite Hd. cbn [rbind]. by rewrite list_fmap_delete.
      + unfold qrel in *. change (map ?f ?l) with (f <$> l) in *. by rewrite list_fmap_delete, <- HR.
  Qed.
  Lemma queue_hist_ok os : forall h W ls ls', bworld h W -> qrel W ls -> queue_hist ls os = Some ls' ->
    exists h' W', qhist_run dflt alloc (h, W.*1) os = Ok (h', W'.*1) /\ bworld h' W' /\ qrel W' ls'.
  Proof.
    induction os as [|o os IH]; intros h W ls ls' HW HR Hs; cbn [queue_hist] in Hs.
    - injection Hs as <-. by exists h, W.
    - apply bind_Some in Hs as (l1&H1&Hs). destruct (queue_step_ok _ _ _ _ _ HW HR H1) as (h1&W1&Hr&HW1&HR1).
      destruct (IH _ _ _ _ HW1 HR1 Hs) as (h2&W2&Hr2&HW2&HR2). exists h2, W2. split; [|done].
      cbn [qhist_run]. rewrite Hr. cbn [rbind]. done.
  Qed.
End proofs.
