(** AdapterOomProofs.v — proofs about the adapters when malloc may fail. *)
From stdpp Require Import list gmap.
From Verif Require Import Base Spec SpecSeq SpecAdapters SpecAdapterOom Facts Buffer BufferProofs AlgoHeap AlgoHeapProofs AlgoHeapAny Vector VectorProofs
  Deque DequeProofs DList SpecList Path DListCore DListProofs DListRunProofs DListOom DListOomProofs OomSeq OomSeqProofs
  Adapters AdapterObs AdapterProofs AdapterPQ AdapterOom.
From stdpp Require Import list.

Section proofs.
  Context {A : Type} (dflt : A) (alloc : heap A -> loc) (HA : malloc_ok alloc).
  Implicit Types h : heap A.
  Implicit Types b : backend A.
  Implicit Types l : list A.
  Notation item := (backend A * (bkind * list A * list loc))%type.
  Implicit Types W : list item.

  Lemma create_impl_m_ok r n h k : exists r' n' h' o, create_impl_m alloc r n h k = (r', n', h', o) /\
    match o with
    | Some i => n' = S n /\ spent r r' True /\ create_backend alloc h k = (h', Backend k i) /\ exists g, brep h' (Backend k i) k [] g /\ step h h' [] g
    | None => n' = n /\ h' = h /\ spent r r' False
    end.
  Proof.
    destruct k; cbn [create_impl_m].
    - pose proof (outcome_spent r) as Hs. destruct (outcome r) as [[] r']; cbn [fst snd vec_create_m] in *.
      + eexists _, _, _, _. split; [done|]. split; [done|]. split; [by eapply spent_mono|]. split; [done|]. exists []. split; [apply brep_vec, VectorProofs.create_ok|apply step_id].
      + eexists _, _, _, _. split; [done|]. split; [done|]. split; [done|]. by eapply spent_mono.
    - pose proof (outcome_spent r) as Hs. destruct (outcome r) as [[] r']; cbn [fst snd deq_create_m] in *.
      + eexists _, _, _, _. split; [done|]. split; [done|]. split; [by eapply spent_mono|]. split; [done|]. exists []. split; [apply brep_deq, dcreate_ok|apply step_id].
      + eexists _, _, _, _. split; [done|]. split; [done|]. split; [done|]. by eapply spent_mono.
    - destruct (create_m_ok alloc r h) as (r'&h'&[s|]&->&Hs&Ho).
      + eexists _, _, _, _. split; [done|]. split; [done|]. split; [by eapply spent_mono|].
        pose proof (DListProofs.create_ok alloc HA h) as Hc. rewrite Ho in Hc. destruct Hc as (Hc&Hst&_).
        split; [cbn [create_backend]; by rewrite Ho|]. exists [s]. split; [|done]. by apply (brep_list h' s []).
      + eexists _, _, _, _. split; [done|]. split; [done|]. split; [done|]. eapply spent_mono; [done|]. by intros [? [=]].
  Qed.
  Lemma create_backend_m_ok r n h k : exists r' n' h' o, create_backend_m alloc r n h k = Ok (r', n', h', o) /\
    match o with
    | Some b => n' = S (S n) /\ spent r r' True /\ create_backend alloc h k = (h', b) /\ exists g, brep h' b k [] g /\ step h h' [] g
    | None => n' = n /\ h' = h /\ spent r r' False
    end.
  Proof.
    unfold create_backend_m. pose proof (outcome_spent r) as Hs. destruct (outcome r) as [[] r1]; cbn [fst snd negb] in *.
    - destruct (create_impl_m_ok r1 (Datatypes.S n) h k) as (r'&n'&h'&[i|]&->&H).
      + destruct H as (->&Hs'&Hg). eexists _, _, _, _. split; [done|]. split; [done|]. split; [|done]. by eapply spent_trans.
      + destruct H as (->&->&Hs'). cbn. eexists _, _, _, _. split; [done|]. split; [lia|]. split; [done|]. by eapply spent_trans.
    - eexists _, _, _, _. split; [done|]. split; [done|]. split; [done|]. by eapply spent_mono.
  Qed.
  Lemma adapter_create_m_ok r n h k : exists r' n' h' o, adapter_create_m alloc r n h k = Ok (r', n', h', o) /\
    match o with
    | Some b => n' = S (S (S n)) /\ spent r r' True /\ create_backend alloc h k = (h', b) /\ exists g, brep h' b k [] g /\ step h h' [] g
    | None => n' = n /\ h' = h /\ spent r r' False
    end.
  Proof.
    unfold adapter_create_m. pose proof (outcome_spent r) as Hs. destruct (outcome r) as [[] r1]; cbn [fst snd negb] in *.
    - destruct (create_backend_m_ok r1 (Datatypes.S n) h k) as (r'&n'&h'&[b|]&->&H); cbn [rbind].
      + destruct H as (->&Hs'&Hg). eexists _, _, _, _. split; [done|]. split; [done|]. split; [|done]. by eapply spent_trans.
      + destruct H as (->&->&Hs'). cbn. eexists _, _, _, _. split; [done|]. split; [lia|]. split; [done|]. by eapply spent_trans.
    - eexists _, _, _, _. split; [done|]. split; [done|]. split; [done|]. by eapply spent_mono.
  Qed.
  Lemma adapter_destroy_m_ok n h b k l g : brep h b k l g -> 3 <= n -> exists h', adapter_destroy_m n h b = Ok (n - 3, h') /\ be_destroy h b = Ok h' /\ step h h' g [].
  Proof.
    intros Hb Hn. destruct (be_destroy_ok _ _ _ _ _ Hb) as (h'&Hd&Hst). exists h'. split; [|by split]. unfold adapter_destroy_m, frees. rewrite Hd. cbn [rbind].
    rewrite (proj2 (Nat.leb_le 2 n)) by lia. cbn [rbind]. rewrite (proj2 (Nat.leb_le 1 (n - 2))) by lia. cbn [rbind]. by replace (n - 2 - 1) with (n - 3) by lia.
  Qed.
  Lemma be_push_back_m_ok r h b k l g x a : brep h b k l g -> good_ref h k x a ->
    exists r' h' b' l', be_push_back_m dflt alloc r h b x = Ok (r', h', b') /\ bupd h h' b b' k l l' g /\
      (l' = l \/ l' = l ++ [a]) /\ spent r r' (l' = l ++ [a]) /\
      (k ≠ KList -> spent r r' (be_push_back dflt alloc h b x = Ok (h', b'))).
  Proof.
    intros H Hr. destruct (brep_inv _ _ _ _ _ H) as [(v&->&->&HV&->)|[(d&->&->&HD&->)|(s&cs&->&->&HL&->&->)]]; cbn [be_push_back_m bops bimpl].
    - assert (block_arg h x = Ok (Val a)) as Harg.
      { destruct x; cbn in Hr |- *; [by subst|done|by rewrite Hr]. }
      rewrite Harg. cbn [rbind].
      assert (exists ok r', (if Vector.fin v =? length (buf v) then outcome r else (true, r)) = (ok, r') /\ spent r r' (ok = true)) as (ok&r'&->&Hs).
      { destruct (_ =? _); [|exists true, r; split; [done|by apply spent_refl]]. exists (outcome r).1, (outcome r).2.
        split; [by destruct (outcome r)|apply outcome_spent]. }
      destruct (vec_step_m_ok dflt ok v l (VPushBack a) HV) as (v'&He&Hv). cbn [vec_step_m] in He. rewrite He. cbn [rbind].
      destruct Hv as [Hv|(->&->&_)].
      + exists r', h. eexists _, (l ++ [a]). split; [done|]. split; [exists []; split; [by apply brep_vec|apply step_id]|]. split; [by right|]. split; [by eapply spent_mono|].
        intros _. eapply spent_mono; [exact Hs|]. intros ->. cbn [be_push_back bops bimpl]. rewrite Harg. cbn [rbind].
        pose proof (vec_step_m_true dflt v (VPushBack a)) as Ht. cbn [vec_step_m vec_step] in Ht. rewrite Ht in He. by rewrite He.
      + exists r', h. eexists _, l. split; [done|]. split; [exists []; split; [by apply brep_vec|apply step_id]|]. split; [by left|]. split; [by eapply spent_mono|].
        intros _. by eapply spent_mono.
    - assert (block_arg h x = Ok (Val a)) as Harg.
      { destruct x; cbn in Hr |- *; [by subst|done|by rewrite Hr]. }
      rewrite Harg. cbn [rbind].
      assert (exists ok r', (if dfin d =? length (dbuf d) then outcome r else (true, r)) = (ok, r') /\ spent r r' (ok = true)) as (ok&r'&->&Hs).
      { destruct (_ =? _); [|exists true, r; split; [done|by apply spent_refl]]. exists (outcome r).1, (outcome r).2.
        split; [by destruct (outcome r)|apply outcome_spent]. }
      destruct (deq_step_m_ok dflt ok d l (DPushBack a) HD) as (d'&He&Hd). cbn [deq_step_m] in He. rewrite He. cbn [rbind].
      destruct Hd as [Hd|(->&->&_)].
      + exists r', h. eexists _, (l ++ [a]). split; [done|]. split; [exists []; split; [by apply brep_deq|apply step_id]|]. split; [by right|]. split; [by eapply spent_mono|].
        intros _. eapply spent_mono; [exact Hs|]. intros ->. cbn [be_push_back bops bimpl]. rewrite Harg. cbn [rbind].
        pose proof (deq_step_m_true dflt d (DPushBack a)) as Ht. cbn [deq_step_m deq_step] in Ht. rewrite Ht in He. by rewrite He.
      + exists r', h. eexists _, l. split; [done|]. split; [exists []; split; [by apply brep_deq|apply step_id]|]. split; [by left|]. split; [by eapply spent_mono|].
        intros _. by eapply spent_mono.
    - assert (exists v, list_arg x = Ok v /\ deref h v = Ok a) as (v&->&Hv).
      { destruct x; cbn in Hr |- *; [exists (LVal a0); by subst|done|by exists (LNode x)]. }
      destruct (push_back_m_ok dflt alloc HA r h s cs v a HL Hv) as (r'&h'&new&Hp&(HL'&Hs&_)&_&Hnew&Hsp).
      cbn [rbind]. rewrite Hp. cbn [rbind]. exists r', h'. eexists _, (cs.*2 ++ new.*2). split; [done|].
      split; [exists (nodes s (cs ++ new)); split; [rewrite <- fmap_app; by apply brep_list|done]|].
      split.
      + destruct Hnew as [->| ->]; [left; apply app_nil_r|by right].
      + split; [|done]. eapply spent_mono; [done|]. by intros ->.
  Qed.

  (** ** stacks and queues *)
  Lemma push_common_m r h W i w v a : bworld h W -> W !! i = Some w -> denotes W (ikind w) i v a ->
    exists x r' h' b' g' l', resolve h W.*1 i v = Ok x /\ adapter_push_m dflt alloc r h w.1 x = Ok (r', h', b') /\
      bworld h' (<[i := (b', (ikind w, l', g'))]> W) /\ (l' = ielems w \/ l' = push_opt (fun a l => l ++ [a]) a (ielems w)) /\
      spent r r' (l' = push_opt (fun a l => l ++ [a]) a (ielems w)).
  Proof.
    intros HW Hi Hv. destruct (resolve_ok h W i w v a HW Hi Hv) as (x&Hr&Ha). exists x. destruct a as [a|]; cbn [push_opt].
    - destruct Ha as (r'&->&Hg). destruct (be_push_back_m_ok r _ _ _ _ _ _ _ (bworld_at _ _ _ _ HW Hi) Hg) as (r1&h'&b'&l'&Hp&Hu&Hl&Hs&_).
      destruct (bworld_upd _ _ _ _ _ _ _ HW Hi Hu) as (g'&HW'). exists r1, h', b', g', l'. done.
    - subst x. exists r, h, w.1, (inodes w), (ielems w). split; [done|]. split; [done|].
      replace (w.1, (ikind w, ielems w, inodes w)) with w by (by destruct w as [? [[? ?] ?]]).
      rewrite list_insert_id by done. split; [done|]. split; [by left|]. by apply spent_refl.
  Qed.

  Lemma stack_step_m_ok r h W ls o ls' : bworld h W -> srel W ls -> stack_spec ls o = Some ls' ->
    exists r' h' W' ls2, sop_run_m dflt alloc (r, 3 * length W, h, W.*1) o = Ok (r', 3 * length W', h', W'.*1) /\ bworld h' W' /\ srel W' ls2 /\
      adapter_may stack_spec ls o ls2 /\ spent r r' (ls2 = ls').
  Proof.
    intros HW HR Hs. destruct o as [k|i v|i|i j|i].
    - cbn [stack_spec] in Hs. injection Hs as <-. cbn [sop_run_m].
      destruct (adapter_create_m_ok r (3 * length W) h k) as (r'&n'&h'&[b|]&->&Ho); cbn [rbind keep].
      + destruct Ho as (->&Hsp&_&g&Hb&Hst). exists r', h', (W ++ [(b, (k, [], g))]), (ls ++ [(k, [])]).
        split; [rewrite fmap_app, app_length; cbn [length fmap list_fmap]; by replace (3 * (length W + 1)) with (Datatypes.S (Datatypes.S (Datatypes.S (3 * length W)))) by lia|]. split; [by eapply bworld_new|].
        split; [unfold srel in *; by rewrite map_app, HR|]. split; [by apply amay_done|]. by eapply spent_mono.
      + destruct Ho as (->&->&Hsp). exists r', h, W, ls. split; [done|]. split; [done|]. split; [done|]. split; [apply amay_no_adapter|]. by eapply spent_mono.
    - pose proof Hs as Hs0. cbn [stack_spec] in Hs. apply bind_Some in Hs as (t&Ht&Hs). apply bind_Some in Hs as (a&Ha&Hs). injection Hs as <-.
      destruct (srel_at _ _ _ _ HR Ht) as (w&Hi&->). cbn [fst snd] in *.
      assert (denotes W (ikind w) i v a) as Hd.
      { destruct v as [x|j|j]; cbn in Ha |- *; [congruence|done|]. destruct (own_ok (ikind w) i j); [|done]. split; [done|].
        apply fmap_Some in Ha as (u&Hu&->). destruct (srel_at _ _ _ _ HR Hu) as (w'&Hj&->). exists w'. split; [done|]. apply head_rev. }
      destruct (push_common_m r h W i w v a HW Hi Hd) as (x&r'&h'&b'&g'&l'&Hr&Hp&HW'&Hl&Hsp).
      exists r', h'. eexists _, (<[i := (ikind w, rev l')]> ls). split; [|split; [exact HW'|]].
      + cbn [sop_run_m]. rewrite (nth_fmap _ _ _ Hi). cbn [rbind]. rewrite Hr. cbn [rbind]. rewrite Hp. cbn [rbind].
        by rewrite list_fmap_insert, insert_length.
      + assert (rev (push_opt (fun a l => l ++ [a]) a (ielems w)) = push_opt cons a (rev (ielems w))) as Hrev.
        { destruct a as [a|]; [|done]. cbn [push_opt]. by rewrite rev_unit. }
        split; [unfold srel in *; change (map ?f ?l) with (f <$> l) in *; by rewrite list_fmap_insert, <- HR|].
        split.
        * destruct Hl as [->| ->].
          -- rewrite list_insert_id by done. apply amay_not_pushed.
          -- apply amay_done. rewrite Hs0. by rewrite Hrev.
        * eapply spent_mono; [done|]. intros ->. by rewrite Hrev.
    - destruct (stack_step_ok dflt alloc HA h W ls _ ls' HW HR Hs) as (h'&W'&Hr&HW'&HR').
      assert (length W' = length W) as EL.
      { cbn [stack_spec] in Hs. apply bind_Some in Hs as (t&Ht&Hs). injection Hs as <-. unfold srel in HR, HR'.
        apply (f_equal length) in HR'. rewrite insert_length, HR, !map_length in HR'. done. }
      exists r, h', W', ls'. split; [cbn [sop_run_m]; rewrite Hr; cbn [rbind]; by rewrite EL|]. split; [done|]. split; [done|].
      split; [by apply amay_done|by apply spent_refl].
    - destruct (stack_step_ok dflt alloc HA h W ls _ ls' HW HR Hs) as (h'&W'&Hr&HW'&HR').
      assert (length W' = length W) as EL.
      { cbn [stack_spec] in Hs. apply bind_Some in Hs as (t&Ht&Hs). apply bind_Some in Hs as (u&Hu&Hs). case_bool_decide; [|done].
        injection Hs as <-. unfold srel in HR, HR'. apply (f_equal length) in HR'. rewrite !insert_length, HR, !map_length in HR'. done. }
      exists r, h', W', ls'. split; [cbn [sop_run_m]; rewrite Hr; cbn [rbind]; by rewrite EL|]. split; [done|]. split; [done|].
      split; [by apply amay_done|by apply spent_refl].
    - pose proof Hs as Hs0. cbn [stack_spec] in Hs. apply bind_Some in Hs as (t&Ht&Hs). injection Hs as <-. destruct (srel_at _ _ _ _ HR Ht) as (w&Hi&->).
      pose proof (lookup_lt_Some _ _ _ Hi) as Hlt.
      destruct (adapter_destroy_m_ok (3 * length W) _ _ _ _ _ (bworld_at _ _ _ _ HW Hi)) as (h'&Hd&_&Hst); [lia|].
      exists r, h', (delete i W), (delete i ls). split; [|split; [by eapply bworld_del|split; [|split; [by apply amay_done|by apply spent_refl]]]].
      + cbn [sop_run_m]. rewrite (nth_fmap _ _ _ Hi). cbn [rbind]. rewrite Hd. cbn [rbind]. rewrite list_fmap_delete.
        rewrite length_delete by (by exists w). by replace (3 * (length W - 1)) with (3 * length W - 3) by lia.
      + unfold srel in *. change (map ?f ?l) with (f <$> l) in *. by rewrite list_fmap_delete, <- HR.
  Qed.
  Lemma stack_hist_m_ok os : forall r h W ls, bworld h W -> srel W ls ->
    exists n r' h' W' ls', shist_run_m dflt alloc (r, 3 * length W, h, W.*1) (take n os) = Ok (r', 3 * length W', h', W'.*1) /\
      bworld h' W' /\ srel W' ls' /\ ahist_may stack_spec ls (take n os) ls' /\
      (n = length os \/ exists o, os !! n = Some o /\ stack_spec ls' o = None) /\
      spent r r' (stack_hist ls (take n os) = Some ls').
  Proof.
    induction os as [|o os IH]; intros r h W ls HW HR.
    - exists 0, r, h, W, ls. rewrite take_0. split; [done|]. split; [done|]. split; [done|]. split; [constructor|]. split; [by left|by apply spent_refl].
    - destruct (stack_spec ls o) as [ls1|] eqn:E.
      + destruct (stack_step_m_ok r h W ls o ls1 HW HR E) as (r1&h1&W1&ls2&H1&HW1&HR1&Hm&Hsp).
        destruct (IH r1 h1 W1 ls2 HW1 HR1) as (n&r'&h'&W'&ls'&H2&HW'&HR'&Hm'&Hn&Hsp').
        exists (Datatypes.S n), r', h', W', ls'. cbn [take firstn shist_run_m]. rewrite H1. cbn [rbind]. split; [done|]. split; [done|]. split; [done|].
        split; [by econstructor|]. split; [destruct Hn as [->|Hn]; [by left|by right]|].
        eapply spent_trans; [exact Hsp|exact Hsp'|]. intros ->. cbn [stack_hist]. by rewrite E.
      + exists 0, r, h, W, ls. rewrite take_0. split; [done|]. split; [done|]. split; [done|]. split; [constructor|]. split; [right; by exists o|by apply spent_refl].
  Qed.

  Lemma queue_step_m_ok r h W ls o ls' : bworld h W -> qrel W ls -> queue_spec ls o = Some ls' ->
    exists r' h' W' ls2, qop_run_m dflt alloc (r, 3 * length W, h, W.*1) o = Ok (r', 3 * length W', h', W'.*1) /\ bworld h' W' /\ qrel W' ls2 /\
      adapter_may queue_spec ls o ls2 /\ spent r r' (ls2 = ls').
  Proof.
    intros HW HR Hs. destruct o as [k|i v|i|i j|i].
    - cbn [queue_spec] in Hs. injection Hs as <-. cbn [qop_run_m].
      destruct (adapter_create_m_ok r (3 * length W) h k) as (r'&n'&h'&[b|]&->&Ho); cbn [rbind keep].
      + destruct Ho as (->&Hsp&_&g&Hb&Hst). exists r', h', (W ++ [(b, (k, [], g))]), (ls ++ [(k, [])]).
        split; [rewrite fmap_app, app_length; cbn [length fmap list_fmap]; by replace (3 * (length W + 1)) with (Datatypes.S (Datatypes.S (Datatypes.S (3 * length W)))) by lia|]. split; [by eapply bworld_new|].
        split; [unfold qrel in *; by rewrite map_app, HR|]. split; [by apply amay_done|]. by eapply spent_mono.
      + destruct Ho as (->&->&Hsp). exists r', h, W, ls. split; [done|]. split; [done|]. split; [done|]. split; [apply amay_no_adapter|]. by eapply spent_mono.
    - pose proof Hs as Hs0. cbn [queue_spec] in Hs. apply bind_Some in Hs as (t&Ht&Hs). apply bind_Some in Hs as (a&Ha&Hs). injection Hs as <-.
      destruct (qrel_at _ _ _ _ HR Ht) as (w&Hi&->). cbn [fst snd kl] in *.
      assert (denotes W (ikind w) i v a) as Hd.
      { destruct v as [x|j|j]; cbn in Ha |- *; [congruence| |].
        - destruct (own_ok (ikind w) i j); [|done]. split; [done|].
          apply fmap_Some in Ha as (u&Hu&->). destruct (qrel_at _ _ _ _ HR Hu) as (w'&Hj&->). by exists w'.
        - destruct (own_ok (ikind w) i j); [|done]. split; [done|].
          apply fmap_Some in Ha as (u&Hu&->). destruct (qrel_at _ _ _ _ HR Hu) as (w'&Hj&->). by exists w'. }
      destruct (push_common_m r h W i w v a HW Hi Hd) as (x&r'&h'&b'&g'&l'&Hr&Hp&HW'&Hl&Hsp).
      exists r', h'. eexists _, (<[i := (ikind w, l')]> ls). split; [|split; [exact HW'|]].
      + cbn [qop_run_m]. rewrite (nth_fmap _ _ _ Hi). cbn [rbind]. rewrite Hr. cbn [rbind]. rewrite Hp. cbn [rbind].
        by rewrite list_fmap_insert, insert_length.
      + split; [unfold qrel in *; change (map ?f ?l) with (f <$> l) in *; by rewrite list_fmap_insert, <- HR|].
        split.
        * destruct Hl as [->| ->].
          -- rewrite list_insert_id by done. apply amay_not_pushed.
          -- by apply amay_done.
        * eapply spent_mono; [done|]. by intros ->.
    - destruct (queue_step_ok dflt alloc HA h W ls _ ls' HW HR Hs) as (h'&W'&Hr&HW'&HR').
      assert (length W' = length W) as EL.
      { cbn [queue_spec] in Hs. apply bind_Some in Hs as (t&Ht&Hs). case_bool_decide; [done|]. injection Hs as <-. unfold qrel in HR, HR'.
        apply (f_equal length) in HR'. rewrite insert_length, HR, !map_length in HR'. done. }
      exists r, h', W', ls'. split; [cbn [qop_run_m]; rewrite Hr; cbn [rbind]; by rewrite EL|]. split; [done|]. split; [done|].
      split; [by apply amay_done|by apply spent_refl].
    - destruct (queue_step_ok dflt alloc HA h W ls _ ls' HW HR Hs) as (h'&W'&Hr&HW'&HR').
      assert (length W' = length W) as EL.
      { cbn [queue_spec] in Hs. apply bind_Some in Hs as (t&Ht&Hs). apply bind_Some in Hs as (u&Hu&Hs). case_bool_decide; [|done].
        injection Hs as <-. unfold qrel in HR, HR'. apply (f_equal length) in HR'. rewrite !insert_length, HR, !map_length in HR'. done. }
      exists r, h', W', ls'. split; [cbn [qop_run_m]; rewrite Hr; cbn [rbind]; by rewrite EL|]. split; [done|]. split; [done|].
      split; [by apply amay_done|by apply spent_refl].
    - pose proof Hs as Hs0. cbn [queue_spec] in Hs. apply bind_Some in Hs as (t&Ht&Hs). injection Hs as <-. destruct (qrel_at _ _ _ _ HR Ht) as (w&Hi&->).
      pose proof (lookup_lt_Some _ _ _ Hi) as Hlt.
      destruct (adapter_destroy_m_ok (3 * length W) _ _ _ _ _ (bworld_at _ _ _ _ HW Hi)) as (h'&Hd&_&Hst); [lia|].
      exists r, h', (delete i W), (delete i ls). split; [|split; [by eapply bworld_del|split; [|split; [by apply amay_done|by apply spent_refl]]]].
      + cbn [qop_run_m]. rewrite (nth_fmap _ _ _ Hi). cbn [rbind]. rewrite Hd. cbn [rbind]. rewrite list_fmap_delete.
        rewrite length_delete by (by exists w). by replace (3 * (length W - 1)) with (3 * length W - 3) by lia.
      + unfold qrel in *. change (map ?f ?l) with (f <$> l) in *. by rewrite list_fmap_delete, <- HR.
  Qed.
  Lemma queue_hist_m_ok os : forall r h W ls, bworld h W -> qrel W ls ->
    exists n r' h' W' ls', qhist_run_m dflt alloc (r, 3 * length W, h, W.*1) (take n os) = Ok (r', 3 * length W', h', W'.*1) /\
      bworld h' W' /\ qrel W' ls' /\ ahist_may queue_spec ls (take n os) ls' /\
      (n = length os \/ exists o, os !! n = Some o /\ queue_spec ls' o = None) /\
      spent r r' (queue_hist ls (take n os) = Some ls').
  Proof.
    induction os as [|o os IH]; intros r h W ls HW HR.
    - exists 0, r, h, W, ls. rewrite take_0. split; [done|]. split; [done|]. split; [done|]. split; [constructor|]. split; [by left|by apply spent_refl].
    - destruct (queue_spec ls o) as [ls1|] eqn:E.
      + destruct (queue_step_m_ok r h W ls o ls1 HW HR E) as (r1&h1&W1&ls2&H1&HW1&HR1&Hm&Hsp).
        destruct (IH r1 h1 W1 ls2 HW1 HR1) as (n&r'&h'&W'&ls'&H2&HW'&HR'&Hm'&Hn&Hsp').
        exists (Datatypes.S n), r', h', W', ls'. cbn [take firstn qhist_run_m]. rewrite H1. cbn [rbind]. split; [done|]. split; [done|]. split; [done|].
        split; [by econstructor|]. split; [destruct Hn as [->|Hn]; [by left|by right]|].
        eapply spent_trans; [exact Hsp|exact Hsp'|]. intros ->. cbn [queue_hist]. by rewrite E.
      + exists 0, r, h, W, ls. rewrite take_0. split; [done|]. split; [done|]. split; [done|]. split; [constructor|]. split; [right; by exists o|by apply spent_refl].
  Qed.
  (** ** priority queues *)
  Notation pitem := (item * (A -> A -> bool))%type.
  Implicit Types P : list pitem.
  Notation anyc := (fun _ : A -> A -> bool => True).
  Notation anyr := (fun _ _ : A -> A -> bool => True).
  Notation world := (pworld (I := fun (_ : A -> A -> bool) (_ : list A) => True)).
  Lemma be_algo_m_ok r h b k l g f l' : brep h b k l g -> k ≠ KList -> f l 0 (length l) = Ok l' -> length l' = length l ->
    exists r' b' l2, be_algo_m r b f = Ok (r', b') /\ brep h b' k l2 g /\ (l2 = l \/ l2 = l') /\ spent r r' (l2 = l' /\ be_algo b f = Ok b').
  Proof.
    intros Hb Hk Hf Hl. destruct (be_algo_ok h b k l g f l' Hb Hk Hf Hl) as (b1&Hbe&Hb1). unfold be_algo_m.
    pose proof (outcome_spent r) as H1. destruct (outcome r) as [ok1 r1]. cbn [fst snd] in H1.
    pose proof (outcome_spent r1) as H2. destruct (outcome r1) as [ok2 r2]. cbn [fst snd] in H2.
    destruct ok1, ok2; cbn [andb].
    - rewrite Hbe. cbn [rbind]. exists r2, b1, l'. split; [done|]. split; [done|]. split; [by right|]. by eapply spent_trans.
    - exists r2, b, l. split; [done|]. split; [done|]. split; [by left|]. by eapply spent_trans.
    - exists r2, b, l. split; [done|]. split; [done|]. split; [by left|]. by eapply spent_trans.
    - exists r2, b, l. split; [done|]. split; [done|]. split; [by left|]. by eapply spent_trans.
  Qed.
  Lemma take_last l : l <> [] -> exists x, x :: take (length l - 1) l ≡ₚ l.
  Proof.
    destruct l as [|x l _] using rev_ind; [done|]. intros _. exists x. rewrite app_length. cbn [length].
    replace (length l + 1 - 1) with (length l) by lia. rewrite take_app. by rewrite Permutation_app_comm.
  Qed.
  Lemma pq_step_m_ok r h P o c' : world h P -> pq_legal1 anyc anyr (cfg P) o c' ->
    exists r' h' P', pop_run_m dflt alloc (r, 3 * length P, h, pqs P) o = Ok (r', 3 * length P', h', pqs P') /\ world h' P' /\
      pq_may (apqs P) o (apqs P') /\ spent r r' (pop_run dflt alloc (h, pqs P) o = Ok (h', pqs P')).
  Proof.
    intros HW Hl. destruct o as [k comp|i v|i|i j|i].
    - cbn [pq_legal1] in Hl. destruct Hl as (Hk&_&->). cbn [pop_run_m].
      destruct (adapter_create_m_ok r (3 * length P) h k) as (r'&n'&h'&[b|]&->&Ho); cbn [rbind keep fmap option_fmap option_map].
      + destruct Ho as (->&Hsp&Hcr&g&Hb&Hst). destruct HW as [HB HF].
        exists r', h', (P ++ [((b, (k, [], g)), comp)]). split; [|split; [split|split]].
        * rewrite app_length. cbn [length]. replace (3 * (length P + 1)) with (Datatypes.S (Datatypes.S (Datatypes.S (3 * length P)))) by lia.
          unfold pqs. by rewrite map_app.
        * rewrite fmap_app. by eapply bworld_new.
        * apply Forall_app. split; [done|]. apply Forall_cons. by split; [|constructor].
        * apply pmay_done. unfold apqs. rewrite map_app. cbn. constructor.
        * eapply spent_mono; [exact Hsp|]. intros _. cbn [pop_run]. unfold c_pq_create. rewrite Hcr. unfold pqs. by rewrite map_app.
      + destruct Ho as (->&->&Hsp). exists r', h, P. split; [done|]. split; [done|]. split; [apply pmay_no_queue|]. by eapply spent_mono.
    - cbn [pq_legal1] in Hl. destruct Hl as (Hi&->&Hv). destruct (cfg_at _ _ Hi) as (p&Hp). destruct (pworld_at _ _ _ _ HW Hp) as (Hb&(Hk&_)&Hp').
      assert (exists a, denotes P.*1 (ikind p.1) i v a /\ pq_arg (apqs P) i v a) as (a&Hd&Ha).
      { destruct v as [x|j|j]; [by exists (Some x)| |done]. destruct Hv as [Hij Hj]. destruct (cfg_at _ _ Hj) as (u&Hu).
        exists (head (ielems u.1)). split; (split; [|]).
        - unfold own_ok. by rewrite (proj2 (Nat.eqb_neq i j)).
        - exists u.1. by rewrite list_lookup_fmap, Hu.
        - done.
        - exists (Apq (ikind u.1) u.2 (ielems u.1)). unfold apqs. change (map ?f ?l) with (f <$> l). by rewrite list_lookup_fmap, Hu. }
      pose proof HW as [HB HF].
      destruct (resolve_ok h P.*1 i p.1 v a HB Hp' Hd) as (x&Hr&Hra).
      cbn [pop_run_m pop_run]. rewrite (pqs_at _ _ _ Hp). cbn [rbind]. rewrite pqs_pqb, Hr. cbn [rbind]. unfold pq_push_m, c_pq_push. cbn [pqb pqcomp].
      assert (apqs P !! i = Some (Apq (ikind p.1) p.2 (ielems p.1))) as Hap.
      { unfold apqs. change (map ?f ?l) with (f <$> l). by rewrite list_lookup_fmap, Hp. }
      destruct a as [a|].
      + destruct Hra as (x'&->&Hg).
        destruct (be_push_back_m_ok r _ _ _ _ _ _ _ Hb Hg) as (r1&h'&b'&l1&Hpb&(g'&Hb'&Hst)&Hl1&_&Hsp1). specialize (Hsp1 Hk). rewrite Hpb. cbn [rbind].
        destruct (push_heap_any p.2 l1 0 (length l1)) as (l2&Hal&Hpm); [unfold range; lia|]. apply permutes_all in Hpm as [Hpm Hlen].
        destruct (be_algo_m_ok r1 h' b' _ _ _ _ l2 Hb' Hk Hal Hlen) as (r2&b2&l3&Hbe&Hb2&Hl3&Hsp2). rewrite Hbe. cbn [rbind].
        assert (l3 ≡ₚ l1) as Hp3 by (destruct Hl3 as [->| ->]; done).
        destruct (pworld_upd h h' P i p b2 l3 HW Hp) as (P'&HP'&E1&E2&E3); [by exists g'|done|].
        assert (length P' = length P) as EL by (apply (f_equal length) in E3; unfold cfg in E3; by rewrite !map_length in E3).
        exists r2, h', P'. split; [by rewrite E1, EL|]. split; [done|]. rewrite E2. split.
        * destruct Hl1 as [->| ->].
          -- apply (pmay_not_pushed _ i v (Apq (ikind p.1) p.2 (ielems p.1)) l3); done.
          -- apply pmay_done. apply (pq_push _ _ i v (Apq (ikind p.1) p.2 (ielems p.1)) a l3); [done|done| |done].
             rewrite Hp3. by rewrite Permutation_app_comm.
        * eapply spent_trans; [exact Hsp1|exact Hsp2|]. intros Hx [_ Hy]. rewrite Hx. cbn [rbind]. rewrite Hy. cbn [rbind]. by rewrite E1.
      + subst x. cbn [rbind]. exists r, h, P.
        rewrite (list_insert_id (pqs P)); [|unfold pqs; change (map ?f ?l) with (f <$> l); by rewrite list_lookup_fmap, Hp].
        split; [done|]. split; [done|]. split; [by apply pmay_done, pq_push_null|]. by apply spent_refl.
    - cbn [pq_legal1] in Hl. destruct Hl as (Hi&->). destruct (cfg_at _ _ Hi) as (p&Hp). destruct (pworld_at _ _ _ _ HW Hp) as (Hb&(Hk&_)&Hp').
      cbn [pop_run_m pop_run]. rewrite (pqs_at _ _ _ Hp). cbn [rbind]. unfold pq_pop_m, c_pq_pop. cbn [pqb pqcomp].
      destruct (inv_pop _ _ _ _ inv_any p.2 (ielems p.1) Logic.I) as (l'&Hal&Hlen&Hperm&_).
      destruct (be_algo_m_ok r h _ _ _ _ _ l' Hb Hk Hal Hlen) as (r1&b1&l2&Hbe&Hb1&Hl2&Hsp). rewrite Hbe. cbn [rbind].
      destruct (be_pop_back_ok _ _ _ _ _ Hb1) as (h'&b''&Hpb&g'&Hb'&Hst). rewrite Hpb. cbn [rbind].
      destruct (pworld_upd h h' P i p b'' (take (length l2 - 1) l2) HW Hp) as (P'&HP'&E1&E2&E3); [by exists g'|done|].
      assert (length P' = length P) as EL by (apply (f_equal length) in E3; unfold cfg in E3; by rewrite !map_length in E3).
      assert (apqs P !! i = Some (Apq (ikind p.1) p.2 (ielems p.1))) as Hap.
      { unfold apqs. change (map ?f ?l) with (f <$> l). by rewrite list_lookup_fmap, Hp. }
      exists r1, h', P'. split; [by rewrite E1, EL|]. split; [done|]. rewrite E2. split.
      + destruct Hl2 as [->| ->].
        * destruct (decide (ielems p.1 = [])) as [En|En].
          -- apply pmay_done, (pq_pop _ _ i (Apq (ikind p.1) p.2 (ielems p.1))); [done| |done]. cbn [aelems]. by rewrite En.
          -- destruct (take_last _ En) as (x&Hx). by apply (pmay_popped _ i (Apq (ikind p.1) p.2 (ielems p.1)) x).
        * by apply pmay_done, (pq_pop _ _ i (Apq (ikind p.1) p.2 (ielems p.1))).
      + eapply spent_mono; [exact Hsp|]. intros [_ Hx]. rewrite Hx. cbn [rbind]. rewrite Hpb. cbn [rbind]. by rewrite E1.
    - destruct (pq_step_ok dflt alloc HA inv_any h P _ c' HW Hl) as (h'&P'&Hr&HW'&Hc&Hs).
      assert (length P' = length P) as EL.
      { cbn [pq_legal1] in Hl. destruct Hl as [_ ->]. apply (f_equal length) in Hc. unfold cfg in Hc. by rewrite !map_length in Hc. }
      exists r, h', P'. split; [cbn [pop_run_m]; rewrite Hr; cbn [rbind]; by rewrite EL|]. split; [done|]. split; [by apply pmay_done|by apply spent_refl].
    - cbn [pq_legal1] in Hl. destruct Hl as (Hi&->). destruct (cfg_at _ _ Hi) as (p&Hp). destruct (pworld_at _ _ _ _ HW Hp) as (Hb&_&Hp').
      pose proof (lookup_lt_Some _ _ _ Hp) as Hlt.
      cbn [pop_run_m pop_run]. rewrite (pqs_at _ _ _ Hp). cbn [rbind]. unfold c_pq_destroy. cbn [pqb].
      destruct (adapter_destroy_m_ok (3 * length P) _ _ _ _ _ Hb) as (h'&Hd&Hd'&Hst); [lia|]. rewrite Hd, Hd'. cbn [rbind]. destruct HW as [HB HF].
      exists r, h', (delete i P).
      assert (delete i (pqs P) = pqs (delete i P)) as Ed.
      { unfold pqs. change (map ?f ?l) with (f <$> l). by rewrite list_fmap_delete. }
      rewrite Ed. split; [|split; [split|split]].
      + rewrite length_delete by (by exists p). by replace (3 * (length P - 1)) with (3 * length P - 3) by lia.
      + rewrite list_fmap_delete. by eapply bworld_del.
      + by apply Forall_delete.
      + apply pmay_done. unfold apqs. change (map ?f ?l) with (f <$> l). rewrite list_fmap_delete. eapply pq_destroy. by rewrite list_lookup_fmap, Hp.
      + by apply spent_refl.
  Qed.
  Lemma pq_legal1_dec (c : list (bkind * (A -> A -> bool))) o : (exists c', pq_legal1 anyc anyr c o c') \/ (forall c', ~ pq_legal1 anyc anyr c o c').
  Proof.
    destruct o as [k comp|i v|i|i j|i]; cbn [pq_legal1].
    - destruct (decide (k = KList)) as [->|]; [right; by intros c' (?&_)|left; by eexists].
    - destruct (decide (i < length c)); [|right; by intros c' (?&_)]. destruct v as [x|j|j].
      + left. by eexists.
      + destruct (decide (i = j)) as [->|]; [right; by intros c' (_&_&?&_)|].
        destruct (decide (j < length c)); [left; by eexists|right; by intros c' (_&_&_&?)].
      + right. by intros c' (_&_&?).
    - destruct (decide (i < length c)); [left; by eexists|right; by intros c' (?&_)].
    - destruct (c !! i) as [p|] eqn:Ei; [|right; intros c' ((?&?&?&_)&_); congruence].
      destruct (c !! j) as [q|] eqn:Ej; [|right; intros c' ((?&?&_&?&_)&_); congruence].
      destruct (decide (p.1 = q.1)) as [E|E]; [left; eexists; split; [|done]; by exists p, q|].
      right. intros c' ((p'&q'&Hp&Hq&H&_)&_). congruence.
    - destruct (decide (i < length c)); [left; by eexists|right; by intros c' (?&_)].
  Qed.
  Lemma pq_hist_m_ok os : forall r h P, world h P ->
    exists n r' h' P', phist_run_m dflt alloc (r, 3 * length P, h, pqs P) (take n os) = Ok (r', 3 * length P', h', pqs P') /\
      world h' P' /\ phist_may (apqs P) (take n os) (apqs P') /\
      (n = length os \/ exists o, os !! n = Some o /\ forall c', ~ pq_legal1 anyc anyr (cfg P') o c') /\
      spent r r' (phist_run dflt alloc (h, pqs P) (take n os) = Ok (h', pqs P')).
  Proof.
    induction os as [|o os IH]; intros r h P HW.
    - exists 0, r, h, P. rewrite take_0. split; [done|]. split; [done|]. split; [constructor|]. split; [by left|by apply spent_refl].
    - destruct (pq_legal1_dec (cfg P) o) as [(c'&Hl)|Hl].
      + destruct (pq_step_m_ok r h P o c' HW Hl) as (r1&h1&P1&H1&HW1&Hm&Hsp).
        destruct (IH r1 h1 P1 HW1) as (n&r'&h'&P'&H2&HW'&Hm'&Hn&Hsp').
        exists (Datatypes.S n), r', h', P'. cbn [take firstn phist_run_m phist_run]. rewrite H1. cbn [rbind]. split; [done|]. split; [done|].
        split; [by econstructor|]. split; [destruct Hn as [->|Hn]; [by left|by right]|].
        eapply spent_trans; [exact Hsp|exact Hsp'|]. intros -> Hx. by cbn [rbind].
      + exists 0, r, h, P. rewrite take_0. split; [done|]. split; [done|]. split; [constructor|]. split; [right; by exists o|by apply spent_refl].
  Qed.
End proofs.
