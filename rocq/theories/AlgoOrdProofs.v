(** AlgoOrdProofs.v — proofs about AlgoOrd.v: partitioning, binary search, min/max, lexicographic
    comparison. *)
From Verif Require Import Base Spec Facts AlgoNonMod AlgoMod AlgoNonModProofs AlgoModProofs AlgoOrd.
From stdpp Require Import list.

Section partitioning.
  Context {A : Type}.
  Implicit Types m : list A.

  Lemma cell_not m p k : cell m p k -> forall x, m !! k = Some x -> p x = true.
  Proof. intros [y [Hy Hp]] x Hx. congruence. Qed.

  Lemma scan_boundary p m f l : range m f l ->
    exists j, scan_while (S (length m)) p m f l = Ok j /\ f <= j <= l
      /\ (forall x, x ∈ slice m f j -> p x = true)
      /\ (j < l -> exists x, m !! j = Some x /\ p x = false).
  Proof.
    intros [H1 H2]. destruct (scan_while_ok p m l H2 (S (length m)) f) as [j [Hj [H3 [H4 H5]]]]; [lia|lia|].
    exists j. split; [done|]. split; [done|]. split; [|done].
    intros x Hx. apply elem_of_slice in Hx as [k [Hk Hx]]. destruct (H4 k Hk) as [y [Hy Hp]]. congruence.
  Qed.

  Lemma is_partitioned_ok m f l p : range m f l ->
    exists b, algo_is_partitioned m f l p = Ok b /\ (b = true <-> exists k, boundary m f l p k).
  Proof.
    intros H. unfold algo_is_partitioned. destruct (f =? l) eqn:E.
    - assert (f = l) as -> by lia. exists true. split; [done|]. split; [|done]. intros _. exists l.
      split; [lia|]. rewrite !slice_nil. split; intros x Hx; by apply elem_of_nil in Hx.
    - destruct (scan_boundary p m f l H) as [i [-> [Hi [Hp Hn]]]]. cbn [rbind].
      destruct (scan_boundary (fun x => negb (p x)) m i l) as [j [-> [Hj [Hq Hm]]]];
        [destruct H; split; lia|]. cbn [rbind].
      exists (j =? l). split; [done|]. split.
      + intros Hjl. assert (j = l) as -> by lia. exists i. split; [lia|]. split; [done|].
        intros x Hx. apply Hq in Hx. by destruct (p x).
      + intros [k [Hk [Hb1 Hb2]]]. apply Nat.eqb_eq. destruct (decide (j = l)) as [|Hne]; [done|exfalso].
        destruct Hm as [x [Hx Hpx]]; [lia|]. destruct Hn as [y [Hy Hpy]]; [lia|].
        (* y at i is false, so k <= i; x at j >= i is true so j < k *)
        assert (k <= i) as Hki.
        { destruct (decide (k <= i)); [done|]. assert (p y = true); [|congruence].
          apply Hb1. apply elem_of_slice. exists i. split; [lia|done]. }
        assert (p x = false) as Hc; [|by rewrite Hc in Hpx].
        apply Hb2. apply elem_of_slice. exists j. split; [lia|done].
  Qed.

  Lemma partition_point_ok m f l p k : range m f l -> boundary m f l p k ->
    algo_partition_point m f l p = Ok k.
  Proof.
    intros H [Hk [Hb1 Hb2]]. unfold algo_partition_point.
    destruct (scan_boundary p m f l H) as [i [-> [Hi [Hp Hn]]]]. f_equal.
    destruct (Nat.lt_trichotomy i k) as [Hlt|[?|Hgt]]; [|done|].
    - destruct Hn as [x [Hx Hpx]]; [lia|]. assert (p x = true); [|congruence].
      apply Hb1. apply elem_of_slice. exists i. split; [lia|done].
    - destruct (lookup_lt_is_Some_2 m k) as [x Hx]; [destruct H; lia|].
      assert (p x = true) by (apply Hp; apply elem_of_slice; exists k; split; [lia|done]).
      assert (p x = false); [|congruence]. apply Hb2. apply elem_of_slice. exists k. split; [lia|done].
  Qed.

  (* the loop invariant in list form: t = kept trues, r = falses, s = unread *)
  Lemma partition_loop_ok p : forall (s : list A) fuel (pre t r post : list A),
    length s < fuel -> r <> [] -> Forall (fun x => p x = false) r ->
    exists r', partition_loop fuel p (pre ++ t ++ r ++ s ++ post) (length pre + length t)
        (length pre + length t + length r) (length pre + length t + length r + length s)
      = Ok (pre ++ (t ++ List.filter p s) ++ r' ++ post, length pre + length (t ++ List.filter p s))
      /\ Permutation (r ++ List.filter (fun x => negb (p x)) s) r'.
  Proof.
    induction s as [|x s IH]; intros fuel pre t r post Hf Hr HF; (destruct fuel as [|fuel]; [cbn in Hf; lia|]);
      cbn [partition_loop].
    - replace (_ =? _) with true by (symmetry; apply Nat.eqb_eq; cbn; lia).
      exists r. cbn. rewrite !app_nil_r. applist. done.
    - replace (_ =? _) with false by (symmetry; apply Nat.eqb_neq; cbn; lia).
      replace (pre ++ t ++ r ++ (x :: s) ++ post) with ((pre ++ t ++ r) ++ x :: (s ++ post)) by (by applist).
      rewrite rd_at by (rewrite !app_length; lia). cbn [rbind List.filter].
      cbn in Hf. destruct (p x) eqn:Hx; cbn [negb].
      + destruct r as [|y r]; [done|]. apply Forall_cons in HF as [Hy HF].
        replace ((pre ++ t ++ y :: r) ++ x :: s ++ post) with ((pre ++ t) ++ y :: r ++ x :: s ++ post) by (by applist).
        rewrite swp_at; [|rewrite app_length; lia|rewrite app_length; cbn; lia]. cbn [rbind].
        destruct (IH fuel pre (t ++ [x]) (r ++ [y]) post) as [r' [HI HP]].
        * lia.
        * destruct r; done.
        * apply Forall_app; auto.
        * exists r'. split.
          -- etransitivity; [|etransitivity; [exact HI|]].
             ++ f_equal; [by applist|..]; rewrite ?app_length; cbn; lia.
             ++ f_equal. f_equal; [by applist|]. rewrite !app_length. cbn. lia.
          -- etransitivity; [|exact HP]. rewrite <- app_assoc. cbn.
             apply Permutation_middle.
      + destruct (IH fuel pre t (r ++ [x]) post) as [r' [HI HP]].
        * lia.
        * by destruct r.
        * apply Forall_app; auto.
        * exists r'. split.
          -- etransitivity; [|exact HI]. f_equal; [by applist|..]; rewrite ?app_length; cbn; lia.
          -- etransitivity; [|exact HP]. by rewrite <- app_assoc.
  Qed.

  Lemma filter_Forall_true (p : A -> bool) s : (forall x, x ∈ s -> p x = true) -> List.filter p s = s.
  Proof.
    induction s as [|x s IH]; intros H; [done|]. cbn. rewrite (H x) by set_solver. f_equal.
    apply IH. intros y Hy. apply H. set_solver.
  Qed.
  Lemma filter_Forall_false (p : A -> bool) s : (forall x, x ∈ s -> p x = false) -> List.filter p s = [].
  Proof.
    induction s as [|x s IH]; intros H; [done|]. cbn. rewrite (H x) by set_solver.
    apply IH. intros y Hy. apply H. set_solver.
  Qed.

  Lemma partition_ok m f l p : range m f l ->
    let yes := List.filter p (slice m f l) in
    exists no, Permutation (List.filter (fun x => negb (p x)) (slice m f l)) no /\
      algo_partition m f l p = Ok (patch m f (yes ++ no), f + length yes).
  Proof.
    intros H yes. unfold algo_partition. destruct (find_if_not_ok m f l p H) as [[b i] [-> Hr]]. cbn [rbind].
    destruct H as [H1 H2].
    assert (f <= i <= l /\ (forall x, x ∈ slice m f i -> p x = true) /\ (i < l -> exists x, m !! i = Some x /\ p x = false)) as [Hi [Hp Hn]].
    { destruct b; cbn in Hr.
      - destruct Hr as [Hi [[x [Hx Hpx]] Hk]]. split; [lia|]. split.
        + intros y Hy. apply elem_of_slice in Hy as [k [Hk2 Hy]]. destruct (p y) eqn:E; [done|].
          exfalso. apply (Hk k Hk2). exists y. rewrite E. done.
        + intros _. exists x. split; [done|]. by destruct (p x).
      - destruct Hr as [-> Hk]. split; [lia|]. split; [|lia].
        intros y Hy. apply elem_of_slice in Hy as [k [Hk2 Hy]]. destruct (p y) eqn:E; [done|].
        exfalso. apply (Hk k Hk2). exists y. rewrite E. done. }
    assert (slice m f l = slice m f i ++ slice m i l) as Hs by (apply slice_app_slice; lia).
    assert (length (slice m f i) = i - f) as Hlen by (apply slice_length; split; lia).
    destruct (i =? l) eqn:E.
    - assert (i = l) as -> by lia. subst yes. rewrite (filter_Forall_true p) by done.
      rewrite (filter_Forall_false (fun x => negb (p x))) by (intros x Hx; by rewrite Hp).
      exists []. split; [done|]. rewrite app_nil_r, patch_self by done. rewrite Hlen. f_equal. f_equal. lia.
    - destruct Hn as [x [Hx Hpx]]; [lia|].
      destruct (range_split m f l) as [pre [s [post [Hm [Hf [Hl [Hsl _]]]]]]]; [done|].
      rewrite (slice_cons m i l x) in Hs by (done || lia).
      destruct (partition_loop_ok p (slice m (S i) l) (S (length m)) pre (slice m f i) [x] post) as [no [HI HP]].
      + rewrite slice_length by (split; lia). lia.
      + done.
      + by constructor.
      + exists no. split.
        * rewrite Hs, List.filter_app. cbn [List.filter]. rewrite Hpx. cbn [negb].
          rewrite (filter_Forall_false _ (slice m f i)) by (intros y Hy; by rewrite Hp). exact HP.
        * assert (Hyes : yes = slice m f i ++ List.filter p (slice m (S i) l)).
          { unfold yes. rewrite Hs, List.filter_app. cbn [List.filter]. rewrite Hpx.
            by rewrite filter_Forall_true. }
          etransitivity; [|etransitivity; [exact HI|]].
          -- f_equal; [|..]; rewrite ?slice_length by (split; lia); cbn; try lia.
             rewrite Hm at 1. rewrite <- Hsl, Hs. by applist.
          -- rewrite <- Hyes. f_equal. f_equal; [|lia].
             rewrite Hm, Hf. replace (pre ++ yes ++ no ++ post) with (pre ++ (yes ++ no) ++ post) by (by applist).
             rewrite patch_app; [done|]. rewrite <- Hsl, Hs, Hyes, !app_length.
             rewrite <- (Permutation_length HP). cbn.
             assert (forall (q : A -> bool) (u : list A), length (List.filter q u) + length (List.filter (fun z => negb (q z)) u) = length u) as Hq.
             { intros q u. induction u as [|z u IHu]; [done|]. cbn. destruct (q z); cbn; lia. }
             specialize (Hq p (slice m (S i) l)). lia.
  Qed.

  Lemma partition_boundary m f l p m' k : range m f l -> algo_partition m f l p = Ok (m', k) ->
    boundary m' f l p k /\ Permutation (slice m f l) (slice m' f l) /\ m' = patch m f (slice m' f l).
  Proof.
    intros H HE. destruct (partition_ok m f l p H) as [no [HP HE']]. rewrite HE in HE'. injection HE' as -> ->.
    set (yes := List.filter p (slice m f l)) in *.
    assert (Hlen : length yes + length no = l - f).
    { rewrite <- (Permutation_length HP). unfold yes. rewrite <- (slice_length m f l H).
      generalize (slice m f l). intros u. induction u as [|z u IHu]; [done|]. cbn. destruct (p z); cbn; lia. }
    assert (Hperm : Permutation (slice m f l) (yes ++ no)).
    { rewrite <- HP. unfold yes. generalize (slice m f l). intros u. induction u as [|z u IHu]; [done|].
      cbn. destruct (p z); cbn; [by constructor|]. rewrite <- Permutation_middle. by constructor. }
    destruct H as [H1 H2].
    assert (Hsl : slice (patch m f (yes ++ no)) f l = yes ++ no).
    { apply list_eq. intros i. destruct (decide (i < l - f)) as [Hi|Hi].
      - rewrite slice_lookup by done. rewrite patch_lookup by (rewrite app_length; lia).
        rewrite decide_True by (rewrite app_length; lia). f_equal. lia.
      - rewrite !(proj2 (lookup_ge_None _ _)); [done|rewrite app_length; lia|].
        unfold slice. rewrite take_length. lia. }
    split; [|split].
    - split; [lia|].
      assert (slice (patch m f (yes ++ no)) f l = slice (patch m f (yes ++ no)) f (f + length yes) ++ slice (patch m f (yes ++ no)) (f + length yes) l) as Hs2
        by (apply slice_app_slice; lia).
      rewrite Hsl in Hs2. apply app_inj_1 in Hs2 as [Hy Hn].
      2:{ rewrite slice_length; [lia|]. split; [lia|]. rewrite patch_length; rewrite ?app_length; lia. }
      rewrite <- Hy, <- Hn. split.
      + intros x Hx. unfold yes in Hx. apply elem_of_list_In, filter_In in Hx. tauto.
      + intros x Hx. rewrite <- HP in Hx. apply elem_of_list_In, filter_In in Hx as [_ Hx]. by destruct (p x).
    - rewrite Hsl. exact Hperm.
    - by rewrite Hsl.
  Qed.

  Lemma partition_copy_loop_ok p m0 last dt0 df0 : last <= length m0 ->
    forall fuel i t r, i <= last -> last - i < fuel ->
      let t' := t ++ List.filter p (slice m0 i last) in
      let r' := r ++ List.filter (fun x => negb (p x)) (slice m0 i last) in
      dt0 + length t' <= length m0 -> df0 + length r' <= length m0 ->
      apart dt0 (dt0 + length t') i last -> apart df0 (df0 + length r') i last ->
      apart dt0 (dt0 + length t') df0 (df0 + length r') ->
      partition_copy_loop fuel p (patch (patch m0 dt0 t) df0 r) i last (dt0 + length t) (df0 + length r) (length t + length r)
      = Ok (patch (patch m0 dt0 t') df0 r', dt0 + length t', df0 + length r', length t' + length r').
  Proof.
    intros Hl fuel. induction fuel as [|fuel IH]; intros i t r Hi Hf t' r' Ht Hr Ha1 Ha2 Ha3; [lia|].
    cbn [partition_copy_loop]. assert (length t <= length t') as Hlt by (unfold t'; rewrite app_length; lia).
    assert (length r <= length r') as Hlr by (unfold r'; rewrite app_length; lia).
    destruct (i =? last) eqn:E.
    - assert (i = last) as -> by lia. subst t' r'. rewrite slice_nil. cbn. by rewrite !app_nil_r.
    - destruct (lookup_lt_is_Some_2 m0 i) as [x Hx]; [lia|].
      assert (Hlp : length (patch m0 dt0 t) = length m0) by (apply patch_length; lia).
      assert (Hrd : rd (patch (patch m0 dt0 t) df0 r) i = Ok x).
      { apply rd_Ok. rewrite patch_lookup_out by (unfold apart in *; lia).
        rewrite patch_lookup_out by (unfold apart in *; lia). done. }
      rewrite Hrd. cbn [rbind]. subst t' r'.
      rewrite (slice_cons m0 i last x) in * by (done || lia). cbn [List.filter] in *.
      destruct (p x) eqn:Hp; cbn [negb] in *.
      + rewrite wr_Ok by (rewrite patch_length by lia; rewrite app_length in *; cbn in *; lia). cbn [rbind].
        assert (<[dt0 + length t:=x]> (patch (patch m0 dt0 t) df0 r) = patch (patch m0 dt0 (t ++ [x])) df0 r) as ->.
        { rewrite <- patch_snoc by (rewrite app_length in *; cbn in *; lia).
          apply list_eq. intros k.
          rewrite patch_lookup by (rewrite insert_length; lia).
          destruct (decide (k = dt0 + length t)) as [->|Hk].
          - rewrite list_lookup_insert by (rewrite patch_length by lia; rewrite app_length in *; cbn in *; lia).
            rewrite decide_False by (unfold apart in *; rewrite !app_length in *; cbn in *; lia).
            rewrite list_lookup_insert; [done|]. rewrite Hlp. rewrite app_length in *; cbn in *; lia.
          - rewrite list_lookup_insert_ne by done. rewrite patch_lookup by lia.
            destruct (decide _); [done|]. by rewrite list_lookup_insert_ne. }
        specialize (IH (S i) (t ++ [x]) r). cbn zeta in IH.
        replace (length (t ++ [x])) with (S (length t)) in IH by (rewrite app_length; cbn; lia).
        rewrite <- !app_assoc in IH. cbn [app] in IH.
        replace (S (dt0 + length t)) with (dt0 + S (length t)) by lia.
        replace (S (length t + length r)) with (S (length t) + length r) by lia.
        apply IH; try lia; try done; unfold apart in *; lia.
      + rewrite wr_Ok by (rewrite patch_length by lia; rewrite !app_length in *; cbn in *; lia). cbn [rbind].
        rewrite patch_snoc by (rewrite ?Hlp, !app_length in *; cbn in *; lia).
        specialize (IH (S i) t (r ++ [x])). cbn zeta in IH.
        replace (length (r ++ [x])) with (S (length r)) in IH by (rewrite app_length; cbn; lia).
        rewrite <- !app_assoc in IH. cbn [app] in IH.
        replace (S (df0 + length r)) with (df0 + S (length r)) by lia.
        replace (S (length t + length r)) with (length t + S (length r)) by lia.
        apply IH; try lia; try done; unfold apart in *; lia.
  Qed.
  Lemma partition_copy_ok m f l dt df p : range m f l ->
    let yes := List.filter p (slice m f l) in
    let no := List.filter (fun x => negb (p x)) (slice m f l) in
    dt + length yes <= length m -> df + length no <= length m ->
    apart dt (dt + length yes) f l -> apart df (df + length no) f l ->
    apart dt (dt + length yes) df (df + length no) ->
    algo_partition_copy m f l dt df p
    = Ok (patch (patch m dt yes) df no, dt + length yes, df + length no, l - f).
  Proof.
    intros H yes no H1 H2 H3 H4 H5. unfold algo_partition_copy.
    destruct H as [Ha Hb].
    pose proof (partition_copy_loop_ok p m l dt df Hb (S (length m)) f [] []) as HL.
    cbn [app length] in HL. rewrite !patch_nil, !Nat.add_0_r in HL. rewrite HL; try done; try lia.
    subst yes no. cbn [app]. repeat f_equal.
    rewrite <- (slice_length m f l) by done. generalize (slice m f l). intros u.
    induction u as [|z u IHu]; [done|]. cbn. destruct (p z); cbn; lia.
  Qed.
End partitioning.

Section bsearch.
  Context {A : Type}.
  Implicit Types m : list A.

  Lemma bsearch_loop_ok go m : forall fuel count first last k,
    count < fuel -> count = last - first -> first <= last -> last <= length m ->
    boundary m first last go k -> bsearch_loop fuel go m first count = Ok k.
  Proof.
    induction fuel as [|fuel IH]; intros count first last k Hf Hc Hfl Hl [Hk [Hb1 Hb2]]; [lia|].
    cbn [bsearch_loop]. destruct (count =? 0) eqn:E.
    - f_equal. lia.
    - pose proof (Nat.div_lt count 2 ltac:(lia) ltac:(lia)) as Hd.
      set (step := count / 2) in *. clearbody step.
      destruct (rd_lt m (first + step)) as [x [Hx ->]]; [lia|]. cbn [rbind].
      destruct (go x) eqn:Hg.
      + assert (first + step < k) as Hlt.
        { destruct (decide (first + step < k)); [done|]. assert (go x = false); [|congruence].
          apply Hb2. apply elem_of_slice. exists (first + step). split; [lia|done]. }
        apply (IH _ _ last k); [lia|lia|lia|lia|]. split; [lia|]. split; [|done].
        intros y Hy. apply Hb1. apply elem_of_slice in Hy as [j [Hj Hy]]. apply elem_of_slice. exists j. split; [lia|done].
      + assert (k <= first + step) as Hle.
        { destruct (decide (k <= first + step)); [done|]. assert (go x = true); [|congruence].
          apply Hb1. apply elem_of_slice. exists (first + step). split; [lia|done]. }
        apply (IH _ _ (first + step) k); [lia|lia|lia|lia|]. split; [lia|]. split; [done|].
        intros y Hy. apply Hb2. apply elem_of_slice in Hy as [j [Hj Hy]]. apply elem_of_slice. exists j. split; [lia|done].
  Qed.
  Lemma bsearch_safe go m : forall fuel count first, count < fuel -> first + count <= length m ->
    exists k, bsearch_loop fuel go m first count = Ok k /\ first <= k <= first + count.
  Proof.
    induction fuel as [|fuel IH]; intros count first Hf Hl; [lia|].
    cbn [bsearch_loop]. destruct (count =? 0) eqn:E.
    - exists first. split; [done|lia].
    - pose proof (Nat.div_lt count 2 ltac:(lia) ltac:(lia)) as Hd.
      set (step := count / 2) in *. clearbody step.
      destruct (rd_lt m (first + step)) as [x [Hx ->]]; [lia|]. cbn [rbind].
      destruct (go x).
      + destruct (IH (count - (step + 1)) (S (first + step))) as [k [-> Hk]]; [lia|lia|]. exists k. split; [done|lia].
      + destruct (IH step first) as [k [-> Hk]]; [lia|lia|]. exists k. split; [done|lia].
  Qed.

  Lemma lower_bound_ok comp m f l v k : range m f l -> boundary m f l (fun x => comp x v) k ->
    algo_lower_bound_by comp m f l v = Ok k.
  Proof. intros [H1 H2] Hb. unfold algo_lower_bound_by. eapply bsearch_loop_ok; eauto; lia. Qed.
  Lemma upper_bound_ok comp m f l v k : range m f l -> boundary m f l (fun x => negb (comp v x)) k ->
    algo_upper_bound_by comp m f l v = Ok k.
  Proof. intros [H1 H2] Hb. unfold algo_upper_bound_by. eapply bsearch_loop_ok; eauto; lia. Qed.
  Lemma equal_range_ok comp m f l v lo hi : range m f l ->
    boundary m f l (fun x => comp x v) lo -> boundary m f l (fun x => negb (comp v x)) hi ->
    algo_equal_range_by comp m f l v = Ok (lo, hi).
  Proof.
    intros H Hl Hh. unfold algo_equal_range_by. rewrite (lower_bound_ok comp m f l v lo H Hl). cbn [rbind].
    rewrite (upper_bound_ok comp m f l v hi H Hh). done.
  Qed.
  Lemma binary_search_ok comp m f l v lo hi : range m f l ->
    boundary m f l (fun x => comp x v) lo -> boundary m f l (fun x => negb (comp v x)) hi ->
    exists b, algo_binary_search_by comp m f l v = Ok b /\
      (b = true <-> exists x, x ∈ slice m f l /\ equivb comp x v = true).
  Proof.
    intros H Hl Hh. unfold algo_binary_search_by. rewrite (lower_bound_ok comp m f l v lo H Hl). cbn [rbind].
    destruct H as [H1 H2]. destruct Hl as [Hl1 [Hl2 Hl3]]. destruct Hh as [Hh1 [Hh2 Hh3]].
    destruct (lo =? l) eqn:E.
    - exists false. split; [done|]. split; [done|]. intros [x [Hx He]]. apply equivb_true in He as [He1 He2].
      replace lo with l in Hl2 by lia. specialize (Hl2 x Hx). cbn in Hl2. congruence.
    - destruct (rd_lt m lo) as [x [Hx ->]]; [lia|]. cbn [rbind]. exists (negb (comp v x)). split; [done|].
      assert (comp x v = false) as Hxv by (apply Hl3; apply elem_of_slice; exists lo; split; [lia|done]).
      split.
      + intros Hn. exists x. split; [apply elem_of_slice; exists lo; split; [lia|done]|].
        apply equivb_true. split; [done|]. by destruct (comp v x).
      + intros [y [Hy He]]. apply equivb_true in He as [He1 He2].
        apply elem_of_slice in Hy as [j [Hj Hy]].
        assert (lo <= j).
        { destruct (decide (lo <= j)); [done|]. assert (comp y v = true); [|congruence].
          apply Hl2. apply elem_of_slice. exists j. split; [lia|done]. }
        assert (j < hi).
        { destruct (decide (j < hi)); [done|]. assert (negb (comp v y) = false) as Hc; [|by rewrite He2 in Hc].
          apply Hh3. apply elem_of_slice. exists j. split; [lia|done]. }
        apply Hh2. apply elem_of_slice. exists lo. split; [lia|done].
  Qed.

  (** A sorted range is partitioned for both searches. *)
  Lemma sorted_boundary (comp : A -> A -> bool) m f l (go : A -> bool) : range m f l ->
    sorted comp (slice m f l) -> (forall x y, comp y x = false -> go y = true -> go x = true) ->
    exists k, boundary m f l go k.
  Proof.
    intros H Hs Hgo. destruct (scan_boundary go m f l H) as [j [_ [Hj [Hp Hn]]]]. exists j.
    split; [done|]. split; [done|]. intros y Hy. apply elem_of_slice in Hy as [i [Hi Hy]].
    destruct Hn as [x [Hx Hg]]; [lia|]. destruct (decide (i = j)) as [->|Hne]; [congruence|].
    destruct (go y) eqn:E; [|done]. rewrite (Hgo x y) in Hg; [done| |done].
    apply (Hs (j - f) (i - f)); [lia|..]; rewrite slice_lookup by lia;
      [replace (f + (j - f)) with j by lia|replace (f + (i - f)) with i by lia]; done.
  Qed.
  Lemma sorted_lower (comp : A -> A -> bool) m f l v : StrictWeakOrder comp -> range m f l ->
    sorted comp (slice m f l) -> exists k, boundary m f l (fun x => comp x v) k.
  Proof.
    intros HW H Hs. eapply sorted_boundary; eauto. intros x y Hyx Hy. cbn in *.
    eapply swo_le_lt_trans; eauto.
  Qed.
  Lemma sorted_upper (comp : A -> A -> bool) m f l v : StrictWeakOrder comp -> range m f l ->
    sorted comp (slice m f l) -> exists k, boundary m f l (fun x => negb (comp v x)) k.
  Proof.
    intros HW H Hs. eapply sorted_boundary; eauto. intros x y Hyx Hy. cbn in *.
    destruct (comp v x) eqn:E; [|done]. rewrite (swo_lt_le_trans _ HW v x y) in Hy; done.
  Qed.
End bsearch.

Section minmax.
  Context {A : Type} (comp : A -> A -> bool).
  Implicit Types m : list A.

  Lemma greatest_snoc m f i j : StrictWeakOrder comp -> greatest_at comp m f (S i) j -> f <= i ->
    forall x y, m !! j = Some x -> m !! S i = Some y ->
    greatest_at comp m f (S (S i)) (if comp x y then S i else j).
  Proof.
    intros HW [x' [Hj [Hx' HA]]] Hfi x y Hx Hy. replace x' with x in * by congruence. clear x' Hx'.
    destruct (comp x y) eqn:E.
    - exists y. split; [lia|]. split; [done|]. intros k z Hk Hz.
      destruct (decide (k = S i)) as [->|Hne].
      + replace z with y by congruence. split; [apply (swo_irrefl _ HW)|lia].
      + destruct (HA k z) as [H1 H2]; [lia|done|].
        assert (comp z y = true) as Hzy by (eapply swo_le_lt_trans; eauto).
        split; [by apply (swo_asym _ HW)|]. done.
    - exists x. split; [lia|]. split; [done|]. intros k z Hk Hz.
      destruct (decide (k = S i)) as [->|Hne].
      + replace z with y by congruence. split; [done|lia].
      + apply HA; [lia|done].
  Qed.
  Lemma smallest_snoc m f i j : StrictWeakOrder comp -> smallest_at comp m f (S i) j -> f <= i ->
    forall x y, m !! j = Some x -> m !! S i = Some y ->
    smallest_at comp m f (S (S i)) (if comp y x then S i else j).
  Proof.
    intros HW [x' [Hj [Hx' HA]]] Hfi x y Hx Hy. replace x' with x in * by congruence. clear x' Hx'.
    destruct (comp y x) eqn:E.
    - exists y. split; [lia|]. split; [done|]. intros k z Hk Hz.
      destruct (decide (k = S i)) as [->|Hne].
      + replace z with y by congruence. split; [apply (swo_irrefl _ HW)|lia].
      + destruct (HA k z) as [H1 H2]; [lia|done|].
        assert (comp y z = true) as Hzy by (eapply swo_lt_le_trans; eauto).
        split; [by apply (swo_asym _ HW)|]. done.
    - exists x. split; [lia|]. split; [done|]. intros k z Hk Hz.
      destruct (decide (k = S i)) as [->|Hne].
      + replace z with y by congruence. split; [done|lia].
      + apply HA; [lia|done].
  Qed.
  Lemma greatest_one m f x : StrictWeakOrder comp -> m !! f = Some x -> greatest_at comp m f (S f) f.
  Proof.
    intros HW Hx. exists x. split; [lia|]. split; [done|]. intros k y Hk Hy. assert (k = f) as -> by lia.
    replace y with x by congruence. split; [apply (swo_irrefl _ HW)|lia].
  Qed.
  Lemma smallest_one m f x : StrictWeakOrder comp -> m !! f = Some x -> smallest_at comp m f (S f) f.
  Proof.
    intros HW Hx. exists x. split; [lia|]. split; [done|]. intros k y Hk Hy. assert (k = f) as -> by lia.
    replace y with x by congruence. split; [apply (swo_irrefl _ HW)|lia].
  Qed.

  Lemma minmax_loop_ok m f l : StrictWeakOrder comp -> l <= length m -> forall fuel i mn mx, f <= i < l -> l - i < fuel ->
    smallest_at comp m f (S i) mn -> greatest_at comp m f (S i) mx ->
    exists mn' mx', minmax_loop comp fuel m i l mn mx = Ok (mn', mx') /\
      min_loop comp fuel m i l mn = Ok mn' /\ max_loop comp fuel m i l mx = Ok mx' /\
      smallest_at comp m f l mn' /\ greatest_at comp m f l mx'.
  Proof.
    intros HW Hl fuel. induction fuel as [|fuel IH]; intros i mn mx Hi Hf Hmn Hmx; [lia|].
    cbn [minmax_loop min_loop max_loop]. replace (i =? l) with false by (symmetry; apply Nat.eqb_neq; lia).
    destruct (S i =? l) eqn:E.
    - assert (S i = l) as <- by lia. destruct fuel as [|fuel]; [lia|]. cbn. rewrite Nat.eqb_refl.
      exists mn, mx. done.
    - destruct Hmn as [x [Hx1 [Hx2 Hx3]]] eqn:HE1. destruct Hmx as [z [Hz1 [Hz2 Hz3]]] eqn:HE2.
      destruct (rd_lt m (S i)) as [y [Hy ->]]; [lia|].
      rewrite (rd_Ok _ _ _ Hx2), (rd_Ok _ _ _ Hz2). cbn [rbind].
      apply IH; [lia|lia| |].
      + apply smallest_snoc; [done|by exists x|lia|done|done].
      + apply greatest_snoc; [done|by exists z|lia|done|done].
  Qed.
  Lemma minmax_all m f l : StrictWeakOrder comp -> range m f l -> f < l ->
    exists mn mx, algo_minmax_element_by comp m f l = Ok (mn, mx) /\
      algo_min_element_by comp m f l = Ok mn /\ algo_max_element_by comp m f l = Ok mx /\
      smallest_at comp m f l mn /\ greatest_at comp m f l mx.
  Proof.
    intros HW [H1 H2] Hlt. destruct (lookup_lt_is_Some_2 m f) as [x Hx]; [lia|].
    apply minmax_loop_ok; [done|done|lia|lia|by eapply smallest_one|by eapply greatest_one].
  Qed.
  Lemma minmax_empty m f : algo_minmax_element_by comp m f f = Ok (f, f) /\
      algo_min_element_by comp m f f = Ok f /\ algo_max_element_by comp m f f = Ok f.
  Proof. unfold algo_minmax_element_by, algo_min_element_by, algo_max_element_by. cbn. by rewrite Nat.eqb_refl. Qed.

  Lemma max_by_ok x y : StrictWeakOrder comp ->
    (algo_max_by comp x y = x \/ algo_max_by comp x y = y) /\
    comp (algo_max_by comp x y) x = false /\ comp (algo_max_by comp x y) y = false.
  Proof.
    intros HW. unfold algo_max_by. destruct (comp x y) eqn:E.
    - split; [by right|]. split; [by apply swo_asym|apply (swo_irrefl _ HW)].
    - split; [by left|]. split; [apply (swo_irrefl _ HW)|done].
  Qed.
  Lemma min_by_ok x y : StrictWeakOrder comp ->
    (algo_min_by comp x y = x \/ algo_min_by comp x y = y) /\
    comp x (algo_min_by comp x y) = false /\ comp y (algo_min_by comp x y) = false.
  Proof.
    intros HW. unfold algo_min_by. destruct (comp x y) eqn:E.
    - split; [by left|]. split; [apply (swo_irrefl _ HW)|by apply swo_asym].
    - split; [by right|]. split; [done|apply (swo_irrefl _ HW)].
  Qed.
  Lemma clamp_ok v lo hi : StrictWeakOrder comp -> comp hi lo = false ->
    let r := algo_clamp_by comp v lo hi in
    comp r lo = false /\ comp hi r = false /\
    (comp v lo = false -> comp hi v = false -> equivb comp r v = true) /\
    (comp v lo = true -> r = lo) /\ (comp hi v = true -> r = hi).
  Proof.
    intros HW Hlh r. subst r. unfold algo_clamp_by, algo_max_by, algo_min_by.
    destruct (comp v hi) eqn:E1.
    - destruct (comp v lo) eqn:E2.
      + split; [apply (swo_irrefl _ HW)|]. split; [done|]. split; [done|]. split; [done|].
        intros H. rewrite (swo_asym _ HW _ _ E1) in H. done.
      + split; [done|]. split; [by apply swo_asym|]. split.
        * intros _ _. by apply equivb_refl.
        * split; [done|]. intros H. rewrite (swo_asym _ HW _ _ E1) in H. done.
    - split; [done|]. split; [apply (swo_irrefl _ HW)|]. split.
      + intros _ H. by apply equivb_true.
      + split; [|done]. intros H. rewrite (swo_lt_le_trans _ HW _ _ _ H Hlh) in E1. done.
  Qed.

  Lemma lex_less_nil_r l : ~ lex_less comp l [].
  Proof. intros [k [_ [_ H]]]. by rewrite lookup_nil in H. Qed.
  Lemma lex_less_nil_cons y l : lex_less comp [] (y :: l).
  Proof. exists 0. split; [lia|]. split; [cbn; lia|done]. Qed.
  Lemma lex_less_cons x y l1 l2 : lex_less comp (x :: l1) (y :: l2) <->
    comp x y = true \/ (equivb comp x y = true /\ lex_less comp l1 l2).
  Proof.
    split.
    - intros [k [H1 [H2 H3]]]. destruct k as [|k]; [by left|]. right. split.
      + apply (H1 0 x y); [lia|done|done].
      + exists k. cbn in H2, H3. split; [|split; [lia|done]].
        intros i a b Hi. apply (H1 (S i)). lia.
    - intros [H|[He [k [H1 [H2 H3]]]]].
      + exists 0. split; [lia|]. split; [cbn; lia|done].
      + exists (S k). cbn. split; [|split; [lia|done]].
        intros [|i] a b Hi; cbn; [intros; congruence|]. apply H1. lia.
  Qed.
  Lemma lex_loop_ok m l1 l2 : l1 <= length m -> l2 <= length m -> forall fuel i1 i2, i1 <= l1 -> i2 <= l2 -> l1 - i1 < fuel ->
    exists j1 j2 ret, lex_loop comp fuel m i1 l1 i2 l2 = Ok (j1, j2, ret) /\
      ((if (j1 =? l1) && negb (j2 =? l2) then true else ret) = true <->
       lex_less comp (slice m i1 l1) (slice m i2 l2)).
  Proof.
    intros Hl1 Hl2 fuel. induction fuel as [|fuel IH]; intros i1 i2 H1 H2 Hf; [lia|]. cbn [lex_loop].
    destruct (i2 =? l2) eqn:E2.
    { assert (i2 = l2) as -> by lia. rewrite orb_true_r. exists i1, l2, false. split; [done|].
      rewrite Nat.eqb_refl, andb_false_r, slice_nil. split; [done|]. intros H. by apply lex_less_nil_r in H. }
    destruct (lookup_lt_is_Some_2 m i2) as [y Hy]; [lia|].
    rewrite (slice_cons m i2 l2 y) by (done || lia).
    destruct (i1 =? l1) eqn:E1; cbn [orb].
    { exists i1, i2, false. split; [done|]. rewrite E1, E2. cbn. assert (i1 = l1) as -> by lia. rewrite slice_nil.
      split; [|done]. intros _. apply lex_less_nil_cons. }
    destruct (lookup_lt_is_Some_2 m i1) as [x Hx]; [lia|].
    rewrite (slice_cons m i1 l1 x) by (done || lia).
    rewrite (rd_Ok _ _ _ Hx), (rd_Ok _ _ _ Hy). cbn [rbind].
    destruct (comp x y) eqn:C1; [|destruct (comp y x) eqn:C2].
    - exists i1, i2, true. split; [done|]. rewrite E1. cbn. split; [|done]. intros _. apply lex_less_cons. by left.
    - exists i1, i2, false. split; [done|]. rewrite E1. cbn. split; [done|]. intros H.
      apply lex_less_cons in H as [H|[H _]]; [congruence|]. apply equivb_true in H as [_ H]. congruence.
    - destruct (IH (S i1) (S i2)) as [j1 [j2 [ret [-> HI]]]]; [lia|lia|lia|].
      exists j1, j2, ret. split; [done|]. rewrite HI, lex_less_cons. split.
      + intros H. right. split; [by apply equivb_true|done].
      + intros [H|[_ H]]; [congruence|done].
  Qed.
  Lemma lexicographical_compare_ok m f1 l1 f2 l2 : range m f1 l1 -> range m f2 l2 ->
    exists b, algo_lexicographical_compare_by comp m f1 l1 f2 l2 = Ok b /\
      (b = true <-> lex_less comp (slice m f1 l1) (slice m f2 l2)).
  Proof.
    intros [H1 H2] [H3 H4]. unfold algo_lexicographical_compare_by.
    destruct (lex_loop_ok m l1 l2 H2 H4 (S (length m)) f1 f2) as [j1 [j2 [ret [-> HI]]]]; [lia|lia|lia|].
    cbn [rbind fst snd]. eexists. split; [done|]. exact HI.
  Qed.

  Lemma lex_less_strict_order : StrictWeakOrder comp ->
    (forall l, ~ lex_less comp l l) /\
    (forall l1 l2 l3, lex_less comp l1 l2 -> lex_less comp l2 l3 -> lex_less comp l1 l3).
  Proof.
    intros HW. split.
    - induction l as [|x l IH]; [apply lex_less_nil_r|]. rewrite lex_less_cons.
      intros [H|[_ H]]; [by rewrite (swo_irrefl _ HW) in H|done].
    - induction l1 as [|x l1 IH]; intros l2 l3 H12 H23.
      + destruct l3; [by apply lex_less_nil_r in H23|]. apply lex_less_nil_cons.
      + destruct l2 as [|y l2]; [by apply lex_less_nil_r in H12|].
        destruct l3 as [|z l3]; [by apply lex_less_nil_r in H23|].
        apply lex_less_cons in H12. apply lex_less_cons in H23. apply lex_less_cons.
        destruct H12 as [H12|[E12 H12]], H23 as [H23|[E23 H23]].
        * left. eapply swo_trans; eauto.
        * left. apply equivb_true in E23 as [_ E]. eapply swo_lt_le_trans; eauto.
        * left. apply equivb_true in E12 as [_ E]. eapply swo_le_lt_trans; eauto.
        * right. split; [by eapply equivb_trans|eauto].
  Qed.
End minmax.

Lemma partition_full {A} (m : list A) f l p : range m f l ->
  exists m' k, algo_partition m f l p = Ok (m', k) /\ boundary m' f l p k /\ permutes m m' f l /\
    slice m' f k = List.filter p (slice m f l).
Proof.
  intros H. destruct (partition_ok m f l p H) as (no & Hno & Hp).
  eexists _, _. split; [exact Hp|].
  destruct (partition_boundary m f l p _ _ H Hp) as (Hb & Hperm & He).
  split; [exact Hb|].
  assert (length (List.filter p (slice m f l) ++ no) = l - f) as Hlen.
  { rewrite app_length, <- (Permutation_length Hno). destruct H.
    assert (forall s : list A, length (List.filter p s) + length (List.filter (fun x => negb (p x)) s) = length s) as Hs.
    { induction s as [|x s IH]; [done|]. cbn. destruct (p x); cbn; lia. }
    rewrite Hs. unfold slice. rewrite take_length, drop_length. lia. }
  split.
  - split; [by rewrite patch_length by (destruct H; lia)|]. split; [|exact Hperm].
    intros k Hk. apply patch_lookup_out; rewrite Hlen; destruct H; lia.
  - unfold slice, patch. destruct H as [H1 H2].
    replace (f + length (List.filter p (take (l - f) (drop f m))) - f)
      with (length (List.filter p (take (l - f) (drop f m)))) by lia.
    rewrite drop_app_ge by (rewrite take_length; lia). rewrite take_length.
    replace (f - f `min` length m) with 0 by lia. cbn [drop]. rewrite <- app_assoc.
    rewrite drop_0. by rewrite take_app.
Qed.
