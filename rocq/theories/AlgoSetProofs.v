(** AlgoSetProofs.v — proofs about the set operations and merge of AlgoOrd.v. *)
From Verif Require Import Base Spec Facts AlgoNonMod AlgoMod AlgoNonModProofs AlgoModProofs AlgoOrd AlgoOrdProofs.
From stdpp Require Import list.

Section zip.
  Context {A : Type}.
  Implicit Types m : list A.

  (** list-level reading of the loop plus the trailing copies *)
  Fixpoint zip_out (fuel : nat) (step : A -> A -> finger) (c1 c2 : bool) (l1 l2 : list A) : list A :=
    match fuel with
    | 0 => []
    | S fuel' =>
      match l1, l2 with
      | [], _ => if c2 then l2 else []
      | _, [] => if c1 then l1 else []
      | x :: r1, y :: r2 =>
        match step x y with
        | Emit1_Adv1 => x :: zip_out fuel' step c1 c2 r1 l2
        | Emit2_Adv2 => y :: zip_out fuel' step c1 c2 l1 r2
        | Emit1_AdvBoth => x :: zip_out fuel' step c1 c2 r1 r2
        | Skip1 => zip_out fuel' step c1 c2 r1 l2
        | Skip2 => zip_out fuel' step c1 c2 l1 r2
        | SkipBoth => zip_out fuel' step c1 c2 r1 r2
        end
      end
    end.

  (* the loop: with acc already written *)
  Lemma zip_loop_ok step c1 c2 m0 l1 l2 d0 : l1 <= length m0 -> l2 <= length m0 ->
    forall fuel i1 i2 acc, i1 <= l1 -> i2 <= l2 -> (l1 - i1) + (l2 - i2) < fuel ->
      let out := acc ++ zip_out fuel step c1 c2 (slice m0 i1 l1) (slice m0 i2 l2) in
      d0 + length out <= length m0 ->
      apart d0 (d0 + length out) i1 l1 -> apart d0 (d0 + length out) i2 l2 ->
      exists j1 j2 acc', zip_loop fuel step (patch m0 d0 acc) i1 l1 i2 l2 (d0 + length acc) (length acc)
        = Ok (patch m0 d0 acc', j1, j2, d0 + length acc', length acc') /\
        i1 <= j1 <= l1 /\ i2 <= j2 <= l2 /\ (j1 = l1 \/ j2 = l2) /\
        out = acc' ++ (if c1 then slice m0 j1 l1 else []) ++ (if c2 then slice m0 j2 l2 else []).
  Proof.
    intros Hl1 Hl2 fuel. induction fuel as [|fuel IH]; intros i1 i2 acc H1 H2 Hf out Hd Ha1 Ha2; [lia|].
    cbn [zip_loop]. assert (length acc <= length out) as Hlen by (unfold out; rewrite app_length; lia).
    destruct (i1 =? l1) eqn:E1.
    { assert (i1 = l1) as -> by lia. cbn [orb]. exists l1, i2, acc. split; [done|].
      split; [lia|]. split; [lia|]. split; [by left|]. subst out. rewrite slice_nil. cbn. destruct c1, c2; done. }
    destruct (lookup_lt_is_Some_2 m0 i1) as [x Hx]; [lia|].
    destruct (i2 =? l2) eqn:E2; cbn [orb].
    { assert (i2 = l2) as -> by lia. exists i1, l2, acc. split; [done|].
      split; [lia|]. split; [lia|]. split; [by right|]. subst out. rewrite slice_nil. cbn.
      rewrite (slice_cons m0 i1 l1 x) by (done || lia). destruct c1, c2; by rewrite ?app_nil_r. }
    destruct (lookup_lt_is_Some_2 m0 i2) as [y Hy]; [lia|].
    rewrite (rd_Ok _ i1 x), (rd_Ok _ i2 y); [|rewrite patch_lookup_out; unfold apart in *; (done || lia)..].
    cbn [rbind]. subst out.
    rewrite (slice_cons m0 i1 l1 x) in * by (done || lia).
    rewrite (slice_cons m0 i2 l2 y) in * by (done || lia). cbn [zip_out] in *.
    rewrite <- (slice_cons m0 i1 l1 x) in * by (done || lia).
    rewrite <- (slice_cons m0 i2 l2 y) in * by (done || lia).
    assert (Hwr : forall z rest, d0 + length (acc ++ z :: rest) <= length m0 ->
      wr (patch m0 d0 acc) (d0 + length acc) z = Ok (patch m0 d0 (acc ++ [z]))).
    { intros z rest Hz. rewrite app_length in Hz. cbn in Hz. rewrite wr_Ok by (rewrite patch_length; lia).
      by rewrite patch_snoc by lia. }
    assert (Hacc : forall z, length (acc ++ [z]) = S (length acc)) by (intros z; rewrite app_length; cbn; lia).
    destruct (step x y).
    - rewrite (Hwr x _ Hd). cbn [rbind].
      destruct (IH (S i1) i2 (acc ++ [x])) as [j1 [j2 [acc' HI]]]; try rewrite <- app_assoc; cbn [app];
        [lia|lia|lia|done|unfold apart in *; lia|done|].
      rewrite Hacc in HI. replace (d0 + S (length acc)) with (S (d0 + length acc)) in HI by lia.
      rewrite <- app_assoc in HI. cbn [app] in HI. destruct HI as [HE [Hj1 [Hj2 HI]]].
      exists j1, j2, acc'. split; [done|]. split; [lia|]. split; [lia|]. exact HI.
    - rewrite (Hwr y _ Hd). cbn [rbind].
      destruct (IH i1 (S i2) (acc ++ [y])) as [j1 [j2 [acc' HI]]]; try rewrite <- app_assoc; cbn [app];
        [lia|lia|lia|done|done|unfold apart in *; lia|].
      rewrite Hacc in HI. replace (d0 + S (length acc)) with (S (d0 + length acc)) in HI by lia.
      rewrite <- app_assoc in HI. cbn [app] in HI. destruct HI as [HE [Hj1 [Hj2 HI]]].
      exists j1, j2, acc'. split; [done|]. split; [lia|]. split; [lia|]. exact HI.
    - rewrite (Hwr x _ Hd). cbn [rbind].
      destruct (IH (S i1) (S i2) (acc ++ [x])) as [j1 [j2 [acc' HI]]]; try rewrite <- app_assoc; cbn [app];
        [lia|lia|lia|done|unfold apart in *; lia|unfold apart in *; lia|].
      rewrite Hacc in HI. replace (d0 + S (length acc)) with (S (d0 + length acc)) in HI by lia.
      rewrite <- app_assoc in HI. cbn [app] in HI. destruct HI as [HE [Hj1 [Hj2 HI]]].
      exists j1, j2, acc'. split; [done|]. split; [lia|]. split; [lia|]. exact HI.
    - destruct (IH (S i1) i2 acc) as [j1 [j2 [acc' HI]]]; [lia|lia|lia|done|unfold apart in *; lia|done|].
      destruct HI as [HE [Hj1 [Hj2 HI]]].
      exists j1, j2, acc'. split; [done|]. split; [lia|]. split; [lia|]. exact HI.
    - destruct (IH i1 (S i2) acc) as [j1 [j2 [acc' HI]]]; [lia|lia|lia|done|done|unfold apart in *; lia|].
      destruct HI as [HE [Hj1 [Hj2 HI]]].
      exists j1, j2, acc'. split; [done|]. split; [lia|]. split; [lia|]. exact HI.
    - destruct (IH (S i1) (S i2) acc) as [j1 [j2 [acc' HI]]]; [lia|lia|lia|done|unfold apart in *; lia|unfold apart in *; lia|].
      destruct HI as [HE [Hj1 [Hj2 HI]]].
      exists j1, j2, acc'. split; [done|]. split; [lia|]. split; [lia|]. exact HI.
  Qed.

  Lemma zip_out_fuel step c1 c2 : forall f1 f2 (l1 l2 : list A), length l1 + length l2 < f1 -> length l1 + length l2 < f2 ->
    zip_out f1 step c1 c2 l1 l2 = zip_out f2 step c1 c2 l1 l2.
  Proof.
    induction f1 as [|f1 IH]; intros [|f2] l1 l2 H1 H2; try lia. cbn [zip_out].
    destruct l1 as [|x l1]; [done|]. destruct l2 as [|y l2]; [done|]. cbn in H1, H2.
    destruct (step x y); rewrite (IH f2) by (cbn; lia); done.
  Qed.
  Definition zip step c1 c2 (l1 l2 : list A) := zip_out (S (length l1 + length l2)) step c1 c2 l1 l2.

  Lemma zip_nil_l step c1 c2 l2 : zip step c1 c2 [] l2 = if c2 then l2 else [].
  Proof. done. Qed.
  Lemma zip_nil_r step c1 c2 l1 : zip step c1 c2 l1 [] = if c1 then l1 else [].
  Proof. unfold zip. destruct l1; cbn; [|done]. by destruct c1, c2. Qed.
  Lemma zip_cons step c1 c2 x y r1 r2 : zip step c1 c2 (x :: r1) (y :: r2) =
    match step x y with
    | Emit1_Adv1 => x :: zip step c1 c2 r1 (y :: r2)
    | Emit2_Adv2 => y :: zip step c1 c2 (x :: r1) r2
    | Emit1_AdvBoth => x :: zip step c1 c2 r1 r2
    | Skip1 => zip step c1 c2 r1 (y :: r2)
    | Skip2 => zip step c1 c2 (x :: r1) r2
    | SkipBoth => zip step c1 c2 r1 r2
    end.
  Proof.
    unfold zip at 1. cbn [length]. cbn [zip_out]. destruct (step x y); try (apply f_equal); unfold zip; apply zip_out_fuel; cbn; lia.
  Qed.
  Lemma zip_ind2 (P : list A -> list A -> Prop) :
    (forall l2, P [] l2) -> (forall x l1, P (x :: l1) []) ->
    (forall x l1 y l2, P l1 (y :: l2) -> P (x :: l1) l2 -> P l1 l2 -> P (x :: l1) (y :: l2)) ->
    forall l1 l2, P l1 l2.
  Proof.
    intros H1 H2 H3 l1. induction l1 as [|x l1 IH]; [done|]. intros l2. induction l2 as [|y l2 IH2]; auto.
  Qed.
  Lemma zip_length step c1 c2 : forall l1 l2, length (zip step c1 c2 l1 l2) <= length l1 + length l2.
  Proof.
    apply zip_ind2.
    - intros. rewrite zip_nil_l. destruct c2; cbn; lia.
    - intros. rewrite zip_nil_r. destruct c1; cbn; lia.
    - intros x l1 y l2 I1 I2 I3. rewrite zip_cons. destruct (step x y); cbn in *; lia.
  Qed.

  Lemma zip_then_copy_ok step c1 c2 m f1 l1 f2 l2 d : range m f1 l1 -> range m f2 l2 ->
    let out := zip step c1 c2 (slice m f1 l1) (slice m f2 l2) in
    d + length out <= length m -> apart d (d + length out) f1 l1 -> apart d (d + length out) f2 l2 ->
    zip_then_copy step c1 c2 m f1 l1 f2 l2 d = Ok (patch m d out, d + length out, length out).
  Proof.
    intros [H1 H2] [H3 H4] out Hd Ha1 Ha2. unfold zip_then_copy.
    assert (Hout : out = zip_out (S (2 * length m)) step c1 c2 (slice m f1 l1) (slice m f2 l2)).
    { unfold out, zip. apply zip_out_fuel; rewrite !slice_length by (split; lia); lia. }
    pose proof (zip_loop_ok step c1 c2 m l1 l2 d H2 H4 (S (2 * length m)) f1 f2 []) as HL.
    cbn [app length] in HL. rewrite <- Hout, patch_nil, Nat.add_0_r in HL.
    destruct HL as [j1 [j2 [acc [-> [Hj1 [Hj2 [Hend Heq]]]]]]]; [lia|lia|lia|done|done|done|].
    cbn [rbind]. clear Hout.
    assert (HlA : length (slice m j1 l1) = l1 - j1) by (apply slice_length; split; lia).
    assert (HlB : length (slice m j2 l2) = l2 - j2) by (apply slice_length; split; lia).
    assert (Hlen : length out = length acc + (if c1 then l1 - j1 else 0) + (if c2 then l2 - j2 else 0)).
    { rewrite Heq, !app_length. destruct c1, c2; rewrite ?HlA, ?HlB; cbn; lia. }
    assert (Hsame : forall a b, (a <= b)%nat -> b <= length m -> forall w, d + length w <= length m -> length w <= length out ->
       apart d (d + length out) a b -> slice (patch m d w) a b = slice m a b).
    { intros a b Hab Hb w Hw Hwo Hap. apply list_eq. intros i. destruct (decide (i < b - a)) as [Hi|Hi].
      - rewrite !slice_lookup by done. apply patch_lookup_out; [done|]. unfold apart in Hap. lia.
      - rewrite !(proj2 (lookup_ge_None _ _)); [done|rewrite slice_length; [lia|split; lia]|
          rewrite slice_length; [lia|split; rewrite ?patch_length; lia]]. }
    assert (Hcp : forall w a b, d + length w + (b - a) <= length m -> (a <= b)%nat -> b <= length m ->
        length w + (b - a) <= length out -> apart d (d + length out) a b ->
        algo_copy (patch m d w) a b (d + length w) = Ok (patch m d (w ++ slice m a b), d + length w + (b - a), b - a)).
    { intros w a b Hw Hab Hb Hwo Hap.
      destruct (decide (a = b)) as [->|Hne].
      { unfold algo_copy. cbn. rewrite Nat.eqb_refl, slice_nil, app_nil_r. by rewrite Nat.sub_diag, Nat.add_0_r. }
      rewrite copy_ok; [|split; rewrite ?patch_length; lia|rewrite patch_length; lia|].
      - rewrite Hsame by (done || lia). f_equal. f_equal. f_equal.
        assert (length (slice m a b) = b - a) as Hls by (apply slice_length; split; lia).
        rewrite (patch_slice (patch m d w) d); [|lia|rewrite Hls, patch_length; lia].
        assert (slice (patch m d w) d (d + length w) = w) as ->.
        { unfold slice, patch. rewrite drop_app_alt by (rewrite take_length; lia).
          replace (d + length w - d) with (length w) by lia. by rewrite take_app. }
        apply list_eq. intros i.
        rewrite (patch_lookup (patch m d w)) by (rewrite patch_length, ?app_length, ?Hls by lia; lia).
        rewrite (patch_lookup m d (w ++ slice m a b)) by (rewrite app_length, Hls; lia).
        destruct (decide (d <= i < d + length (w ++ slice m a b))) as [|Hi]; [done|].
        rewrite patch_lookup by lia.
        rewrite decide_False; [done|]. rewrite app_length in Hi. lia.
      - unfold apart in Hap. lia. }
    assert (Hx1 : c1 = false -> (if c1 then algo_copy (patch m d acc) j1 l1 (d + length acc) else Ok (patch m d acc, d + length acc, 0)) = Ok (patch m d acc, d + length acc, 0)).
    { by intros ->. }
    destruct c1.
    - rewrite Hcp by (unfold apart in *; lia). cbn [rbind fst snd].
      destruct c2.
      + replace (d + length acc + (l1 - j1)) with (d + length (acc ++ slice m j1 l1)) by (rewrite app_length; lia).
        rewrite Hcp by (unfold apart in *; rewrite ?app_length, ?HlA; lia). cbn [rbind fst snd].
        rewrite Heq. f_equal. f_equal; [f_equal|].
        * by applist.
        * rewrite !app_length. lia.
        * rewrite !app_length. lia.
      + rewrite Heq. cbn [rbind fst snd]. rewrite app_nil_r. f_equal. f_equal; [f_equal|].
        * rewrite !app_length. lia.
        * rewrite !app_length. lia.
    - cbn [rbind fst snd]. destruct c2.
      + rewrite Hcp by (unfold apart in *; lia). cbn [rbind fst snd]. rewrite Heq. cbn [app].
        f_equal. f_equal; [f_equal|]; rewrite !app_length; lia.
      + cbn [rbind fst snd]. rewrite Heq. cbn [app]. rewrite !app_nil_r. f_equal. f_equal. lia.
  Qed.
End zip.

Section spec.
  Context {A : Type} (comp : A -> A -> bool).
  Context (HW : StrictWeakOrder comp).
  Notation eqf x := (List.filter (equivb comp x)).

  (* all of a sorted list is strictly above a *)
  Lemma above_none a x l : equivb comp x a = true -> (forall y, y ∈ l -> comp a y = true) -> eqf x l = [].
  Proof.
    intros Hx Hl. apply filter_Forall_false. intros y Hy. specialize (Hl y Hy).
    destruct (equivb comp x y) eqn:E; [|done].
    rewrite equivb_sym in Hx. pose proof (equivb_trans _ HW _ _ _ Hx E) as H. apply equivb_true in H. intuition congruence.
  Qed.
  Lemma sorted_above a b l : comp a b = true -> sorted comp (b :: l) -> forall y, y ∈ b :: l -> comp a y = true.
  Proof.
    intros Hab Hs y Hy. apply sorted_cons in Hs as [HF _]. apply elem_of_cons in Hy as [->|Hy]; [done|].
    rewrite Forall_forall in HF. eapply swo_lt_le_trans; eauto.
  Qed.
  Lemma eqf_cons x a l : eqf x (a :: l) = if equivb comp x a then a :: eqf x l else eqf x l.
  Proof. done. Qed.
  Lemma eqf_same x a b : equivb comp a b = true -> equivb comp x a = equivb comp x b.
  Proof.
    intros H. destruct (equivb comp x a) eqn:E.
    - symmetry. by eapply equivb_trans.
    - destruct (equivb comp x b) eqn:E2; [|done]. rewrite equivb_sym in H.
      rewrite (equivb_trans _ HW _ _ _ E2 H) in E. done.
  Qed.

  Lemma zip_elem step c1 c2 : forall l1 l2 z, z ∈ zip (A:=A) step c1 c2 l1 l2 -> z ∈ l1 \/ z ∈ l2.
  Proof.
    refine (zip_ind2 _ _ _ _).
    - intros l2 z. rewrite zip_nil_l. destruct c2; [by right|]. by intros H%elem_of_nil.
    - intros x l1 z. rewrite zip_nil_r. destruct c1; [by left|]. by intros H%elem_of_nil.
    - intros x l1 y l2 I1 I2 I3 z. rewrite zip_cons. rewrite !elem_of_cons.
      destruct (step x y); rewrite ?elem_of_cons;
        [intros [->|H]; [by auto|apply I1 in H]|intros [->|H]; [by auto|apply I2 in H]
        |intros [->|H]; [by auto|apply I3 in H]|intros H; apply I1 in H|intros H; apply I2 in H|intros H; apply I3 in H];
        rewrite ?elem_of_cons in H; tauto.
  Qed.

  (* generic sortedness: a step that emits the smaller one *)
  Definition step_good (step : A -> A -> finger) : Prop := forall x y,
    match step x y with
    | Emit1_Adv1 => comp y x = false
    | Emit2_Adv2 => comp x y = false
    | Emit1_AdvBoth => comp y x = false
    | _ => True
    end.
  Lemma zip_sorted step c1 c2 : step_good step -> forall l1 l2, sorted comp l1 -> sorted comp l2 ->
    sorted comp (zip step c1 c2 l1 l2).
  Proof.
    intros Hstep. refine (zip_ind2 _ _ _ _).
    - intros l2 H1 H2. rewrite zip_nil_l. destruct c2; [done|apply sorted_nil].
    - intros x l1 H1 H2. rewrite zip_nil_r. destruct c1; [done|apply sorted_nil].
    - intros x l1 y l2 I1 I2 I3 H1 H2. pose proof H1 as S1. pose proof H2 as S2.
      apply sorted_cons in H1 as [F1 H1]. apply sorted_cons in H2 as [F2 H2].
      rewrite Forall_forall in F1, F2. rewrite zip_cons. specialize (Hstep x y). destruct (step x y); auto.
      + apply sorted_cons. split; [|auto]. apply Forall_forall. intros z Hz. apply zip_elem in Hz as [Hz|Hz]; [auto|].
        apply elem_of_cons in Hz as [->|Hz]; [done|]. apply (swo_le_trans _ HW) with y; auto.
      + apply sorted_cons. split; [|auto]. apply Forall_forall. intros z Hz. apply zip_elem in Hz as [Hz|Hz]; [|auto].
        apply elem_of_cons in Hz as [->|Hz]; [done|]. apply (swo_le_trans _ HW) with x; auto.
      + apply sorted_cons. split; [|auto]. apply Forall_forall. intros z Hz. apply zip_elem in Hz as [Hz|Hz]; [auto|].
        apply (swo_le_trans _ HW) with y; auto.
  Qed.
  Lemma merge_good : step_good (merge_step comp).
  Proof. intros x y. unfold merge_step. destruct (comp x y) eqn:E; [by apply swo_asym|done]. Qed.
  Lemma intersection_good : step_good (intersection_step comp).
  Proof. intros x y. unfold intersection_step. destruct (comp x y) eqn:E; [done|]. by destruct (comp y x). Qed.
  Lemma union_good : step_good (union_step comp).
  Proof. intros x y. unfold union_step. destruct (comp x y) eqn:E; [by apply swo_asym|]. by destruct (comp y x) eqn:E2. Qed.
  Lemma symdiff_good : step_good (symdiff_step comp).
  Proof. intros x y. unfold symdiff_step. destruct (comp x y) eqn:E; [by apply swo_asym|]. by destruct (comp y x) eqn:E2. Qed.
  Lemma difference_good : step_good (difference_step comp).
  Proof. intros x y. unfold difference_step. destruct (comp x y) eqn:E; [by apply swo_asym|done]. Qed.

  Lemma zip_merge_perm : forall l1 l2, Permutation (l1 ++ l2) (zip (merge_step comp) true true l1 l2).
  Proof.
    refine (zip_ind2 _ _ _ _).
    - intros. by rewrite zip_nil_l.
    - intros. rewrite zip_nil_r, app_nil_r. done.
    - intros x l1 y l2 I1 I2 I3. rewrite zip_cons. unfold merge_step at 1. destruct (comp x y).
      + cbn. by constructor.
      + rewrite <- I2. by rewrite <- Permutation_middle.
  Qed.

  Lemma zip_merge_filter : forall l1 l2, sorted comp l1 -> sorted comp l2 -> forall x,
    eqf x (zip (merge_step comp) true true l1 l2) = eqf x l2 ++ eqf x l1.
  Proof.
    refine (zip_ind2 _ _ _ _).
    - intros l2 H1 H2 x. rewrite zip_nil_l. cbn. by rewrite app_nil_r.
    - intros a l1 H1 H2 x. rewrite zip_nil_r. done.
    - intros a l1 b l2 I1 I2 I3 H1 H2 x. rewrite zip_cons. unfold merge_step at 1.
      pose proof H1 as [F1 H1']%sorted_cons. pose proof H2 as [F2 H2']%sorted_cons.
      destruct (comp a b) eqn:E.
      + rewrite eqf_cons, (I1 H1' H2). rewrite (eqf_cons x a l1). destruct (equivb comp x a) eqn:Ex; [|done].
        rewrite (above_none a x (b :: l2)); [done|done|]. by apply sorted_above.
      + rewrite eqf_cons, (I2 H1 H2'). rewrite (eqf_cons x b l2). by destruct (equivb comp x b).
  Qed.

  Lemma zip_union_filter : forall l1 l2, sorted comp l1 -> sorted comp l2 -> forall x,
    eqf x (zip (union_step comp) true true l1 l2) = eqf x l1 ++ drop (occ comp x l1) (eqf x l2).
  Proof.
    unfold occ. refine (zip_ind2 _ _ _ _).
    - intros l2 H1 H2 x. rewrite zip_nil_l. done.
    - intros a l1 H1 H2 x. rewrite zip_nil_r. cbn [List.filter]. by rewrite drop_nil, app_nil_r.
    - intros a l1 b l2 I1 I2 I3 H1 H2 x. rewrite zip_cons. unfold union_step at 1.
      pose proof H1 as [F1 H1']%sorted_cons. pose proof H2 as [F2 H2']%sorted_cons.
      destruct (comp a b) eqn:E; [|destruct (comp b a) eqn:E2].
      + rewrite eqf_cons, (I1 H1' H2). rewrite (eqf_cons x a l1). destruct (equivb comp x a) eqn:Ex; [|done].
        rewrite (above_none a x (b :: l2)); [by rewrite !drop_nil|done|]. by apply sorted_above.
      + rewrite eqf_cons, (I2 H1 H2'). rewrite (eqf_cons x b l2). destruct (equivb comp x b) eqn:Ex; [|done].
        rewrite (above_none b x (a :: l1)); [done|done|]. by apply sorted_above.
      + rewrite eqf_cons, (I3 H1' H2'), !eqf_cons.
        rewrite (eqf_same x a b) by (by apply equivb_true). destruct (equivb comp x b); done.
  Qed.

  Lemma zip_symdiff_filter : forall l1 l2, sorted comp l1 -> sorted comp l2 -> forall x,
    eqf x (zip (symdiff_step comp) true true l1 l2)
    = drop (occ comp x l2) (eqf x l1) ++ drop (occ comp x l1) (eqf x l2).
  Proof.
    unfold occ. refine (zip_ind2 _ _ _ _).
    - intros l2 H1 H2 x. rewrite zip_nil_l. cbn [List.filter]. by rewrite drop_nil.
    - intros a l1 H1 H2 x. rewrite zip_nil_r. cbn [List.filter]. by rewrite drop_nil, app_nil_r.
    - intros a l1 b l2 I1 I2 I3 H1 H2 x. rewrite zip_cons. unfold symdiff_step at 1.
      pose proof H1 as [F1 H1']%sorted_cons. pose proof H2 as [F2 H2']%sorted_cons.
      destruct (comp a b) eqn:E; [|destruct (comp b a) eqn:E2].
      + rewrite eqf_cons, (I1 H1' H2). rewrite (eqf_cons x a l1). destruct (equivb comp x a) eqn:Ex; [|done].
        rewrite (above_none a x (b :: l2)); [by rewrite !drop_nil|done|]. by apply sorted_above.
      + rewrite eqf_cons, (I2 H1 H2'). rewrite (eqf_cons x b l2). destruct (equivb comp x b) eqn:Ex; [|done].
        rewrite (above_none b x (a :: l1)); [by rewrite !drop_nil|done|]. by apply sorted_above.
      + rewrite (I3 H1' H2'), !eqf_cons.
        rewrite (eqf_same x a b) by (by apply equivb_true). destruct (equivb comp x b); done.
  Qed.

  Lemma zip_intersection_filter : forall l1 l2, sorted comp l1 -> sorted comp l2 -> forall x,
    eqf x (zip (intersection_step comp) false false l1 l2) = take (occ comp x l2) (eqf x l1).
  Proof.
    unfold occ. refine (zip_ind2 _ _ _ _).
    - intros l2 H1 H2 x. rewrite zip_nil_l. cbn [List.filter]. by rewrite take_nil.
    - intros a l1 H1 H2 x. rewrite zip_nil_r. done.
    - intros a l1 b l2 I1 I2 I3 H1 H2 x. rewrite zip_cons. unfold intersection_step at 1.
      pose proof H1 as [F1 H1']%sorted_cons. pose proof H2 as [F2 H2']%sorted_cons.
      destruct (comp a b) eqn:E; [|destruct (comp b a) eqn:E2].
      + rewrite (I1 H1' H2). rewrite (eqf_cons x a l1). destruct (equivb comp x a) eqn:Ex; [|done].
        rewrite (above_none a x (b :: l2)); [done|done|]. by apply sorted_above.
      + rewrite (I2 H1 H2'). rewrite (eqf_cons x b l2). destruct (equivb comp x b) eqn:Ex; [|done].
        rewrite (above_none b x (a :: l1)); [by rewrite !take_nil|done|]. by apply sorted_above.
      + rewrite eqf_cons, (I3 H1' H2'), !eqf_cons.
        rewrite (eqf_same x a b) by (by apply equivb_true). destruct (equivb comp x b); done.
  Qed.
  Lemma zip_intersection_length : forall l1 l2, length (zip (intersection_step comp) false false l1 l2) <= length l1 `min` length l2.
  Proof.
    refine (zip_ind2 _ _ _ _).
    - intros. rewrite zip_nil_l. cbn. lia.
    - intros. rewrite zip_nil_r. cbn. lia.
    - intros a l1 b l2 I1 I2 I3. rewrite zip_cons. unfold intersection_step at 1.
      destruct (comp a b); [cbn [length] in *; lia|]. destruct (comp b a); cbn [length] in *; lia.
  Qed.
  Lemma zip_difference_length : forall l1 l2, length (zip (difference_step comp) true false l1 l2) <= length l1.
  Proof.
    refine (zip_ind2 _ _ _ _).
    - intros. rewrite zip_nil_l. cbn. lia.
    - intros. rewrite zip_nil_r. cbn. lia.
    - intros a l1 b l2 I1 I2 I3. rewrite zip_cons. unfold difference_step at 1.
      destruct (comp a b); cbn [length] in *; lia.
  Qed.

  (** set_difference is right as long as every element of the second range that lies below some
      element of the first one is matched in it. *)
  Lemma zip_difference_filter : forall l1 l2, sorted comp l1 -> sorted comp l2 ->
    (forall x a, a ∈ l1 -> comp x a = true -> occ comp x l2 <= occ comp x l1) -> forall x,
    eqf x (zip (difference_step comp) true false l1 l2) = drop (occ comp x l2) (eqf x l1).
  Proof.
    unfold occ. refine (zip_ind2 _ _ _ _).
    - intros l2 H1 H2 _ x. rewrite zip_nil_l. cbn [List.filter]. by rewrite drop_nil.
    - intros a l1 H1 H2 _ x. rewrite zip_nil_r. done.
    - intros a l1 b l2 I1 I2 I3 H1 H2 Hinc x. rewrite zip_cons. unfold difference_step at 1.
      pose proof H1 as [F1 H1']%sorted_cons. pose proof H2 as [F2 H2']%sorted_cons.
      assert (Hab : comp b a = false).
      { destruct (comp b a) eqn:E; [|done]. exfalso.
        specialize (Hinc b a ltac:(set_solver) E). rewrite (above_none b b (a :: l1)) in Hinc.
        - rewrite eqf_cons, equivb_refl in Hinc by done. cbn in Hinc. lia.
        - by apply equivb_refl.
        - by apply sorted_above. }
      destruct (comp a b) eqn:E.
      + rewrite eqf_cons, (I1 H1' H2).
        * rewrite (eqf_cons x a l1). destruct (equivb comp x a) eqn:Ex; [|done].
          rewrite (above_none a x (b :: l2)); [done|done|]. by apply sorted_above.
        * intros z c Hc Hz. specialize (Hinc z c ltac:(set_solver) Hz). rewrite (eqf_cons z a l1) in Hinc.
          destruct (equivb comp z a) eqn:Ez; [|done].
          rewrite (above_none a z (b :: l2)); [cbn; lia|done|]. by apply sorted_above.
      + assert (He : equivb comp a b = true) by (by apply equivb_true).
        rewrite (I3 H1' H2').
        * rewrite !eqf_cons. rewrite (eqf_same x a b He). destruct (equivb comp x b); done.
        * intros z c Hc Hz. specialize (Hinc z c ltac:(set_solver) Hz). rewrite !eqf_cons in Hinc.
          rewrite (eqf_same z a b He) in Hinc. destruct (equivb comp z b); cbn in Hinc; lia.
  Qed.

  (** set_difference always yields a subsequence of the first range *)
  Lemma zip_difference_sublist : forall l1 l2, zip (difference_step comp) true false l1 l2 `sublist_of` l1.
  Proof.
    refine (zip_ind2 _ _ _ _).
    - intros l2. rewrite zip_nil_l. done.
    - intros x l1. by rewrite zip_nil_r.
    - intros a l1 b l2 I1 I2 I3. rewrite zip_cons. unfold difference_step at 1.
      destruct (comp a b); [by apply sublist_skip|by apply sublist_cons].
  Qed.

  (** ** includes *)
  Fixpoint incl_out (l1 : list A) : list A -> bool :=
    fix go l2 := match l1, l2 with
    | _, [] => true
    | [], _ => false
    | x :: r1, y :: r2 => if comp y x then false else if comp x y then incl_out r1 l2 else incl_out r1 r2
    end.
  Lemma incl_out_ok : forall l1 l2, sorted comp l1 -> sorted comp l2 ->
    (incl_out l1 l2 = true <-> forall x, occ comp x l2 <= occ comp x l1).
  Proof.
    unfold occ. refine (zip_ind2 _ _ _ _).
    - intros [|y l2] _ _; cbn [incl_out]; split; try done; intros H.
      specialize (H y). rewrite eqf_cons, equivb_refl in H by done. cbn in H. lia.
    - intros x l1 _ _. cbn [incl_out]. split; [|done]. intros _ z. cbn. lia.
    - intros a l1 b l2 I1 I2 I3 H1 H2. cbn [incl_out].
      pose proof H1 as [F1 H1']%sorted_cons. pose proof H2 as [F2 H2']%sorted_cons.
      destruct (comp b a) eqn:E; [|destruct (comp a b) eqn:E2].
      + split; [done|]. intros H. specialize (H b). rewrite (above_none b b (a :: l1)) in H.
        * rewrite eqf_cons, equivb_refl in H by done. cbn in H. lia.
        * by apply equivb_refl.
        * by apply sorted_above.
      + rewrite (I1 H1' H2). split; intros H x; specialize (H x).
        * rewrite (eqf_cons x a). destruct (equivb comp x a); cbn [length]; lia.
        * rewrite (eqf_cons x a) in H. destruct (equivb comp x a) eqn:Ex; [|done].
          rewrite (above_none a x (b :: l2)); [cbn; lia|done|]. by apply sorted_above.
      + assert (He : equivb comp a b = true) by (by apply equivb_true).
        rewrite (I3 H1' H2'). split; intros H x; specialize (H x).
        * rewrite !eqf_cons, (eqf_same x a b He). destruct (equivb comp x b); cbn; lia.
        * rewrite !eqf_cons, (eqf_same x a b He) in H. destruct (equivb comp x b); cbn in *; lia.
  Qed.
  Lemma includes_loop_ok (m : list A) l1 l2 : l1 <= length m -> l2 <= length m -> forall fuel i1 i2, i1 <= l1 -> i2 <= l2 -> l1 - i1 < fuel ->
    exists j2, includes_loop comp fuel m i1 l1 i2 l2 = Ok j2 /\ (j2 =? l2) = incl_out (slice m i1 l1) (slice m i2 l2).
  Proof.
    intros Hl1 Hl2 fuel. induction fuel as [|fuel IH]; intros i1 i2 H1 H2 Hf; [lia|]. cbn [includes_loop].
    destruct (i2 =? l2) eqn:E2.
    { assert (i2 = l2) as -> by lia. rewrite orb_true_r. exists l2. split; [done|]. rewrite Nat.eqb_refl, slice_nil.
      by destruct (slice m i1 l1). }
    destruct (lookup_lt_is_Some_2 m i2) as [y Hy]; [lia|].
    rewrite (slice_cons m i2 l2 y) by (done || lia).
    destruct (i1 =? l1) eqn:E1; cbn [orb].
    { exists i2. split; [done|]. rewrite E2. assert (i1 = l1) as -> by lia. by rewrite slice_nil. }
    destruct (lookup_lt_is_Some_2 m i1) as [x Hx]; [lia|].
    rewrite (slice_cons m i1 l1 x) by (done || lia).
    rewrite (rd_Ok _ _ _ Hx), (rd_Ok _ _ _ Hy). cbn [rbind incl_out].
    destruct (comp y x) eqn:C1; [|destruct (comp x y) eqn:C2].
    - exists i2. done.
    - destruct (IH (S i1) i2) as [j2 [-> HI]]; [lia|lia|lia|]. exists j2. split; [done|].
      rewrite HI. by rewrite (slice_cons m i2 l2 y) by (done || lia).
    - destruct (IH (S i1) (S i2)) as [j2 [-> HI]]; [lia|lia|lia|]. exists j2. split; [done|]. done.
  Qed.
  Lemma includes_ok (m : list A) f1 l1 f2 l2 : range m f1 l1 -> range m f2 l2 ->
    sorted comp (slice m f1 l1) -> sorted comp (slice m f2 l2) ->
    exists b, algo_includes_by comp m f1 l1 f2 l2 = Ok b /\
      (b = true <-> forall x, occ comp x (slice m f2 l2) <= occ comp x (slice m f1 l1)).
  Proof.
    intros [H1 H2] [H3 H4] S1 S2. unfold algo_includes_by. destruct (f2 =? l2) eqn:E.
    - exists true. split; [done|]. assert (f2 = l2) as -> by lia. rewrite slice_nil. split; [|done].
      intros _ x. unfold occ. cbn. lia.
    - destruct (includes_loop_ok m l1 l2 H2 H4 (S (length m)) f1 f2) as [j2 [-> HI]]; [lia|lia|lia|].
      cbn [rbind]. eexists. split; [done|]. rewrite HI. by apply incl_out_ok.
  Qed.
End spec.
