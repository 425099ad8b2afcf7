(** Facts.v — generic lemmas about the vocabulary of Spec.v. *)
From Verif Require Import Base Spec.
From Coq Require Import Sorting.Sorted.
From stdpp Require Import list.

Section swo.
  Context {A : Type} (comp : A -> A -> bool).
  Lemma swo_asym : StrictWeakOrder comp -> forall x y, comp x y = true -> comp y x = false.
  Proof.
    intros H x y Hxy. destruct (comp y x) eqn:E; [|done].
    pose proof (swo_trans _ H _ _ _ Hxy E) as Hx. by rewrite (swo_irrefl _ H) in Hx.
  Qed.
  (** "not greater" is transitive *)
  Lemma swo_le_trans : StrictWeakOrder comp -> forall x y z,
    comp y x = false -> comp z y = false -> comp z x = false.
  Proof.
    intros H x y z Hyx Hzy. destruct (comp z x) eqn:Hzx; [|done].
    destruct (comp x y) eqn:Hxy.
    { pose proof (swo_trans _ H _ _ _ Hzx Hxy). congruence. }
    destruct (comp y z) eqn:Hyz.
    { pose proof (swo_trans _ H _ _ _ Hyz Hzx). congruence. }
    rewrite <- Hzx. eapply (swo_incomp_trans _ H) with y; done.
  Qed.
  Lemma swo_lt_le_trans : StrictWeakOrder comp -> forall x y z,
    comp x y = true -> comp z y = false -> comp x z = true.
  Proof.
    intros H x y z Hxy Hzy. destruct (comp x z) eqn:E; [done|].
    pose proof (swo_le_trans H y z x Hzy E). congruence.
  Qed.
  Lemma swo_le_lt_trans : StrictWeakOrder comp -> forall x y z,
    comp y x = false -> comp y z = true -> comp x z = true.
  Proof.
    intros H x y z Hxy Hyz. destruct (comp x z) eqn:E; [done|].
    pose proof (swo_le_trans H z x y E Hxy). congruence.
  Qed.
  Lemma equivb_true x y : equivb comp x y = true <-> comp x y = false /\ comp y x = false.
  Proof. unfold equivb. destruct (comp x y), (comp y x); cbn; intuition congruence. Qed.
  Lemma equivb_refl : StrictWeakOrder comp -> forall x, equivb comp x x = true.
  Proof. intros H x. apply equivb_true. by rewrite (swo_irrefl _ H). Qed.
  Lemma equivb_sym x y : equivb comp x y = equivb comp y x.
  Proof. unfold equivb. by rewrite andb_comm. Qed.
  Lemma equivb_trans : StrictWeakOrder comp -> forall x y z,
    equivb comp x y = true -> equivb comp y z = true -> equivb comp x z = true.
  Proof.
    intros H x y z. rewrite !equivb_true. intros [H1 H2] [H3 H4]. split.
    - eapply swo_le_trans; eauto.
    - eapply swo_le_trans; eauto.
  Qed.

  Lemma sorted_nil : sorted comp [].
  Proof. intros i j x y _ H. rewrite lookup_nil in H. done. Qed.
  Lemma sorted_cons x l : sorted comp (x :: l) <-> Forall (fun y => comp y x = false) l /\ sorted comp l.
  Proof.
    split.
    - intros H. split.
      + apply Forall_lookup. intros i y Hy. apply (H 0 (S i) x y); [lia|done|done].
      + intros i j a b Hij Ha Hb. apply (H (S i) (S j) a b); [lia|done|done].
    - intros [HF H] i j a b Hij Ha Hb. destruct j as [|j]; [lia|]. destruct i as [|i]; cbn in *.
      + injection Ha as ->. rewrite Forall_lookup in HF. eauto.
      + apply (H i j); [lia|done|done].
  Qed.
  Lemma sorted_app l1 l2 : sorted comp (l1 ++ l2) <->
    sorted comp l1 /\ sorted comp l2 /\ (forall x y, x ∈ l1 -> y ∈ l2 -> comp y x = false).
  Proof.
    induction l1 as [|a l1 IH]; cbn.
    - split; [intros H|intros [_ [H _]]; done]. repeat split; [apply sorted_nil|done|].
      intros x y Hx. by apply elem_of_nil in Hx.
    - rewrite !sorted_cons, IH, Forall_app, !Forall_forall. split.
      + intros [[H1 H2] [H3 [H4 H5]]]. repeat split; try done.
        intros x y Hx Hy. apply elem_of_cons in Hx as [->|Hx]; eauto.
      + intros [[H1 H2] [H3 H4]]. repeat split; try done; intros; apply H4; set_solver.
  Qed.
  Lemma sorted_snoc l x : sorted comp (l ++ [x]) <-> sorted comp l /\ forall y, y ∈ l -> comp x y = false.
  Proof.
    rewrite sorted_app. split.
    - intros [H1 [_ H2]]. split; [done|]. intros y Hy. apply H2; [done|set_solver].
    - intros [H1 H2]. repeat split; [done| |].
      + apply sorted_cons. split; [constructor|apply sorted_nil].
      + intros a b Ha Hb. apply elem_of_list_singleton in Hb as ->. eauto.
  Qed.
  Lemma sorted_StronglySorted l : sorted comp l <-> StronglySorted (fun x y => comp y x = false) l.
  Proof.
    induction l as [|x l IH].
    - split; [constructor|intros _; apply sorted_nil].
    - rewrite sorted_cons, IH. split.
      + intros [H1 H2]. constructor; done.
      + intros H. inversion H; subst. done.
  Qed.
  (** adjacent order suffices *)
  Lemma sorted_adjacent l : StrictWeakOrder comp ->
    (forall i x y, l !! i = Some x -> l !! S i = Some y -> comp y x = false) -> sorted comp l.
  Proof.
    intros HW H i j. induction j as [|j IH]; intros x y Hij Hx Hy; [lia|].
    destruct (decide (i = j)) as [->|Hne]; [eauto|].
    destruct (l !! j) as [z|] eqn:Hz.
    - eapply swo_le_trans; [done| |apply (H j z y Hz Hy)]. apply IH; [lia|done|done].
    - apply lookup_ge_None in Hz. apply lookup_lt_Some in Hy. lia.
  Qed.
End swo.

Section slices.
  Context {A : Type}.
  Implicit Types m l s pre post : list A.
  Lemma range_split m f e : range m f e ->
    exists pre s post, m = pre ++ s ++ post /\ f = length pre /\ e = length pre + length s
      /\ slice m f e = s /\ take f m = pre /\ drop e m = post.
  Proof.
    intros [H1 H2]. exists (take f m), (slice m f e), (drop e m). unfold slice.
    repeat split.
    - rewrite <- (take_drop f m) at 1. f_equal.
      rewrite <- (take_drop (e - f) (drop f m)) at 1. f_equal.
      rewrite drop_drop. f_equal. lia.
    - rewrite take_length. lia.
    - rewrite !take_length, drop_length. lia.
  Qed.
  Lemma slice_app pre s post : slice (pre ++ s ++ post) (length pre) (length pre + length s) = s.
  Proof.
    unfold slice. rewrite drop_app. replace (length pre + length s - length pre) with (length s) by lia.
    apply take_app.
  Qed.
  Lemma slice_length m i j : range m i j -> length (slice m i j) = j - i.
  Proof. intros [H1 H2]. unfold slice. rewrite take_length, drop_length. lia. Qed.
  Lemma slice_lookup m i j k : k < j - i -> slice m i j !! k = m !! (i + k).
  Proof. intros H. unfold slice. rewrite lookup_take by done. apply lookup_drop. Qed.
  Lemma elem_of_slice m i j x : x ∈ slice m i j <-> exists k, i <= k < j /\ m !! k = Some x.
  Proof.
    rewrite elem_of_list_lookup. split.
    - intros [k Hk]. unfold slice in Hk. apply lookup_take_Some in Hk as [Hk1 Hk2].
      rewrite lookup_drop in Hk1. exists (i + k). split; [lia|done].
    - intros [k [Hk1 Hk2]]. exists (k - i). rewrite slice_lookup by lia. by replace (i + (k - i)) with k by lia.
  Qed.
  Lemma patch_app pre s s' post : length s' = length s ->
    patch (pre ++ s ++ post) (length pre) s' = pre ++ s' ++ post.
  Proof.
    intros H. unfold patch. rewrite take_app. f_equal. f_equal.
    rewrite H, app_assoc. rewrite <- app_length. apply drop_app.
  Qed.
  Lemma patch_length m i l : i + length l <= length m -> length (patch m i l) = length m.
  Proof. intros H. unfold patch. rewrite !app_length, take_length, drop_length. lia. Qed.
  Lemma patch_nil m i : patch m i [] = m.
  Proof. unfold patch. cbn. rewrite Nat.add_0_r. apply take_drop. Qed.
  Lemma patch_lookup m i l k : i + length l <= length m ->
    patch m i l !! k = if decide (i <= k < i + length l) then l !! (k - i) else m !! k.
  Proof.
    intros H. unfold patch. destruct (decide _) as [Hd|Hd].
    - rewrite lookup_app_r; rewrite take_length; [|lia].
      rewrite Nat.min_l by lia. by rewrite lookup_app_l by lia.
    - destruct (decide (k < i)).
      + rewrite lookup_app_l by (rewrite take_length; lia). by rewrite lookup_take by lia.
      + rewrite lookup_app_r by (rewrite take_length; lia). rewrite take_length.
        rewrite lookup_app_r by lia. rewrite lookup_drop. f_equal. lia.
  Qed.
  Lemma insert_patch m i x : i < length m -> <[i:=x]> m = patch m i [x].
  Proof.
    intros H. unfold patch. cbn. rewrite insert_take_drop by done. f_equal. f_equal. f_equal. lia.
  Qed.
  (** overwriting the next cell after a patch *)
  Lemma patch_snoc m i l x : i + length l < length m ->
    <[i + length l := x]> (patch m i l) = patch m i (l ++ [x]).
  Proof.
    intros H. apply list_eq. intros k.
    destruct (decide (k = i + length l)) as [->|Hne].
    - rewrite list_lookup_insert by (rewrite patch_length; lia).
      rewrite patch_lookup by (rewrite app_length; cbn; lia).
      destruct (decide _) as [Hd|Hd]; [|rewrite app_length in Hd; cbn in Hd; lia].
      rewrite lookup_app_r by lia. by replace (i + length l - i - length l) with 0 by lia.
    - rewrite list_lookup_insert_ne by done.
      rewrite !patch_lookup by (rewrite ?app_length; cbn; lia). rewrite app_length. cbn [length].
      destruct (decide (i <= k < i + length l)).
      + rewrite decide_True by lia. by rewrite lookup_app_l by lia.
      + by rewrite decide_False by lia.
  Qed.
  (** and the cell before it *)
  Lemma patch_cons m i l x : i + S (length l) <= length m ->
    <[i := x]> (patch m (S i) l) = patch m i (x :: l).
  Proof.
    intros H. apply list_eq. intros k.
    destruct (decide (k = i)) as [->|Hne].
    - rewrite list_lookup_insert by (rewrite patch_length; lia).
      rewrite patch_lookup by (cbn; lia). rewrite decide_True by (cbn; lia). by rewrite Nat.sub_diag.
    - rewrite list_lookup_insert_ne by done.
      rewrite !patch_lookup by (cbn; lia). cbn [length].
      destruct (decide (S i <= k < S i + length l)).
      + rewrite decide_True by lia. by replace (k - i) with (S (k - S i)) by lia.
      + by rewrite decide_False by lia.
  Qed.
End slices.

Section perm.
  Context {A : Type}.
  Lemma swap_perm (m : list A) i j x y : m !! i = Some x -> m !! j = Some y ->
    Permutation m (<[j:=x]> (<[i:=y]> m)).
  Proof.
    intros Hx Hy. destruct (decide (i = j)) as [->|Hne].
    - rewrite Hx in Hy. injection Hy as ->. rewrite !list_insert_id; [done|done|].
      by rewrite list_insert_id.
    - symmetry. apply Permutation_inj. split; [by rewrite !insert_length|].
      pose proof (lookup_lt_Some _ _ _ Hx). pose proof (lookup_lt_Some _ _ _ Hy).
      exists (fun k => if decide (k = i) then j else if decide (k = j) then i else k). split.
      + intros a b. repeat destruct (decide _); intros; congruence.
      + intros k. destruct (decide (k = i)) as [->|].
        * rewrite list_lookup_insert_ne by done. by rewrite list_lookup_insert, Hy by done.
        * destruct (decide (k = j)) as [->|].
          -- rewrite list_lookup_insert by (by rewrite insert_length). done.
          -- by rewrite !list_lookup_insert_ne.
  Qed.
End perm.

Section slices2.
  Context {A : Type}.
  Implicit Types m l : list A.
  Lemma slice_nil m i : slice m i i = [].
  Proof. unfold slice. by rewrite Nat.sub_diag. Qed.
  Lemma slice_cons m i j x : i < j -> m !! i = Some x -> slice m i j = x :: slice m (S i) j.
  Proof.
    intros H Hx. unfold slice. replace (j - i) with (S (j - S i)) by lia. by rewrite (drop_S _ _ _ Hx).
  Qed.
  Lemma slice_snoc m i j x : i <= j -> m !! j = Some x -> slice m i (S j) = slice m i j ++ [x].
  Proof.
    intros H Hx. unfold slice. replace (S j - i) with (S (j - i)) by lia.
    apply take_S_r. rewrite lookup_drop. by replace (i + (j - i)) with j by lia.
  Qed.
  Lemma slice_app_slice m i j k : i <= j <= k -> slice m i k = slice m i j ++ slice m j k.
  Proof.
    intros H. unfold slice.
    replace (drop j m) with (drop (j - i) (drop i m)) by (rewrite drop_drop; f_equal; lia).
    replace (k - i) with ((j - i) + (k - j)) by lia.
    symmetry. apply take_take_drop.
  Qed.
  (** a read outside the patched cells sees the old memory *)
  Lemma patch_lookup_out m i l k : i + length l <= length m -> (k < i \/ i + length l <= k) ->
    patch m i l !! k = m !! k.
  Proof. intros H Hk. rewrite patch_lookup by done. by rewrite decide_False by lia. Qed.
  Lemma patch_slice m i l j : i <= j -> j + length l <= length m ->
    patch m j l = patch m i (slice m i j ++ l).
  Proof.
    intros H Hl. assert (length (slice m i j) = j - i) as Hs by (apply slice_length; split; lia).
    apply list_eq. intros k.
    rewrite !patch_lookup by (rewrite ?app_length, ?Hs; lia). rewrite app_length, Hs.
    destruct (decide (j <= k < j + length l)).
    - rewrite decide_True by lia. rewrite lookup_app_r by lia. rewrite Hs. f_equal. lia.
    - destruct (decide (i <= k < i + (j - i + length l))); [|done].
      rewrite lookup_app_l by lia. rewrite slice_lookup by lia. f_equal. lia.
  Qed.
  Lemma patch_self m i j : range m i j -> patch m i (slice m i j) = m.
  Proof.
    intros [H1 H2]. rewrite <- (app_nil_r (slice m i j)).
    rewrite <- patch_slice by (cbn; lia). apply patch_nil.
  Qed.
  Lemma patch_patch m i l l' : i + length l <= length m -> length l' = length l -> patch (patch m i l) i l' = patch m i l'.
  Proof.
    intros H1 H2. apply list_eq. intros k.
    rewrite !patch_lookup by (rewrite ?patch_length; lia). rewrite H2. destruct (decide _); done.
  Qed.
End slices2.
