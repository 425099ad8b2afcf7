(** IterLocals.v — reasoning about local iterator variables that start as null pointers, and about
    programs that work on a part of the flat memory. *)
From stdpp Require Import list gmap.
From Verif Require Import Base Spec Facts Iter IterFlat IterWp IterNonMod IterNonModProofs IterMod IterModProofs IterModProofs3 AlgoNonMod AlgoMod.
From stdpp Require Import list.

Section locals.
  Context {A : Type} (L : layout).
  Implicit Types (m : list A) (s : gmap iid nat) (vs : list (option iid)).

  (** [s1] is the store [s0] together with the iterator objects held by the variables [vs], whose contents satisfy [P] *)
  Record locals (P : nat -> Prop) s0 vs s1 : Prop := {
    lo_inj : forall n n' X, vs !! n = Some (Some X) -> vs !! n' = Some (Some X) -> n = n';
    lo_var : forall n X, vs !! n = Some (Some X) -> s0 !! X = None /\ exists k, s1 !! X = Some k /\ P k;
    lo_frame : forall X, (forall n, vs !! n <> Some (Some X)) -> s1 !! X = s0 !! X }.
  Lemma locals_nil P s0 vs : Forall (fun v => v = None) vs -> locals P s0 vs s0.
  Proof.
    intros H. rewrite Forall_forall in H. assert (forall n X, vs !! n <> Some (Some X)) as HN.
    { intros n X Hn. apply elem_of_list_lookup_2, H in Hn. done. }
    split.
    - intros n n' X Hn. by destruct (HN n X).
    - intros n X Hn. by destruct (HN n X).
    - done.
  Qed.
  Lemma locals_done P s0 vs s1 : Forall (fun v => v = None) vs -> locals P s0 vs s1 -> s1 = s0.
  Proof.
    intros H [_ _ Hf]. rewrite Forall_forall in H. apply map_eq. intros X. apply Hf. intros n Hn. apply elem_of_list_lookup_2, H in Hn. done.
  Qed.
  Lemma locals_look P s0 vs s1 X k : locals P s0 vs s1 -> s0 !! X = Some k -> s1 !! X = Some k.
  Proof. intros [_ Hv Hf] HX. rewrite Hf; [done|]. intros n Hn. apply Hv in Hn as [Hn _]. congruence. Qed.
  Lemma locals_set P s0 vs s1 n X q : locals P s0 vs s1 -> n < length vs -> s0 !! X = None ->
    (forall n' X', n' <> n -> vs !! n' = Some (Some X') -> X' <> X) -> (forall Y, vs !! n = Some (Some Y) -> Y = X) -> P q ->
    locals P s0 (<[n := Some X]> vs) (<[X := q]> s1).
  Proof.
    intros [Hi Hv Hf] Hn HX Hne Hsame Hq. split.
    - intros a a' Y Ha Ha'. destruct (decide (n = a)) as [<-|N1], (decide (n = a')) as [<-|N2]; [done|..].
      + rewrite list_lookup_insert in Ha by done. rewrite list_lookup_insert_ne in Ha' by done. injection Ha as ->.
        by destruct (Hne a' Y (not_eq_sym N2) Ha').
      + rewrite list_lookup_insert in Ha' by done. rewrite list_lookup_insert_ne in Ha by done. injection Ha' as ->.
        by destruct (Hne a Y (not_eq_sym N1) Ha).
      + rewrite list_lookup_insert_ne in Ha, Ha' by done. by eapply Hi.
    - intros a Y Ha. destruct (decide (n = a)) as [<-|N1].
      + rewrite list_lookup_insert in Ha by done. injection Ha as ->. split; [done|]. exists q. by rewrite lookup_insert.
      + rewrite list_lookup_insert_ne in Ha by done. destruct (Hv a Y Ha) as (H1&k&H2&H3). split; [done|]. exists k.
        rewrite lookup_insert_ne; [done|]. intros ->. by apply (Hne a Y (not_eq_sym N1)).
    - intros Y HY. rewrite lookup_insert_ne.
      + apply Hf. intros a Ha. destruct (decide (n = a)) as [<-|N1].
        * specialize (HY n). rewrite list_lookup_insert in HY by done. apply HY. by rewrite (Hsame _ Ha).
        * apply (HY a). by rewrite list_lookup_insert_ne.
      + intros ->. apply (HY n). by rewrite list_lookup_insert.
  Qed.
  Lemma locals_update P s0 vs s1 n X q : locals P s0 vs s1 -> vs !! n = Some (Some X) -> P q -> locals P s0 vs (<[X := q]> s1).
  Proof.
    intros HL Hn Hq. replace vs with (<[n := Some X]> vs) by (by apply list_insert_id).
    pose proof HL as [Hi Hv Hf]. apply locals_set; [done|by eapply lookup_lt_Some|by eapply Hv| |congruence|done].
    intros n' X' Hne H1 ->. apply Hne. by eapply Hi.
  Qed.
  Lemma locals_free P s0 vs s1 n X : locals P s0 vs s1 -> vs !! n = Some (Some X) -> locals P s0 (<[n := None]> vs) (delete X s1).
  Proof.
    intros [Hi Hv Hf] Hn. pose proof (lookup_lt_Some _ _ _ Hn) as Hlt.
    assert (forall a Y, <[n := None]> vs !! a = Some (Some Y) -> a <> n /\ vs !! a = Some (Some Y)) as HN.
    { intros a Y Ha. destruct (decide (n = a)) as [<-|N1]; [by rewrite list_lookup_insert in Ha|].
      rewrite list_lookup_insert_ne in Ha by done. done. }
    split.
    - intros a a' Y [_ Ha]%HN [_ Ha']%HN. by eapply Hi.
    - intros a Y [N Ha]%HN. destruct (Hv a Y Ha) as (H1&k&H2&H3). split; [done|]. exists k. rewrite lookup_delete_ne; [done|].
      intros ->. apply N. by eapply Hi.
    - intros Y HY. destruct (decide (X = Y)) as [->|N].
      + rewrite lookup_delete. symmetry. by eapply Hv.
      + rewrite lookup_delete_ne by done. apply Hf. intros a Ha. destruct (decide (n = a)) as [<-|N1]; [congruence|].
        apply (HY a). by rewrite list_lookup_insert_ne.
  Qed.

  (** __c_iter_copy_and_move on the variable number [n] *)
  Lemma copy_and_move_wp P s0 vs n v src z p q m s1 (Q : iid -> list A -> gmap iid nat -> Prop) :
    locals P s0 vs s1 -> vs !! n = Some v -> s0 !! src = Some p -> (forall k, P k -> covers L k p) ->
    flat_adv L m p z = Ok q -> P q ->
    (forall X, s0 !! X = None -> (forall n' X', n' <> n -> vs !! n' = Some (Some X') -> X' <> X) ->
       locals P s0 (<[n := Some X]> vs) (<[X := q]> s1) -> Q X m (<[X := q]> s1)) ->
    fwp L (copy_and_move v src z) m s1 Q.
  Proof.
    intros HL Hn Hsrc Hcov Hadv Hq HQ. pose proof (locals_look _ _ _ _ _ _ HL Hsrc) as Hsrc1.
    pose proof (lookup_lt_Some _ _ _ Hn) as Hlt. pose proof HL as [Hi Hv Hf]. destruct v as [X|]; cbn [copy_and_move].
    - destruct (Hv n X Hn) as (H1&k&H2&H3). apply fwp_bind. eapply fwp_cover_and_move; [done|done|by apply Hcov|done|].
      apply fwp_ret. apply HQ; [done| |].
      + intros n' X' Hne H4 ->. apply Hne. by eapply Hi.
      + apply locals_set; [done|done|done| |congruence|done]. intros n' X' Hne H4 ->. apply Hne. by eapply Hi.
    - eapply fwp_new_and_move; [done|done|]. intros X HX.
      assert (forall n' X', vs !! n' = Some (Some X') -> X' <> X) as Hne.
      { intros n' X' Hn' ->. destruct (Hv n' X Hn') as (_&k&H2&_). congruence. }
      assert (s0 !! X = None) as HX0 by (rewrite <- Hf; [done|]; intros a Ha; by apply (Hne a X)).
      apply HQ; [done|by eauto|]. apply locals_set; [done|done|done|by eauto|congruence|done].
  Qed.
  Lemma copy_and_move_some X src z k p q m s1 (Q : iid -> list A -> gmap iid nat -> Prop) :
    s1 !! X = Some k -> s1 !! src = Some p -> covers L k p -> flat_adv L m p z = Ok q -> Q X m (<[X := q]> s1) ->
    fwp L (copy_and_move (Some X) src z) m s1 Q.
  Proof. intros H1 H2 H3 H4 H5. apply fwp_bind. eapply fwp_cover_and_move; [done..|]. by apply fwp_ret. Qed.
  (** __c_free of the variable number [n] *)
  Lemma free_opt_wp P s0 vs n v m s1 (Q : unit -> list A -> gmap iid nat -> Prop) :
    locals P s0 vs s1 -> vs !! n = Some v -> (forall s2, locals P s0 (<[n := None]> vs) s2 -> Q tt m s2) ->
    fwp L (free_opt v) m s1 Q.
  Proof.
    intros HL Hn HQ. destruct v as [X|]; cbn [free_opt].
    - destruct (lo_var _ _ _ _ HL n X Hn) as (H1&k&H2&H3). eapply fwp_free; [done|]. apply HQ. by apply locals_free.
    - apply fwp_ret, HQ. by rewrite list_insert_id.
  Qed.
  (** storing through an out parameter while the variables are live *)
  Lemma locals_out P s0 vs s1 o k v s' : locals P s0 vs s1 -> out_set o k s1 v s' -> (forall i, o = Some (Some i) -> s0 !! i <> None) ->
    exists s0', out_set o k s0 v s0' /\ locals P s0' vs s'.
  Proof.
    intros [Hi Hv Hf] Ho Hs.
    assert (forall i, (forall n, vs !! n <> Some (Some i)) -> locals P (<[i := k]> s0) vs (<[i := k]> s1)) as Hgo.
    { intros i Hni. split; [done|..].
      - intros n X Hn. destruct (Hv n X Hn) as (H1&k1&H2&H3). assert (i <> X) by (intros ->; by apply (Hni n)).
        split; [by rewrite lookup_insert_ne|]. exists k1. by rewrite lookup_insert_ne.
      - intros X HX. destruct (decide (i = X)) as [->|N]; [by rewrite !lookup_insert|]. rewrite !lookup_insert_ne by done. by apply Hf. }
    destruct o as [[i|]|]; cbn in Ho.
    - destruct Ho as [-> ->]. exists (<[i := k]> s0). split; [done|]. apply Hgo. intros n Hn. apply (Hs i eq_refl). by eapply Hv.
    - destruct Ho as (i&Hi1&->&->). assert (forall n, vs !! n <> Some (Some i)) as Hni.
      { intros n Hn. destruct (Hv n i Hn) as (_&k1&H2&_). congruence. }
      exists (<[i := k]> s0). split; [|by apply Hgo]. exists i. rewrite <- Hf; done.
    - destruct Ho as [-> ->]. by exists s0.
  Qed.
  Lemma locals_out_pre P s0 vs s1 o k : locals P s0 vs s1 -> out_pre L s0 o k -> out_pre L s1 o k.
  Proof.
    intros HL H. destruct o as [[x|]|]; [|done..]. destruct H as (k'&H1&H2). exists k'. split; [|done]. by eapply locals_look.
  Qed.
  Lemma out_pre_in s o k i : out_pre L s o k -> o = Some (Some i) -> s !! i <> None.
  Proof. intros H ->. destruct H as (k'&H1&_). congruence. Qed.
  Lemma locals_eq P s0 vs s1 s2 : locals P s0 vs s1 -> s1 = s2 -> locals P s0 vs s2.
  Proof. by intros H <-. Qed.
End locals.

(** ** A part of the memory: list [h] is seen at base [b] of the memory [V h] *)
Section part.
  Context {A : Type}.
  Implicit Types (m h : list A).
  Definition view_of (V : list A -> list A) (b : nat) : Prop :=
    (forall h k x, rd h k = Ok x -> rd (V h) (b + k) = Ok x) /\
    forall h k x h', wr h k x = Ok h' -> wr (V h) (b + k) x = Ok (V h').
  Lemma view_id : view_of id 0.
  Proof. split; [|]; intros; done. Qed.
  Lemma view_patch m0 b : b <= length m0 -> view_of (patch m0 b) b.
  Proof.
    intros Hb. split.
    - intros h k x H. unfold rd in *. destruct (h !! k) as [y|] eqn:E; [|done]. injection H as ->.
      unfold patch. rewrite lookup_app_r by (rewrite take_length; lia). rewrite take_length, lookup_app_l.
      + by replace (b + k - b `min` length m0) with k by lia; rewrite E.
      + apply lookup_lt_Some in E. lia.
    - intros h k x h' H. unfold wr in *. destruct (h !! k) as [y|] eqn:E; [|done]. injection H as <-.
      pose proof (lookup_lt_Some _ _ _ E) as Hk. unfold patch.
      rewrite lookup_app_r by (rewrite take_length; lia). rewrite take_length, lookup_app_l by lia.
      replace (b + k - b `min` length m0) with k by lia. rewrite E. f_equal.
      rewrite insert_length, insert_app_r_alt by (rewrite take_length; lia). f_equal. rewrite take_length.
      replace (b + k - b `min` length m0) with k by lia. by rewrite insert_app_l.
  Qed.
  Lemma wr_length h k x h' : wr h k x = Ok h' -> length h' = length h.
  Proof. unfold wr. destruct (h !! k); [|done]. intros [= <-]. apply insert_length. Qed.
  Lemma rd_lt h k x : rd h k = Ok x -> k < length h.
  Proof. unfold rd. destruct (h !! k) eqn:E; [|done]. intros _. by eapply lookup_lt_Some. Qed.
  Lemma view_swp V b h i j h' : view_of V b -> swp h i j = Ok h' -> swp (V h) (b + i) (b + j) = Ok (V h').
  Proof.
    intros [H1 H2] (x&y&m1&Hx&Hy&Hm1&Hm2)%swp_inv. unfold swp. rewrite (H1 _ _ _ Hx). cbn [rbind]. rewrite (H1 _ _ _ Hy). cbn [rbind].
    rewrite (H2 _ _ _ _ Hm1). cbn [rbind]. apply (H2 _ _ _ _ Hm2).
  Qed.
  Lemma swp_length h i j h' : swp h i j = Ok h' -> length h' = length h.
  Proof. intros (x&y&m1&_&_&H1%wr_length&H2%wr_length)%swp_inv. lia. Qed.
End part.
