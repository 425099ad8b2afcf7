(** IterLift3.v — running an iterator program on the ranges of up to three containers. *)
From stdpp Require Import list gmap.
From Verif Require Import Base Spec Iter IterFlat IterWp IterWorld SpecIter IterWorldProofs IterLift.
From stdpp Require Import list.

Section three.
  Context {A : Type} {CK : Checked} `{Inhabited A}.
  Local Notation qc := (cont * list cpos * list A)%type.
  Implicit Types (M : cmem A) (S : gmap iid cpos) (q : qc).

  (** two ranges that are in the same container, or have no iterator object in common and, if [w], are in different containers *)
  Definition split_or_same q (xs : list iid) q' (ys : list iid) (w : bool) : Prop :=
    q = q' \/ (forall x, x ∈ xs -> x ∉ ys) /\ (w = true -> obj_of q.1.1 <> obj_of q'.1.1).
  Definition split_apart q (xs : list iid) q' (ys : list iid) (w : bool) : Prop :=
    (forall x, x ∈ xs -> x ∉ ys) /\ (w = true -> obj_of q.1.1 <> obj_of q'.1.1).
  Lemma split_sym q xs q' ys w : split_apart q xs q' ys w -> split_apart q' ys q xs w.
  Proof. intros [H1 H2]. split; [intros x Hx Hx'; by apply (H1 x)|]. intros Hw E. by apply (H2 Hw). Qed.

  (** the containers without repetition *)
  Definition arranged (qs : list qc) q1 q2 q3 (xs ys zs : list iid) (f1 f2 f3 : bool) (a1 a2 a3 : nat) : Prop :=
    qs !! a1 = Some q1 /\ qs !! a2 = Some q2 /\ qs !! a3 = Some q3 /\ (forall b, b < length qs -> b = a1 \/ b = a2 \/ b = a3) /\
    (a1 <> a2 -> split_apart q1 xs q2 ys (f1 || f2)) /\ (a1 <> a3 -> split_apart q1 xs q3 zs (f1 || f3)) /\
    (a2 <> a3 -> split_apart q2 ys q3 zs (f2 || f3)).
  Lemma arrange q1 q2 q3 xs ys zs f1 f2 f3 : split_or_same q1 xs q2 ys (f1 || f2) -> split_or_same q1 xs q3 zs (f1 || f3) ->
    split_or_same q2 ys q3 zs (f2 || f3) -> exists qs a1 a2 a3, arranged qs q1 q2 q3 xs ys zs f1 f2 f3 a1 a2 a3.
  Proof.
    unfold split_or_same, arranged. intros [<-|H12] [<-|H13] H23.
    - exists [q1], 0, 0, 0. split_and!; try done. intros b Hb. cbn in Hb. lia.
    - destruct H23 as [<-|H23].
      + exists [q1], 0, 0, 0. split_and!; try done. intros b Hb. cbn in Hb. lia.
      + exists [q1; q3], 0, 0, 1. split_and!; try done. intros b Hb. cbn in Hb. lia.
    - destruct H23 as [<-|H23].
      + exists [q2], 0, 0, 0. split_and!; try done. intros b Hb. cbn in Hb. lia.
      + exists [q1; q2], 0, 1, 0. split_and!; try done. intros b Hb. cbn in Hb. lia.
    - destruct H23 as [<-|H23].
      + exists [q1; q2], 0, 1, 1. split_and!; try done. intros b Hb. cbn in Hb. lia.
      + exists [q1; q2; q3], 0, 1, 2. split_and!; try done. intros b Hb. cbn in Hb. lia.
  Qed.
  Lemma arranged_placed M S qs q1 q2 q3 xs ys zs f1 f2 f3 a1 a2 a3 : arranged qs q1 q2 q3 (xs.*1) (ys.*1) (zs.*1) f1 f2 f3 a1 a2 a3 ->
    shown M q1 -> shown M q2 -> shown M q3 -> at_all S q1 xs -> at_all S q2 ys -> at_all S q3 zs ->
    placed qs S (pl_of a1 xs ++ pl_of a2 ys ++ pl_of a3 zs).
  Proof.
    intros (Q1&Q2&Q3&_&D12&D13&D23) H1 H2 H3 X1 X2 X3. unfold at_all in *. rewrite Forall_forall in X1, X2, X3.
    assert (forall (l : list (iid * nat)) x i, (x, i) ∈ l -> x ∈ l.*1) as Hin.
    { intros l x i Hi. apply elem_of_list_fmap. by exists (x, i). }
    assert (forall x a o, (x, (a, o)) ∈ pl_of a1 xs ++ pl_of a2 ys ++ pl_of a3 zs ->
      (a = a1 /\ (x, o) ∈ xs) \/ (a = a2 /\ (x, o) ∈ ys) \/ (a = a3 /\ (x, o) ∈ zs)) as Hw.
    { intros x a o [Hi|[Hi|Hi]%elem_of_app]%elem_of_app; apply pl_of_in in Hi; tauto. }
    assert (forall x a o, (x, (a, o)) ∈ pl_of a1 xs ++ pl_of a2 ys ++ pl_of a3 zs -> exists q, shown M q /\ qs !! a = Some q /\ at_pos S q x o) as Hp.
    { intros x a o [(->&Hi)|[(->&Hi)|(->&Hi)]]%Hw.
      - exists q1. split; [done|]. split; [done|]. apply (X1 _ Hi).
      - exists q2. split; [done|]. split; [done|]. apply (X2 _ Hi).
      - exists q3. split; [done|]. split; [done|]. apply (X3 _ Hi). }
    intros x a o Hi. destruct (Hp _ _ _ Hi) as (q&Hs&Hq&Ha). split; [by exists q|].
    intros a' o' Hi'. destruct (Hp _ _ _ Hi') as (q'&Hs'&Hq'&Ha').
    assert (a = a') as <-.
    { destruct (decide (a = a')) as [|Hne]; [done|exfalso]. apply Hw in Hi, Hi'.
      destruct Hi as [(->&Hi)|[(->&Hi)|(->&Hi)]], Hi' as [(->&Hi')|[(->&Hi')|(->&Hi')]]; try done; apply Hin in Hi, Hi'.
      - by apply (proj1 (D12 Hne) x).
      - by apply (proj1 (D13 Hne) x).
      - by apply (proj1 (D12 (not_eq_sym Hne)) x).
      - by apply (proj1 (D23 Hne) x).
      - by apply (proj1 (D13 (not_eq_sym Hne)) x).
      - by apply (proj1 (D23 (not_eq_sym Hne)) x). }
    rewrite Hq in Hq'. injection Hq' as <-. f_equal. by eapply at_fun.
  Qed.
  Definition fl3 (f1 f2 f3 : bool) (a1 a2 a3 a : nat) : bool := f1 && (a =? a1) || f2 && (a =? a2) || f3 && (a =? a3).
  Lemma arranged_written qs q1 q2 q3 xs ys zs f1 f2 f3 a1 a2 a3 : arranged qs q1 q2 q3 xs ys zs f1 f2 f3 a1 a2 a3 ->
    (f1 = true -> mutable q1.1.1 = true) -> (f2 = true -> mutable q2.1.1 = true) -> (f3 = true -> mutable q3.1.1 = true) ->
    written_ok qs (fl3 f1 f2 f3 a1 a2 a3).
  Proof.
    intros (Q1&Q2&Q3&Hall&D12&D13&D23) M1 M2 M3 a q Hq Hf.
    assert (mutable q.1.1 = true) as Hmu.
    { unfold fl3 in Hf. apply orb_true_iff in Hf as [[[Hf Ha]%andb_true_iff|[Hf Ha]%andb_true_iff]%orb_true_iff|[Hf Ha]%andb_true_iff];
        apply Nat.eqb_eq in Ha; subst a; [rewrite Q1 in Hq|rewrite Q2 in Hq|rewrite Q3 in Hq]; injection Hq as <-; auto. }
    split; [done|]. split; [by apply mutable_obj|]. intros b q' Hq' Hne.
    destruct (Hall b) as [->|[->| ->]]; [by eapply lookup_lt_Some|..];
    (unfold fl3 in Hf; apply orb_true_iff in Hf as [[[Hf Ha]%andb_true_iff|[Hf Ha]%andb_true_iff]%orb_true_iff|[Hf Ha]%andb_true_iff];
        apply Nat.eqb_eq in Ha; subst a; try done; simplify_eq).
    - by apply (proj2 (D12 Hne)), orb_true_r.
    - by apply (proj2 (D13 Hne)), orb_true_r.
    - apply not_eq_sym. by apply (proj2 (D12 (not_eq_sym Hne))).
    - by apply (proj2 (D23 Hne)), orb_true_r.
    - apply not_eq_sym. by apply (proj2 (D13 (not_eq_sym Hne))).
    - apply not_eq_sym. by apply (proj2 (D23 (not_eq_sym Hne))).
  Qed.

  (** where two of the containers are on flat cells *)
  Definition same_or_sep q (b : nat) q' (b' : nat) : Prop := q = q' /\ b = b' \/ b + length q.2 < b' \/ b' + length q'.2 < b.
  Record runs3 M S q1 q2 q3 (f1 f2 f3 : bool) (L : layout) (m : list A) (s : gmap iid nat) (b1 b2 b3 : nat) (JW J : gmap iid nat -> gmap iid cpos -> Prop) : Prop := {
    r3_open1 : open_at q1 f1 S L m s b1;
    r3_open2 : open_at q2 f2 S L m s b2;
    r3_open3 : open_at q3 f3 S L m s b3;
    r3_J : J s S;
    r3_fun : forall s1 S1 S2, JW s1 S1 -> J s1 S2 -> S1 = S2;
    r3_out2 : forall o k s1 v s2 S1, k <= length q2.2 -> J s1 S1 -> out_set o (b2 + k) s1 v s2 -> exists S2, stored q2 o k S1 v S2 /\ J s2 S2;
    r3_out3 : forall o k s1 v s2 S1, k <= length q3.2 -> J s1 S1 -> out_set o (b3 + k) s1 v s2 -> exists S2, stored q3 o k S1 v S2 /\ J s2 S2;
    r3_sep12 : same_or_sep q1 b1 q2 b2;
    r3_sep13 : same_or_sep q1 b1 q3 b3;
    r3_sep23 : same_or_sep q2 b2 q3 b3;
    r3_one23 : f2 || f3 = true -> q2 = q3 -> b2 = b3;
    r3_run : forall (R : Type) (p : prog A R) (Q : R -> list A -> gmap iid nat -> Prop), fwp L p m s Q ->
      exists r m' s' M' S', exec (cworld A) p (M, S) r (M', S') /\ Q r m' s' /\ JW s' S' /\
        shows M' q2.1.1 q2.1.2 (slice m' b2 (b2 + length q2.2)) /\ shows M' q3.1.1 q3.1.2 (slice m' b3 (b3 + length q3.2)) /\
        forall q', (f1 = true -> obj_of q'.1.1 <> obj_of q1.1.1) -> (f2 = true -> obj_of q'.1.1 <> obj_of q2.1.1) ->
          (f3 = true -> obj_of q'.1.1 <> obj_of q3.1.1) -> shown M q' -> shown M' q' }.
  Lemma run_three M S q1 q2 q3 xs ys zs f1 f2 f3 : shown M q1 -> shown M q2 -> shown M q3 -> at_all S q1 xs -> at_all S q2 ys -> at_all S q3 zs ->
    split_or_same q1 (xs.*1) q2 (ys.*1) (f1 || f2) -> split_or_same q1 (xs.*1) q3 (zs.*1) (f1 || f3) ->
    split_or_same q2 (ys.*1) q3 (zs.*1) (f2 || f3) ->
    (f1 = true -> mutable q1.1.1 = true) -> (f2 = true -> mutable q2.1.1 = true) -> (f3 = true -> mutable q3.1.1 = true) ->
    exists L m s b1 b2 b3 JW J, runs3 M S q1 q2 q3 f1 f2 f3 L m s b1 b2 b3 JW J /\
      (forall x i, (x, i) ∈ xs -> s !! x = Some (b1 + i)) /\ (forall x i, (x, i) ∈ ys -> s !! x = Some (b2 + i)) /\
      (forall x i, (x, i) ∈ zs -> s !! x = Some (b3 + i)).
  Proof.
    intros H1 H2 H3 X1 X2 X3 D12 D13 D23 M1 M2 M3.
    destruct (arrange q1 q2 q3 _ _ _ f1 f2 f3 D12 D13 D23) as (qs&a1&a2&a3&HA).
    pose proof (arranged_placed M S _ _ _ _ _ _ _ _ _ _ _ _ _ HA H1 H2 H3 X1 X2 X3) as HP.
    pose proof (arranged_written _ _ _ _ _ _ _ _ _ _ _ _ _ HA M1 M2 M3) as HW.
    destruct HA as (Q1&Q2&Q3&Hall&_&_&D23').
    assert (Forall (shown M) qs) as HF.
    { apply Forall_forall. intros q Hq. apply elem_of_list_lookup in Hq as [b Hb].
      destruct (Hall b) as [->|[->| ->]]; [by eapply lookup_lt_Some|..]; simplify_eq; done. }
    destruct (lift_writes M qs _ S _ HF HW HP) as (L&m&s&JW&J&_&HRW&HJ&Hfun&Hout&Hrun).
    assert (forall a q f, qs !! a = Some q -> (f = true -> fl3 f1 f2 f3 a1 a2 a3 a = true) -> open_at q f S L m s (base L a)) as HO.
    { intros a q f Hq Hf. destruct (rw_open _ _ _ _ _ _ _ a q HRW Hq). split; try done. intros i Hi Ht. auto. }
    assert (forall a q a' q', qs !! a = Some q -> qs !! a' = Some q' -> same_or_sep q (base L a) q' (base L a')) as Hsep.
    { intros a q a' q' Hq Hq'. destruct (Nat.lt_trichotomy a a') as [Hl|[->|Hl]].
      - right. left. by apply (rw_sep _ _ _ _ _ _ _ HRW).
      - left. by simplify_eq.
      - right. right. by apply (rw_sep _ _ _ _ _ _ _ HRW). }
    exists L, m, s, (base L a1), (base L a2), (base L a3), JW, J. split; [split|].
    - apply HO; [done|]. intros ->. unfold fl3. by rewrite Nat.eqb_refl.
    - apply HO; [done|]. intros ->. unfold fl3. by rewrite Nat.eqb_refl, orb_true_r.
    - apply HO; [done|]. intros ->. unfold fl3. by rewrite Nat.eqb_refl, !orb_true_r.
    - done.
    - done.
    - intros o k s1 v s2 S1. by apply Hout.
    - intros o k s1 v s2 S1. by apply Hout.
    - by apply Hsep.
    - by apply Hsep.
    - by apply Hsep.
    - intros Hff Hq. destruct (decide (a2 = a3)) as [->|Hne]; [done|]. destruct (D23' Hne) as [_ Hx]. subst q3. by destruct (Hx Hff).
    - intros R p Q Hp. destruct (Hrun _ _ _ Hp) as (r&m'&s'&M'&S'&He&HQ&HJ'&Hsh&Hfr).
      exists r, m', s', M', S'. split; [done|]. split; [done|]. split; [done|]. split; [by apply Hsh|]. split; [by apply Hsh|].
      intros q' N1 N2 N3. apply Hfr. intros a q Hq Hf. unfold fl3 in Hf.
      apply orb_true_iff in Hf as [[[Hf Ha]%andb_true_iff|[Hf Ha]%andb_true_iff]%orb_true_iff|[Hf Ha]%andb_true_iff];
        apply Nat.eqb_eq in Ha; subst a; simplify_eq; auto.
    - split; [|split]; intros x i Hi; apply (rw_pl _ _ _ _ _ _ _ HRW); apply elem_of_app; [left|right; apply elem_of_app; left|right; apply elem_of_app; right]; by apply pl_of_to.
  Qed.
End three.
