(** IterPscProofs.v — algo_partial_sort_copy_by on flat cells. *)
From stdpp Require Import list gmap.
From Verif Require Import Base Spec Facts Iter IterFlat IterWp IterNonMod IterNonModProofs IterMod IterModProofs IterModProofs3 IterLocals
  IterHeap IterHeapProofs IterSort AlgoNonMod AlgoMod AlgoModProofs AlgoHeap AlgoHeapProofs AlgoSort AlgoSortProofs SortLen.
From stdpp Require Import list.

Section psc.
  Context {A : Type} (L : layout) (comp : A -> A -> bool) (f l d dl : nat).
  Context (Hr : rng L f l) (Hr2 : rng L d dl) (Hw : writable L d) (Hcat : flat_cat L d = Ok RANDOM) (Hcf : cat_ge L FORWARD f) (Hov : over L d).
  Implicit Types (m : list A) (s : gmap iid nat) (Q : unit -> list A -> gmap iid nat -> Prop).

  Lemma p_home k : d <= k <= dl -> home L 0 d k.
  Proof. intros Hk. split; [by eapply rng_sub; [exact Hr2|cbn; lia..]|]. by split. Qed.
  Lemma p_adv m k : d < k <= dl -> flat_adv L m k (-1)%Z = Ok (k - 1).
  Proof.
    intros Hk. eapply rng_advz; [|exact Hr2|lia|lia|right].
    - lia.
    - eapply (cat_weaken L RANDOM); [unfold BIDIRECTION, RANDOM; lia|by apply flat_cat_ge].
  Qed.
  Lemma psc_copy_wp s0 I D E DE : s0 !! E = Some l -> s0 !! DE = Some dl -> s0 !! I = None -> s0 !! D = None -> I <> D ->
    forall fuel m i k n m' i' k' n' (Q : nat -> list A -> gmap iid nat -> Prop),
    psc_copy fuel m i l k dl n = Ok (m', i', k', n') -> f <= i <= l -> d <= k <= dl ->
    (i <= i' <= l -> k <= k' <= dl -> (i < l -> k < dl -> k < k') -> Q n' m' (<[D := k']> (<[I := i']> s0))) ->
    fwp L (WhileV n (fun _ => b <~ Ne I E;; if (b : bool) then Ne D DE else Ret false)
      (fun n => DerefAssign D I;;; Inc D;;; Inc I;;; Ret (S n))) m (<[D := k]> (<[I := i]> s0)) Q.
  Proof.
    intros HE HDE HI HD Hne. assert (I <> E /\ I <> DE /\ D <> E /\ D <> DE) as (N1&N2&N3&N4) by (repeat split; congruence).
    induction fuel as [|fuel IH]; intros m i k n m' i' k' n' Q; cbn [psc_copy]; [done|]. intros H Hi Hk HQ.
    apply fwp_whilev. wb. wne Hr. destruct (Nat.eqb_spec i l) as [->|Ni]; cbn [negb orb] in *.
    { injection H as <- <- <- <-. apply fwp_ret. apply HQ; lia. }
    wne Hr2. destruct (Nat.eqb_spec k dl) as [->|Nk]; cbn [negb] in *.
    { injection H as <- <- <- <-. apply HQ; lia. }
    apply rbind_Ok in H as (x&Hx&(m1&Hm1&H)%rbind_Ok). wb. wda Hr Hx Hr2 Hw Hm1. wb. winc Hr2. wb. winc Hr. apply fwp_ret.
    match goal with |- fwp _ _ _ ?x _ => replace x with (<[D := S k]> (<[I := S i]> s0)) by mapeq end.
    eapply IH; [exact H|lia|lia|]. intros H1 H2 H3. apply HQ; lia.
  Qed.
  Lemma psc_select_wp s0 I E DF D p k : s0 !! E = Some l -> s0 !! DF = Some d -> s0 !! D = Some k -> s0 !! p = Some (k - 1) -> s0 !! I = None -> d < k <= dl ->
    forall fuel m i m' Q, psc_select comp fuel m d k i l = Ok m' -> f <= i <= l -> Q tt m' (<[I := l]> s0) ->
    fwp L (While (Ne I E) (x <~ Deref I;; y <~ Deref DF;;
      (if comp x y then pop_heap_by_p comp DF D;;; DerefAssign p I;;; push_heap_by_p comp DF D else Ret tt);;; Inc I)) m (<[I := i]> s0) Q.
  Proof.
    intros HE HDF HD Hp HI Hk. assert (I <> E /\ I <> DF /\ I <> D /\ I <> p) as (N1&N2&N3&N4) by (repeat split; congruence).
    induction fuel as [|fuel IH]; intros m i m' Q; cbn [psc_select]; [done|]. intros H Hi HQ.
    apply fwp_while. wne Hr. destruct (Nat.eqb_spec i l) as [->|Nk].
    - injection H as <-. cbn [negb]. done.
    - cbn [negb]. apply rbind_Ok in H as (x&Hx&(y&Hy&H)%rbind_Ok). wb. wrd Hr Hx. wb. wrd Hr2 Hy.
      destruct (comp x y).
      + apply rbind_Ok in H as (m1&Hp1&(x'&Hx'&(m2&Hm2&(m3&Hp3&H)%rbind_Ok)%rbind_Ok)%rbind_Ok).
        wb. wb. eapply (pop_heap_wp L comp id 0 view_id d k _ _ m m1); [exact Hp1|apply p_home; lia|lk|lk|].
        cbn [id]. wb. wda Hr Hx' Hr2 Hw Hm2. eapply (push_heap_wp L comp id 0 view_id d k _ _ m2 m3); [exact Hp3|apply p_home; lia|lk|lk|].
        cbn [id]. winc Hr. rewrite insert_insert. eapply IH; [exact H|lia|done].
      + wb. apply fwp_ret. winc Hr. rewrite insert_insert. eapply IH; [exact H|lia|done].
  Qed.
  Lemma partial_sort_copy_wp first last d_first d_last o m m' u n s :
    algo_partial_sort_copy_by comp m f l d dl = Ok (m', u, n) -> s !! first = Some f -> s !! last = Some l -> s !! d_first = Some d -> s !! d_last = Some dl ->
    out_pre L s o d -> fwp L (partial_sort_copy_by_p comp first last d_first d_last o) m s (leaves s o n m' u).
  Proof.
    intros H Hf Hl Hd Hdl Ho. pose proof (rng_le _ _ _ Hr). pose proof (rng_le _ _ _ Hr2). unfold partial_sort_copy_by_p, algo_partial_sort_copy_by in *.
    wb. eapply fwp_at_least; [exact Hf|exact Hcf|]. wb. eapply fwp_at_least; [exact Hl|eapply cat_rng; [exact Hr|lia|exact Hcf]|].
    wb. eapply exactly_wp; [exact Hd|exact Hcat|]. wb. eapply exactly_wp; [exact Hdl|eapply flat_cat_rng; [exact Hr2|lia|exact Hcat]|].
    wb. eapply out_exactly_wp; [exact Ho|exact Hcat|]. wb. eapply fwp_is_mutable; [exact Hd|exact Hw|].
    wb. wb. weq Hr.
    assert (forall b : bool, b = (f =? l) || (d =? dl) -> fwp L (if b then v <~ copy_or_assign o d_first;; Ret (0, v) else
      F <~ New first;; E <~ New last;; DF <~ New d_first;; DE <~ New d_last;;
      i <~ New F;; dd <~ New DF;;
      n <~ WhileV 0 (fun _ => b <~ Ne i E;; if (b : bool) then Ne dd DE else Ret false)
        (fun n => DerefAssign dd i;;; Inc dd;;; Inc i;;; Ret (S n));;
      p <~ copy_and_move None dd (-1)%Z;;
      make_heap_by_p comp DF dd;;;
      While (Ne i E) (
        x <~ Deref i;; y <~ Deref DF;;
        (if comp x y then pop_heap_by_p comp DF dd;;; DerefAssign p i;;; push_heap_by_p comp DF dd else Ret tt);;;
        Inc i);;;
      sort_heap_by_p comp DF dd;;;
      v <~ copy_or_assign o dd;;
      Free p;;; Free dd;;; Free i;;;
      Free F;;; Free E;;; Free DF;;; Free DE;;; Ret (n, v)) m s (leaves s o n m' u)) as HB.
    { intros b Hb. rewrite <- Hb in H. destruct b.
      - injection H as <- <- <-. wb. eapply fwp_copy_or_assign; [exact Ho|exact Hd|]. intros v s' Hs'. apply fwp_ret. by split.
      - symmetry in Hb. apply orb_false_iff in Hb as [Nf%Nat.eqb_neq Nd%Nat.eqb_neq].
        apply rbind_Ok in H as ([[[m1 i1] k1] n1]&Hc&(m2&Hm2&(m3&Hm3&(m4&Hm4&H)%rbind_Ok)%rbind_Ok)%rbind_Ok).
        injection H as <- <- <-.
        wb. eapply fwp_new; [lk|]. intros F HF. fresh_hyps. wb. eapply fwp_new; [lk|]. intros E HE. fresh_hyps. wb. eapply fwp_new; [lk|]. intros DF HDF. fresh_hyps. wb. eapply fwp_new; [lk|]. intros DE HDE. fresh_hyps.
        wb. eapply fwp_new; [lk|]. intros I HI. fresh_hyps. wb. eapply fwp_new; [lk|]. intros D HD. fresh_hyps.
        wb. eapply (psc_copy_wp _ I D E DE); [lk|lk|lk|lk|congruence|exact Hc|lia|lia|]. intros B1 B2 B3.
        specialize (B3 ltac:(lia) ltac:(lia)).
        wb. eapply fwp_new_and_move; [lk|apply (p_adv m1 k1); lia|].
        intros p HP. fresh_hyps.
        wb. eapply (make_heap_wp L comp id 0 view_id d k1 _ _ m1 m2); [exact Hm2|apply p_home; lia|exact Hov|lk|lk|]. cbn [id].
        wb. match goal with |- fwp _ _ _ ?x _ => replace x with (<[I := i1]> (<[p := k1 - 1]> (<[D := k1]> (<[DE := dl]> (<[DF := d]> (<[E := l]> (<[F := f]> s))))))) by mapeq end.
        eapply (psc_select_wp _ I E DF D p k1); [lk|lk|lk|lk|lk|lia|exact Hm3|lia|].
        wb. eapply (sort_heap_wp L comp id 0 view_id d k1 _ _ m3 m4); [exact Hm4|apply p_home; lia|lk|lk|]. cbn [id].
        wb. wout Ho Hr2. intros v s' Hs'. do 7 wfree_out Hs'. wfin Hs'. }
    destruct (f =? l); cbn [orb] in HB.
    - apply fwp_ret. exact (HB true eq_refl).
    - weq Hr2. exact (HB _ eq_refl).
  Qed.
End psc.
