(** IterHeapProofs.v — the iterator programs of IterHeap.v compute on flat cells what the functions of
    AlgoHeap.v compute on a list. *)
From stdpp Require Import list gmap.
From Verif Require Import Base Spec Facts Iter IterFlat IterWp IterNonMod IterNonModProofs IterMod IterModProofs IterModProofs3 IterLocals
  IterHeap AlgoNonMod AlgoMod AlgoHeap.
From stdpp Require Import list.

Lemma get_left_of i : get_left_z (Z.of_nat i) = Z.of_nat (get_left i).
Proof. unfold get_left_z, get_left. rewrite Z.shiftl_mul_pow2 by lia. lia. Qed.
Lemma get_right_of i : get_right_z (Z.of_nat i) = Z.of_nat (get_right i).
Proof. unfold get_right_z, get_right. rewrite Z.shiftl_mul_pow2 by lia. lia. Qed.
Lemma get_parent_of i : 0 < i -> get_parent_z (Z.of_nat i) = Z.of_nat (get_parent i).
Proof.
  intros Hi. unfold get_parent_z, get_parent. rewrite Z.shiftr_div_pow2 by lia. change (2 ^ 1)%Z with (Z.of_nat 2).
  replace (Z.of_nat i - 1)%Z with (Z.of_nat (i - 1)) by lia. by rewrite Nat2Z.inj_div.
Qed.
Lemma ltb_of a b : (Z.of_nat a <? Z.of_nat b)%Z = (a <? b).
Proof. destruct (Nat.ltb_spec a b); [by apply Z.ltb_lt; lia|by apply Z.ltb_ge; lia]. Qed.
Lemma eqb_of a b : (Z.of_nat a =? Z.of_nat b)%Z = (a =? b).
Proof. destruct (Nat.eqb_spec a b); [by apply Z.eqb_eq; lia|by apply Z.eqb_neq; lia]. Qed.

Section heap_range.
  Context {A : Type} (L : layout) (V : list A -> list A) (b : nat) (HV : view_of V b) (f len : nat).
  Context (Hr : rng L (b + f) (b + f + len)).
  Implicit Types (h : list A) (s : gmap iid nat).

  Definition back (k : nat) : Prop := covers L k (b + f).
  Lemma back_in k : k <= len -> back (b + f + k).
  Proof. intros Hk. apply (covers_rng _ _ _ _ _ Hr); lia. Qed.
  Lemma back_covers k : back k -> covers L k (b + f).
  Proof. done. Qed.
  Lemma adv_in (Hc : cat_ge L RANDOM (b + f)) m k : k <= len -> flat_adv L (m : list A) (b + f) (Z.of_nat k) = Ok (b + f + k).
  Proof. intros Hk. apply (rng_advz L m (b + f) (b + f + len) (b + f) (b + f + k)); [lia|exact Hr|lia..|by left; lia]. Qed.
  Lemma adv_over (Ho : over L (b + f)) m k : exists q, flat_adv L (m : list A) (b + f) (Z.of_nat k) = Ok q /\ back q /\ (k <= len -> q = b + f + k).
  Proof.
    destruct (over_adv L m _ _ (b + f) (Z.of_nat k) Hr Ho ltac:(lia)) as (q&Hq&Hcov). exists q. split; [done|].
    split; [apply Hcov; lia|]. intros Hk.
    rewrite (rng_advz L m (b + f) (b + f + len) (b + f) (b + f + k)) in Hq; [by injection Hq|lia|exact Hr|lia..|by left; lia].
  Qed.
  Lemma h_rd X k x h s (Q : A -> list A -> gmap iid nat -> Prop) : s !! X = Some (b + f + k) -> k < len -> rd h (f + k) = Ok x ->
    Q x (V h) s -> fwp L (Deref X) (V h) s Q.
  Proof.
    intros HX Hk Hx HQ. apply (proj1 HV) in Hx. rewrite Nat.add_assoc in Hx. wrd Hr Hx. done.
  Qed.
  Lemma h_wr (Hw : writable L (b + f)) X k x h h' s (Q : unit -> list A -> gmap iid nat -> Prop) : s !! X = Some (b + f + k) -> k < len -> wr h (f + k) x = Ok h' ->
    Q tt (V h') s -> fwp L (Write X x) (V h) s Q.
  Proof.
    intros HX Hk Hx HQ. apply (proj2 HV) in Hx. rewrite Nat.add_assoc in Hx. wwr Hr Hw Hx. done.
  Qed.
  Lemma h_swap (Hw : writable L (b + f)) (Hc : cat_ge L RANDOM (b + f)) X Y i j h h' s (Q : unit -> list A -> gmap iid nat -> Prop) :
    s !! X = Some (b + f + i) -> s !! Y = Some (b + f + j) -> i < len -> j < len -> swp h (f + i) (f + j) = Ok h' ->
    Q tt (V h') s -> fwp L (iter_swap_p X Y) (V h) s Q.
  Proof.
    intros HX HY Hi Hj Hm HQ. apply (view_swp _ _ _ _ _ _ HV) in Hm. rewrite !Nat.add_assoc in Hm.
    assert (cat_ge L FORWARD (b + f)) as Hc2 by (eapply (cat_weaken L RANDOM); [unfold FORWARD, RANDOM; lia|done]).
    eapply (iter_swap_wp L _ _ _ _ (b + f + i) (b + f + j) (b + f) (b + f + len) (b + f) (b + f + len)); [exact Hm|exact Hr|lia|exact Hr|lia|done..].
  Qed.
  Lemma h_da (Hw : writable L (b + f)) X Y k k' x h h' s (Q : unit -> list A -> gmap iid nat -> Prop) :
    s !! Y = Some (b + f + k) -> s !! X = Some (b + f + k') -> k < len -> k' < len -> rd h (f + k') = Ok x -> wr h (f + k) x = Ok h' ->
    Q tt (V h') s -> fwp L (DerefAssign Y X) (V h) s Q.
  Proof.
    intros HY HX Hk Hk' Hx Hm HQ. apply (proj1 HV) in Hx. apply (proj2 HV) in Hm. rewrite Nat.add_assoc in Hx, Hm.
    wda Hr Hx Hr Hw Hm. done.
  Qed.
End heap_range.

(** use [copy_and_move_wp] for variable number [n]: position [q], names the object [X] *)
Ltac ins := cbn [insert list_insert] in *.
(** all variables are still null *)
Ltac lnil := apply locals_nil; repeat (constructor; try reflexivity).
(** free variable number [n], then go on *)
Ltac lfree n HL := apply fwp_bind; eapply (free_opt_wp _ _ _ _ n); [exact HL|reflexivity|]; clear HL; let s' := fresh "s" in intros s' HL; ins.
(** all variables have been freed *)
Ltac ldone HL := apply locals_done in HL; [subst|repeat (constructor; try reflexivity)].

Section percolate.
  Context {A : Type} (L : layout) (comp : A -> A -> bool) (V : list A -> list A) (b : nat) (HV : view_of V b) (f len : nat).
  Context (Hr : rng L (b + f) (b + f + len)) (Hw : writable L (b + f)) (Hc : cat_ge L RANDOM (b + f)) (Ho : over L (b + f)).
  Implicit Types (h : list A) (s : gmap iid nat).
  Local Notation P := (back L b f).

  Lemma percolate_loop_wp s0 F : s0 !! F = Some (b + f) ->
    forall fuel h hole h' ho sw le ri s1 (Q : vars4 -> list A -> gmap iid nat -> Prop),
    percolate_down comp fuel h f len hole = Ok h' -> hole < len -> locals P s0 [ho; sw; le; ri] s1 ->
    (forall ho sw le ri s2, locals P s0 [ho; sw; le; ri] s2 -> Q (ho, sw, le, ri) (V h') s2) ->
    fwp L (Loop (Z.of_nat hole, (ho, sw, le, ri)) (fun '(hole, v) => percolate_step_p comp F (Z.of_nat len) hole v)) (V h) s1 Q.
  Proof.
    intros HF fuel. induction fuel as [|fuel IH]; intros h hole h' ho sw le ri s1 Q; cbn [percolate_down]; [done|].
    intros [sw1 [H1 [sw2 [H2 H3]]%rbind_Ok]]%rbind_Ok Hh HL HQ. apply fwp_loop. unfold percolate_step_p at 1.
    wb. eapply (copy_and_move_wp L P s0 _ 0); [exact HL|done|exact HF|done|by apply (adv_in L b f len Hr Hc); lia|by eapply back_in; [exact Hr|lia]|].
    intros X HX _ HL1. ins.
    wb. eapply (copy_and_move_wp L P s0 _ 1); [exact HL1|done|exact HF|done|by apply (adv_in L b f len Hr Hc); lia|by eapply back_in; [exact Hr|lia]|].
    intros Y HY HN2 HL2. pose proof (HN2 0 X ltac:(done) eq_refl) as N1. ins. clear HL1 HN2.
    rewrite get_left_of, get_right_of, ltb_of.
    destruct (adv_over L b f len Hr Ho (V h) (get_left hole)) as (ql&Ha&Hb&Hql).
    wb. eapply (copy_and_move_wp L P s0 _ 2); [exact HL2|done|exact HF|done|exact Ha|exact Hb|].
    intros Z HZ HN3 HL3. pose proof (HN3 0 X ltac:(done) eq_refl) as N2. pose proof (HN3 1 Y ltac:(done) eq_refl) as N3. ins. clear HL2 HN3 Ha Hb.
    wb. match type of HL3 with locals _ _ _ ?st =>
      eapply (fwp_mono L _ _ _ (fun r m1 s2 => r = Z.of_nat sw1 /\ m1 = V h /\ s2 = <[Y := b + f + sw1]> st)) end.
    { destruct (Nat.ltb_spec (get_left hole) len) as [Hl|Hl].
      - apply rbind_Ok in H1 as (x&Hx&(y&Hy&H1)%rbind_Ok). rewrite Hql in * by lia.
        wb. eapply (h_rd L V b HV f len Hr); [lk|exact Hh|exact Hx|]. wb. eapply (h_rd L V b HV f len Hr); [lk|exact Hl|exact Hy|].
        injection H1 as <-. destruct (comp x y).
        + wb. eapply copy_and_move_some; [lk|eapply locals_look; [exact HL3|exact HF]|by eapply back_in; [exact Hr|lia]|by apply (adv_in L b f len Hr Hc); lia|].
          apply fwp_ret. done.
        + apply fwp_ret. split; [done|]. split; [done|]. symmetry; apply insert_id; lk.
      - injection H1 as <-. apply fwp_ret. split; [done|]. split; [done|]. symmetry; apply insert_id; lk. }
    cbn beta. intros ? ? ? (->&->&->).
    assert (sw1 < len) as Hs1.
    { destruct (Nat.ltb_spec (get_left hole) len) as [Hl|Hl]; [|injection H1 as <-; lia].
      apply rbind_Ok in H1 as (x&Hx&(y&Hy&H1)%rbind_Ok). injection H1 as <-. destruct (comp x y); lia. }
    apply (locals_update _ _ _ _ 1 Y (b + f + sw1)) in HL3; [|done|by eapply back_in; [exact Hr|lia]].
    destruct (adv_over L b f len Hr Ho (V h) (get_right hole)) as (qr&Ha&Hb&Hqr).
    wb. eapply (copy_and_move_wp L P s0 _ 3); [exact HL3|done|exact HF|done|exact Ha|exact Hb|].
    intros W HW HN4 HL4. pose proof (HN4 0 X ltac:(done) eq_refl) as N4. pose proof (HN4 1 Y ltac:(done) eq_refl) as N5. pose proof (HN4 2 Z ltac:(done) eq_refl) as N6.
    ins. clear HL3 HN4 Ha Hb. rewrite ltb_of.
    wb. match type of HL4 with locals _ _ _ ?st =>
      eapply (fwp_mono L _ _ _ (fun r m1 s2 => r = Z.of_nat sw2 /\ m1 = V h /\ s2 = <[Y := b + f + sw2]> st)) end.
    { destruct (Nat.ltb_spec (get_right hole) len) as [Hl|Hl].
      - apply rbind_Ok in H2 as (x&Hx&(y&Hy&H2)%rbind_Ok). rewrite Hqr in * by lia.
        wb. eapply (h_rd L V b HV f len Hr); [lk|exact Hs1|exact Hx|]. wb. eapply (h_rd L V b HV f len Hr); [lk|exact Hl|exact Hy|].
        injection H2 as <-. destruct (comp x y).
        + wb. eapply copy_and_move_some; [lk|eapply locals_look; [exact HL4|exact HF]|by eapply back_in; [exact Hr|lia]|by apply (adv_in L b f len Hr Hc); lia|].
          apply fwp_ret. done.
        + apply fwp_ret. split; [done|]. split; [done|]. symmetry; apply insert_id; lk.
      - injection H2 as <-. apply fwp_ret. split; [done|]. split; [done|]. symmetry; apply insert_id; lk. }
    cbn beta. intros ? ? ? (->&->&->).
    assert (sw2 < len) as Hs2.
    { destruct (Nat.ltb_spec (get_right hole) len) as [Hl|Hl]; [|injection H2 as <-; lia].
      apply rbind_Ok in H2 as (x&Hx&(y&Hy&H2)%rbind_Ok). injection H2 as <-. destruct (comp x y); lia. }
    apply (locals_update _ _ _ _ 1 Y (b + f + sw2)) in HL4; [|done|by eapply back_in; [exact Hr|lia]].
    rewrite eqb_of. destruct (sw2 =? hole); cbn [negb] in H3.
    - injection H3 as <-. apply fwp_ret. by apply HQ.
    - apply rbind_Ok in H3 as (h1&Hh1&H3). wb.
      eapply (h_swap L V b HV f len Hr Hw Hc X Y hole sw2); [lk|lk|exact Hh|exact Hs2|exact Hh1|]. apply fwp_ret.
      eapply IH; [exact H3|exact Hs2|exact HL4|exact HQ].
  Qed.
  Lemma percolate_down_wp s first fuel h hole h' (Q : unit -> list A -> gmap iid nat -> Prop) :
    s !! first = Some (b + f) -> percolate_down comp fuel h f len hole = Ok h' -> hole < len -> Q tt (V h') s ->
    fwp L (percolate_down_p comp first (Z.of_nat len) (Z.of_nat hole)) (V h) s Q.
  Proof.
    intros Hf H Hh HQ. unfold percolate_down_p. wnew. wb.
    match goal with |- fwp _ _ _ ?s0 _ => eapply (percolate_loop_wp s0) end; [lk|exact H|exact Hh|lnil|].
    intros ho sw le ri s2 HL. lfree 0 HL. lfree 1 HL. lfree 2 HL. lfree 3 HL. ldone HL.
    eapply fwp_free; [lk|]. by rewrite delete_insert.
  Qed.
  Lemma heapify_loop_wp s F : s !! F = Some (b + f) -> forall k h h' (Q : Z -> list A -> gmap iid nat -> Prop),
    heapify_loop comp h f len k = Ok h' -> k <= len -> Q (-1)%Z (V h') s ->
    fwp L (WhileV (Z.of_nat k - 1)%Z (fun hole => Ret (0 <=? hole)%Z)
      (fun hole => percolate_down_p comp F (Z.of_nat len) hole;;; Ret (hole - 1)%Z)) (V h) s Q.
  Proof.
    intros HF k. induction k as [|k IH]; intros h h' Q; cbn [heapify_loop].
    - intros [= <-] _ HQ. apply fwp_whilev, fwp_ret. done.
    - intros [h1 [H1 H2]]%rbind_Ok Hk HQ. apply fwp_whilev, fwp_ret.
      replace (Z.of_nat (S k) - 1)%Z with (Z.of_nat k) by lia. rewrite (proj2 (Z.leb_le _ _)) by lia.
      wb. eapply percolate_down_wp; [exact HF|exact H1|lia|]. apply fwp_ret. by eapply IH; [exact H2|lia|].
  Qed.
End percolate.

Section heap_proofs.
  Context {A : Type} (L : layout) (comp : A -> A -> bool) (V : list A -> list A) (b : nat) (HV : view_of V b).
  Implicit Types (h : list A) (s : gmap iid nat) (Q : unit -> list A -> gmap iid nat -> Prop).

  (** the range [f, l) of the list is a writable range of random access iterators *)
  Definition home (f l : nat) : Prop := rng L (b + f) (b + l) /\ writable L (b + f) /\ flat_cat L (b + f) = Ok RANDOM.
  Lemma flat_cat_ge c k : flat_cat L k = Ok c -> cat_ge L c k.
  Proof. unfold flat_cat. destruct (loc L k) as [[[a o] d]|] eqn:E; [|done]. intros [= H]. exists a, o, d. split; [done|lia]. Qed.
  Lemma flat_cat_rng i j k c : rng L i j -> i <= k <= j -> flat_cat L i = Ok c -> flat_cat L k = Ok c.
  Proof.
    intros Hr Hk. destruct (rng_loc L i j k Hr Hk) as (s0&o0&d0&E1&E2&_). unfold flat_cat. rewrite E1, E2. done.
  Qed.
  Lemma home_le f l : home f l -> f <= l.
  Proof. intros [H _]. apply rng_le in H. lia. Qed.
  Lemma home_sub f l l' : home f l -> f <= l' <= l -> home f l'.
  Proof. intros (H1&H2&H3) Hl. split; [|done]. eapply rng_sub; [exact H1|lia..]. Qed.
  Lemma random2_wp f l first last m s (Q : unit -> list A -> gmap iid nat -> Prop) : rng L (b + f) (b + l) -> flat_cat L (b + f) = Ok RANDOM ->
    s !! first = Some (b + f) -> s !! last = Some (b + l) -> Q tt m s -> fwp L (random2 first last) m s Q.
  Proof.
    intros Hr Hc Hf Hl HQ. pose proof (rng_le _ _ _ Hr). wb. eapply exactly_wp; [exact Hf|done|].
    eapply exactly_wp; [exact Hl|eapply flat_cat_rng; [exact Hr|lia|done]|done].
  Qed.
  Lemma dist_wp i j first last m s (Q : Z -> list A -> gmap iid nat -> Prop) : rng L (b + i) (b + j) ->
    s !! first = Some (b + i) -> s !! last = Some (b + j) -> Q (Z.of_nat (j - i)) m s -> fwp L (Dist first last) m s Q.
  Proof.
    intros Hr Hf Hl HQ. pose proof (rng_le _ _ _ Hr). eapply fwp_dist; [exact Hf|exact Hl|by eapply rng_dist; [exact Hr|lia..]|].
    by replace (Z.of_nat (b + j) - Z.of_nat (b + i))%Z with (Z.of_nat (j - i)) by lia.
  Qed.

  Lemma h_dec f l k X m s Q : rng L (b + f) (b + l) -> cat_ge L BIDIRECTION (b + f) -> s !! X = Some (b + k) -> f < k <= l ->
    Q tt (m : list A) (<[X := b + (k - 1)]> s) -> fwp L (Dec X) m s Q.
  Proof.
    intros Hr Hc HX Hk HQ. eapply fwp_dec; [exact HX|by eapply rng_dec; [exact Hr|exact Hc|lia]|].
    by replace (b + k - 1) with (b + (k - 1)) by lia.
  Qed.
  Lemma make_heap_wp f l first last h h' s Q : algo_make_heap_by comp h f l = Ok h' -> home f l -> over L (b + f) ->
    s !! first = Some (b + f) -> s !! last = Some (b + l) -> Q tt (V h') s -> fwp L (make_heap_by_p comp first last) (V h) s Q.
  Proof.
    intros H (Hr&Hw&Hc) Ho Hf Hl HQ. pose proof (rng_le _ _ _ Hr). unfold make_heap_by_p, algo_make_heap_by in *.
    wb. eapply random2_wp; [exact Hr|exact Hc|done..|]. wb. eapply dist_wp; [exact Hr|done..|].
    change 2%Z with (Z.of_nat 2). rewrite ltb_of. destruct (Nat.ltb_spec (l - f) 2) as [Hlt|Hlt].
    { injection H as <-. by apply fwp_ret. }
    wnew. wnew. wb. unfold heapify_p. wnew. wnew. wb. eapply dist_wp; [exact Hr|lk|lk|].
    unfold heapify in H. replace (get_parent_z (Z.of_nat (l - f) - 1)) with (Z.of_nat (S (get_parent (l - f - 1))) - 1)%Z.
    2:{ replace (Z.of_nat (l - f) - 1)%Z with (Z.of_nat (l - f - 1)) by lia. rewrite get_parent_of by lia. lia. }
    wb. eapply (heapify_loop_wp L comp V b HV f (l - f)); [|done|by apply flat_cat_ge|done|lk|exact H| |].
    - replace (b + f + (l - f)) with (b + l) by lia. exact Hr.
    - unfold get_parent. pose proof (Nat.div_le_upper_bound (l - f - 1 - 1) 2 (l - f - 1)). lia.
    - wfree. eapply fwp_free; [lk|]. wfree. eapply fwp_free; [lk|].
      match goal with |- Q _ _ ?x => replace x with s by mapeq end. done.
  Qed.

  (** ** is_heap_until, is_heap *)
  Lemma out_exactly_wp o c m s k Q : out_pre L s o k -> flat_cat L k = Ok c -> Q tt m s -> fwp L (out_exactly o c) m s Q.
  Proof.
    intros H1 H2 H3. destruct o as [[i|]|]; cbn [out_exactly]; [|by apply fwp_ret..].
    destruct H1 as (k'&H4&(s1&o1&d1&s2&o2&d2&E1&E2&E3&E4)). eapply exactly_wp; [done| |done].
    unfold flat_cat in *. rewrite E1. rewrite E2 in H2. congruence.
  Qed.
  Lemma heap_until_loop_wp f len s0 F : rng L (b + f) (b + f + len) -> cat_ge L RANDOM (b + f) -> s0 !! F = Some (b + f) ->
    forall fuel h dist parent r vp vl vr s1 (Q : bool * vars3 -> list A -> gmap iid nat -> Prop),
    is_heap_until_loop comp fuel h f dist parent = Ok r -> dist <= len -> locals (back L b f) s0 [vp; vl; vr] s1 ->
    (forall vp vl vr s2, locals (back L b f) s0 [vp; vl; vr] s2 ->
       (forall q, r = Some q -> q < dist /\ exists p, vp = Some p /\ s2 !! p = Some (b + f + q)) ->
       Q (match r with None => true | Some _ => false end, (vp, vl, vr)) (V h) s2) ->
    fwp L (Loop (Z.of_nat parent, (vp, vl, vr)) (fun '(parent, v) => heap_until_step_p comp F (Z.of_nat dist) parent v)) (V h) s1 Q.
  Proof.
    intros Hr Hc HF fuel. induction fuel as [|fuel IH]; intros h dist parent r vp vl vr s1 Q; cbn [is_heap_until_loop]; [done|].
    intros H Hd HL HQ. apply fwp_loop. unfold heap_until_step_p at 1. rewrite get_left_of, get_right_of, !ltb_of.
    destruct (Nat.ltb_spec (get_left parent) dist) as [Hl|Hl].
    2:{ injection H as <-. apply fwp_ret. apply (HQ vp vl vr); [done|]. done. }
    assert (parent < get_left parent /\ get_right parent = S (get_left parent)) as [Hp1 Hp2] by (unfold get_left, get_right; lia).
    wb. eapply (copy_and_move_wp L _ s0 _ 0); [exact HL|done|exact HF|done|by apply (adv_in L b f len Hr Hc); lia|by eapply back_in; [exact Hr|lia]|].
    intros X HX _ HL1. ins.
    wb. eapply (copy_and_move_wp L _ s0 _ 1); [exact HL1|done|exact HF|done|by apply (adv_in L b f len Hr Hc); lia|by eapply back_in; [exact Hr|lia]|].
    intros Y HY HN2 HL2. pose proof (HN2 0 X ltac:(done) eq_refl) as N1. ins. clear HL1 HN2.
    apply rbind_Ok in H as (x&Hx&(y&Hy&H)%rbind_Ok).
    wb. eapply (h_rd L V b HV f len Hr); [lk|lia|exact Hx|]. wb. eapply (h_rd L V b HV f len Hr); [lk|lia|exact Hy|].
    destruct (comp x y).
    { injection H as <-. apply fwp_ret. eapply (HQ (Some X) (Some Y) vr); [done|].
      intros q [= <-]. split; [lia|]. exists X. split; [done|]. lk. }
    wb. eapply (copy_and_move_wp L _ s0 _ 2); [exact HL2|done|exact HF|done|by apply (adv_in L b f len Hr Hc); lia|by eapply back_in; [exact Hr|lia]|].
    intros W HW HN3 HL3. pose proof (HN3 0 X ltac:(done) eq_refl) as N2. pose proof (HN3 1 Y ltac:(done) eq_refl) as N3. ins. clear HL2 HN3.
    destruct (Nat.ltb_spec (get_right parent) dist) as [Hl2|Hl2].
    - apply rbind_Ok in H as (z&Hz&H). wb. wb. eapply (h_rd L V b HV f len Hr); [lk|lia|exact Hx|].
      wb. eapply (h_rd L V b HV f len Hr); [lk|lia|exact Hz|]. apply fwp_ret. destruct (comp x z).
      + injection H as <-. apply fwp_ret. eapply (HQ (Some X) (Some Y) (Some W)); [done|].
        intros q [= <-]. split; [lia|]. exists X. split; [done|]. lk.
      + apply fwp_ret. replace (Z.of_nat parent + 1)%Z with (Z.of_nat (S parent)) by lia. by eapply IH.
    - wb. apply fwp_ret. apply fwp_ret. replace (Z.of_nat parent + 1)%Z with (Z.of_nat (S parent)) by lia. by eapply IH.
  Qed.
  Lemma is_heap_until_wp f l first last h u s o : algo_is_heap_until_by comp h f l = Ok u -> rng L (b + f) (b + l) -> flat_cat L (b + f) = Ok RANDOM ->
    s !! first = Some (b + f) -> s !! last = Some (b + l) -> out_pre L s (Some o) (b + f) ->
    fwp L (is_heap_until_by_p comp first last (Some o)) (V h) s (fun r m1 s1 => m1 = V h /\ out_set (Some o) (b + u) s r s1).
  Proof.
    intros H Hr Hc Hf Hl Ho. pose proof (rng_le _ _ _ Hr). unfold is_heap_until_by_p, algo_is_heap_until_by in *.
    apply rbind_Ok in H as (r&H&Hu). injection Hu as <-.
    wb. eapply random2_wp; [exact Hr|exact Hc|done..|]. wb. eapply out_exactly_wp; [exact Ho|exact Hc|].
    wnew. wnew. wb. eapply dist_wp; [exact Hr|lk|lk|].
    assert (rng L (b + f) (b + f + (l - f))) as Hr2 by (by replace (b + f + (l - f)) with (b + l) by lia).
    wb. match goal with |- fwp _ _ _ ?s0 _ => eapply (heap_until_loop_wp f (l - f) s0 i Hr2 (flat_cat_ge _ _ Hc) ltac:(lk) (S (length h)) h (l - f) 0) end; [exact H|done|lnil|].
    intros vp vl vr s2 HL Hq.
    assert (out_pre L (<[i0:=b + l]> (<[i:=b + f]> s)) (Some o) (b + f)) as Ho2.
    { eapply out_pre_insert; [|rewrite lookup_insert_ne by congruence; done]. by eapply out_pre_insert. }
    wb. eapply (fwp_mono L _ _ _ (fun v m1 s1 => m1 = V h /\ out_set (Some o) (b + match r with Some p => f + p | None => l end) s2 v s1)).
    { destruct r as [q|].
      - destruct (Hq q eq_refl) as (Hq1&p&->&Hq2). eapply (fwp_copy_or_assign L _ _ _ _ (b + (f + q))).
        + eapply out_pre_alike; [by eapply locals_out_pre|]. eapply alike_rng; [exact Hr|lia..].
        + by rewrite Nat.add_assoc.
        + done.
      - eapply (fwp_copy_or_assign L _ _ _ _ (b + l)).
        + eapply out_pre_alike; [by eapply locals_out_pre|]. eapply alike_rng; [exact Hr|lia..].
        + eapply locals_look; [exact HL|lk].
        + done. }
    cbn beta. intros v m1 s3 [-> Hs3]. destruct (locals_out _ _ _ _ _ _ _ _ HL Hs3) as (s4&Hs4&HL4).
    { intros x Hx. by eapply out_pre_in. }
    clear HL Hs3 Ho2. lfree 2 HL4. lfree 1 HL4. lfree 0 HL4. ldone HL4.
    wfree_out Hs4. wfree_out Hs4. apply fwp_ret. split; [done|].
    match type of Hs4 with out_set _ _ ?x _ _ => replace s with x by mapeq end. exact Hs4.
  Qed.
  Lemma is_heap_wp f l first last h r s (Q : bool -> list A -> gmap iid nat -> Prop) : algo_is_heap_by comp h f l = Ok r -> rng L (b + f) (b + l) -> flat_cat L (b + f) = Ok RANDOM ->
    s !! first = Some (b + f) -> s !! last = Some (b + l) -> Q r (V h) s -> fwp L (is_heap_by_p comp first last) (V h) s Q.
  Proof.
    intros H Hr Hc Hf Hl HQ. pose proof (rng_le _ _ _ Hr). unfold algo_is_heap_by in H. apply rbind_Ok in H as (u&Hu&H). injection H as <-.
    assert (f <= u <= l) as Hul.
    { unfold algo_is_heap_until_by in Hu. apply rbind_Ok in Hu as (r&H1&H2). destruct r as [q|]; injection H2 as <-; [|lia].
      enough (q < l - f) by lia. revert H1. generalize (S (length h)), 0. intros fuel. induction fuel as [|fuel IH]; intros p; cbn [is_heap_until_loop]; [done|].
      assert (p < get_left p) by (unfold get_left; lia).
      destruct (Nat.ltb_spec (get_left p) (l - f)); [|done]. intros (x&_&(y&_&Hxy)%rbind_Ok)%rbind_Ok.
      destruct (comp x y); [injection Hxy as <-; lia|]. destruct (get_right p <? l - f); [|by eapply IH].
      apply rbind_Ok in Hxy as (z&_&Hxz). destruct (comp x z); [injection Hxz as <-; lia|by eapply IH]. }
    unfold is_heap_by_p. wb. eapply random2_wp; [exact Hr|exact Hc|done..|]. wnew. wnew.
    wb. eapply fwp_mono; [by eapply (is_heap_until_wp f l); [exact Hu|exact Hr|exact Hc|lk|lk|]|]. cbn beta.
    intros v m1 s1 [-> (U&HU&->&->)]. fresh_hyps. wb. weq Hr. wfree. wfree. wfree. apply fwp_ret.
    match goal with |- Q ?x _ ?y => replace x with (u =? l); [replace y with s by mapeq; done|] end.
    destruct (Nat.eqb_spec u l) as [->|N]; [by rewrite Nat.eqb_refl|]. symmetry. apply Nat.eqb_neq. lia.
  Qed.

  (** ** push_heap, pop_heap, sort_heap *)
  Lemma push_heap_loop_wp f len value s0 F : rng L (b + f) (b + f + len) -> writable L (b + f) -> cat_ge L RANDOM (b + f) -> s0 !! F = Some (b + f) ->
    forall fuel h hole h' hole' vp vh s1 (Q : Z * (option iid * option iid) -> list A -> gmap iid nat -> Prop),
    push_heap_loop comp fuel h f hole value = Ok (h', hole') -> hole < len -> locals (back L b f) s0 [vp; vh] s1 ->
    (forall vp vh s2, locals (back L b f) s0 [vp; vh] s2 -> hole' < len -> Q (Z.of_nat hole', (vp, vh)) (V h') s2) ->
    fwp L (Loop (Z.of_nat hole, get_parent_z (Z.of_nat hole), (vp, vh)) (fun '(hole, parent, v) => push_heap_step_p comp F value hole parent v)) (V h) s1 Q.
  Proof.
    intros Hr Hw Hc HF fuel. induction fuel as [|fuel IH]; intros h hole h' hole' vp vh s1 Q; cbn [push_heap_loop]; [done|].
    intros H Hd HL HQ. apply fwp_loop. unfold push_heap_step_p at 1. change 0%Z with (Z.of_nat 0). rewrite ltb_of.
    destruct (Nat.ltb_spec 0 hole) as [Hl|Hl].
    2:{ injection H as <- <-. apply fwp_ret. by apply HQ. }
    rewrite get_parent_of by lia. assert (get_parent hole < hole) as Hp.
    { unfold get_parent. apply Nat.le_lt_trans with (hole - 1); [|lia]. apply Nat.div_le_upper_bound; lia. }
    apply rbind_Ok in H as (p&Hp1&H).
    wb. eapply (copy_and_move_wp L _ s0 _ 0); [exact HL|done|exact HF|done|by apply (adv_in L b f len Hr Hc); lia|by eapply back_in; [exact Hr|lia]|].
    intros X HX _ HL1. ins.
    wb. eapply (copy_and_move_wp L _ s0 _ 1); [exact HL1|done|exact HF|done|by apply (adv_in L b f len Hr Hc); lia|by eapply back_in; [exact Hr|lia]|].
    intros Y HY HN2 HL2. pose proof (HN2 0 X ltac:(done) eq_refl) as N1. ins. clear HL1 HN2.
    wb. eapply (h_rd L V b HV f len Hr); [lk|lia|exact Hp1|]. destruct (comp p value).
    - apply rbind_Ok in H as (h1&Hh1&H). wb. eapply (h_da L V b HV f len Hr Hw X Y); [lk|lk|lia|lia|exact Hp1|exact Hh1|].
      apply fwp_ret. eapply IH; [exact H|lia|exact HL2|exact HQ].
    - injection H as <- <-. apply fwp_ret. by apply HQ.
  Qed.
  Lemma push_heap_wp f l first last h h' s Q : algo_push_heap_by comp h f l = Ok h' -> home f l ->
    s !! first = Some (b + f) -> s !! last = Some (b + l) -> Q tt (V h') s -> fwp L (push_heap_by_p comp first last) (V h) s Q.
  Proof.
    intros H (Hr&Hw&Hc) Hf Hl HQ. pose proof (rng_le _ _ _ Hr). unfold push_heap_by_p, algo_push_heap_by in *.
    pose proof (flat_cat_ge _ _ Hc) as Hg.
    wb. eapply random2_wp; [exact Hr|exact Hc|done..|]. wb. eapply dist_wp; [exact Hr|done..|].
    change 2%Z with (Z.of_nat 2). rewrite ltb_of. destruct (Nat.ltb_spec (l - f) 2) as [Hlt|Hlt].
    { injection H as <-. by apply fwp_ret. }
    apply rbind_Ok in H as (value&Hv&([h1 hole]&H1&H2)%rbind_Ok).
    assert (rng L (b + f) (b + f + (l - f))) as Hr2 by (by replace (b + f + (l - f)) with (b + l) by lia).
    wnew. wnew. wb. eapply (h_dec f l); [exact Hr|eapply (cat_weaken L RANDOM); [unfold BIDIRECTION, RANDOM; lia|done]|lk|lia|].
    wb. eapply (dist_wp f (l - 1)); [eapply rng_sub; [exact Hr|lia..]|lk|lk|].
    wb. eapply (h_rd L V b HV f (l - f) Hr2 _ (l - 1 - f)); [|lia|by replace (f + (l - 1 - f)) with (l - 1) by lia; exact Hv|].
    { replace (b + f + (l - 1 - f)) with (b + (l - 1)) by lia. lk. }
    wb. match goal with |- fwp _ _ _ ?s0 _ => eapply (push_heap_loop_wp f (l - f) value s0 i Hr2 Hw Hg ltac:(lk) (S (length h)) h (l - 1 - f)) end; [exact H1|lia|lnil|].
    intros vp vh s2 HL Hh.
    wb. eapply (copy_and_move_wp L _ _ _ 1); [exact HL|done|lk|done|by apply (adv_in L b f (l - f) Hr2 Hg); lia|by eapply back_in; [exact Hr2|lia]|].
    intros X HX _ HL1. ins.
    wb. eapply (h_wr L V b HV f (l - f) Hr2 Hw); [lk|exact Hh|exact H2|].
    wb. eapply (free_opt_wp L _ _ _ 1 (Some X)); [exact HL1|done|]. clear HL1. intros s3 HL1. ins.
    lfree 0 HL1. ldone HL1. wfree. eapply fwp_free; [lk|].
    match goal with |- Q _ _ ?x => replace x with s by mapeq end. done.
  Qed.
  Lemma pop_heap_loop_wp f len s0 F : rng L (b + f) (b + f + len) -> writable L (b + f) -> cat_ge L RANDOM (b + f) -> s0 !! F = Some (b + f) ->
    forall fuel h li hole h' vh vl vr s1 (Q : vars3 -> list A -> gmap iid nat -> Prop),
    pop_heap_loop comp fuel h f li hole = Ok h' -> li <= len -> locals (back L b f) s0 [vh; vl; vr] s1 ->
    (forall vh vl vr s2, locals (back L b f) s0 [vh; vl; vr] s2 -> Q (vh, vl, vr) (V h') s2) ->
    fwp L (Loop (Z.of_nat hole, (vh, vl, vr)) (fun '(hole, v) => pop_heap_step_p comp F (Z.of_nat li) hole v)) (V h) s1 Q.
  Proof.
    intros Hr Hw Hc HF fuel. induction fuel as [|fuel IH]; intros h li hole h' vh vl vr s1 Q; cbn [pop_heap_loop]; [done|].
    intros H Hd HL HQ. apply fwp_loop. unfold pop_heap_step_p at 1. rewrite get_left_of, get_right_of, !ltb_of.
    destruct (Nat.ltb_spec (get_left hole) li) as [Hl|Hl].
    2:{ injection H as <-. apply fwp_ret. by apply HQ. }
    assert (hole < get_left hole) as Hp by (unfold get_left; lia).
    apply rbind_Ok in H as (x&Hx&(y&Hy&H)%rbind_Ok).
    wb. eapply (copy_and_move_wp L _ s0 _ 0); [exact HL|done|exact HF|done|by apply (adv_in L b f len Hr Hc); lia|by eapply back_in; [exact Hr|lia]|].
    intros X HX _ HL1. ins.
    wb. eapply (copy_and_move_wp L _ s0 _ 1); [exact HL1|done|exact HF|done|by apply (adv_in L b f len Hr Hc); lia|by eapply back_in; [exact Hr|lia]|].
    intros Y HY HN2 HL2. pose proof (HN2 0 X ltac:(done) eq_refl) as N1. ins. clear HL1 HN2.
    destruct (Nat.ltb_spec (get_right hole) li) as [Hl2|Hl2].
    - apply rbind_Ok in H as (z&Hz&H).
      wb. eapply (copy_and_move_wp L _ s0 _ 2); [exact HL2|done|exact HF|done|by apply (adv_in L b f len Hr Hc); lia|by eapply back_in; [exact Hr|lia]|].
      intros W HW HN3 HL3. pose proof (HN3 0 X ltac:(done) eq_refl) as N2. pose proof (HN3 1 Y ltac:(done) eq_refl) as N3. ins. clear HL2 HN3.
      wb. eapply (h_rd L V b HV f len Hr); [lk|lia|exact Hy|]. wb. eapply (h_rd L V b HV f len Hr); [lk|lia|exact Hz|].
      destruct (comp y z).
      + wb. eapply (h_rd L V b HV f len Hr); [lk|lia|exact Hx|]. wb. eapply (h_rd L V b HV f len Hr); [lk|lia|exact Hz|].
        destruct (comp x z).
        * apply rbind_Ok in H as (h1&Hh1&H). wb. eapply (h_swap L V b HV f len Hr Hw Hc X W); [lk|lk| | |exact Hh1|]; [lia..|].
          apply fwp_ret. eapply IH; [exact H|lia|exact HL3|exact HQ].
        * injection H as <-. apply fwp_ret. by apply HQ.
      + wb. eapply (h_rd L V b HV f len Hr); [lk|lia|exact Hx|]. wb. eapply (h_rd L V b HV f len Hr); [lk|lia|exact Hy|].
        destruct (comp x y).
        * apply rbind_Ok in H as (h1&Hh1&H). wb. eapply (h_swap L V b HV f len Hr Hw Hc X Y); [lk|lk| | |exact Hh1|]; [lia..|].
          apply fwp_ret. eapply IH; [exact H|lia|exact HL3|exact HQ].
        * injection H as <-. apply fwp_ret. by apply HQ.
    - wb. eapply (h_rd L V b HV f len Hr); [lk|lia|exact Hx|]. wb. eapply (h_rd L V b HV f len Hr); [lk|lia|exact Hy|].
      destruct (comp x y).
      + apply rbind_Ok in H as (h1&Hh1&H). wb. eapply (h_swap L V b HV f len Hr Hw Hc X Y); [lk|lk| | |exact Hh1|]; [lia..|].
        apply fwp_ret. eapply IH; [exact H|lia|exact HL2|exact HQ].
      + injection H as <-. apply fwp_ret. by apply HQ.
  Qed.
  Lemma pop_heap_wp f l first last h h' s Q : algo_pop_heap_by comp h f l = Ok h' -> home f l ->
    s !! first = Some (b + f) -> s !! last = Some (b + l) -> Q tt (V h') s -> fwp L (pop_heap_by_p comp first last) (V h) s Q.
  Proof.
    intros H (Hr&Hw&Hc) Hf Hl HQ. pose proof (rng_le _ _ _ Hr). unfold pop_heap_by_p, algo_pop_heap_by in *.
    pose proof (flat_cat_ge _ _ Hc) as Hg.
    wb. eapply random2_wp; [exact Hr|exact Hc|done..|]. wb. eapply dist_wp; [exact Hr|done..|].
    change 2%Z with (Z.of_nat 2). rewrite ltb_of. destruct (Nat.ltb_spec (l - f) 2) as [Hlt|Hlt].
    { injection H as <-. by apply fwp_ret. }
    apply rbind_Ok in H as (h1&H1&H2).
    assert (rng L (b + f) (b + f + (l - f))) as Hr2 by (by replace (b + f + (l - f)) with (b + l) by lia).
    wnew. wnew. wb. eapply (h_dec f l); [exact Hr|eapply (cat_weaken L RANDOM); [unfold BIDIRECTION, RANDOM; lia|done]|lk|lia|].
    wb. eapply (h_swap L V b HV f (l - f) Hr2 Hw Hg _ _ 0 (l - 1 - f)); [rewrite Nat.add_0_r; lk| |lia|lia| |].
    { replace (b + f + (l - 1 - f)) with (b + (l - 1)) by lia. lk. }
    { rewrite Nat.add_0_r. replace (f + (l - 1 - f)) with (l - 1) by lia. exact H1. }
    wb. eapply (dist_wp f (l - 1)); [eapply rng_sub; [exact Hr|lia..]|lk|lk|].
    wb. match goal with |- fwp _ _ _ ?s0 _ => eapply (pop_heap_loop_wp f (l - f) s0 i Hr2 Hw Hg ltac:(lk) (S (length h)) h1 (l - 1 - f) 0) end; [exact H2|lia|lnil|].
    intros vh vl vr s2 HL. lfree 2 HL. lfree 1 HL. lfree 0 HL. ldone HL. wfree. eapply fwp_free; [lk|].
    match goal with |- Q _ _ ?x => replace x with s by mapeq end. done.
  Qed.
  Lemma sort_heap_loop_wp f s0 F E : home f f -> s0 !! F = Some (b + f) -> s0 !! E = None ->
    forall fuel h l h' Q, sort_heap_loop comp fuel h f l = Ok h' -> home f l -> Q tt (V h') (<[E := b + f]> s0) ->
    fwp L (While (Ne F E) (pop_heap_by_p comp F E;;; Dec E)) (V h) (<[E := b + l]> s0) Q.
  Proof.
    intros Hff HF HE fuel. assert (F <> E) by congruence. induction fuel as [|fuel IH]; intros h l h' Q; cbn [sort_heap_loop]; [done|].
    intros H1 Hh HQ. pose proof Hh as (Hr&Hw&Hc). pose proof (rng_le _ _ _ Hr). apply fwp_while. wne Hr.
    destruct (Nat.eqb_spec f l) as [<-|N].
    - injection H1 as <-. by rewrite Nat.eqb_refl.
    - apply rbind_Ok in H1 as (h1&H2&H3). rewrite (proj2 (Nat.eqb_neq _ _)) by lia. cbn [negb].
      wb. eapply pop_heap_wp; [exact H2|exact Hh|lk|lk|].
      eapply (h_dec f l); [exact Hr|eapply (cat_weaken L RANDOM); [unfold BIDIRECTION, RANDOM; lia|by apply flat_cat_ge]|lk|lia|].
      rewrite insert_insert. eapply IH; [exact H3|eapply home_sub; [exact Hh|lia]|done].
  Qed.
  Lemma sort_heap_wp f l first last h h' s Q : algo_sort_heap_by comp h f l = Ok h' -> home f l ->
    s !! first = Some (b + f) -> s !! last = Some (b + l) -> Q tt (V h') s -> fwp L (sort_heap_by_p comp first last) (V h) s Q.
  Proof.
    intros H Hh Hf Hl HQ. pose proof Hh as (Hr&Hw&Hc). pose proof (rng_le _ _ _ Hr). unfold sort_heap_by_p, algo_sort_heap_by in *.
    wb. eapply random2_wp; [exact Hr|exact Hc|done..|]. wb. eapply dist_wp; [exact Hr|done..|].
    change 2%Z with (Z.of_nat 2). rewrite ltb_of. destruct (Nat.ltb_spec (l - f) 2) as [Hlt|Hlt].
    { injection H as <-. by apply fwp_ret. }
    wnew. wnew. wb. eapply (sort_heap_loop_wp f); [by eapply home_sub; [exact Hh|lia]|lk|lk|exact H|exact Hh|].
    wfree. eapply fwp_free; [lk|]. match goal with |- Q _ _ ?x => replace x with s by mapeq end. done.
  Qed.
End heap_proofs.
