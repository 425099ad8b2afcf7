(** IterTempCount.v — the number of elements that algo_partial_sort_by and algo_partial_sort_copy_by lose: the programs are
    followed by programs without temporaries that count the pushes into the heap. *)
From stdpp Require Import list gmap.
From Verif Require Import Base Spec Facts Iter IterFlat IterWp IterWorld SpecIter SpecIterOrd IterWorldProofs IterLift AlgoNonMod AlgoNonModProofs
  AlgoMod AlgoModProofs AlgoHeap AlgoHeapProofs AlgoSort AlgoSortProofs SortLen IterNonMod IterNonModProofs IterMod IterModProofs IterModProofs2 IterModProofs3
  IterNonModLift IterModLift IterOrd IterOrdProofs IterOrdLift IterLocals IterHeap IterHeapProofs IterHeapLift IterSort IterSortProofs IterPscProofs IterSortLift
  IterTemp IterTempProofs IterTempSort SortCount.
From stdpp Require Import list.

Section count.
  Context {A : Type} (comp : A -> A -> bool).
  (** algo_push_heap_by, returning what it loses *)
  Definition push_count_p (F X : iid) : prog A nat :=
    (d <~ Dist F X;; push_heap_by_p comp F X;;; Ret (if (d <? 2)%Z then 0 else 1))%prog.
  Definition count_loop_p (F E i : iid) (push : prog A nat) (n : nat) : prog A nat :=
    (WhileV n (fun _ => Ne i E) (fun n =>
      x <~ Deref i;; y <~ Deref F;;
      k <~ (if comp x y then push else Ret 0);;
      Inc i;;; Ret (n + k)))%prog.
  Definition partial_sort_count_p (first middle last : iid) : prog A nat :=
    (exactly first RANDOM;;; exactly middle RANDOM;;; exactly last RANDOM;;; is_mutable first;;; is_mutable middle;;;
     e <~ Eq first middle;;
     if (e : bool) then Ret 0 else
     F <~ New first;; X <~ New middle;; E <~ New last;;
     i <~ New X;;
     p <~ copy_and_move None X (-1)%Z;;
     make_heap_by_p comp F X;;;
     n <~ count_loop_p F E i (pop_heap_by_p comp F X;;; iter_swap_p p i;;; push_count_p F X) 0;;
     sort_heap_by_p comp F X;;;
     Free i;;; Free p;;;
     Free F;;; Free X;;; Free E;;; Ret n)%prog.
  Definition partial_sort_copy_count_p (first last d_first d_last : iid) (d_upper : out) : prog A (nat * nat * option iid) :=
    (at_least first FORWARD;;; at_least last FORWARD;;; exactly d_first RANDOM;;; exactly d_last RANDOM;;; out_exactly d_upper RANDOM;;;
     is_mutable d_first;;;
     e <~ (b <~ Eq first last;; if (b : bool) then Ret true else Eq d_first d_last);;
     if (e : bool) then (v <~ copy_or_assign d_upper d_first;; Ret (0, 0, v)) else
     F <~ New first;; E <~ New last;; DF <~ New d_first;; DE <~ New d_last;;
     i <~ New F;; d <~ New DF;;
     n <~ WhileV 0 (fun _ => b <~ Ne i E;; if (b : bool) then Ne d DE else Ret false)
       (fun n => DerefAssign d i;;; Inc d;;; Inc i;;; Ret (S n));;
     p <~ copy_and_move None d (-1)%Z;;
     make_heap_by_p comp DF d;;;
     k <~ count_loop_p DF E i (pop_heap_by_p comp DF d;;; DerefAssign p i;;; push_count_p DF d) 0;;
     sort_heap_by_p comp DF d;;;
     v <~ copy_or_assign d_upper d;;
     Free p;;; Free d;;; Free i;;;
     Free F;;; Free E;;; Free DF;;; Free DE;;; Ret (n, k, v))%prog.
End count.

(** ** the counting programs and the programs with temporaries *)
Section yields.
  Context {A : Type} (W : world A) (comp : A -> A -> bool).
  Implicit Types g : temps A.
  Definition yields {R R'} fuel st g (t : tprog A R) (p : prog A R') (f : R' -> R * temps A) : Prop :=
    forall r s, run W fuel p st = Ok (r, s) -> trun W fuel t (st, g) = Ok ((f r).1, (s, (f r).2)).
  Lemma yields_bind {X X' R R'} fuel st g (t : tprog A X) (p : prog A X') K (k : X -> tprog A R) (k' : X' -> prog A R') f :
    yields fuel st g t p K -> (forall x s, yields fuel s (K x).2 (k (K x).1) (k' x) f) -> yields fuel st g (TBind t k) (Bind p k') f.
  Proof.
    intros H1 H2 r s. cbn [run trun]. intros ([x s1]&Hp&Hk)%rbind_Ok. rewrite (H1 _ _ Hp). cbn [rbind]. by apply H2.
  Qed.
  Lemma yields_lift {X R R'} fuel st g (p : prog A X) (k : X -> tprog A R) (k' : X -> prog A R') f :
    (forall x s, yields fuel s g (k x) (k' x) f) -> yields fuel st g (TBind (TLift p) k) (Bind p k') f.
  Proof.
    intros H. apply (yields_bind fuel st g _ _ (fun x => (x, g))); [|done]. intros r s Hr. cbn [trun fst snd]. rewrite Hr. done.
  Qed.
  Lemma yields_same {X R R'} fuel st g (t : tprog A X) (p : prog A X) (k : X -> tprog A R) (k' : X -> prog A R') f : same W t p ->
    (forall x s, yields fuel s g (k x) (k' x) f) -> yields fuel st g (TBind t k) (Bind p k') f.
  Proof.
    intros HS H. apply (yields_bind fuel st g _ _ (fun x => (x, g))); [|done]. intros r s Hr.
    pose proof (HS g fuel st g eq_refl) as H1. rewrite Hr in H1. destruct H1 as (g'&H1&->). done.
  Qed.
  Lemma yields_ret {R R'} fuel st g (r : R) (r' : R') f : f r' = (r, g) -> yields fuel st g (TLift (Ret r)) (Ret r') f.
  Proof. intros H x s [= <- <-]. by rewrite H. Qed.
  (** the last command of [t] is followed by the result of the counting program *)
  Lemma yields_end {X R'} fuel st g (p : prog A X) (r' : R') f : (forall x, f r' = (x, g)) -> yields fuel st g (TLift p) (Bind p (fun _ => Ret r')) f.
  Proof.
    intros H r s. cbn [run trun fst snd]. intros ([x s1]&Hp&[= <- <-])%rbind_Ok. rewrite Hp. cbn [rbind]. by rewrite (H x).
  Qed.
  Lemma yields_push fuel st g F X : yields fuel st g (push_heap_by_t comp F X) (push_count_p comp F X) (fun n => (tt, lose n g)).
  Proof.
    intros r s. unfold push_count_p. cbn [run]. intros ([d s1]&Hd&([u s2]&Hp&[= <- <-])%rbind_Ok)%rbind_Ok.
    pose proof (dist_run W fuel F X st d s1 Hd) as (->&pf&pl&Hf&Hl&Hw).
    pose proof (push_heap_at W comp fuel st g F X pf pl d Hf Hl Hw) as H. unfold simat in H. rewrite Hp in H. destruct H as (g'&H&->).
    destruct u. etransitivity; [exact H|]. destruct (d <? 2)%Z; [|done]. cbn [fst snd]. unfold lose. by destruct g.
  Qed.
  Lemma lose_lose n k g : lose k (lose n g) = lose (n + k) g.
  Proof. unfold lose. cbn. f_equal. lia. Qed.
  Lemma yields_loop fuel st g F E i (t : tprog A unit) (p : prog A nat) n : (forall st g, yields fuel st g t p (fun n => (tt, lose n g))) ->
    yields fuel st (lose n g)
      (TWhile (Ne i E) (x <~ Deref i;; y <~ Deref F;; (if comp x y then t else Ret tt);;; Inc i))
      (count_loop_p comp F E i p n) (fun n => (tt, lose n g)).
  Proof.
    intros Ht r s. unfold TWhile, count_loop_p, WhileV. rewrite trun_Loop, run_Loop. generalize fuel at 2 4. intros c. revert n st.
    induction c as [|c IH]; intros n st; [intros [=]|]. cbn [run_loop trun_loop].
    intros ([y s1]&Hp&Hk)%rbind_Ok.
    assert (yields fuel st (lose n g)
      (b <~ Ne i E;; if (b : bool) then (x <~ Deref i;; y <~ Deref F;; (if comp x y then t else Ret tt);;; Inc i);;; Ret (inl tt) else Ret (inr tt))
      (b <~ Ne i E;; if (b : bool) then y <~ (x <~ Deref i;; y <~ Deref F;; k <~ (if comp x y then p else Ret 0);; Inc i;;; Ret (n + k));; Ret (inl y) else Ret (inr n))%prog
      (fun z => match z with inl k => (inl tt, lose k g) | inr k => (inr tt, lose k g) end)) as HB.
    { apply yields_lift. intros [] s2; [|by apply yields_ret].
      apply (yields_bind fuel s2 _ _ _ (fun k => (tt, lose k g))); [|intros x s3; by apply yields_ret].
      apply yields_lift. intros x s3. apply yields_lift. intros z s4.
      apply (yields_bind fuel s4 _ _ _ (fun k => (tt, lose (n + k) g))).
      - destruct (comp x z).
        + intros k s5 Hr. rewrite <- lose_lose. exact (Ht _ _ _ _ Hr).
        + apply yields_ret. by rewrite Nat.add_0_r.
      - intros k s5. cbn [fst snd]. apply (yields_end fuel s5). by intros []. }
    rewrite (HB _ _ Hp). cbn [rbind]. destruct y as [k|k]; cbn [fst snd].
    - by apply IH.
    - by injection Hk as <- <-.
  Qed.
  Lemma partial_sort_yields fuel st g first middle last :
    yields fuel st g (partial_sort_by_t comp first middle last) (partial_sort_count_p comp first middle last) (fun n => (tt, lose n g)).
  Proof.
    assert (lose 0 g = g) as E0 by by destruct g.
    unfold partial_sort_by_t, partial_sort_count_p. do 6 (apply yields_lift; intros ? ?). destruct x4; [apply yields_ret; by rewrite E0|].
    do 5 (apply yields_lift; intros ? ?). apply yields_same; [apply make_heap_same|]. intros _ ?.
    apply (yields_bind _ _ _ _ _ (fun n => (tt, lose n g))).
    - rewrite <- E0 at 1. apply yields_loop. intros st1 g1.
      apply yields_same; [apply pop_heap_same|]. intros _ ?. apply yields_same; [apply iter_swap_same|]. intros _ ?. apply yields_push.
    - intros n s'. cbn [fst snd]. apply yields_same; [apply sort_heap_same|]. intros _ ?. do 4 (apply yields_lift; intros ? ?).
      apply yields_end. by intros [].
  Qed.
  Lemma partial_sort_copy_yields fuel st g first last d_first d_last o :
    yields fuel st g (partial_sort_copy_by_t comp first last d_first d_last o) (partial_sort_copy_count_p comp first last d_first d_last o)
      (fun r => ((r.1.1, r.2), lose r.1.2 g)).
  Proof.
    assert (lose 0 g = g) as E0 by by destruct g.
    unfold partial_sort_copy_by_t, partial_sort_copy_count_p. do 6 (apply yields_lift; intros ? ?).
    apply yields_same; [tsame (@same_lift A W)|]. intros [] ?.
    { apply yields_lift. intros v ?. apply yields_ret. cbn. by rewrite E0. }
    do 6 (apply yields_lift; intros ? ?). apply yields_same; [tsame (@same_lift A W)|]. intros n ?.
    apply yields_lift; intros p ?. apply yields_same; [apply make_heap_same|]. intros _ ?.
    apply (yields_bind _ _ _ _ _ (fun n => (tt, lose n g))).
    - rewrite <- E0 at 1. apply yields_loop. intros st1 g1.
      apply yields_same; [apply pop_heap_same|]. intros _ ?. apply yields_lift. intros _ ?. apply yields_push.
    - intros k s'. cbn [fst snd]. apply yields_same; [apply sort_heap_same|]. intros _ ?. do 8 (apply yields_lift; intros ? ?).
      apply yields_ret. done.
  Qed.
  Lemma yields_exec {R R'} (t : tprog A R) (p : prog A R') (f : temps A -> R' -> R * temps A) st g r s :
    (forall fuel, yields fuel st g t p (f g)) -> exec W p st r s -> texec W t (st, g) (f g r).1 (s, (f g r).2).
  Proof. intros H [fuel Hr]. exists fuel. exact (H fuel _ _ Hr). Qed.
End yields.

(** ** the counting programs on flat cells *)
Section tools.
  Context {A : Type} (L : layout) (comp : A -> A -> bool) (m0 : list A) (N : nat).
  Context (HN : N <= length m0) (Hr : rng L 0 N) (Hw : writable L 0) (Hcat : flat_cat L 0 = Ok RANDOM).
  Implicit Types (h : list A) (s : gmap iid nat).
  Local Notation V := (patch m0 0).

  Lemma partial_sort_count_loop_wp f mid l s0 F X E i p w : f <= mid <= l -> l <= N -> s0 !! i = None -> s0 !! F = Some f -> s0 !! X = Some mid -> s0 !! E = Some l -> s0 !! p = Some (mid - 1) ->
    w = (if 2 <=? mid - f then 1 else 0) ->
    forall fuel h k h' c n (Q : nat -> list A -> gmap iid nat -> Prop), partial_sort_count comp w fuel h f mid k l = Ok (h', n) -> length h = N -> k <= l -> Q (c + n) (V h') (<[i := l]> s0) ->
    fwp L (count_loop_p comp F E i (pop_heap_by_p comp F X;;; iter_swap_p p i;;; push_count_p comp F X)%prog c) (V h) (<[i := k]> s0) Q.
  Proof.
    intros Hm Hl Hi HF HX HE Hp Hwt. assert (i <> F /\ i <> X /\ i <> E /\ i <> p) as (N1&N2&N3&N4) by (repeat split; congruence).
    induction fuel as [|fuel IH]; intros h k h' c n Q; cbn [partial_sort_count]; [done|]. intros H Hlen Hk HQ.
    apply fwp_whilev. wne Hr. destruct (Nat.eqb_spec k l) as [->|Nk].
    - injection H as <- <-. cbn [negb]. rewrite Nat.add_0_r in HQ. done.
    - cbn [negb]. apply rbind_Ok in H as (x&Hx&(y&Hy&H)%rbind_Ok).
      wb. eapply (t_rd L comp m0 N HN Hr); [done|lk|done|]. wb. eapply (t_rd L comp m0 N HN Hr); [done|lk|done|].
      destruct (comp x y).
      + apply rbind_Ok in H as (m1&H1&(m2&H2&(m3&H3&([hh n']&H4&[= <- <-])%rbind_Ok)%rbind_Ok)%rbind_Ok).
        pose proof (pop_heap_length _ _ _ _ _ H1) as L1. pose proof (swp_length _ _ _ _ H2) as L2.
        pose proof (push_heap_length _ _ _ _ _ H3) as L3.
        wb. wb. eapply (pop_heap_wp L comp V 0 (HV m0 N HN) f mid); [exact H1|apply (t_home L m0 N HN Hr Hw Hcat); lia|lk|lk|].
        wb. eapply (t_swap L comp m0 N HN Hr Hw Hcat); [lia|lk|lk|exact H2|].
        unfold push_count_p. wb. eapply (t_dist L m0 N HN Hr _ _ f mid); [lk|lk|lia|].
        wb. eapply (push_heap_wp L comp V 0 (HV m0 N HN) f mid); [exact H3|apply (t_home L m0 N HN Hr Hw Hcat); lia|lk|lk|]. apply fwp_ret.
        wb. eapply (t_inc L m0 N HN Hr); [lk|lia|]. apply fwp_ret. rewrite insert_insert. eapply IH; [exact H4|lia|lia|].
        replace (if (Z.of_nat (mid - f) <? 2)%Z then 0 else 1) with w.
        2:{ rewrite Hwt. destruct (Z.ltb_spec (Z.of_nat (mid - f)) 2), (Nat.leb_spec 2 (mid - f)); (done || lia). }
        by replace (c + w + n') with (c + (w + n')) by lia.
      + wb. apply fwp_ret. wb. eapply (t_inc L m0 N HN Hr); [lk|lia|]. apply fwp_ret. rewrite insert_insert. eapply IH; [exact H|lia|lia|by rewrite Nat.add_0_r].
  Qed.
  Lemma partial_sort_count_wp (HW : StrictWeakOrder comp) f mid l first middle last h h' s (Q : nat -> list A -> gmap iid nat -> Prop) :
    algo_partial_sort_by comp h f mid l = Ok h' -> length h = N -> f <= mid <= l -> l <= N -> over L f ->
    s !! first = Some f -> s !! middle = Some mid -> s !! last = Some l ->
    Q ((if 2 <=? mid - f then 1 else 0) * replacements comp (mid - f) (slice h f l)) (V h') s ->
    fwp L (partial_sort_count_p comp first middle last) (V h) s Q.
  Proof.
    intros H Hlen Hm Hl Ho Hf Hmi Hla HQ. unfold partial_sort_count_p, algo_partial_sort_by in *.
    wb. eapply (t_exactly L m0 N HN Hr Hcat); [done|lia|]. wb. eapply (t_exactly L m0 N HN Hr Hcat); [done|lia|]. wb. eapply (t_exactly L m0 N HN Hr Hcat); [done|lia|].
    wb. eapply (t_mut L m0 N HN Hr Hw); [done|lia|]. wb. eapply (t_mut L m0 N HN Hr Hw); [done|lia|]. wb. weq Hr. destruct (Nat.eqb_spec f mid) as [->|Nf].
    { injection H as <-. apply fwp_ret. rewrite Nat.sub_diag in HQ. exact HQ. }
    apply rbind_Ok in H as (m1&H1&(m2&H2&H)%rbind_Ok).
    destruct (make_heap_ok comp HW h f mid) as [m1' [H1' [HP1 HH1]]]; [split; lia|]. rewrite H1 in H1'. injection H1' as <-.
    set (w := if 2 <=? mid - f then 1 else 0) in *.
    destruct (partial_sort_count_ok comp HW w h f mid l ltac:(lia) ltac:(lia) (S (length h)) m1 mid) as (m2'&Hc&H2'); [lia|lia|done| |done|].
    { intros x y _ Hy. rewrite slice_nil in Hy. by apply elem_of_nil in Hy. }
    rewrite H2 in H2'. injection H2' as <-.
    rewrite <- (counted_all comp h f (mid - f) l) in HQ by lia. replace (f + (mid - f)) with mid in HQ by lia.
    pose proof (make_heap_length _ _ _ _ _ H1) as L1. pose proof (partial_sort_loop_length _ _ _ _ _ _ _ _ H2) as L2.
    wnew. wnew. wnew. wnew. wb. eapply fwp_new_and_move; [lk|by apply (t_adv L m0 N HN Hr Hcat _ mid (mid - 1)); lia|]. intros p Hp. fresh_hyps.
    wb. eapply (make_heap_wp L comp V 0 (HV m0 N HN) f mid); [exact H1|apply (t_home L m0 N HN Hr Hw Hcat); lia|done|lk|lk|].
    wb. match goal with |- fwp _ _ _ (<[?p := ?a]> (<[?x := ?k]> ?s0)) _ => replace (<[p := a]> (<[x := k]> s0)) with (<[x := k]> (<[p := a]> s0)) by mapeq end.
    eapply (partial_sort_count_loop_wp f mid l _ _ _ _ _ _ w); [lia|lia|lk|lk|lk|lk|lk|done|exact Hc|lia|lia|].
    wb. eapply (sort_heap_wp L comp V 0 (HV m0 N HN) f mid); [exact H|apply (t_home L m0 N HN Hr Hw Hcat); lia|lk|lk|].
    wfree. wfree. wfree. wfree. wfree. apply fwp_ret.
    match goal with |- Q _ _ ?x => replace x with s by mapeq end. done.
  Qed.
End tools.

Section psc.
  Context {A : Type} (L : layout) (comp : A -> A -> bool) (f l d dl : nat).
  Context (Hr : rng L f l) (Hr2 : rng L d dl) (Hw : writable L d) (Hcat : flat_cat L d = Ok RANDOM) (Hcf : cat_ge L FORWARD f) (Hov : over L d).
  Implicit Types (m : list A) (s : gmap iid nat).

  Lemma psc_count_wp s0 I E DF D p k w : s0 !! E = Some l -> s0 !! DF = Some d -> s0 !! D = Some k -> s0 !! p = Some (k - 1) -> s0 !! I = None -> d < k <= dl ->
    w = (if 2 <=? k - d then 1 else 0) ->
    forall fuel m i m' c n (Q : nat -> list A -> gmap iid nat -> Prop), psc_count comp w fuel m d k i l = Ok (m', n) -> f <= i <= l -> Q (c + n) m' (<[I := l]> s0) ->
    fwp L (count_loop_p comp DF E I (pop_heap_by_p comp DF D;;; DerefAssign p I;;; push_count_p comp DF D)%prog c) m (<[I := i]> s0) Q.
  Proof.
    intros HE HDF HD Hp HI Hk Hwt. assert (I <> E /\ I <> DF /\ I <> D /\ I <> p) as (N1&N2&N3&N4) by (repeat split; congruence).
    induction fuel as [|fuel IH]; intros m i m' c n Q; cbn [psc_count]; [done|]. intros H Hi HQ.
    apply fwp_whilev. wne Hr. destruct (Nat.eqb_spec i l) as [->|Nk].
    - injection H as <- <-. cbn [negb]. rewrite Nat.add_0_r in HQ. done.
    - cbn [negb]. apply rbind_Ok in H as (x&Hx&(y&Hy&H)%rbind_Ok). wb. wrd Hr Hx. wb. wrd Hr2 Hy.
      destruct (comp x y).
      + apply rbind_Ok in H as (m1&Hp1&(x'&Hx'&(m2&Hm2&(m3&Hp3&([mm n']&H4&[= <- <-])%rbind_Ok)%rbind_Ok)%rbind_Ok)%rbind_Ok).
        wb. wb. eapply (pop_heap_wp L comp id 0 view_id d k _ _ m m1); [exact Hp1|apply (p_home L d dl Hr2 Hw Hcat); lia|lk|lk|].
        cbn [id]. wb. wda Hr Hx' Hr2 Hw Hm2. unfold push_count_p. wb. eapply (dist_wp L 0 d k); [eapply rng_sub; [exact Hr2|cbn; lia..]|lk|lk|].
        wb. eapply (push_heap_wp L comp id 0 view_id d k _ _ m2 m3); [exact Hp3|apply (p_home L d dl Hr2 Hw Hcat); lia|lk|lk|]. apply fwp_ret.
        cbn [id]. wb. winc Hr. apply fwp_ret. rewrite insert_insert. eapply IH; [exact H4|lia|].
        replace (if (Z.of_nat (k - d) <? 2)%Z then 0 else 1) with w.
        2:{ rewrite Hwt. destruct (Z.ltb_spec (Z.of_nat (k - d)) 2), (Nat.leb_spec 2 (k - d)); (done || lia). }
        by replace (c + w + n') with (c + (w + n')) by lia.
      + wb. apply fwp_ret. wb. winc Hr. apply fwp_ret. rewrite insert_insert. eapply IH; [exact H|lia|by rewrite Nat.add_0_r].
  Qed.
  Lemma partial_sort_copy_count_wp (HW : StrictWeakOrder comp) first last d_first d_last o m m' u n s :
    l <= length m -> dl <= length m -> apart d dl f l ->
    algo_partial_sort_copy_by comp m f l d dl = Ok (m', u, n) -> s !! first = Some f -> s !! last = Some l -> s !! d_first = Some d -> s !! d_last = Some dl ->
    out_pre L s o d -> fwp L (partial_sort_copy_count_p comp first last d_first d_last o) m s
      (leaves s o (n, (if 2 <=? n then 1 else 0) * replacements comp n (slice m f l)) m' u).
  Proof.
    intros R2 R4 Hap H Hf Hl Hd Hdl Ho. pose proof (rng_le _ _ _ Hr). pose proof (rng_le _ _ _ Hr2). unfold partial_sort_copy_count_p, algo_partial_sort_copy_by in *.
    wb. eapply fwp_at_least; [exact Hf|exact Hcf|]. wb. eapply fwp_at_least; [exact Hl|eapply cat_rng; [exact Hr|lia|exact Hcf]|].
    wb. eapply exactly_wp; [exact Hd|exact Hcat|]. wb. eapply exactly_wp; [exact Hdl|eapply flat_cat_rng; [exact Hr2|lia|exact Hcat]|].
    wb. eapply out_exactly_wp; [exact Ho|exact Hcat|]. wb. eapply fwp_is_mutable; [exact Hd|exact Hw|].
    set (res := (if 2 <=? n then 1 else 0) * replacements comp n (slice m f l)).
    wb. wb. weq Hr.
    assert (forall b : bool, b = (f =? l) || (d =? dl) -> fwp L (if b then v <~ copy_or_assign o d_first;; Ret (0, 0, v) else
      F <~ New first;; E <~ New last;; DF <~ New d_first;; DE <~ New d_last;;
      i <~ New F;; dd <~ New DF;;
      n <~ WhileV 0 (fun _ => b <~ Ne i E;; if (b : bool) then Ne dd DE else Ret false)
        (fun n => DerefAssign dd i;;; Inc dd;;; Inc i;;; Ret (S n));;
      p <~ copy_and_move None dd (-1)%Z;;
      make_heap_by_p comp DF dd;;;
      k <~ count_loop_p comp DF E i (pop_heap_by_p comp DF dd;;; DerefAssign p i;;; push_count_p comp DF dd) 0;;
      sort_heap_by_p comp DF dd;;;
      v <~ copy_or_assign o dd;;
      Free p;;; Free dd;;; Free i;;;
      Free F;;; Free E;;; Free DF;;; Free DE;;; Ret (n, k, v))%prog m s (leaves s o (n, res) m' u)) as HB.
    { intros b Hb. rewrite <- Hb in H. destruct b.
      - injection H as <- <- <-. wb. eapply fwp_copy_or_assign; [exact Ho|exact Hd|]. intros v s' Hs'. apply fwp_ret. by split.
      - symmetry in Hb. apply orb_false_iff in Hb as [Nf%Nat.eqb_neq Nd%Nat.eqb_neq].
        apply rbind_Ok in H as ([[[m1 i1] k1] n1]&Hc&(m2&Hm2&(m3&Hm3&(m4&Hm4&H)%rbind_Ok)%rbind_Ok)%rbind_Ok).
        injection H as <- <- <-.
        assert (psc_count comp (if 2 <=? k1 - d then 1 else 0) (S (length m)) m2 d k1 i1 l = Ok (m3, res)) as Hcount.
        {pose proof (psc_copy_ok m d l dl R2 R4 (S (length m)) f []) as HC. cbn [length] in HC.
          rewrite patch_nil, Nat.add_0_r in HC. cbn zeta in HC.
          assert (Ok (m1, i1, k1, n1) = Ok (patch m d (slice m f (f + (l - f) `min` (dl - d))), f + (l - f) `min` (dl - d), d + (l - f) `min` (dl - d), (l - f) `min` (dl - d))) as HE.
          { rewrite <- Hc. apply HC; (exact Hap || lia). }
          clear HC. injection HE as E1 E2 E3 E4.
          set (q := (l - f) `min` (dl - d)) in *. assert (0 < q) as Hq by (unfold q; lia).
          set (sl := slice m f (f + q)) in *.
          assert (Hs : length sl = q) by (unfold sl; rewrite slice_length; unfold q; [lia|split; lia]).
          assert (Hdn : d + q <= length m) by (unfold q; lia).
          destruct (make_heap_ok comp HW (patch m d sl) d (d + q)) as [m2' [Hm2' [HP1 HH1]]].
          { split; [lia|]. rewrite patch_length; lia. }
          subst k1 i1. rewrite E1 in Hm2. rewrite Hm2 in Hm2'. injection Hm2' as <-.
          rewrite <- Hs in HP1. apply permutes_patch_inv in HP1 as [h1 [Hh1 [Hm2e [Hl1 Hs1]]]]; [|lia]. rewrite Hs in Hs1. rewrite Hs1 in HH1.
          set (w := if 2 <=? q then 1 else 0).
          destruct (psc_count_ok comp HW w m f d q l Hq Hdn R2) with (fuel := S (length m)) (i := f + q) (h := h1) (rest := @nil A) as (m3'&Hcount&Hm3');
            [unfold apart, q in *; lia|unfold q; lia|lia|lia|done|by rewrite app_nil_r|intros t y _ Hy; by apply elem_of_nil in Hy|].
          rewrite <- Hm2e in Hcount, Hm3'. rewrite Hm3 in Hm3'. injection Hm3' as <-.
          rewrite (counted_all comp m f q l) in Hcount by (unfold q; lia). unfold res. rewrite E4. replace (d + q - d) with q by lia. exact Hcount. }
        wb. eapply fwp_new; [lk|]. intros F HF. fresh_hyps. wb. eapply fwp_new; [lk|]. intros E HE. fresh_hyps. wb. eapply fwp_new; [lk|]. intros DF HDF. fresh_hyps. wb. eapply fwp_new; [lk|]. intros DE HDE. fresh_hyps.
        wb. eapply fwp_new; [lk|]. intros I HI. fresh_hyps. wb. eapply fwp_new; [lk|]. intros D HD. fresh_hyps.
        wb. eapply (psc_copy_wp L comp f l d dl Hr Hr2 Hw _ I D E DE); [lk|lk|lk|lk|congruence|exact Hc|lia|lia|]. intros B1 B2 B3.
        specialize (B3 ltac:(lia) ltac:(lia)). clearbody res.
        wb. eapply fwp_new_and_move; [lk|apply (p_adv L d dl Hr2 Hcat m1 k1); lia|].
        intros p HP. fresh_hyps.
        wb. eapply (make_heap_wp L comp id 0 view_id d k1 _ _ m1 m2); [exact Hm2|apply (p_home L d dl Hr2 Hw Hcat); lia|exact Hov|lk|lk|]. cbn [id].
        wb. match goal with |- fwp _ _ _ ?x _ => replace x with (<[I := i1]> (<[p := k1 - 1]> (<[D := k1]> (<[DE := dl]> (<[DF := d]> (<[E := l]> (<[F := f]> s))))))) by mapeq end.
        eapply (psc_count_wp _ I E DF D p k1 _); [lk|lk|lk|lk|lk|lia|reflexivity|exact Hcount|lia|]. cbn [plus].
        wb. eapply (sort_heap_wp L comp id 0 view_id d k1 _ _ m3 m4); [exact Hm4|apply (p_home L d dl Hr2 Hw Hcat); lia|lk|lk|]. cbn [id].
        wb. wout Ho Hr2. intros v s' Hs'. do 7 wfree_out Hs'. wfin Hs'. }
    destruct (f =? l); cbn [orb] in HB.
    - apply fwp_ret. exact (HB true eq_refl).
    - weq Hr2. exact (HB _ eq_refl).
  Qed.
End psc.

(** ** on containers *)
Section lifted.
  Context {A : Type} {CK : Checked} `{Inhabited A}.
  Local Notation qc := (cont * list cpos * list A)%type.
  Implicit Types (M : cmem A) (S : gmap iid cpos) (q : qc).

  Lemma partial_sort_count_run M S q comp first middle last i k j : checked = false -> StrictWeakOrder comp -> own_range M S q first last i j -> at_pos S q middle k -> i <= k <= j ->
    cat_of q.1.1 = RANDOM ->
    exists l1 l2 M', length l1 = k - i /\ Permutation (slice q.2 i j) (l1 ++ l2) /\ sorted comp l1 /\ (forall x y, x ∈ l1 -> y ∈ l2 -> comp y x = false) /\
      becomes M [(q, patch q.2 i (l1 ++ l2))] M' /\
      forall g, texec (cworld A) (partial_sort_by_t comp first middle last) ((M, S), g) tt
        ((M', S), Temps (t_obj g) ((if 2 <=? k - i then 1 else 0) * replacements comp (k - i) (slice q.2 i j) + t_lost g)).
  Proof.
    intros HC HW HS Hmid Hk Hcat. destruct (own_bounds _ _ _ _ _ _ _ HS) as (Hrange&Hij&Hj).
    destruct (partial_sort_ok comp HW q.2 i k j Hrange Hk) as (vs'&Hv&Hp&Hso&Hle). pose proof Hp as (Hlen&_&HP).
    assert (slice vs' i j = slice vs' i k ++ slice vs' k j) as Es.
    { unfold slice. rewrite <- (take_drop (k - i) (take (j - i) (drop i vs'))). rewrite take_take, skipn_firstn_comm, drop_drop.
      f_equal; [f_equal; lia|]. f_equal; [lia|f_equal; lia]. }
    destruct (own_run M S q first last i j [(middle, k)] (partial_sort_count_p comp first middle last)
      ((if 2 <=? k - i then 1 else 0) * replacements comp (k - i) (slice q.2 i j)) vs' HS Hcat ltac:(by repeat constructor) Hlen) as (M'&He&Hb).
    { intros L m s HL Hf Hl Hx. pose proof (Hx middle k ltac:(apply elem_of_list_here)) as Hm.
      eapply (partial_sort_count_wp L comp m (length q.2) (si_len _ _ _ _ HL) (si_rng _ _ _ _ HL 0 (length q.2) ltac:(lia) ltac:(lia)) (si_wr _ _ _ _ HL 0 ltac:(lia)) (si_cat _ _ _ _ HL 0 ltac:(lia)) HW i k j);
        [exact Hv|done|lia|lia|apply (si_over _ _ _ _ HL HC); lia|done..]. }
    exists (slice vs' i k), (slice vs' k j), M'. split; [rewrite slice_len' by lia; lia|]. rewrite <- Es. do 3 (split; [done|]).
    split; [by rewrite <- (permutes_patch q.2 vs' i j Hrange Hp)|]. intros g.
    exact (yields_exec (cworld A) _ _ (fun g n => (tt, lose n g)) (M, S) g _ _ (fun fuel => partial_sort_yields (cworld A) comp fuel (M, S) g first middle last) He).
  Qed.
  Lemma partial_sort_copy_count_run M S q1 q2 comp first last d_first d_last o i j d e : checked = false -> StrictWeakOrder comp ->
    shown M q1 -> shown M q2 -> range_in S q1 first last i j -> range_in S q2 d_first d_last d e -> unmixed q1 [first; last] q2 [d_first; d_last] ->
    mutable q2.1.1 = true -> cat_of q2.1.1 = RANDOM -> same_or_apart q1 q2 -> (q1 = q2 -> apart d e i j) -> out_ok S q2 o ->
    let n := (j - i) `min` (e - d) in
    exists l rest w M' S', length l = n /\ sorted comp l /\ Permutation (slice q1.2 i j) (l ++ rest) /\
      (forall x y, x ∈ l -> y ∈ rest -> comp y x = false) /\ becomes M [(q2, patch q2.2 d l)] M' /\ stored q2 o (d + n) S w S' /\
      forall g, texec (cworld A) (partial_sort_copy_by_t comp first last d_first d_last o) ((M, S), g) (n, w)
        ((M', S'), Temps (t_obj g) ((if 2 <=? n then 1 else 0) * replacements comp n (slice q1.2 i j) + t_lost g)).
  Proof.
    intros HC HW Hq1 Hq2 HR1 HR2 Hu Hmu Hcat Hsa Hap Ho n.
    destruct (range_at _ _ _ _ _ _ HR1) as [Hat1 Hij]. destruct (range_at _ _ _ _ _ _ HR2) as [Hat2 Hde].
    pose proof (at_le _ _ _ _ _ Hq1 (proj1 (proj2 HR1))) as Hj. pose proof (at_le _ _ _ _ _ Hq2 (proj1 (proj2 HR2))) as He.
    destruct (run_two M S q1 q2 _ _ false true Hq1 Hq2 Hat1 Hat2 Hu) as (L&m&s&b&JW&J&HRO&Hs1&Hs2); [done|done|done|].
    pose proof (ro_open1 _ _ _ _ _ _ _ _ _ _ _ _ HRO) as HO1. pose proof (ro_open2 _ _ _ _ _ _ _ _ _ _ _ _ HRO) as HO2.
    pose proof (op_len _ _ _ _ _ _ _ HO1) as Hlen1. pose proof (op_len _ _ _ _ _ _ _ HO2) as Hlen2. cbn [plus] in Hlen1.
    assert (apart (b + d) (b + e) i j) as Hap'.
    { destruct (ro_sep _ _ _ _ _ _ _ _ _ _ _ _ HRO) as [[E ->]|Hsep]; [by apply Hap|]. unfold apart. lia. }
    destruct (partial_sort_copy_ok comp HW m i j (b + d) (b + e)) as (l&rest&Hv&Hl&Hso&HP&Hle); [split; lia|split; lia|done|].
    pose proof (op_slice _ _ _ _ _ _ _ HO1 i j Hj) as Esl. cbn [plus] in Esl. rewrite Esl in HP.
    assert (length l = n) as Hn by (unfold n; lia).
    assert (changes_out M S q2 o d l (d + n) (partial_sort_copy_count_p comp first last d_first d_last o)
      (n, (if 2 <=? n then 1 else 0) * replacements comp n (slice q1.2 i j))) as (w&M'&S'&Hex&Hb&Hst).
    { eapply (two_out_patch M S q1 q2 L m s b JW J _ o _ d l (d + n)); [exact HRO|lia|lia|]. rewrite Nat.add_assoc, <- Hn, <- Esl.
      eapply (partial_sort_copy_count_wp L comp i j (b + d) (b + e)); [..|exact HW| | |exact Hap'|exact Hv| | | | | ]; try lia.
      - by apply (op_rng _ _ _ _ _ _ _ HO1 i j).
      - by apply (op_rng _ _ _ _ _ _ _ HO2 d e).
      - apply (op_mut _ _ _ _ _ _ _ HO2 d); [lia|done].
      - rewrite <- Hcat. apply (op_cateq _ _ _ _ _ _ _ HO2 d). lia.
      - apply (op_cat _ _ _ _ _ _ _ HO1 i); [lia|apply cat_forward].
      - apply (op_over _ _ _ _ _ _ _ HO2 d); [lia|]. unfold strays. by rewrite HC, Hcat.
      - apply Hs1, elem_of_list_here.
      - apply Hs1, elem_of_list_further, elem_of_list_here.
      - apply Hs2, elem_of_list_here.
      - apply Hs2, elem_of_list_further, elem_of_list_here.
      - apply (op_out _ _ _ _ _ _ _ HO2 d); [lia|done]. }
    exists l, rest, w, M', S'. do 6 (split; [done|]). intros g.
    exact (yields_exec (cworld A) _ _ (fun g r => ((r.1.1, r.2), lose r.1.2 g)) (M, S) g _ _
      (fun fuel => partial_sort_copy_yields (cworld A) comp fuel (M, S) g first last d_first d_last o) Hex).
  Qed.
End lifted.
