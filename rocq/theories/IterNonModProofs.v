(** IterNonModProofs.v — on flat cells, the iterator programs of IterNonMod.v compute what the
    functions of AlgoNonMod.v compute, leave the iterator objects of the caller alone except for the
    out parameters, and free their copies. *)
From stdpp Require Import list gmap.
From Verif Require Import Base Iter IterFlat IterWp IterNonMod AlgoNonMod.
From stdpp Require Import list.

(** one step of a program whose side conditions are lookups in the store *)
Ltac wb := apply fwp_bind.
Ltac wnew := apply fwp_bind; eapply fwp_new; [lk|]; intros ? ?; fresh_hyps.
Ltac wfree := apply fwp_bind; eapply fwp_free; [lk|].
Ltac catsolve :=
  first [ eassumption
        | match goal with Hr : rng ?L ?i ?j, Hc : cat_ge ?L ?c ?i |- cat_ge ?L ?c' ?k =>
            solve [ eapply (cat_weaken L c c'); [unfold RANDOM, BIDIRECTION, FORWARD, INPUT; ilia|
                    eapply (cat_rng L c i j); [exact Hr|ilia|exact Hc] ] ] end ].
Ltac wcat := apply fwp_bind; eapply fwp_at_least; [lk|catsolve|].
(** free a shadow after an out parameter has been stored (hypothesis [H : out_set ...]) *)
Ltac one := first [eapply out_ne; [eassumption|eassumption] | congruence].
Ltac wfree_out H :=
  lazymatch goal with |- fwp _ (Bind (Free ?i) _) _ _ _ =>
    apply fwp_bind; eapply fwp_free; [eapply out_set_lookup; [exact H|lk|one]|];
    eapply (out_set_delete _ _ _ _ _ i) in H; [|lk|one]
  end.

(** comparisons, moves and reads inside a range [Hr : rng L i j] *)
Ltac weq Hr := eapply fwp_eq; [lk|lk|by eapply rng_eq; [exact Hr|ilia..]|].
Ltac wne Hr := eapply fwp_ne; [lk|lk|by eapply rng_eq; [exact Hr|ilia..]|].
Ltac winc Hr := eapply fwp_inc; [lk|by eapply rng_inc; [exact Hr|ilia]|].
Ltac wrd Hr Hx := eapply fwp_deref; [lk|erewrite rng_deref by (exact Hr || ilia); exact Hx|].
Ltac wassign Hr := eapply fwp_assign; [lk|lk|by eapply alike_rng; [exact Hr|ilia..]|].
(** store through an out parameter [Ho : out_pre L s o i] *)
Ltac wout Ho Hr := eapply fwp_copy_or_assign; [|lk|];
  [repeat (eapply out_pre_update; [|one]); eapply out_pre_alike; [exact Ho|eapply alike_rng; [exact Hr|ilia..]]|].
Ltac wfree_out2 H1 H2 :=
  lazymatch goal with |- fwp _ (Bind (Free ?i) _) _ _ _ =>
    apply fwp_bind; eapply fwp_free; [eapply out_set_lookup; [exact H2|eapply out_set_lookup; [exact H1|lk|one]|one]|];
    eapply (out_set_delete _ _ _ _ _ i) in H2; [|eapply out_set_lookup; [exact H1|lk|one]|one];
    eapply (out_set_delete _ _ _ _ _ i) in H1; [|lk|one]
  end.
Ltac wfin H := apply fwp_ret; split; [try done|split; [done|]]; cbn [fst snd];
  match type of H with out_set _ _ ?x _ _ =>
    match goal with |- out_set _ _ ?s _ _ => replace s with x by mapeq end end; exact H.
Ltac wfin0 := apply fwp_ret; split; [try done|split; [done|mapeq]].

Section nonmod_proofs.
  Context {A : Type} (L : layout).
  Implicit Types (m : list A) (s : gmap iid nat).

  Lemma scan_wp p m : forall fuel i j k s F E (Q : unit -> list A -> gmap iid nat -> Prop),
    scan_while fuel p m i j = Ok k -> rng L i j -> s !! F = Some i -> s !! E = Some j -> F <> E ->
    (i <= k <= j -> Q tt m (<[F := k]> s)) -> fwp L (scan_p p F E) m s Q.
  Proof.
    intros fuel. induction fuel as [|fuel IH]; intros i j k s F E Q; cbn [scan_while]; [done|].
    intros H Hr HF HE Hne HQ. pose proof (rng_le _ _ _ Hr).
    apply fwp_while, fwp_pand. eapply fwp_ne; [lk|lk|by eapply rng_eq; [exact Hr|ilia..]|].
    destruct (Nat.eqb_spec i j) as [->|Hij]; cbn [negb].
    - injection H as <-. specialize (HQ ltac:(ilia)). by rewrite insert_id in HQ.
    - apply rbind_Ok in H as (x&Hx&H). wb. eapply fwp_deref; [lk|rewrite (rng_deref L m i j) by (done || ilia); exact Hx|].
      apply fwp_ret. destruct (p x).
      + eapply fwp_inc; [lk|by eapply rng_inc; [exact Hr|ilia]|].
        eapply IH; [exact H|eapply rng_sub; [exact Hr|ilia..]|lk|lk|done|]. intros Hk. rewrite insert_insert. apply HQ. ilia.
      + injection H as <-. specialize (HQ ltac:(ilia)). by rewrite insert_id in HQ.
  Qed.

  (** the result of a search: position [k] stored through the out parameter, nothing else changed *)
  Definition found_at (s : gmap iid nat) (m : list A) (o : out) (b : bool) (k : nat)
      (r : bool * option iid) (m' : list A) (s' : gmap iid nat) : Prop :=
    r.1 = b /\ m' = m /\ out_set o k s r.2 s'.

  Lemma scan_while_bounds p m j : forall fuel i k, scan_while fuel p m i j = Ok k -> i <= j -> i <= k <= j.
  Proof.
    intros fuel. induction fuel as [|fuel IH]; intros i k; cbn [scan_while]; [done|].
    destruct (Nat.eqb_spec i j) as [->|Hij]; [intros [= <-]; ilia|].
    intros [x [_ H]]%rbind_Ok Hle. destruct (p x); [apply IH in H; ilia|]. injection H as <-. ilia.
  Qed.

  (** a result without effects *)
  Definition just {R : Type} (s : gmap iid nat) (m : list A) (v : R) (r : R) (m' : list A) (s' : gmap iid nat) : Prop :=
    r = v /\ m' = m /\ s' = s.

  Lemma all_of_wp first last pred m s i j b :
    algo_all_of m i j pred = Ok b ->
    rng L i j -> s !! first = Some i -> s !! last = Some j -> cat_ge L INPUT i ->
    fwp L (all_of_p first last pred) m s (just s m b).
  Proof.
    intros H Hr Hf Hl Hc. apply rbind_Ok in H as (k'&Hs&[= <-]). pose proof (rng_le _ _ _ Hr).
    unfold all_of_p. wcat. wcat. wnew. wnew.
    wb. eapply scan_wp; [exact Hs|exact Hr|lk|lk|congruence|]. intros Hk.
    wb. weq Hr. wfree. wfree. wfin0.
  Qed.
  Lemma any_of_wp first last pred m s i j b :
    algo_any_of m i j pred = Ok b ->
    rng L i j -> s !! first = Some i -> s !! last = Some j -> cat_ge L INPUT i ->
    fwp L (any_of_p first last pred) m s (just s m b).
  Proof.
    intros H Hr Hf Hl Hc. apply rbind_Ok in H as (k'&Hs&[= <-]). pose proof (rng_le _ _ _ Hr).
    unfold any_of_p. wcat. wcat. wnew. wnew.
    wb. eapply scan_wp; [exact Hs|exact Hr|lk|lk|congruence|]. intros Hk.
    wb. wne Hr. wfree. wfree. wfin0.
  Qed.
  Lemma none_of_wp first last pred m s i j b :
    algo_none_of m i j pred = Ok b ->
    rng L i j -> s !! first = Some i -> s !! last = Some j -> cat_ge L INPUT i ->
    fwp L (none_of_p first last pred) m s (just s m b).
  Proof.
    intros H Hr Hf Hl Hc. apply rbind_Ok in H as (k'&Hs&[= <-]). pose proof (rng_le _ _ _ Hr).
    unfold none_of_p. wcat. wcat. wnew. wnew.
    wb. eapply scan_wp; [exact Hs|exact Hr|lk|lk|congruence|]. intros Hk.
    wb. weq Hr. wfree. wfree. wfin0.
  Qed.

  Lemma find_if_wp first last o pred m s i j b k :
    algo_find_if m i j pred = Ok (b, k) ->
    rng L i j -> s !! first = Some i -> s !! last = Some j -> cat_ge L INPUT i -> out_pre L s o i ->
    fwp L (find_if_p first last o pred) m s (found_at s m o b k).
  Proof.
    intros H Hr Hf Hl Hc Ho. apply rbind_Ok in H as (k'&Hs&[= <- <-]). pose proof (rng_le _ _ _ Hr).
    unfold find_if_p. wcat. wcat. wb. eapply fwp_out_at_least; [exact Ho|done|].
    wnew. wnew. wb. eapply scan_wp; [exact Hs|exact Hr|lk|lk|congruence|]. intros Hk.
    wb. wne Hr. wb. wout Ho Hr. intros v s' Hs'. wfree_out Hs'. wfree_out Hs'. wfin Hs'.
  Qed.
  Lemma find_if_not_wp first last o pred m s i j b k :
    algo_find_if_not m i j pred = Ok (b, k) ->
    rng L i j -> s !! first = Some i -> s !! last = Some j -> cat_ge L INPUT i -> out_pre L s o i ->
    fwp L (find_if_not_p first last o pred) m s (found_at s m o b k).
  Proof.
    intros H Hr Hf Hl Hc Ho. apply rbind_Ok in H as (k'&Hs&[= <- <-]). pose proof (rng_le _ _ _ Hr).
    unfold find_if_not_p. wcat. wcat. wb. eapply fwp_out_at_least; [exact Ho|done|].
    wnew. wnew. wb. eapply scan_wp; [exact Hs|exact Hr|lk|lk|congruence|]. intros Hk.
    wb. wne Hr. wb. wout Ho Hr. intros v s' Hs'. wfree_out Hs'. wfree_out Hs'. wfin Hs'.
  Qed.
  Lemma find_by_wp first last o value pred m s i j b k :
    algo_find_by m i j value pred = Ok (b, k) ->
    rng L i j -> s !! first = Some i -> s !! last = Some j -> cat_ge L INPUT i -> out_pre L s o i ->
    fwp L (find_by_p first last o value pred) m s (found_at s m o b k).
  Proof.
    intros H Hr Hf Hl Hc Ho. apply rbind_Ok in H as (k'&Hs&[= <- <-]). pose proof (rng_le _ _ _ Hr).
    unfold find_by_p. wcat. wcat. wb. eapply fwp_out_at_least; [exact Ho|done|].
    wnew. wnew. wb. eapply scan_wp; [exact Hs|exact Hr|lk|lk|congruence|]. intros Hk.
    wb. wne Hr. wb. wout Ho Hr. intros v s' Hs'. wfree_out Hs'. wfree_out Hs'. wfin Hs'.
  Qed.
  Lemma find_by_bounds m i j value pred b k : algo_find_by m i j value pred = Ok (b, k) -> i <= j ->
    i <= k <= j /\ b = negb (k =? j).
  Proof. intros [k' [H [= <- <-]]]%rbind_Ok Hij. split; [|done]. by eapply scan_while_bounds. Qed.
  Lemma find_by_lt m i j value pred b k : algo_find_by m i j value pred = Ok (b, k) -> i <= j ->
    i <= k <= j /\ (b = true -> k < j).
  Proof.
    intros H Hij. destruct (find_by_bounds _ _ _ _ _ _ _ H Hij) as [? ->]. split; [done|].
    destruct (Nat.eqb_spec k j); [done|lia].
  Qed.
  Lemma find_if_bounds m i j pred b k : algo_find_if m i j pred = Ok (b, k) -> i <= j ->
    i <= k <= j /\ b = negb (k =? j).
  Proof. intros [k' [H [= <- <-]]]%rbind_Ok Hij. split; [|done]. by eapply scan_while_bounds. Qed.

  (** counting *)
  Lemma count_loop_wp pred m : forall fuel i j n r s F E (Q : nat -> list A -> gmap iid nat -> Prop),
    count_loop fuel pred m i j n = Ok r -> rng L i j -> s !! F = Some i -> s !! E = Some j -> F <> E ->
    Q r m (<[F := j]> s) ->
    fwp L (WhileV n (fun _ => Ne F E) (fun n => x <~ Deref F;; Inc F;;; Ret (if pred x then S n else n))) m s Q.
  Proof.
    intros fuel. induction fuel as [|fuel IH]; intros i j n r s F E Q; cbn [count_loop]; [done|].
    intros H Hr HF HE Hne HQ. pose proof (rng_le _ _ _ Hr). apply fwp_whilev. wne Hr.
    destruct (Nat.eqb_spec i j) as [->|Hij]; cbn [negb].
    - injection H as <-. by rewrite insert_id in HQ.
    - apply rbind_Ok in H as (x&Hx&H). wb. wrd Hr Hx. wb. winc Hr. apply fwp_ret.
      eapply IH; [exact H|eapply rng_sub; [exact Hr|ilia..]|lk|lk|done|]. by rewrite insert_insert.
  Qed.
  Lemma count_if_wp first last pred m s i j n :
    algo_count_if m i j pred = Ok n ->
    rng L i j -> s !! first = Some i -> s !! last = Some j -> cat_ge L INPUT i ->
    fwp L (count_if_p first last pred) m s (just s m n).
  Proof.
    intros H Hr Hf Hl Hc. pose proof (rng_le _ _ _ Hr).
    unfold count_if_p. wcat. wcat. wnew. wnew.
    wb. eapply count_loop_wp; [exact H|exact Hr|lk|lk|congruence|]. wfree. wfree. wfin0.
  Qed.
  Lemma count_wp eqf first last value m s i j n :
    algo_count eqf m i j value = Ok n ->
    rng L i j -> s !! first = Some i -> s !! last = Some j -> cat_ge L INPUT i ->
    fwp L (count_p eqf first last value) m s (just s m n).
  Proof.
    intros H Hr Hf Hl Hc. pose proof (rng_le _ _ _ Hr).
    unfold count_p. wcat. wcat. wnew. wnew.
    wb. eapply (count_loop_wp (fun x => eqf x value)); [exact H|exact Hr|lk|lk|congruence|]. wfree. wfree. wfin0.
  Qed.

  (** two ranges; the second one is a range of the length read *)
  Lemma scan2_bounds pred m j : forall fuel i a k b, scan2 fuel pred m i j a = Ok (k, b) -> i <= j ->
    i <= k <= j /\ b = a + (k - i).
  Proof.
    intros fuel. induction fuel as [|fuel IH]; intros i a k b; cbn [scan2]; [done|].
    destruct (Nat.eqb_spec i j) as [->|Hij]; [intros [= <- <-]; ilia|].
    intros [x [_ [y [_ H]]%rbind_Ok]]%rbind_Ok Hle.
    destruct (pred x y); [apply IH in H; ilia|]. injection H as <- <-. ilia.
  Qed.
  Lemma scan2_wp pred m : forall fuel i j a c k b s F E G (Q : unit -> list A -> gmap iid nat -> Prop),
    scan2 fuel pred m i j a = Ok (k, b) -> rng L i j -> rng L a c -> a + (j - i) <= c ->
    s !! F = Some i -> s !! E = Some j -> s !! G = Some a -> F <> E -> F <> G -> E <> G ->
    Q tt m (<[G := b]> (<[F := k]> s)) -> fwp L (scan2_p pred F E G) m s Q.
  Proof.
    intros fuel. induction fuel as [|fuel IH]; intros i j a c k b s F E G Q; cbn [scan2]; [done|].
    intros H Hr Hr2 Hac HF HE HG Hne Hne2 Hne3 HQ. pose proof (rng_le _ _ _ Hr). pose proof (rng_le _ _ _ Hr2).
    apply fwp_while, fwp_pand. wne Hr.
    destruct (Nat.eqb_spec i j) as [->|Hij]; cbn [negb].
    - injection H as <- <-. by rewrite !insert_id in HQ by lk.
    - apply rbind_Ok in H as (x&Hx&H). apply rbind_Ok in H as (y&Hy&H).
      wb. wrd Hr Hx. wb. wrd Hr2 Hy. apply fwp_ret. destruct (pred x y).
      + wb. winc Hr. winc Hr2.
        eapply (IH _ _ _ c); [exact H|eapply rng_sub; [exact Hr|ilia..]|eapply rng_sub; [exact Hr2|ilia..]|ilia|lk|lk|lk|done..|].
        replace (<[G:=b]> (<[F:=k]> (<[G:=S a]> (<[F:=S i]> s)))) with (<[G:=b]> (<[F:=k]> s)) by mapeq. done.
      + injection H as <- <-. by rewrite !insert_id in HQ by lk.
  Qed.
  Lemma equal_by_wp first1 last1 first2 pred m s i j a c b :
    algo_equal_by m i j a pred = Ok b -> rng L i j -> rng L a c -> a + (j - i) <= c ->
    s !! first1 = Some i -> s !! last1 = Some j -> s !! first2 = Some a -> cat_ge L INPUT i -> cat_ge L INPUT a ->
    fwp L (equal_by_p first1 last1 first2 pred) m s (just s m b).
  Proof.
    intros H Hr Hr2 Hac Hf Hl Hg Hc Hc2. apply rbind_Ok in H as ([k' b']&Hs&[= <-]). pose proof (rng_le _ _ _ Hr).
    pose proof (scan2_bounds _ _ _ _ _ _ _ _ Hs ltac:(ilia)) as [? ?].
    unfold equal_by_p. wcat. wcat. wcat. wnew. wnew. wnew.
    wb. eapply scan2_wp; [exact Hs|exact Hr|exact Hr2|done|lk|lk|lk|congruence..|].
    wb. weq Hr. wfree. wfree. wfree. wfin0.
  Qed.
  (** mismatch: both out parameters are stored, the second one last *)
  Lemma mismatch_by_wp first1 last1 first2 o1 o2 pred m s i j a c b k1 k2 :
    algo_mismatch_by m i j a pred = Ok (b, k1, k2) -> rng L i j -> rng L a c -> a + (j - i) <= c ->
    s !! first1 = Some i -> s !! last1 = Some j -> s !! first2 = Some a -> cat_ge L INPUT i -> cat_ge L INPUT a ->
    out_pre L s o1 i -> out_pre L s o2 a ->
    (forall x, o1 = Some (Some x) -> o2 = Some (Some x) -> alike L i a) ->
    fwp L (mismatch_by_p first1 last1 first2 o1 o2 pred) m s
      (fun r m' s' => r.1.1 = b /\ m' = m /\ exists s1, out_set o1 k1 s r.1.2 s1 /\ out_set o2 k2 s1 r.2 s').
  Proof.
    intros H Hr Hr2 Hac Hf Hl Hg Hc Hc2 Ho1 Ho2 Ho12.
    apply rbind_Ok in H as ([k' b']&Hs&[= <- <- <-]). pose proof (rng_le _ _ _ Hr).
    pose proof (scan2_bounds _ _ _ _ _ _ _ _ Hs ltac:(ilia)) as [? ?].
    unfold mismatch_by_p. wcat. wcat. wcat.
    wb. eapply fwp_out_at_least; [exact Ho1|done|]. wb. eapply fwp_out_at_least; [exact Ho2|done|].
    wnew. wnew. wnew.
    wb. eapply scan2_wp; [exact Hs|exact Hr|exact Hr2|done|lk|lk|lk|congruence..|].
    wb. wne Hr. wnew. wnew. wb. wout Ho1 Hr. intros v s1 Hs1.
    wb. eapply (fwp_copy_or_assign L _ _ _ _ b').
    { destruct o2 as [[y|]|]; [|done..]. destruct Ho2 as (k2&Hk2&Ha2).
      assert (alike L a b') by (eapply alike_rng; [exact Hr2|ilia..]).
      destruct (decide (o1 = Some (Some y))) as [->|Hne].
      - destruct Hs1 as [_ ->]. exists k'. split; [lk|]. eapply (alike_trans L _ i); [eapply alike_rng; [exact Hr|ilia..]|].
        eapply alike_trans; [by eapply Ho12|done].
      - exists k2. split; [|by eapply alike_trans]. eapply out_set_lookup; [exact Hs1| |done]. lk. }
    { eapply out_set_lookup; [exact Hs1|lk|one]. }
    intros v2 s2 Hs2.
    wfree_out2 Hs1 Hs2. wfree_out2 Hs1 Hs2. wfree_out2 Hs1 Hs2. wfree_out2 Hs1 Hs2. wfree_out2 Hs1 Hs2.
    apply fwp_ret. cbn [fst snd]. split_and!; [done..|]. eexists. split; [|exact Hs2].
    match type of Hs1 with out_set _ _ ?x _ _ => replace s with x by mapeq end. exact Hs1.
  Qed.

  (** for_each: [op] returns [None] for an element it leaves alone *)
  Definition full {St} (op : St -> A -> St * option A) (st : St) (x : A) : St * A :=
    ((op st x).1, default x (op st x).2).
  Definition may_write {St} (op : St -> A -> St * option A) (i : nat) : Prop :=
    writable L i \/ forall st x, (op st x).2 = None.
  Lemma apply_wp {St} (op : St -> A -> St * option A) st x m i j k s F m' (Q : unit -> list A -> gmap iid nat -> Prop) :
    rng L i j -> may_write op i -> i <= k < j -> s !! F = Some k -> rd m k = Ok x ->
    wr m k (full op st x).2 = Ok m' -> Q tt m' s -> fwp L (apply_p F (op st x).2) m s Q.
  Proof.
    intros Hr Hw Hk HF Hx Hm HQ. unfold full in Hm. cbn [snd] in Hm. unfold apply_p.
    destruct Hw as [Hw|Hw].
    - destruct (op st x).2 as [y|]; cbn [default] in Hm.
      + eapply fwp_write; [lk|erewrite rng_write by (exact Hr || exact Hw || ilia); exact Hm|done].
      + apply wr_inv in Hm as ->. rewrite list_insert_id in HQ by (by apply rd_inv). by apply fwp_ret.
    - rewrite Hw in *. cbn [default] in Hm.
      apply wr_inv in Hm as ->. rewrite list_insert_id in HQ by (by apply rd_inv). by apply fwp_ret.
  Qed.
  Lemma for_each_loop_wp {St} (op : St -> A -> St * option A) : forall fuel m st i0 i j n r s F E
      (Q : St * nat -> list A -> gmap iid nat -> Prop),
    for_each_loop fuel (full op) m st i j n = Ok r -> rng L i0 j -> i0 <= i <= j -> may_write op i0 ->
    s !! F = Some i -> s !! E = Some j -> F <> E ->
    Q (r.1.2, r.2) r.1.1 (<[F := j]> s) ->
    fwp L (WhileV (st, n) (fun _ => Ne F E)
           (fun '(st, n) => x <~ Deref F;; apply_p F (op st x).2;;; Inc F;;; Ret ((op st x).1, S n))) m s Q.
  Proof.
    intros fuel. induction fuel as [|fuel IH]; intros m st i0 i j n r s F E Q; cbn [for_each_loop]; [done|].
    intros H Hr Hi Hw HF HE Hne HQ. apply fwp_whilev. wne Hr.
    destruct (Nat.eqb_spec i j) as [->|Hij]; cbn [negb].
    - injection H as <-. by rewrite insert_id in HQ.
    - apply rbind_Ok in H as (x&Hx&H). destruct (full op st x) as [st' x'] eqn:Ef.
      apply rbind_Ok in H as (m'&Hm&H). wb. wrd Hr Hx.
      wb. eapply (apply_wp op st x m i0 j i); [exact Hr|exact Hw|ilia|lk|exact Hx|rewrite Ef; exact Hm|].
      wb. winc Hr. apply fwp_ret. assert ((op st x).1 = st') as -> by (by injection Ef).
      eapply (IH _ _ i0); [exact H|exact Hr|ilia|exact Hw|lk|lk|done|]. by rewrite insert_insert.
  Qed.
  Lemma for_each_wp {St} (op : St -> A -> St * option A) first last m st s i j r :
    algo_for_each m i j (full op) st = Ok r ->
    rng L i j -> may_write op i -> s !! first = Some i -> s !! last = Some j -> cat_ge L INPUT i ->
    fwp L (for_each_p first last op st) m s (fun x m' s' => x = (r.1.2, r.2) /\ m' = r.1.1 /\ s' = s).
  Proof.
    intros H Hr Hw Hf Hl Hc. pose proof (rng_le _ _ _ Hr).
    unfold for_each_p. wcat. wcat. wnew. wnew.
    wb. eapply (for_each_loop_wp op _ _ _ i i j); [exact H|exact Hr|ilia|exact Hw|lk|lk|congruence|]. wfree. wfree. wfin0.
  Qed.
  Lemma for_each_n_loop_wp {St} (op : St -> A -> St * option A) : forall n m st i0 i j r s F
      (Q : nat * St -> list A -> gmap iid nat -> Prop),
    algo_for_each_n m i n (full op) st = Ok r -> rng L i0 j -> i0 <= i -> i + n <= j -> may_write op i0 ->
    s !! F = Some i -> (r.2 = i + n -> Q (0, r.1.2) r.1.1 (<[F := r.2]> s)) ->
    fwp L (WhileV (n, st) (fun '(n, _) => Ret (negb (n =? 0)))
           (fun '(n, st) => x <~ Deref F;; apply_p F (op st x).2;;; Inc F;;; Ret (n - 1, (op st x).1))) m s Q.
  Proof.
    intros n. induction n as [|n IH]; intros m st i0 i j r s F Q; cbn [algo_for_each_n].
    - intros [= <-] Hr Hi Hj Hw HF HQ. apply fwp_whilev, fwp_ret. cbn [Nat.eqb negb]. cbn [fst snd] in HQ.
      rewrite insert_id in HQ by done. apply HQ. ilia.
    - intros H Hr Hi Hj Hw HF HQ. apply fwp_whilev, fwp_ret. cbn [Nat.eqb negb].
      apply rbind_Ok in H as (x&Hx&H). destruct (full op st x) as [st' x'] eqn:Ef.
      apply rbind_Ok in H as (m'&Hm&H). wb. wrd Hr Hx.
      wb. eapply (apply_wp op st x m i0 j i); [exact Hr|exact Hw|ilia|lk|exact Hx|rewrite Ef; exact Hm|].
      wb. winc Hr. apply fwp_ret. assert ((op st x).1 = st') as -> by (by injection Ef).
      replace (S n - 1) with n by ilia.
      eapply (IH _ _ i0); [exact H|exact Hr|ilia|ilia|exact Hw|lk|]. intros Hr2. rewrite insert_insert. apply HQ. ilia.
  Qed.
  Lemma for_each_n_wp {St} (op : St -> A -> St * option A) first n o m st s i j r :
    algo_for_each_n m i n (full op) st = Ok r ->
    rng L i j -> i + n <= j -> may_write op i -> s !! first = Some i -> cat_ge L INPUT i -> out_pre L s o i ->
    fwp L (for_each_n_p first n o op st) m s (fun x m' s' => x.1 = r.1.2 /\ m' = r.1.1 /\ out_set o r.2 s x.2 s').
  Proof.
    intros H Hr Hj Hw Hf Hc Ho. pose proof (rng_le _ _ _ Hr).
    unfold for_each_n_p. wcat. wb. eapply fwp_out_at_least; [exact Ho|done|]. wnew.
    wb. eapply (for_each_n_loop_wp op _ _ _ i i j); [exact H|exact Hr|ilia|ilia|exact Hw|lk|]. intros Hr2.
    wb. wout Ho Hr. intros v s' Hs'. wfree_out Hs'. wfin Hs'.
  Qed.

  (** find_first_of *)
  Lemma first_of_inner_wp pred m x i j k : rng L i j -> i <= k < j -> rd m k = Ok x ->
    forall fuel a c b s F SF SE (Q : bool -> list A -> gmap iid nat -> Prop),
    first_of_inner fuel pred m x a c = Ok b -> rng L a c ->
    s !! F = Some k -> s !! SF = Some a -> s !! SE = Some c -> SF <> SE -> F <> SF ->
    (forall a', a <= a' <= c -> Q b m (<[SF := a']> s)) -> fwp L (first_of_inner_p pred F SF SE) m s Q.
  Proof.
    intros Hr Hk Hx fuel. induction fuel as [|fuel IH]; intros a c b s F SF SE Q; cbn [first_of_inner]; [done|].
    intros H Hr2 HF HS HE Hne Hne2 HQ. pose proof (rng_le _ _ _ Hr2).
    unfold first_of_inner_p. apply fwp_loop. wb. wne Hr2.
    destruct (Nat.eqb_spec a c) as [->|Hac]; cbn [negb].
    - injection H as <-. apply fwp_ret. specialize (HQ c ltac:(ilia)). by rewrite insert_id in HQ.
    - apply rbind_Ok in H as (y&Hy&H). wb. wrd Hr Hx. wb. wrd Hr2 Hy. destruct (pred x y).
      + injection H as <-. apply fwp_ret. specialize (HQ a ltac:(ilia)). by rewrite insert_id in HQ.
      + wb. winc Hr2. apply fwp_ret.
        eapply IH; [exact H|eapply rng_sub; [exact Hr2|ilia..]|lk|lk|lk|done|done|].
        intros a' Ha'. rewrite insert_insert. apply HQ. ilia.
  Qed.
  Lemma first_of_loop_bounds pred m j a c : forall fuel i b k, first_of_loop fuel pred m i j a c = Ok (b, k) -> i <= j ->
    i <= k <= j /\ (b = true -> k < j).
  Proof.
    intros fuel. induction fuel as [|fuel IH]; intros i b k; cbn [first_of_loop]; [done|].
    destruct (Nat.eqb_spec i j) as [->|Hij]; [intros [= <- <-]; lia|].
    intros [x [_ [f [_ H]]%rbind_Ok]]%rbind_Ok Hle.
    destruct f; [injection H as <- <-; lia|]. apply IH in H; [|lia]. split; [lia|]. apply H.
  Qed.
  Lemma first_of_loop_wp pred m a c s_first : rng L a c ->
    forall fuel i j b k a0 s F E SF SE (Q : bool -> list A -> gmap iid nat -> Prop),
    first_of_loop fuel pred m i j a c = Ok (b, k) -> rng L i j -> a <= a0 <= c ->
    s !! s_first = Some a ->
    s !! F = Some i -> s !! E = Some j -> s !! SF = Some a0 -> s !! SE = Some c ->
    F <> E -> F <> SF -> F <> SE -> SF <> E -> SF <> SE -> SF <> s_first -> F <> s_first ->
    (forall a', a <= a' <= c -> Q b m (<[SF := a']> (<[F := k]> s))) ->
    fwp L (WhileV false (fun is_found => if is_found then Ret false else Ne F E)
      (fun _ => Assign SF s_first;;;
                b <~ first_of_inner_p pred F SF SE;;
                (if b then Ret tt else Inc F);;; Ret b)) m s Q.
  Proof.
    intros Hr2 fuel. induction fuel as [|fuel IH]; intros i j b k a0 s F E SF SE Q; cbn [first_of_loop]; [done|].
    intros H Hr Ha0 Hsf HF HE HSF HSE N1 N2 N3 N4 N5 N6 N7 HQ. pose proof (rng_le _ _ _ Hr).
    apply fwp_whilev. wne Hr.
    destruct (Nat.eqb_spec i j) as [->|Hij]; cbn [negb].
    - injection H as <- <-. specialize (HQ a0 Ha0). by rewrite !insert_id in HQ by lk.
    - apply rbind_Ok in H as (x&Hx&H). apply rbind_Ok in H as (f&Hf&H).
      wb. wassign Hr2. wb. eapply (first_of_inner_wp pred m x i j i Hr); [ilia|exact Hx|exact Hf|exact Hr2|lk|lk|lk|done|done|].
      intros a' Ha'. rewrite insert_insert. destruct f.
      + injection H as <- <-. wb. apply fwp_ret, fwp_ret. apply fwp_whilev, fwp_ret.
        specialize (HQ a' Ha'). by rewrite (insert_id s F) in HQ.
      + wb. winc Hr. apply fwp_ret.
        eapply (IH (S i) j b k a'); [exact H|eapply rng_sub; [exact Hr|ilia..]|done|lk|lk|lk|lk|lk|done..|].
        intros a2 Ha2. match goal with |- Q _ _ ?x => replace x with (<[SF:=a2]> (<[F:=k]> s)) by mapeq end. by apply HQ.
  Qed.
  Lemma find_first_of_by_wp first last s_first s_last o pred m s i j a c b k :
    algo_find_first_of_by m i j a c pred = Ok (b, k) ->
    rng L i j -> rng L a c -> s !! first = Some i -> s !! last = Some j -> s !! s_first = Some a -> s !! s_last = Some c ->
    cat_ge L INPUT i -> cat_ge L FORWARD a -> out_pre L s o i ->
    fwp L (find_first_of_by_p first last s_first s_last o pred) m s (found_at s m o b k).
  Proof.
    intros H Hr Hr2 Hf Hl Hsf Hsl Hc Hc2 Ho. pose proof (rng_le _ _ _ Hr). pose proof (rng_le _ _ _ Hr2).
    pose proof (first_of_loop_bounds _ _ _ _ _ _ _ _ _ H ltac:(lia)) as [? ?].
    unfold find_first_of_by_p. wcat. wcat. wcat. wcat. wb. eapply fwp_out_at_least; [exact Ho|done|].
    wnew. wnew. wnew. wnew.
    wb. eapply (first_of_loop_wp pred m a c s_first Hr2 _ i j b k a); [exact H|exact Hr|ilia|lk|lk|lk|lk|lk|congruence..|].
    intros a' Ha'. wb. wout Ho Hr. intros v s' Hs'.
    wfree_out Hs'. wfree_out Hs'. wfree_out Hs'. wfree_out Hs'. wfin Hs'.
  Qed.

  (** the "last occurrence" loops *)
  Lemma last_wp sp search F fnd m i0 j (Inv : gmap iid nat -> Prop) : rng L i0 j -> F <> fnd ->
    (forall s i b k, Inv s -> s !! F = Some i -> i0 <= i <= j -> search i = Ok (b, k) ->
       i <= k <= j /\ (b = true -> k < j) /\ fwp L sp m s (found_at s m (Some (Some F)) b k)) ->
    (forall s k, Inv s -> Inv (<[F := k]> s)) -> (forall s k, Inv s -> Inv (<[fnd := k]> s)) ->
    forall fuel i acc b k s (Q : bool -> list A -> gmap iid nat -> Prop),
    last_loop fuel search i acc = Ok (b, k) -> Inv s -> i0 <= i <= j -> i0 <= acc.2 <= j ->
    s !! F = Some i -> s !! fnd = Some acc.2 ->
    (forall f, i0 <= k <= j -> Q b m (<[fnd := k]> (<[F := f]> s))) ->
    fwp L (Loop acc.1 (fun is_found =>
      r <~ sp;;
      if r.1 then Assign fnd F;;; Inc F;;; Ret (inl true) else Ret (inr is_found))) m s Q.
  Proof.
    intros Hr Hne Hsp HI1 HI2 fuel. induction fuel as [|fuel IH]; intros i acc b k s Q; cbn [last_loop]; [done|].
    intros H HI Hi Hacc HF Hfnd HQ. apply rbind_Ok in H as ([b' k']&Hs&H).
    destruct (Hsp s i b' k' HI HF Hi Hs) as (Hk'&Hb'&Hwp).
    apply fwp_loop. wb. eapply fwp_mono; [exact Hwp|]. intros [b1 v1] m1 s1 (Hb1&->&[_ ->]). cbn [fst snd] in *. subst b1.
    destruct b'.
    - specialize (Hb' eq_refl). wb. wassign Hr. wb. winc Hr. apply fwp_ret.
      eapply (IH (S k') (true, k')); [exact H|by apply HI1, HI2, HI1|ilia|cbn [snd]; ilia|lk|lk|].
      intros f Hk. match goal with |- Q _ _ ?x => replace x with (<[fnd:=k]> (<[F:=f]> s)) by mapeq end. by apply HQ.
    - injection H as ->. apply fwp_ret. cbn [fst snd] in *.
      specialize (HQ k' ltac:(ilia)). match goal with |- Q _ _ ?x => replace x with (<[fnd:=k]> (<[F:=k']> s)) by mapeq end. done.
  Qed.
  Lemma find_last_of_by_wp first last s_first s_last o pred m s i j a c b k :
    algo_find_last_of_by m i j a c pred = Ok (b, k) ->
    rng L i j -> rng L a c -> s !! first = Some i -> s !! last = Some j -> s !! s_first = Some a -> s !! s_last = Some c ->
    cat_ge L INPUT i -> cat_ge L FORWARD a -> out_pre L s o i ->
    fwp L (find_last_of_by_p first last s_first s_last o pred) m s (found_at s m o b k).
  Proof.
    intros H Hr Hr2 Hf Hl Hsf Hsl Hc Hc2 Ho. pose proof (rng_le _ _ _ Hr). pose proof (rng_le _ _ _ Hr2).
    unfold find_last_of_by_p. wcat. wcat. wcat. wcat. wb. eapply fwp_out_at_least; [exact Ho|done|].
    wnew. wnew. wnew. wnew. wnew. wb. unfold last_p.
    match goal with |- fwp _ (Loop _ (fun _ => _ <~ find_first_of_by_p ?F ?E _ _ _ _;; _)) _ _ _ =>
    eapply (last_wp _ (fun f => algo_find_first_of_by m f j a c pred) F _ m i j
      (fun s => s !! E = Some j /\ s !! s_first = Some a /\ s !! s_last = Some c) Hr) with (acc := (false, j)) end.
    - congruence.
    - intros s1 f1 b1 k1 (Q1&Q2&Q3) HF Hi1 Hs1.
      pose proof (first_of_loop_bounds _ _ _ _ _ _ _ _ _ Hs1 ltac:(ilia)) as [? ?]. split_and!; [ilia..|done|].
      eapply (find_first_of_by_wp _ _ _ _ _ _ _ _ f1 j a c); [exact Hs1|eapply rng_sub; [exact Hr|ilia..]|exact Hr2|done..|catsolve|done|].
      exists f1. split; [done|]. eapply alike_rng; [exact Hr|ilia..].
    - intros s1 k1 (Q1&Q2&Q3). split_and!; lk.
    - intros s1 k1 (Q1&Q2&Q3). split_and!; lk.
    - exact H.
    - split_and!; lk.
    - ilia.
    - cbn [snd]. ilia.
    - lk.
    - cbn [snd]. lk.
    - intros f Hk. wb. wout Ho Hr. intros v s' Hs'.
      wfree_out Hs'. wfree_out Hs'. wfree_out Hs'. wfree_out Hs'. wfree_out Hs'. wfin Hs'.
  Qed.

  (** adjacent_find *)
  Lemma adjacent_loop_bounds pred m j : forall fuel i n b k, adjacent_loop fuel pred m i n j = Ok (b, k) ->
    n <= j -> S i = n -> S b = k /\ i <= b /\ k <= j.
  Proof.
    intros fuel. induction fuel as [|fuel IH]; intros i n b k; cbn [adjacent_loop]; [done|].
    destruct (Nat.eqb_spec n j) as [->|Hij]; [intros [= <- <-]; lia|].
    intros [x [_ [y [_ H]]%rbind_Ok]]%rbind_Ok Hle Hn.
    destruct (pred x y); cbn [negb] in H; [injection H as <- <-; lia|]. apply IH in H; lia.
  Qed.
  Lemma adjacent_loop_wp pred m i0 j : rng L i0 j -> forall fuel i b k s F next E (Q : unit -> list A -> gmap iid nat -> Prop),
    adjacent_loop fuel pred m i (S i) j = Ok (b, k) -> i0 <= i -> S i <= j ->
    s !! F = Some i -> s !! next = Some (S i) -> s !! E = Some j -> F <> E -> next <> E -> F <> next ->
    Q tt m (<[F := b]> (<[next := k]> s)) ->
    fwp L (While (pand (Ne next E) (x <~ Deref F;; y <~ Deref next;; Ret (negb (pred x y))))
          (Assign F next;;; Inc next)) m s Q.
  Proof.
    intros Hr fuel. induction fuel as [|fuel IH]; intros i b k s F next E Q; cbn [adjacent_loop]; [done|].
    intros H Hi Hj HF Hn HE N1 N2 N3 HQ. apply fwp_while, fwp_pand. wne Hr.
    destruct (Nat.eqb_spec (S i) j) as [Ej|Hij]; cbn [negb].
    - injection H as <- <-. by rewrite !insert_id in HQ by lk.
    - apply rbind_Ok in H as (x&Hx&H). apply rbind_Ok in H as (y&Hy&H). wb. wrd Hr Hx. wb. wrd Hr Hy. apply fwp_ret.
      destruct (pred x y); cbn [negb] in *.
      + injection H as <- <-. by rewrite !insert_id in HQ by lk.
      + wb. wassign Hr. winc Hr. eapply IH; [exact H|ilia|ilia|lk|lk|lk|done..|].
        match goal with |- Q _ _ ?x => replace x with (<[F:=b]> (<[next:=k]> s)) by mapeq end. done.
  Qed.
  Lemma adjacent_find_by_wp first last o pred m s i j b k :
    algo_adjacent_find_by m i j pred = Ok (b, k) ->
    rng L i j -> s !! first = Some i -> s !! last = Some j -> cat_ge L FORWARD i -> out_pre L s o i ->
    fwp L (adjacent_find_by_p first last o pred) m s (found_at s m o b k).
  Proof.
    intros H Hr Hf Hl Hc Ho. pose proof (rng_le _ _ _ Hr). unfold algo_adjacent_find_by in H.
    unfold adjacent_find_by_p. wcat. wcat. wb. eapply fwp_out_at_least; [exact Ho|done|].
    wb. weq Hr. destruct (Nat.eqb_spec i j) as [Eij|Hij].
    - injection H as <- <-. wb. wout Ho Hr. intros v s' Hs'. by apply fwp_ret.
    - apply rbind_Ok in H as ([b' n']&Ha&H). pose proof (adjacent_loop_bounds _ _ _ _ _ _ _ _ Ha ltac:(lia) ltac:(lia)) as (?&?&?).
      wnew. wnew. wnew. wb. eapply fwp_new_and_move; [lk|eapply (rng_advz L m i j i (S i) 1); [ilia|exact Hr|ilia..|by left; ilia]|].
      intros ? ?. fresh_hyps.
      wb. eapply (adjacent_loop_wp pred m i j Hr); [exact Ha|ilia|ilia|lk|lk|lk|congruence..|].
      wb. wne Hr. destruct (n' =? j); cbn [negb] in *; injection H as <- <-.
      + wb. apply fwp_ret. wb. wout Ho Hr. intros v s' Hs'.
        wfree_out Hs'. wfree_out Hs'. wfree_out Hs'. wfree_out Hs'. wfin Hs'.
      + wb. wassign Hr. wb. wout Ho Hr. intros v s' Hs'.
        wfree_out Hs'. wfree_out Hs'. wfree_out Hs'. wfree_out Hs'. wfin Hs'.
  Qed.

  (** search *)
  Lemma match_wp pred m i0 j a0 c : rng L i0 j -> rng L a0 c ->
    forall fuel i a i' a' s I S E SE (Q : unit -> list A -> gmap iid nat -> Prop),
    match_loop fuel pred m i j a c = Ok (i', a') -> i0 <= i <= j -> a0 <= a <= c ->
    s !! I = Some i -> s !! E = Some j -> s !! S = Some a -> s !! SE = Some c ->
    I <> E -> I <> S -> I <> SE -> S <> E -> S <> SE ->
    (i <= i' <= j -> a <= a' <= c -> Q tt m (<[I := i']> (<[S := a']> s))) ->
    fwp L (match_p pred I E S SE) m s Q.
  Proof.
    intros Hr Hr2 fuel. induction fuel as [|fuel IH]; intros i a i' a' s I S0 E SE Q; cbn [match_loop]; [done|].
    intros H Hi Ha HI HE HS HSE N1 N2 N3 N4 N5 HQ.
    assert (i' = i -> a' = a -> Q tt m s) as HQ0.
    { intros -> ->. specialize (HQ ltac:(ilia) ltac:(ilia)). by rewrite !insert_id in HQ by lk. }
    apply fwp_while, fwp_pand, fwp_pand. wne Hr.
    destruct (Nat.eqb_spec i j) as [Ej|Hij]; cbn [negb]; [injection H as <- <-; by apply HQ0|].
    wne Hr2. destruct (Nat.eqb_spec a c) as [Ec|Hac]; cbn [negb]; [injection H as <- <-; by apply HQ0|].
    apply rbind_Ok in H as (x&Hx&H). apply rbind_Ok in H as (y&Hy&H). wb. wrd Hr Hx. wb. wrd Hr2 Hy. apply fwp_ret.
    destruct (pred x y); [|injection H as <- <-; by apply HQ0].
    wb. winc Hr. winc Hr2. eapply IH; [exact H|ilia|ilia|lk|lk|lk|lk|done..|].
    intros ? ?. match goal with |- Q _ _ ?x => replace x with (<[I:=i']> (<[S0:=a']> s)) by mapeq end. apply HQ; ilia.
  Qed.
  Lemma match_loop_bounds pred m j c : forall fuel i a i' a',
    match_loop fuel pred m i j a c = Ok (i', a') -> i <= j -> a <= c -> i <= i' <= j /\ a <= a' <= c.
  Proof.
    intros fuel. induction fuel as [|fuel IH]; intros i a i' a'; cbn [match_loop]; [done|].
    destruct (Nat.eqb_spec i j) as [->|Hij]; [intros [= <- <-]; lia|].
    destruct (Nat.eqb_spec a c) as [->|Hac]; [intros [= <- <-]; lia|].
    intros [x [_ [y [_ H]]%rbind_Ok]]%rbind_Ok Hle Hn.
    destruct (pred x y); [|injection H as <- <-; lia]. apply IH in H; lia.
  Qed.
  Lemma search_loop_bounds pred m j a c : forall fuel i b k, search_loop fuel pred m i j a c = Ok (b, k) -> i <= j ->
    i <= k <= j /\ (b = true -> k < j).
  Proof.
    intros fuel. induction fuel as [|fuel IH]; intros i b k; cbn [search_loop]; [done|].
    destruct (Nat.eqb_spec i j) as [->|Hij]; [intros [= <- <-]; lia|].
    intros [[x y] [_ H]]%rbind_Ok Hle.
    destruct (y =? c); [injection H as <- <-; lia|]. apply IH in H; [|lia]. split; [lia|]. apply H.
  Qed.
  Lemma search_loop_wp pred m i0 j a c : rng L i0 j -> rng L a c ->
    forall fuel i b k s F E SF SE I S (Q : bool -> list A -> gmap iid nat -> Prop),
    search_loop fuel pred m i j a c = Ok (b, k) -> i0 <= i <= j ->
    s !! F = Some i -> s !! E = Some j -> s !! SF = Some a -> s !! SE = Some c -> s !! I = Some i -> s !! S = Some a ->
    F <> E -> F <> SF -> F <> SE -> F <> I -> F <> S -> I <> E -> I <> SF -> I <> SE -> I <> S ->
    S <> E -> S <> SF -> S <> SE ->
    (forall i' a', Q b m (<[S := a']> (<[I := i']> (<[F := k]> s)))) ->
    fwp L (Loop tt (fun _ =>
      b <~ Ne F E;;
      if b then
        match_p pred I E S SE;;;
        e <~ Eq S SE;;
        if e then Ret (inr true)
        else Inc F;;; Assign I F;;; Assign S SF;;; Ret (inl tt)
      else Ret (inr false))) m s Q.
  Proof.
    intros Hr Hr2 fuel. induction fuel as [|fuel IH]; intros i b k s F E SF SE I S0 Q; cbn [search_loop]; [done|].
    intros H Hi HF HE HSF HSE HI HS N1 N2 N3 N4 N5 N6 N7 N8 N9 N10 N11 N12 HQ. pose proof (rng_le _ _ _ Hr2).
    apply fwp_loop. wb. wne Hr.
    destruct (Nat.eqb_spec i j) as [Ej|Hij]; cbn [negb].
    - injection H as <- <-. apply fwp_ret. specialize (HQ i a). by rewrite !insert_id in HQ by lk.
    - apply rbind_Ok in H as ([i' a']&Hm&H).
      wb. eapply (match_wp pred m i0 j a c Hr Hr2); [exact Hm|ilia|ilia|lk|lk|lk|lk|done..|]. intros Hi' Ha'.
      wb. weq Hr2. destruct (a' =? c).
      + injection H as <- <-. apply fwp_ret.
        match goal with |- Q _ _ ?x => replace x with (<[S0:=a']> (<[I:=i']> (<[F:=i]> s))) by mapeq end. apply HQ.
      + wb. winc Hr. wb. wassign Hr. wb. wassign Hr2. apply fwp_ret.
        eapply IH; [exact H|ilia|lk|lk|lk|lk|lk|lk|done..|]. intros i2 a2.
        match goal with |- Q _ _ ?x => replace x with (<[S0:=a2]> (<[I:=i2]> (<[F:=k]> s))) by mapeq end. apply HQ.
  Qed.
  Lemma search_by_bounds pred m i j a c b k : algo_search_by m i j a c pred = Ok (b, k) -> i <= j -> i <= k <= j /\ (b = true -> k < j).
  Proof.
    intros [[b' k'] [H H2]]%rbind_Ok Hle. injection H2 as <- <-. apply search_loop_bounds in H as [? ?]; [|done].
    destruct b'; [done|]. split; [lia|done].
  Qed.
  Lemma search_by_wp first last s_first s_last o pred m s i j a c b k :
    algo_search_by m i j a c pred = Ok (b, k) ->
    rng L i j -> rng L a c -> s !! first = Some i -> s !! last = Some j -> s !! s_first = Some a -> s !! s_last = Some c ->
    cat_ge L FORWARD i -> cat_ge L FORWARD a -> out_pre L s o i ->
    fwp L (search_by_p first last s_first s_last o pred) m s (found_at s m o b k).
  Proof.
    intros H Hr Hr2 Hf Hl Hsf Hsl Hc Hc2 Ho. pose proof (rng_le _ _ _ Hr). pose proof (rng_le _ _ _ Hr2).
    apply rbind_Ok in H as ([b' k']&H&[= <- <-]).
    pose proof (search_loop_bounds _ _ _ _ _ _ _ _ _ H ltac:(lia)) as [? ?].
    unfold search_by_p. wcat. wcat. wcat. wcat. wb. eapply fwp_out_at_least; [exact Ho|done|].
    wnew. wnew. wnew. wnew. wnew. wnew. wnew.
    wb. eapply (search_loop_wp pred m i j a c Hr Hr2); [exact H|ilia|lk|lk|lk|lk|lk|lk|congruence..|].
    intros i' a'. destruct b'.
    - wb. wassign Hr. wb. wout Ho Hr. intros v s' Hs'.
      wfree_out Hs'. wfree_out Hs'. wfree_out Hs'. wfree_out Hs'. wfree_out Hs'. wfree_out Hs'. wfree_out Hs'. wfin Hs'.
    - wb. apply fwp_ret. wb. wout Ho Hr. intros v s' Hs'.
      wfree_out Hs'. wfree_out Hs'. wfree_out Hs'. wfree_out Hs'. wfree_out Hs'. wfree_out Hs'. wfree_out Hs'. wfin Hs'.
  Qed.
  Lemma search_last_by_wp first last s_first s_last o pred m s i j a c b k :
    algo_search_last_by m i j a c pred = Ok (b, k) ->
    rng L i j -> rng L a c -> s !! first = Some i -> s !! last = Some j -> s !! s_first = Some a -> s !! s_last = Some c ->
    cat_ge L FORWARD i -> cat_ge L FORWARD a -> out_pre L s o i ->
    fwp L (search_last_by_p first last s_first s_last o pred) m s (found_at s m o b k).
  Proof.
    intros H Hr Hr2 Hf Hl Hsf Hsl Hc Hc2 Ho. pose proof (rng_le _ _ _ Hr). pose proof (rng_le _ _ _ Hr2).
    unfold search_last_by_p. wcat. wcat. wcat. wcat. wb. eapply fwp_out_at_least; [exact Ho|done|].
    wnew. wnew. wnew. wnew. wnew. wb. unfold last_p.
    match goal with |- fwp _ (Loop _ (fun _ => _ <~ search_by_p ?F ?E ?SF ?SE _ _;; _)) _ _ _ =>
    eapply (last_wp _ (fun f => algo_search_by m f j a c pred) F _ m i j
      (fun s => s !! E = Some j /\ s !! SF = Some a /\ s !! SE = Some c) Hr) with (acc := (false, j)) end.
    - congruence.
    - intros s1 f1 b1 k1 (Q1&Q2&Q3) HF Hi1 Hs1.
      pose proof (search_by_bounds _ _ _ _ _ _ _ _ Hs1 ltac:(ilia)) as [? ?]. split_and!; [ilia..|done|].
      eapply (search_by_wp _ _ _ _ _ _ _ _ f1 j a c); [exact Hs1|eapply rng_sub; [exact Hr|ilia..]|exact Hr2|done..|catsolve|done|].
      exists f1. split; [done|]. eapply alike_rng; [exact Hr|ilia..].
    - intros s1 k1 (Q1&Q2&Q3). split_and!; lk.
    - intros s1 k1 (Q1&Q2&Q3). split_and!; lk.
    - exact H.
    - split_and!; lk.
    - ilia.
    - cbn [snd]. ilia.
    - lk.
    - cbn [snd]. lk.
    - intros f Hk. wb. wout Ho Hr. intros v s' Hs'.
      wfree_out Hs'. wfree_out Hs'. wfree_out Hs'. wfree_out Hs'. wfree_out Hs'. wfin Hs'.
  Qed.

  (** search_n *)
  Lemma run_wp pred value m i0 j : rng L i0 j ->
    forall fuel i n i' n' s I E (Q : nat -> list A -> gmap iid nat -> Prop),
    AlgoNonMod.run_loop fuel pred m value i j n = Ok (i', n') -> i0 <= i <= j ->
    s !! I = Some i -> s !! E = Some j -> I <> E ->
    (i <= i' <= j -> Q n' m (<[I := i']> s)) ->
    fwp L (run_p pred value I E n) m s Q.
  Proof.
    intros Hr fuel. induction fuel as [|fuel IH]; intros i n i' n' s I E Q; cbn [AlgoNonMod.run_loop]; [done|].
    intros H Hi HI HE N1 HQ.
    assert (i' = i -> n' = n -> Q n m s) as HQ0.
    { intros -> ->. specialize (HQ ltac:(ilia)). by rewrite insert_id in HQ. }
    apply fwp_whilev, fwp_pand, fwp_pand, fwp_ret.
    destruct (n =? 0); cbn [negb]; [injection H as <- <-; by apply HQ0|].
    wne Hr. destruct (Nat.eqb_spec i j) as [Ej|Hij]; cbn [negb]; [injection H as <- <-; by apply HQ0|].
    apply rbind_Ok in H as (x&Hx&H). wb. wrd Hr Hx. apply fwp_ret.
    destruct (pred x value); [|injection H as <- <-; by apply HQ0].
    wb. winc Hr. apply fwp_ret. eapply IH; [exact H|ilia|lk|lk|done..|].
    intros ?. rewrite insert_insert. apply HQ. ilia.
  Qed.
  Lemma nrun_bounds pred value m j : forall fuel i n i' n',
    AlgoNonMod.run_loop fuel pred m value i j n = Ok (i', n') -> i <= j -> i <= i' <= j.
  Proof.
    intros fuel. induction fuel as [|fuel IH]; intros i n i' n'; cbn [AlgoNonMod.run_loop]; [done|].
    destruct (n =? 0); [intros [= <- <-]; lia|].
    destruct (Nat.eqb_spec i j) as [->|Hac]; [intros [= <- <-]; lia|].
    intros [x [_ H]]%rbind_Ok Hle.
    destruct (pred x value); [|injection H as <- <-; lia]. apply IH in H; lia.
  Qed.
  Lemma search_n_loop_bounds pred value m j n : forall fuel i b k, search_n_loop fuel pred m value i j n = Ok (b, k) -> i <= j ->
    i <= k <= j /\ (b = true -> k < j).
  Proof.
    intros fuel. induction fuel as [|fuel IH]; intros i b k; cbn [search_n_loop]; [done|].
    intros [[b' f] [Hf H]]%rbind_Ok Hle. pose proof (find_by_lt _ _ _ _ _ _ _ Hf Hle) as [? Hlt].
    destruct b'; [|injection H as <- <-; split; [lia|done]].
    apply rbind_Ok in H as ([i' n']&H1&H2). specialize (Hlt eq_refl). apply nrun_bounds in H1; [|lia].
    destruct (n' =? 0); [injection H2 as <- <-; lia|]. apply IH in H2; [|lia]. split; [lia|]. apply H2.
  Qed.
  Lemma search_n_loop_wp pred value m i0 j n : rng L i0 j -> cat_ge L FORWARD i0 ->
    forall fuel i f b k s F E I (Q : bool -> list A -> gmap iid nat -> Prop),
    search_n_loop fuel pred m value i j n = Ok (b, k) -> i0 <= i <= j -> i0 <= f <= j ->
    s !! F = Some f -> s !! E = Some j -> s !! I = Some i -> F <> E -> F <> I -> I <> E ->
    (forall i', Q b m (<[I := i']> (<[F := k]> s))) ->
    fwp L (Loop tt (fun _ =>
      r <~ find_by_p I E (Some (Some F)) value pred;;
      if r.1 then
        Assign I F;;; Inc I;;;
        n' <~ run_p pred value I E (n - 1);;
        if n' =? 0 then Ret (inr true) else Ret (inl tt)
      else Ret (inr false))) m s Q.
  Proof.
    intros Hr Hc fuel. induction fuel as [|fuel IH]; intros i f b k s F E I Q; cbn [search_n_loop]; [done|].
    intros H Hi Hf HF HE HI N1 N2 N3 HQ. apply rbind_Ok in H as ([b' f']&H1&H).
    pose proof (find_by_lt _ _ _ _ _ _ _ H1 ltac:(ilia)) as [? Hlt].
    apply fwp_loop. wb. eapply fwp_mono.
    { eapply (find_by_wp _ _ _ _ _ _ _ i j); [exact H1|eapply rng_sub; [exact Hr|ilia..]|lk|lk|catsolve|].
      exists f. split; [done|]. eapply alike_rng; [exact Hr|ilia..]. }
    intros [b1 v1] m1 s1 (Hb1&->&[_ ->]). cbn [fst snd] in *. subst b1. destruct b'.
    - specialize (Hlt eq_refl). apply rbind_Ok in H as ([i' n']&H2&H). wb. wassign Hr. wb. winc Hr.
      wb. eapply (run_wp pred value m i0 j Hr); [exact H2|ilia|lk|lk|done|]. intros Hi'.
      destruct (n' =? 0).
      + injection H as <- <-. apply fwp_ret.
        match goal with |- Q _ _ ?x => replace x with (<[I:=i']> (<[F:=f']> s)) by mapeq end. apply HQ.
      + apply fwp_ret. eapply (IH i' f'); [exact H|ilia|ilia|lk|lk|lk|done..|]. intros i2.
        match goal with |- Q _ _ ?x => replace x with (<[I:=i2]> (<[F:=k]> s)) by mapeq end. apply HQ.
    - injection H as <- <-. apply fwp_ret. specialize (HQ i).
      match goal with |- Q _ _ ?x => replace x with (<[I:=i]> (<[F:=f']> s)) by mapeq end. apply HQ.
  Qed.
  Lemma search_n_by_bounds pred m i j n value b k : algo_search_n_by m i j n value pred = Ok (b, k) -> i <= j ->
    i <= k <= j /\ (b = true -> k < j).
  Proof.
    unfold algo_search_n_by. destruct (n =? 0); [intros [= <- <-] ?; split; [lia|done]|].
    intros [[b' k'] [H H2]]%rbind_Ok Hle. injection H2 as <- <-. apply search_n_loop_bounds in H as [? ?]; [|done].
    destruct b'; [done|]. split; [lia|done].
  Qed.
  Lemma search_n_by_wp first last n value o pred m s i j b k :
    algo_search_n_by m i j n value pred = Ok (b, k) ->
    rng L i j -> s !! first = Some i -> s !! last = Some j -> cat_ge L FORWARD i -> out_pre L s o i ->
    fwp L (search_n_by_p first last n value o pred) m s (found_at s m o b k).
  Proof.
    intros H Hr Hf Hl Hc Ho. pose proof (rng_le _ _ _ Hr). unfold algo_search_n_by in H.
    unfold search_n_by_p. wcat. wcat. wb. eapply fwp_out_at_least; [exact Ho|done|].
    destruct (n =? 0).
    { injection H as <- <-. wb. wout Ho Hr. intros v s' Hs'. by apply fwp_ret. }
    apply rbind_Ok in H as ([b' k']&H&[= <- <-]).
    pose proof (search_n_loop_bounds _ _ _ _ _ _ _ _ _ H ltac:(lia)) as [? ?].
    wnew. wnew. wnew. wnew.
    wb. eapply (search_n_loop_wp pred value m i j n Hr Hc _ i i); [exact H|ilia|ilia|lk|lk|lk|congruence..|].
    intros i'. destruct b'.
    - wb. wassign Hr. wb. wout Ho Hr. intros v s' Hs'.
      wfree_out Hs'. wfree_out Hs'. wfree_out Hs'. wfree_out Hs'. wfin Hs'.
    - wb. apply fwp_ret. wb. wout Ho Hr. intros v s' Hs'.
      wfree_out Hs'. wfree_out Hs'. wfree_out Hs'. wfree_out Hs'. wfin Hs'.
  Qed.
  Lemma search_last_n_by_wp first last n value o pred m s i j b k :
    algo_search_last_n_by m i j n value pred = Ok (b, k) ->
    rng L i j -> s !! first = Some i -> s !! last = Some j -> cat_ge L FORWARD i -> out_pre L s o i ->
    fwp L (search_last_n_by_p first last n value o pred) m s (found_at s m o b k).
  Proof.
    intros H Hr Hf Hl Hc Ho. pose proof (rng_le _ _ _ Hr). unfold algo_search_last_n_by in H.
    unfold search_last_n_by_p. wcat. wcat. wb. eapply fwp_out_at_least; [exact Ho|done|].
    destruct (n =? 0).
    { injection H as <- <-. wb. wout Ho Hr. intros v s' Hs'. by apply fwp_ret. }
    wnew. wnew. wnew. wb. unfold last_p.
    match goal with |- fwp _ (Loop _ (fun _ => _ <~ search_n_by_p ?F ?E _ _ _ _;; _)) _ _ _ =>
    eapply (last_wp _ (fun f => algo_search_n_by m f j n value pred) F _ m i j (fun s => s !! E = Some j) Hr) with (acc := (false, j)) end.
    - congruence.
    - intros s1 f1 b1 k1 Q1 HF Hi1 Hs1.
      pose proof (search_n_by_bounds _ _ _ _ _ _ _ _ Hs1 ltac:(ilia)) as [? ?]. split_and!; [ilia..|done|].
      eapply (search_n_by_wp _ _ _ _ _ _ _ _ f1 j); [exact Hs1|eapply rng_sub; [exact Hr|ilia..]|done..|catsolve|].
      exists f1. split; [done|]. eapply alike_rng; [exact Hr|ilia..].
    - intros s1 k1 Q1. lk.
    - intros s1 k1 Q1. lk.
    - exact H.
    - lk.
    - ilia.
    - cbn [snd]. ilia.
    - lk.
    - cbn [snd]. lk.
    - intros f Hk. wb. wout Ho Hr. intros v s' Hs'.
      wfree_out Hs'. wfree_out Hs'. wfree_out Hs'. wfin Hs'.
  Qed.
End nonmod_proofs.
