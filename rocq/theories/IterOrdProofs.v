(** IterOrdProofs.v — on flat cells, the programs of IterOrd.v that only read, and algo_partition, compute
    what the functions of AlgoOrd.v and AlgoSort.v compute. *)
From stdpp Require Import list gmap.
From Verif Require Import Base Spec Iter IterFlat IterWp IterNonMod IterNonModProofs IterMod IterModProofs IterModProofs3 IterOrd
  AlgoNonMod AlgoMod AlgoOrd AlgoSort.
From stdpp Require Import list.

Section ord_proofs.
  Context {A : Type} (L : layout).
  Implicit Types (m : list A) (s : gmap iid nat).

  (** memory [mm], position [k] stored through the out parameter *)
  Definition sets (s : gmap iid nat) (o : out) (mm : list A) (k : nat) (r : option iid) (m' : list A) (s' : gmap iid nat) : Prop :=
    m' = mm /\ out_set o k s r s'.
  Definition sets2 (s : gmap iid nat) (o1 o2 : out) (mm : list A) (k1 k2 : nat) (r : option iid * option iid) (m' : list A) (s' : gmap iid nat) : Prop :=
    m' = mm /\ exists s1, out_set o1 k1 s r.1 s1 /\ out_set o2 k2 s1 r.2 s'.

  Lemma fwp_forward2 x y m s i j (Q : unit -> list A -> gmap iid nat -> Prop) :
    s !! x = Some i -> s !! y = Some j -> cat_ge L FORWARD i -> cat_ge L FORWARD j ->
    Q tt m s -> fwp L (forward2 x y) m s Q.
  Proof.
    intros Hx Hy H1 H2 HQ. unfold forward2. wb. eapply fwp_at_least; [lk|done|]. eapply fwp_at_least; [lk|done|done].
  Qed.
  Ltac wfw Hr := apply fwp_bind; eapply fwp_forward2; [lk|lk|catsolve|catsolve|].
  Ltac wfin1 H := apply fwp_ret; split; [done|];
    match type of H with out_set _ _ ?x _ _ =>
      match goal with |- out_set _ _ ?s _ _ => replace s with x by mapeq end end; exact H.

  (** the second loop of algo_is_partitioned *)
  Lemma no_more_wp (pred : A -> bool) m : forall fuel i j k s F E (Q : bool -> list A -> gmap iid nat -> Prop),
    scan_while fuel (fun x => negb (pred x)) m i j = Ok k -> rng L i j -> s !! F = Some i -> s !! E = Some j -> F <> E ->
    Q (k =? j) m (<[F := k]> s) ->
    fwp L (Loop tt (fun _ => b <~ Ne F E;;
      if b then x <~ Deref F;; if pred x then Ret (inr false) else Inc F;;; Ret (inl tt) else Ret (inr true))) m s Q.
  Proof.
    intros fuel. induction fuel as [|fuel IH]; intros i j k s F E Q; cbn [scan_while]; [done|].
    intros H Hr HF HE Hne HQ. pose proof (rng_le _ _ _ Hr). apply fwp_loop. wb. wne Hr.
    destruct (Nat.eqb_spec i j) as [->|Hij]; cbn [negb].
    - injection H as <-. rewrite Nat.eqb_refl, insert_id in HQ by done. by apply fwp_ret.
    - apply rbind_Ok in H as (x&Hx&H). wb. wrd Hr Hx. destruct (pred x); cbn [negb] in H.
      + injection H as <-. rewrite (proj2 (Nat.eqb_neq _ _) Hij), insert_id in HQ by done. by apply fwp_ret.
      + wb. winc Hr. apply fwp_ret. eapply IH; [exact H|eapply rng_sub; [exact Hr|ilia..]|lk|lk|done|]. by rewrite insert_insert.
  Qed.
  Lemma is_partitioned_wp first last (pred : A -> bool) m s i j b :
    algo_is_partitioned m i j pred = Ok b ->
    rng L i j -> s !! first = Some i -> s !! last = Some j -> cat_ge L FORWARD i ->
    fwp L (is_partitioned_p first last pred) m s (just s m b).
  Proof.
    intros H Hr Hf Hl Hc. pose proof (rng_le _ _ _ Hr). unfold algo_is_partitioned in H. unfold is_partitioned_p. wfw Hr.
    wb. weq Hr. destruct (Nat.eqb_spec i j) as [->|Hij].
    { injection H as <-. by apply fwp_ret. }
    apply rbind_Ok in H as (k&Hk&H). apply rbind_Ok in H as (k2&Hk2&[= <-]). wnew. wnew.
    wb. eapply scan_wp; [exact Hk|exact Hr|lk|lk|congruence|]. intros Hkb. wb.
    eapply no_more_wp; [exact Hk2|eapply rng_sub; [exact Hr|ilia..]|lk|lk|congruence|].
    wfree. wfree. wfin0.
  Qed.
  Lemma partition_point_wp first last o (pred : A -> bool) m s i j k :
    algo_partition_point m i j pred = Ok k ->
    rng L i j -> s !! first = Some i -> s !! last = Some j -> cat_ge L FORWARD i -> out_pre L s o i ->
    fwp L (partition_point_p first last o pred) m s (sets s o m k).
  Proof.
    intros H Hr Hf Hl Hc Ho. pose proof (rng_le _ _ _ Hr). unfold partition_point_p. wfw Hr.
    wb. eapply fwp_out_at_least; [exact Ho|done|]. wnew. wnew.
    wb. eapply scan_wp; [exact H|exact Hr|lk|lk|congruence|]. intros Hk.
    wb. wout Ho Hr. intros v s' Hs'. wfree_out Hs'. wfree_out Hs'. wfin1 Hs'.
  Qed.
  Lemma partition_loop_wp (pred : A -> bool) i0 j F N E : rng L i0 j -> writable L i0 -> cat_ge L FORWARD i0 -> F <> N -> F <> E -> N <> E ->
    forall fuel m i next m' k s (Q : unit -> list A -> gmap iid nat -> Prop),
    partition_loop fuel pred m i next j = Ok (m', k) -> i0 <= i -> i < next <= j ->
    s !! F = Some i -> s !! N = Some next -> s !! E = Some j -> (i0 <= k <= j -> Q tt m' (<[N := j]> (<[F := k]> s))) ->
    fwp L (While (Ne N E) (x <~ Deref N;; (if pred x then iter_swap_p F N;;; Inc F else Ret tt);;; Inc N)) m s Q.
  Proof.
    intros Hr Hw Hc N1 N2 N3 fuel. induction fuel as [|fuel IH]; intros m i next m' k s Q; cbn [partition_loop]; [done|].
    intros H Hi Hnx HF HN HE HQ. apply fwp_while. wne Hr.
    destruct (Nat.eqb_spec next j) as [->|Hij]; cbn [negb].
    - injection H as <- <-. specialize (HQ ltac:(ilia)). by rewrite !insert_id in HQ by lk.
    - apply rbind_Ok in H as (x&Hx&H). wb. wrd Hr Hx. wb. destruct (pred x).
      + apply rbind_Ok in H as (m1&Hm&H). wb.
        eapply (iter_swap_wp L F N m s i next i0 j i0 j); [exact Hm|exact Hr|ilia|exact Hr|ilia|exact Hw|exact Hw|exact Hc|exact Hc|lk|lk|].
        winc Hr. winc Hr.
        eapply IH; [exact H|ilia|ilia|lk|lk|lk|]. intros Hk.
        replace (<[N:=j]> (<[F:=k]> (<[N:=S next]> (<[F:=S i]> s)))) with (<[N:=j]> (<[F:=k]> s)) by mapeq. auto.
      + apply fwp_ret. winc Hr. eapply IH; [exact H|ilia|ilia|lk|lk|lk|]. intros Hk.
        replace (<[N:=j]> (<[F:=k]> (<[N:=S next]> s))) with (<[N:=j]> (<[F:=k]> s)) by mapeq. auto.
  Qed.
  Lemma partition_wp first last o (pred : A -> bool) m s i j m' k :
    algo_partition m i j pred = Ok (m', k) ->
    rng L i j -> writable L i -> cat_ge L FORWARD i -> s !! first = Some i -> s !! last = Some j -> out_pre L s o i ->
    fwp L (partition_p first last o pred) m s (sets s o m' k).
  Proof.
    intros H Hr Hw Hc Hf Hl Ho. pose proof (rng_le _ _ _ Hr). unfold partition_p. wfw Hr.
    wb. eapply fwp_out_at_least; [exact Ho|done|]. wmut. wnew. wnew.
    apply rbind_Ok in H as ([b k0]&Hk0&H).
    assert (i <= k0 <= j) as Hkb. { apply rbind_Ok in Hk0 as (k1&Hk1&[= <- <-]). by eapply scan_while_bounds. }
    wb. eapply fwp_mono; [eapply find_if_not_wp; [exact Hk0|exact Hr|lk|lk|catsolve|]|].
    { eexists. split; [lk|]. eapply alike_rng; [exact Hr|ilia..]. }
    intros r m1 s1 (_&->&Hs1). destruct Hs1 as [_ ->]. wb. wne Hr.
    destruct (Nat.eqb_spec k0 j) as [->|Hne]; cbn [negb].
    - injection H as <- <-. wb. apply fwp_ret. wb. wout Ho Hr. intros v s' Hs'. wfree_out Hs'. wfree_out Hs'. wfin1 Hs'.
    - wb. wnew. wb. winc Hr.
      wb. eapply (partition_loop_wp pred i j); [exact Hr|exact Hw|exact Hc|congruence..|exact H|ilia|ilia|lk|lk|lk|]. intros Hk.
      eapply fwp_free; [lk|].
      match goal with F : s !! ?a = None, G : s !! ?b = None |- fwp L _ _ ?x _ => replace x with (<[a := k]> (<[b := j]> s)) by mapeq end.
      wb. wout Ho Hr. intros v s' Hs'. wfree_out Hs'. wfree_out Hs'. wfin1 Hs'.
  Qed.

  (** ** Binary search *)
  Lemma quot_half n : Z.quot (Z.of_nat n) 2 = Z.of_nat (n / 2).
  Proof. rewrite Z.quot_div_nonneg by lia. rewrite Nat2Z.inj_div. done. Qed.
  Lemma halving_wp (go : A -> bool) i0 j F it : rng L i0 j -> F <> it ->
    forall fuel m i count k s t (Q : Z -> list A -> gmap iid nat -> Prop),
    bsearch_loop fuel go m i count = Ok k -> i0 <= i -> i + count <= j -> i0 <= t <= j ->
    s !! F = Some i -> s !! it = Some t ->
    (forall c t', i0 <= k <= j -> Q c m (<[it := t']> (<[F := k]> s))) ->
    fwp L (halving_p go F it (Z.of_nat count)) m s Q.
  Proof.
    intros Hr N1 fuel. induction fuel as [|fuel IH]; intros m i count k s t Q; cbn [bsearch_loop]; [done|].
    intros H Hi Hj Ht HF HI HQ. unfold halving_p. apply fwp_whilev, fwp_ret.
    destruct (Nat.eqb_spec count 0) as [->|Hne].
    - cbn. injection H as <-. specialize (HQ 0%Z t ltac:(ilia)). by rewrite !insert_id in HQ by lk.
    - replace (0 <? Z.of_nat count)%Z with true by (symmetry; apply Z.ltb_lt; lia).
      rewrite quot_half. pose proof (Nat.div_lt count 2 ltac:(lia) ltac:(lia)) as Hd. set (st := count / 2) in *.
      apply rbind_Ok in H as (x&Hx&H). wb. wassign Hr. wb.
      eapply fwp_adv; [lk|eapply (rng_advz L m i0 j i (i + st)); [lia|exact Hr|ilia|ilia|left; ilia]|].
      wb. wrd Hr Hx. destruct (go x).
      + wb. winc Hr. wb. wassign Hr. apply fwp_ret.
        replace (Z.of_nat count - (Z.of_nat st + 1))%Z with (Z.of_nat (count - (st + 1))) by lia.
        eapply (IH _ _ _ k _ (S (i + st))); [exact H|ilia|ilia|ilia|lk|lk|]. intros c t' Hk.
        match goal with |- Q _ _ ?x => replace x with (<[it:=t']> (<[F:=k]> s)) by mapeq end. auto.
      + apply fwp_ret. eapply (IH _ _ _ k _ (i + st)); [exact H|ilia|ilia|ilia|lk|lk|]. intros c t' Hk.
        match goal with |- Q _ _ ?x => replace x with (<[it:=t']> (<[F:=k]> s)) by mapeq end. auto.
  Qed.
  Lemma bound_wp (go : A -> bool) first last o m s i j k :
    bsearch_loop (S (length m)) go m i (j - i) = Ok k ->
    rng L i j -> s !! first = Some i -> s !! last = Some j -> cat_ge L FORWARD i -> out_pre L s o i ->
    fwp L (bound_p go first last o) m s (sets s o m k).
  Proof.
    intros H Hr Hf Hl Hc Ho. pose proof (rng_le _ _ _ Hr). unfold bound_p. wfw Hr.
    wb. eapply fwp_out_at_least; [exact Ho|done|]. wnew. wnew.
    wb. eapply fwp_dist; [lk|lk|by eapply rng_dist; [exact Hr|ilia..]|]. wnew.
    replace (Z.of_nat j - Z.of_nat i)%Z with (Z.of_nat (j - i)) by lia.
    wb. eapply (halving_wp go i j); [exact Hr|congruence|exact H|ilia|ilia| |lk|lk|]; [split; [reflexivity|ilia]|]. intros c t' Hk.
    wb. wout Ho Hr. intros v s' Hs'. wfree_out Hs'. wfree_out Hs'. wfree_out Hs'. wfin1 Hs'.
  Qed.
  Lemma lower_bound_by_wp (comp : A -> A -> bool) first last value o m s i j k :
    algo_lower_bound_by comp m i j value = Ok k ->
    rng L i j -> s !! first = Some i -> s !! last = Some j -> cat_ge L FORWARD i -> out_pre L s o i ->
    fwp L (lower_bound_by_p comp first last value o) m s (sets s o m k).
  Proof. apply bound_wp. Qed.
  Lemma upper_bound_by_wp (comp : A -> A -> bool) first last value o m s i j k :
    algo_upper_bound_by comp m i j value = Ok k ->
    rng L i j -> s !! first = Some i -> s !! last = Some j -> cat_ge L FORWARD i -> out_pre L s o i ->
    fwp L (upper_bound_by_p comp first last value o) m s (sets s o m k).
  Proof. apply bound_wp. Qed.
  Lemma bsearch_bounds (go : A -> bool) m : forall fuel i count k, bsearch_loop fuel go m i count = Ok k -> i <= k <= i + count.
  Proof.
    intros fuel. induction fuel as [|fuel IH]; intros i count k; cbn [bsearch_loop]; [done|].
    destruct (Nat.eqb_spec count 0) as [->|Hne]; [intros [= <-]; lia|].
    intros [x [_ H]]%rbind_Ok. pose proof (Nat.div_lt count 2 ltac:(lia) ltac:(lia)). destruct (go x); apply IH in H; lia.
  Qed.
  Lemma binary_search_by_wp (comp : A -> A -> bool) first last value m s i j b :
    algo_binary_search_by comp m i j value = Ok b ->
    rng L i j -> s !! first = Some i -> s !! last = Some j -> cat_ge L FORWARD i ->
    fwp L (binary_search_by_p comp first last value) m s (just s m b).
  Proof.
    intros H Hr Hf Hl Hc. pose proof (rng_le _ _ _ Hr). apply rbind_Ok in H as (k&Hk&H).
    pose proof (bsearch_bounds _ _ _ _ _ _ Hk) as Hkb. unfold binary_search_by_p. wfw Hr. wnew. wnew.
    wb. eapply fwp_mono; [eapply lower_bound_by_wp; [exact Hk|exact Hr|lk|lk|exact Hc|]|].
    { eexists. split; [lk|]. eapply alike_rng; [exact Hr|ilia..]. }
    intros r m1 s1 (->&Hs1). destruct Hs1 as [_ ->]. wb. apply fwp_pand. wne Hr.
    destruct (Nat.eqb_spec k j) as [->|Hne]; cbn [negb].
    - injection H as <-. wfree. wfree. wfin0.
    - apply rbind_Ok in H as (x&Hx&[= <-]). wb. wrd Hr Hx. apply fwp_ret. wfree. wfree. wfin0.
  Qed.
  (** storing through two out parameters of the same kind *)
  Lemma second_out s o1 o2 i k v s1 : out_pre L s o1 i -> out_pre L s o2 i -> alike L k i -> out_set o1 k s v s1 -> out_pre L s1 o2 i.
  Proof.
    intros Ho1 Ho2 Ha Hs. destruct o2 as [[y|]|]; [|done..]. destruct Ho2 as (k2&Hk2&Ha2).
    destruct (decide (o1 = Some (Some y))) as [->|Hne].
    - destruct Hs as [_ ->]. exists k. split; [by rewrite lookup_insert|done].
    - exists k2. split; [|done]. eapply out_set_lookup; [exact Hs|done|done].
  Qed.
  Lemma equal_range_by_wp (comp : A -> A -> bool) first last value v1 v2 m s i j lo hi :
    algo_equal_range_by comp m i j value = Ok (lo, hi) ->
    rng L i j -> s !! first = Some i -> s !! last = Some j -> cat_ge L FORWARD i -> out_pre L s (Some v1) i -> out_pre L s (Some v2) i ->
    fwp L (equal_range_by_p comp first last value (Some v1) (Some v2)) m s (sets2 s (Some v1) (Some v2) m lo hi).
  Proof.
    intros H Hr Hf Hl Hc Ho1 Ho2. pose proof (rng_le _ _ _ Hr).
    apply rbind_Ok in H as (lo'&Hlo&H). apply rbind_Ok in H as (hi'&Hhi&[= -> ->]).
    pose proof (bsearch_bounds _ _ _ _ _ _ Hlo) as Hlob. pose proof (bsearch_bounds _ _ _ _ _ _ Hhi) as Hhib.
    unfold equal_range_by_p. wfw Hr. wnew. wnew.
    wb. eapply fwp_mono; [eapply lower_bound_by_wp; [exact Hlo|exact Hr|lk|lk|exact Hc|repeat (eapply out_pre_update; [|one]); exact Ho1]|].
    intros v m1 s1 (->&Hs1).
    wb. eapply fwp_mono; [eapply upper_bound_by_wp; [exact Hhi|exact Hr|eapply out_set_lookup; [exact Hs1|lk|one]|
      eapply out_set_lookup; [exact Hs1|lk|one]|exact Hc|]|].
    { eapply (second_out _ (Some v1) (Some v2)); [..|exact Hs1]; [repeat (eapply out_pre_update; [|one]); eassumption..|].
      eapply alike_rng; [exact Hr|ilia..]. }
    intros w m1 s2 (->&Hs2). wfree_out2 Hs1 Hs2. wfree_out2 Hs1 Hs2.
    apply fwp_ret. split; [done|]. cbn [fst snd]. eexists. split; [|exact Hs2].
    match type of Hs1 with out_set _ _ ?x _ _ => replace s with x by mapeq end. exact Hs1.
  Qed.
End ord_proofs.
