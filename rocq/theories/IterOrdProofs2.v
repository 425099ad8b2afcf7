(** IterOrdProofs2.v — the programs of IterOrd.v for minima and maxima, comparison of two ranges and
    sortedness, on flat cells. *)
From stdpp Require Import list gmap.
From Verif Require Import Base Spec Iter IterFlat IterWp IterNonMod IterNonModProofs IterMod IterModProofs IterModProofs3 IterOrd IterOrdProofs
  AlgoNonMod AlgoMod AlgoOrd AlgoSort.
From stdpp Require Import list.

Ltac wfw := apply fwp_bind; eapply fwp_forward2; [lk|lk|catsolve|catsolve|].
Ltac wfin1 H := apply fwp_ret; split; [done|];
  match type of H with out_set _ _ ?x _ _ =>
    match goal with |- out_set _ _ ?s _ _ => replace s with x by mapeq end end; exact H.
Ltac toQ y := match goal with |- ?Q _ _ ?x => replace x with y by mapeq end.

Section ord_proofs2.
  Context {A : Type} (L : layout) (comp : A -> A -> bool).
  Implicit Types (m : list A) (s : gmap iid nat).

  Lemma take_greater_wp X F m s i j a b x y (Q : unit -> list A -> gmap iid nat -> Prop) :
    rng L i j -> i <= a < j -> i <= b < j -> s !! X = Some a -> s !! F = Some b -> rd m a = Ok x -> rd m b = Ok y ->
    Q tt m (<[X := if comp x y then b else a]> s) -> fwp L (take_greater comp X F) m s Q.
  Proof.
    intros Hr Ha Hb HX HF Hx Hy HQ. unfold take_greater. wb. wrd Hr Hx. wb. wrd Hr Hy. destruct (comp x y).
    - wassign Hr. done.
    - apply fwp_ret. by rewrite insert_id in HQ.
  Qed.
  Lemma take_smaller_wp X F m s i j a b x y (Q : unit -> list A -> gmap iid nat -> Prop) :
    rng L i j -> i <= a < j -> i <= b < j -> s !! X = Some a -> s !! F = Some b -> rd m a = Ok x -> rd m b = Ok y ->
    Q tt m (<[X := if comp y x then b else a]> s) -> fwp L (take_smaller comp X F) m s Q.
  Proof.
    intros Hr Ha Hb HX HF Hx Hy HQ. unfold take_smaller. wb. wrd Hr Hy. wb. wrd Hr Hx. destruct (comp y x).
    - wassign Hr. done.
    - apply fwp_ret. by rewrite insert_id in HQ.
  Qed.
  Lemma max_loop_wp i0 j F E X : rng L i0 j -> F <> E -> F <> X -> E <> X ->
    forall fuel m i mx k s (Q : unit -> list A -> gmap iid nat -> Prop),
    max_loop comp fuel m i j mx = Ok k -> i0 <= i <= j -> i0 <= mx <= j -> (i < j -> mx < j) -> s !! F = Some i -> s !! E = Some j -> s !! X = Some mx ->
    (i0 <= k <= j -> Q tt m (<[X := k]> (<[F := j]> s))) -> fwp L (rest_p F E (take_greater comp X F)) m s Q.
  Proof.
    intros Hr N1 N2 N3 fuel. induction fuel as [|fuel IH]; intros m i mx k s Q; cbn [max_loop]; [done|].
    intros H Hi Hm Hlt HF HE HX HQ. apply fwp_while. wne Hr. destruct (Nat.eqb_spec i j) as [->|Hij]; cbn [negb].
    - injection H as <-. specialize (HQ ltac:(ilia)). by rewrite !insert_id in HQ by lk.
    - wb. winc Hr. wb. wne Hr. destruct (Nat.eqb_spec (S i) j) as [Hsj|Hsj]; cbn [negb].
      + apply fwp_ret. eapply IH; [exact H|ilia|ilia|ilia|lk|lk|lk|]. intros Hk. toQ (<[X:=k]> (<[F:=j]> s)). auto.
      + apply rbind_Ok in H as (x&Hx&H). apply rbind_Ok in H as (y&Hy&H).
        eapply (take_greater_wp X F _ _ i0 j mx (S i)); [exact Hr|ilia|ilia|lk|lk|exact Hx|exact Hy|].
        eapply IH; [exact H|ilia|destruct (comp x y); ilia|destruct (comp x y); ilia|lk|lk|lk|]. intros Hk. toQ (<[X:=k]> (<[F:=j]> s)). auto.
  Qed.
  Lemma min_loop_wp i0 j F E X : rng L i0 j -> F <> E -> F <> X -> E <> X ->
    forall fuel m i mn k s (Q : unit -> list A -> gmap iid nat -> Prop),
    min_loop comp fuel m i j mn = Ok k -> i0 <= i <= j -> i0 <= mn <= j -> (i < j -> mn < j) -> s !! F = Some i -> s !! E = Some j -> s !! X = Some mn ->
    (i0 <= k <= j -> Q tt m (<[X := k]> (<[F := j]> s))) -> fwp L (rest_p F E (take_smaller comp X F)) m s Q.
  Proof.
    intros Hr N1 N2 N3 fuel. induction fuel as [|fuel IH]; intros m i mx k s Q; cbn [min_loop]; [done|].
    intros H Hi Hm Hlt HF HE HX HQ. apply fwp_while. wne Hr. destruct (Nat.eqb_spec i j) as [->|Hij]; cbn [negb].
    - injection H as <-. specialize (HQ ltac:(ilia)). by rewrite !insert_id in HQ by lk.
    - wb. winc Hr. wb. wne Hr. destruct (Nat.eqb_spec (S i) j) as [Hsj|Hsj]; cbn [negb].
      + apply fwp_ret. eapply IH; [exact H|ilia|ilia|ilia|lk|lk|lk|]. intros Hk. toQ (<[X:=k]> (<[F:=j]> s)). auto.
      + apply rbind_Ok in H as (y&Hy&H). apply rbind_Ok in H as (x&Hx&H).
        eapply (take_smaller_wp X F _ _ i0 j mx (S i)); [exact Hr|ilia|ilia|lk|lk|exact Hx|exact Hy|].
        eapply IH; [exact H|ilia|destruct (comp y x); ilia|destruct (comp y x); ilia|lk|lk|lk|]. intros Hk. toQ (<[X:=k]> (<[F:=j]> s)). auto.
  Qed.
  Lemma minmax_loop_wp i0 j F E X Y : rng L i0 j -> F <> E -> F <> X -> E <> X -> F <> Y -> E <> Y -> X <> Y ->
    forall fuel m i mn mx k k2 s (Q : unit -> list A -> gmap iid nat -> Prop),
    minmax_loop comp fuel m i j mn mx = Ok (k, k2) -> i0 <= i <= j -> i0 <= mn <= j -> i0 <= mx <= j -> (i < j -> mn < j) -> (i < j -> mx < j) ->
    s !! F = Some i -> s !! E = Some j -> s !! X = Some mn -> s !! Y = Some mx ->
    (i0 <= k <= j -> i0 <= k2 <= j -> Q tt m (<[Y := k2]> (<[X := k]> (<[F := j]> s)))) ->
    fwp L (rest_p F E (take_smaller comp X F;;; take_greater comp Y F)) m s Q.
  Proof.
    intros Hr N1 N2 N3 N4 N5 N6 fuel. induction fuel as [|fuel IH]; intros m i mn mx k k2 s Q; cbn [minmax_loop]; [done|].
    intros H Hi Hm Hm2 Hlt Hlt2 HF HE HX HY HQ. apply fwp_while. wne Hr. destruct (Nat.eqb_spec i j) as [->|Hij]; cbn [negb].
    - injection H as <- <-. specialize (HQ ltac:(ilia) ltac:(ilia)). by rewrite !insert_id in HQ by lk.
    - wb. winc Hr. wb. wne Hr. destruct (Nat.eqb_spec (S i) j) as [Hsj|Hsj]; cbn [negb].
      + apply fwp_ret. eapply IH; [exact H|ilia|ilia|ilia|ilia|ilia|lk|lk|lk|lk|]. intros Hk Hk2. toQ (<[Y:=k2]> (<[X:=k]> (<[F:=j]> s))). auto.
      + apply rbind_Ok in H as (y&Hy&H). apply rbind_Ok in H as (x&Hx&H). apply rbind_Ok in H as (z&Hz&H).
        wb. eapply (take_smaller_wp X F _ _ i0 j mn (S i)); [exact Hr|ilia|ilia|lk|lk|exact Hx|exact Hy|].
        eapply (take_greater_wp Y F _ _ i0 j mx (S i)); [exact Hr|ilia|ilia|lk|lk|exact Hz|exact Hy|].
        eapply IH; [exact H|ilia|destruct (comp y x); ilia|destruct (comp z y); ilia|destruct (comp y x); ilia|destruct (comp z y); ilia|lk|lk|lk|lk|].
        intros Hk Hk2. toQ (<[Y:=k2]> (<[X:=k]> (<[F:=j]> s))). auto.
  Qed.
  Lemma max_element_by_wp first last o m s i j k :
    algo_max_element_by comp m i j = Ok k ->
    rng L i j -> s !! first = Some i -> s !! last = Some j -> cat_ge L FORWARD i -> out_pre L s o i ->
    fwp L (max_element_by_p comp first last o) m s (sets s o m k).
  Proof.
    intros H Hr Hf Hl Hc Ho. pose proof (rng_le _ _ _ Hr). unfold max_element_by_p. wfw.
    wb. eapply fwp_out_at_least; [exact Ho|done|]. wnew. wnew. wnew.
    wb. eapply (max_loop_wp i j); [exact Hr|congruence..|exact H|ilia|ilia|done|lk|lk|lk|]. intros Hk.
    wb. wout Ho Hr. intros v s' Hs'. wfree_out Hs'. wfree_out Hs'. wfree_out Hs'. wfin1 Hs'.
  Qed.
  Lemma min_element_by_wp first last o m s i j k :
    algo_min_element_by comp m i j = Ok k ->
    rng L i j -> s !! first = Some i -> s !! last = Some j -> cat_ge L FORWARD i -> out_pre L s o i ->
    fwp L (min_element_by_p comp first last o) m s (sets s o m k).
  Proof.
    intros H Hr Hf Hl Hc Ho. pose proof (rng_le _ _ _ Hr). unfold min_element_by_p. wfw.
    wb. eapply fwp_out_at_least; [exact Ho|done|]. wnew. wnew. wnew.
    wb. eapply (min_loop_wp i j); [exact Hr|congruence..|exact H|ilia|ilia|done|lk|lk|lk|]. intros Hk.
    wb. wout Ho Hr. intros v s' Hs'. wfree_out Hs'. wfree_out Hs'. wfree_out Hs'. wfin1 Hs'.
  Qed.
  Lemma minmax_element_by_wp first last v1 v2 m s i j k1 k2 :
    algo_minmax_element_by comp m i j = Ok (k1, k2) ->
    rng L i j -> s !! first = Some i -> s !! last = Some j -> cat_ge L FORWARD i -> out_pre L s (Some v1) i -> out_pre L s (Some v2) i ->
    fwp L (minmax_element_by_p comp first last (Some v1) (Some v2)) m s (sets2 s (Some v1) (Some v2) m k1 k2).
  Proof.
    intros H Hr Hf Hl Hc Ho1 Ho2. pose proof (rng_le _ _ _ Hr). unfold minmax_element_by_p. wfw.
    wb. eapply fwp_out_at_least; [exact Ho1|done|]. wb. eapply fwp_out_at_least; [exact Ho2|done|]. wnew. wnew. wnew. wnew.
    wb. eapply (minmax_loop_wp i j); [exact Hr|congruence..|exact H|ilia|ilia|ilia|done|done|lk|lk|lk|lk|]. intros Hk Hk2.
    wb. wout Ho1 Hr. intros v s1 Hs1.
    wb. eapply (fwp_copy_or_assign L _ _ _ _ k2).
    { eapply out_pre_alike; [eapply (second_out L _ (Some v1) (Some v2)); [..|exact Hs1]; [repeat (eapply out_pre_update; [|one]); eassumption..|]|];
        eapply alike_rng; try exact Hr; ilia. }
    { eapply out_set_lookup; [exact Hs1|lk|one]. }
    intros w s2 Hs2. wfree_out2 Hs1 Hs2. wfree_out2 Hs1 Hs2. wfree_out2 Hs1 Hs2. wfree_out2 Hs1 Hs2.
    apply fwp_ret. split; [done|]. cbn [fst snd]. eexists. split; [|exact Hs2].
    match type of Hs1 with out_set _ _ ?x _ _ => replace s with x by mapeq end. exact Hs1.
  Qed.

  (** ** Two ranges *)
  Lemma lex_loop_wp i01 j1 i02 j2 F1 E1 F2 E2 : rng L i01 j1 -> rng L i02 j2 -> F1 <> E1 -> F1 <> F2 -> F1 <> E2 -> E1 <> F2 -> E1 <> E2 -> F2 <> E2 ->
    forall fuel m i1 i2 k1 k2 ret s (Q : bool -> list A -> gmap iid nat -> Prop),
    lex_loop comp fuel m i1 j1 i2 j2 = Ok (k1, k2, ret) -> i01 <= i1 <= j1 -> i02 <= i2 <= j2 ->
    s !! F1 = Some i1 -> s !! E1 = Some j1 -> s !! F2 = Some i2 -> s !! E2 = Some j2 ->
    (i01 <= k1 <= j1 -> i02 <= k2 <= j2 -> Q ret m (<[F2 := k2]> (<[F1 := k1]> s))) ->
    fwp L (Loop tt (fun _ =>
      b <~ pand (Ne F1 E1) (Ne F2 E2);;
      if b then
        x <~ Deref F1;; y <~ Deref F2;;
        if comp x y then Ret (inr true) else
        y' <~ Deref F2;; x' <~ Deref F1;;
        if comp y' x' then Ret (inr false) else
        Inc F1;;; Inc F2;;; Ret (inl tt)
      else Ret (inr false))) m s Q.
  Proof.
    intros Hr1 Hr2 N1 N2 N3 N4 N5 N6 fuel. induction fuel as [|fuel IH]; intros m i1 i2 k1 k2 ret s Q; cbn [lex_loop]; [done|].
    intros H Hi1 Hi2 HF1 HE1 HF2 HE2 HQ. apply fwp_loop. wb. apply fwp_pand. wne Hr1.
    destruct (Nat.eqb_spec i1 j1) as [Ej1|Hn1]; cbn [negb orb] in *.
    { injection H as <- <- <-. specialize (HQ ltac:(ilia) ltac:(ilia)). rewrite !insert_id in HQ by lk. by apply fwp_ret. }
    wne Hr2. destruct (Nat.eqb_spec i2 j2) as [Ej2|Hn2]; cbn [negb orb] in *.
    { injection H as <- <- <-. specialize (HQ ltac:(ilia) ltac:(ilia)). rewrite !insert_id in HQ by lk. by apply fwp_ret. }
    apply rbind_Ok in H as (x&Hx&H). apply rbind_Ok in H as (y&Hy&H).
    wb. wrd Hr1 Hx. wb. wrd Hr2 Hy. destruct (comp x y).
    { injection H as <- <- <-. specialize (HQ ltac:(ilia) ltac:(ilia)). rewrite !insert_id in HQ by lk. by apply fwp_ret. }
    wb. wrd Hr2 Hy. wb. wrd Hr1 Hx. destruct (comp y x).
    { injection H as <- <- <-. specialize (HQ ltac:(ilia) ltac:(ilia)). rewrite !insert_id in HQ by lk. by apply fwp_ret. }
    wb. winc Hr1. wb. winc Hr2. apply fwp_ret. eapply IH; [exact H|ilia|ilia|lk|lk|lk|lk|]. intros Hk1 Hk2.
    toQ (<[F2:=k2]> (<[F1:=k1]> s)). auto.
  Qed.
  Lemma lexicographical_compare_by_wp first1 last1 first2 last2 m s i1 j1 i2 j2 b :
    algo_lexicographical_compare_by comp m i1 j1 i2 j2 = Ok b ->
    rng L i1 j1 -> rng L i2 j2 -> s !! first1 = Some i1 -> s !! last1 = Some j1 -> s !! first2 = Some i2 -> s !! last2 = Some j2 ->
    cat_ge L FORWARD i1 -> cat_ge L FORWARD i2 ->
    fwp L (lexicographical_compare_by_p comp first1 last1 first2 last2) m s (just s m b).
  Proof.
    intros H Hr1 Hr2 Hf1 Hl1 Hf2 Hl2 Hc1 Hc2. pose proof (rng_le _ _ _ Hr1). pose proof (rng_le _ _ _ Hr2).
    apply rbind_Ok in H as ([[k1 k2] ret]&Hk&[= <-]). cbn [fst snd].
    unfold lexicographical_compare_by_p.
    apply fwp_bind; eapply fwp_forward2; [lk|lk|exact Hc1|eapply cat_rng; [exact Hr1|ilia|exact Hc1]|].
    apply fwp_bind; eapply fwp_forward2; [lk|lk|exact Hc2|eapply cat_rng; [exact Hr2|ilia|exact Hc2]|].
    wnew. wnew. wnew. wnew.
    wb. eapply (lex_loop_wp i1 j1 i2 j2); [exact Hr1|exact Hr2|congruence..|exact Hk|ilia|ilia|lk|lk|lk|lk|]. intros Hk1 Hk2.
    wb. apply fwp_pand. weq Hr1. destruct (k1 =? j1); cbn [andb].
    - wne Hr2. wfree. wfree. wfree. wfree. wfin0.
    - wfree. wfree. wfree. wfree. wfin0.
  Qed.
  Lemma comp_at_wp X Y m s i j k a b c x y (Q : bool -> list A -> gmap iid nat -> Prop) : rng L i j -> i <= k < j -> rng L a b -> a <= c < b ->
    s !! X = Some k -> s !! Y = Some c -> rd m k = Ok x -> rd m c = Ok y -> Q (comp x y) m s -> fwp L (CompAt comp X Y) m s Q.
  Proof.
    intros Hr Hk Hr2 Hc HX HY Hx Hy HQ. unfold CompAt. wb. wrd Hr Hx. wb. wrd Hr2 Hy. by apply fwp_ret.
  Qed.
  Lemma includes_loop_wp i01 j1 i02 j2 F1 E1 F2 E2 : rng L i01 j1 -> rng L i02 j2 -> F1 <> E1 -> F1 <> F2 -> F1 <> E2 -> E1 <> F2 -> E1 <> E2 -> F2 <> E2 ->
    forall fuel m i1 i2 k2 s (Q : unit -> list A -> gmap iid nat -> Prop),
    includes_loop comp fuel m i1 j1 i2 j2 = Ok k2 -> i01 <= i1 <= j1 -> i02 <= i2 <= j2 ->
    s !! F1 = Some i1 -> s !! E1 = Some j1 -> s !! F2 = Some i2 -> s !! E2 = Some j2 ->
    (forall k1, i02 <= k2 <= j2 -> Q tt m (<[F2 := k2]> (<[F1 := k1]> s))) ->
    fwp L (Loop tt (fun _ =>
      b <~ pand (Ne F1 E1) (Ne F2 E2);;
      if b then
        c <~ CompAt comp F2 F1;;
        if c then Ret (inr tt) else
        d <~ CompAt comp F1 F2;;
        (if d then Inc F1 else both_p F1 F2);;; Ret (inl tt)
      else Ret (inr tt))) m s Q.
  Proof.
    intros Hr1 Hr2 N1 N2 N3 N4 N5 N6 fuel. induction fuel as [|fuel IH]; intros m i1 i2 k2 s Q; cbn [includes_loop]; [done|].
    intros H Hi1 Hi2 HF1 HE1 HF2 HE2 HQ. apply fwp_loop. wb. apply fwp_pand. wne Hr1.
    destruct (Nat.eqb_spec i1 j1) as [Ej1|Hn1]; cbn [negb orb] in *.
    { injection H as <-. specialize (HQ i1 ltac:(ilia)). rewrite !insert_id in HQ by lk. by apply fwp_ret. }
    wne Hr2. destruct (Nat.eqb_spec i2 j2) as [Ej2|Hn2]; cbn [negb orb] in *.
    { injection H as <-. specialize (HQ i1 ltac:(ilia)). rewrite !insert_id in HQ by lk. by apply fwp_ret. }
    apply rbind_Ok in H as (x&Hx&H). apply rbind_Ok in H as (y&Hy&H).
    wb. eapply comp_at_wp; [exact Hr2| |exact Hr1| |lk|lk|exact Hy|exact Hx|]; [ilia|ilia|]. destruct (comp y x).
    { injection H as <-. specialize (HQ i1 ltac:(ilia)). rewrite !insert_id in HQ by lk. by apply fwp_ret. }
    wb. eapply comp_at_wp; [exact Hr1| |exact Hr2| |lk|lk|exact Hx|exact Hy|]; [ilia|ilia|]. wb. destruct (comp x y).
    - winc Hr1. apply fwp_ret. eapply IH; [exact H|ilia|ilia|lk|lk|lk|lk|]. intros k1 Hk2.
      toQ (<[F2:=k2]> (<[F1:=k1]> s)). auto.
    - unfold both_p. wb. winc Hr1. winc Hr2. apply fwp_ret. eapply IH; [exact H|ilia|ilia|lk|lk|lk|lk|]. intros k1 Hk2.
      toQ (<[F2:=k2]> (<[F1:=k1]> s)). auto.
  Qed.
  Lemma includes_by_wp first1 last1 first2 last2 m s i1 j1 i2 j2 b :
    algo_includes_by comp m i1 j1 i2 j2 = Ok b ->
    rng L i1 j1 -> rng L i2 j2 -> s !! first1 = Some i1 -> s !! last1 = Some j1 -> s !! first2 = Some i2 -> s !! last2 = Some j2 ->
    cat_ge L FORWARD i1 -> cat_ge L FORWARD i2 ->
    fwp L (includes_by_p comp first1 last1 first2 last2) m s (just s m b).
  Proof.
    intros H Hr1 Hr2 Hf1 Hl1 Hf2 Hl2 Hc1 Hc2. pose proof (rng_le _ _ _ Hr1). pose proof (rng_le _ _ _ Hr2).
    unfold algo_includes_by in H. unfold includes_by_p.
    apply fwp_bind; eapply fwp_forward2; [lk|lk|exact Hc1|eapply cat_rng; [exact Hr1|ilia|exact Hc1]|].
    apply fwp_bind; eapply fwp_forward2; [lk|lk|exact Hc2|eapply cat_rng; [exact Hr2|ilia|exact Hc2]|].
    wb. weq Hr2. destruct (Nat.eqb_spec i2 j2) as [Ej|Hne].
    { injection H as <-. by apply fwp_ret. }
    apply rbind_Ok in H as (k2&Hk&[= <-]). wnew. wnew. wnew. wnew.
    wb. eapply (includes_loop_wp i1 j1 i2 j2); [exact Hr1|exact Hr2|congruence..|exact Hk|ilia|ilia|lk|lk|lk|lk|]. intros k1 Hk2.
    wb. wne Hr2. wfree. wfree. wfree. wfree. rewrite negb_involutive. wfin0.
  Qed.

  (** ** Sortedness *)
  Lemma sorted_until_loop_wp i0 j F E N : rng L i0 j -> F <> E -> F <> N -> E <> N ->
    forall fuel m i r s (Q : bool -> list A -> gmap iid nat -> Prop),
    sorted_until_loop comp fuel m i (S i) j = Ok r -> i0 <= i < j -> s !! F = Some i -> s !! E = Some j -> s !! N = Some (S i) ->
    (forall k k', i0 <= k <= j -> match r with None => True | Some u => k = u end ->
       Q (match r with None => true | Some _ => false end) m (<[N := k']> (<[F := k]> s))) ->
    fwp L (Loop tt (fun _ =>
      b <~ Ne N E;;
      if b then
        x <~ Deref N;; y <~ Deref F;;
        if comp x y then Ret (inr false) else Inc F;;; Inc N;;; Ret (inl tt)
      else Ret (inr true))) m s Q.
  Proof.
    intros Hr N1 N2 N3 fuel. induction fuel as [|fuel IH]; intros m i r s Q; [done|].
    change (sorted_until_loop comp (S fuel) m i (S i) j) with
      (if S i =? j then Ok None else do x <- rd m (S i); do y <- rd m i; if comp x y then Ok (Some i) else sorted_until_loop comp fuel m (S i) (S (S i)) j).
    intros H Hi HF HE HN HQ. apply fwp_loop. wb. wne Hr.
    destruct (Nat.eqb_spec (S i) j) as [Ej|Hne]; cbn [negb].
    - injection H as <-. apply fwp_ret. specialize (HQ i (S i) ltac:(ilia) I). by rewrite !insert_id in HQ by lk.
    - apply rbind_Ok in H as (x&Hx&H). apply rbind_Ok in H as (y&Hy&H). wb. wrd Hr Hx. wb. wrd Hr Hy. destruct (comp x y).
      + injection H as <-. apply fwp_ret. specialize (HQ i (S i) ltac:(ilia) eq_refl). by rewrite !insert_id in HQ by lk.
      + wb. winc Hr. wb. winc Hr. apply fwp_ret. eapply IH; [exact H|ilia|lk|lk|lk|]. intros k k' Hk Hm.
        toQ (<[N:=k']> (<[F:=k]> s)). auto.
  Qed.
  Lemma is_sorted_until_by_wp first last o m s i j u :
    algo_is_sorted_until_by comp m i j = Ok u ->
    rng L i j -> s !! first = Some i -> s !! last = Some j -> cat_ge L FORWARD i -> out_pre L s o i ->
    fwp L (is_sorted_until_by_p comp first last o) m s (sets s o m u).
  Proof.
    intros H Hr Hf Hl Hc Ho. pose proof (rng_le _ _ _ Hr). unfold is_sorted_until_by_p. unfold algo_is_sorted_until_by in H.
    wfw. wb. eapply fwp_out_at_least; [exact Ho|done|]. wb. weq Hr. destruct (Nat.eqb_spec i j) as [Ej|Hne].
    { injection H as <-. wout Ho Hr. intros v s' Hs'. by split. }
    apply rbind_Ok in H as (r&Hk&[= <-]). wnew. wnew. wnew. wb. winc Hr.
    wb. eapply (sorted_until_loop_wp i j); [exact Hr|congruence..|exact Hk|ilia|lk|lk|lk|]. intros k k' Hkb Hm.
    destruct r as [u|].
    - subst k. wb. wout Ho Hr. intros v s' Hs'. wfree_out Hs'. wfree_out Hs'. wfree_out Hs'. wfin1 Hs'.
    - wb. wout Ho Hr. intros v s' Hs'. wfree_out Hs'. wfree_out Hs'. wfree_out Hs'. wfin1 Hs'.
  Qed.
  Lemma sorted_until_bounds m j : forall fuel i u, sorted_until_loop comp fuel m i (S i) j = Ok (Some u) -> i < j -> i <= u <= j.
  Proof.
    intros fuel. induction fuel as [|fuel IH]; intros i u; [done|].
    change (sorted_until_loop comp (S fuel) m i (S i) j) with
      (if S i =? j then Ok None else do x <- rd m (S i); do y <- rd m i; if comp x y then Ok (Some i) else sorted_until_loop comp fuel m (S i) (S (S i)) j).
    destruct (Nat.eqb_spec (S i) j); [done|]. intros [x [_ [y [_ H]]%rbind_Ok]]%rbind_Ok Hi.
    destruct (comp x y); [injection H as <-; lia|]. apply IH in H; lia.
  Qed.
  Lemma is_sorted_by_wp first last m s i j b :
    algo_is_sorted_by comp m i j = Ok b ->
    rng L i j -> s !! first = Some i -> s !! last = Some j -> cat_ge L FORWARD i ->
    fwp L (is_sorted_by_p comp first last) m s (just s m b).
  Proof.
    intros H Hr Hf Hl Hc. pose proof (rng_le _ _ _ Hr). apply rbind_Ok in H as (u&Hu&[= <-]).
    assert (i <= u <= j) as Hub.
    { unfold algo_is_sorted_until_by in Hu. destruct (Nat.eqb_spec i j); [injection Hu as <-; lia|].
      apply rbind_Ok in Hu as ([v|]&Hv&[= <-]); [|lia]. apply sorted_until_bounds in Hv; lia. }
    unfold is_sorted_by_p. wfw. wnew. wnew.
    wb. eapply fwp_mono; [eapply is_sorted_until_by_wp; [exact Hu|exact Hr|lk|lk|exact Hc|done]|].
    intros r m1 s1 (->&Hs1). destruct Hs1 as (U&HU&->&->).
    apply lookup_insert_None in HU as [HU ?]. apply lookup_insert_None in HU as [HU ?].
    wb. weq Hr. wfree. wfree. wfree. wfin0.
  Qed.
End ord_proofs2.
