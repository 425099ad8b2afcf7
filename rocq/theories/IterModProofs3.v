(** IterModProofs3.v — continuation of IterModProofs.v: the functions of c_modifying.c that permute. *)
From stdpp Require Import list gmap.
From Verif Require Import Base Iter IterFlat IterWp IterNonMod IterNonModProofs IterMod IterModProofs AlgoNonMod AlgoMod.
From stdpp Require Import list.

Section mod_proofs3.
  Context {A : Type} (L : layout).
  Implicit Types (m : list A) (s : gmap iid nat).

  Lemma swp_inv m i j m' : swp m i j = Ok m' -> exists x y m1, rd m i = Ok x /\ rd m j = Ok y /\ wr m i y = Ok m1 /\ wr m1 j x = Ok m'.
  Proof.
    unfold swp. intros [x [Hx [y [Hy [m1 [H1 H2]]%rbind_Ok]]%rbind_Ok]]%rbind_Ok. eauto 10.
  Qed.
  Lemma swap_wp X Y m s i j a b c d m' (Q : unit -> list A -> gmap iid nat -> Prop) :
    swp m i j = Ok m' -> rng L a b -> a <= i < b -> rng L c d -> c <= j < d -> writable L a -> writable L c ->
    s !! X = Some i -> s !! Y = Some j -> Q tt m' s -> fwp L (swap_p X Y) m s Q.
  Proof.
    intros (x&y&m1&Hx&Hy&H1&H2)%swp_inv Hr Hi Hr2 Hj Hw Hw2 HX HY HQ. unfold swap_p.
    wb. wrd Hr Hx. wb. wda Hr2 Hy Hr Hw H1. wwr Hr2 Hw2 H2. done.
  Qed.
  Lemma iter_swap_wp X Y m s i j a b c d m' (Q : unit -> list A -> gmap iid nat -> Prop) :
    swp m i j = Ok m' -> rng L a b -> a <= i < b -> rng L c d -> c <= j < d -> writable L a -> writable L c ->
    cat_ge L FORWARD a -> cat_ge L FORWARD c ->
    s !! X = Some i -> s !! Y = Some j -> Q tt m' s -> fwp L (iter_swap_p X Y) m s Q.
  Proof.
    intros H Hr Hi Hr2 Hj Hw Hw2 Hc Hc2 HX HY HQ. unfold iter_swap_p.
    wb. eapply fwp_at_least; [lk|eapply (cat_rng L _ a b); [exact Hr|ilia|exact Hc]|].
    wb. eapply fwp_at_least; [lk|eapply (cat_rng L _ c d); [exact Hr2|ilia|exact Hc2]|].
    wb. eapply fwp_is_mutable; [lk|eapply (writable_rng L a b); [exact Hr|ilia|exact Hw]|].
    wb. eapply fwp_is_mutable; [lk|eapply (writable_rng L c d); [exact Hr2|ilia|exact Hw2]|].
    eapply (swap_wp _ _ _ _ i j a b c d); eauto.
  Qed.
  Lemma swap_range_loop_wp F E G : F <> E -> F <> G -> E <> G ->
    forall fuel m a i j b k c n m' n' s (Q : nat -> list A -> gmap iid nat -> Prop),
    swap_range_loop fuel m i j k n = Ok (m', n') -> rng L a j -> a <= i <= j -> rng L b c -> b <= k -> k + (j - i) <= c ->
    writable L a -> writable L b ->
    s !! F = Some i -> s !! E = Some j -> s !! G = Some k -> Q n' m' (<[G := k + (j - i)]> (<[F := j]> s)) ->
    fwp L (each_p F E (fun n => swap_p F G;;; Inc F;;; Inc G;;; Ret (S n)) n) m s Q.
  Proof.
    intros N1 N2 N3 fuel. induction fuel as [|fuel IH]; intros m a i j b k c n m' n' s Q; cbn [swap_range_loop]; [done|].
    intros H Hr Hi Hr2 Hk Hc Hw Hw2 HF HE HG HQ. apply fwp_whilev. wne Hr. destruct (Nat.eqb_spec i j) as [->|Hij]; cbn [negb].
    - injection H as <- <-. rewrite Nat.sub_diag, Nat.add_0_r in HQ. by rewrite !insert_id in HQ by lk.
    - apply rbind_Ok in H as (m1&Hm&H).
      wb. eapply (swap_wp _ _ _ _ i k a j b c); [exact Hm|exact Hr|ilia|exact Hr2|ilia|exact Hw|exact Hw2|lk|lk|].
      wb. winc Hr. wb. winc Hr2. apply fwp_ret.
      eapply (IH _ a (S i) j b (S k) c); [exact H|exact Hr|ilia|exact Hr2|ilia|ilia|exact Hw|exact Hw2|lk|lk|lk|].
      replace (S k + (j - S i)) with (k + (j - i)) by ilia.
      match goal with |- Q _ _ ?x => replace x with (<[G:=k + (j - i)]> (<[F:=j]> s)) by mapeq end. done.
  Qed.
  Lemma swap_range_wp first1 last1 first2 m s i j b c m' n :
    algo_swap_range m i j b = Ok (m', n) -> rng L i j -> rng L b c -> b + (j - i) <= c -> writable L i -> writable L b ->
    cat_ge L FORWARD i -> cat_ge L FORWARD b -> s !! first1 = Some i -> s !! last1 = Some j -> s !! first2 = Some b ->
    fwp L (swap_range_p first1 last1 first2) m s (makes s n m').
  Proof.
    intros H Hr Hr2 Hb Hw Hw2 Hc Hc2 Hf Hl Hg. pose proof (rng_le _ _ _ Hr). unfold swap_range_p.
    wb. eapply fwp_forward3; [lk|lk|lk|exact Hc|eapply cat_rng; [exact Hr|ilia|exact Hc]|exact Hc2|].
    wmut. wmut. wnew. wnew. wnew.
    wb. eapply (swap_range_loop_wp); [congruence..|exact H|exact Hr|ilia|exact Hr2|ilia|ilia|exact Hw|exact Hw2|lk|lk|lk|].
    wfree. wfree. wfree. wfin0.
  Qed.

  Lemma reverse_loop_wp F E : F <> E ->
    forall fuel m a b i j n m' n' s (Q : nat -> list A -> gmap iid nat -> Prop),
    reverse_loop fuel m i j n = Ok (m', n') -> rng L a b -> a <= i <= j -> j <= b -> writable L a -> cat_ge L BIDIRECTION a ->
    s !! F = Some i -> s !! E = Some j -> (forall k, Q n' m' (<[E := k]> (<[F := k]> s))) ->
    fwp L (each_p F E (fun n => Dec E;;; b <~ Ne F E;; n' <~ (if b then swap_p F E;;; Inc F;;; Ret (S n) else Ret n);; Ret (S n')) n) m s Q.
  Proof.
    intros N fuel. induction fuel as [|fuel IH]; intros m a b i j n m' n' s Q; cbn [reverse_loop]; [done|].
    intros H Hr Hi Hj Hw Hc HF HE HQ. apply fwp_whilev. wne Hr. destruct (Nat.eqb_spec i j) as [->|Hij]; cbn [negb].
    - injection H as <- <-. specialize (HQ j). by rewrite !insert_id in HQ by lk.
    - destruct j as [|j]; [done|]. wb. wdec Hr Hc. replace (S j - 1) with j by ilia.
      wb. wne Hr. destruct (Nat.eqb_spec i j) as [->|Hij2]; cbn [negb].
      + wb. apply fwp_ret. apply fwp_ret.
        eapply (IH _ a b j j); [exact H|exact Hr|ilia|ilia|exact Hw|exact Hc|lk|lk|]. intros k.
        match goal with |- Q _ _ ?x => replace x with (<[E:=k]> (<[F:=k]> s)) by mapeq end. done.
      + apply rbind_Ok in H as (m1&Hm&H).
        wb. wb. eapply (swap_wp _ _ _ _ i j a b a b); [exact Hm|exact Hr|ilia|exact Hr|ilia|exact Hw|exact Hw|lk|lk|].
        wb. winc Hr. apply fwp_ret. apply fwp_ret.
        eapply (IH _ a b (S i) j); [exact H|exact Hr|ilia|ilia|exact Hw|exact Hc|lk|lk|]. intros k.
        match goal with |- Q _ _ ?x => replace x with (<[E:=k]> (<[F:=k]> s)) by mapeq end. done.
  Qed.
  Lemma reverse_wp first last m s i j m' n :
    algo_reverse m i j = Ok (m', n) -> rng L i j -> writable L i -> cat_ge L BIDIRECTION i ->
    s !! first = Some i -> s !! last = Some j ->
    fwp L (reverse_p first last) m s (makes s n m').
  Proof.
    intros H Hr Hw Hc Hf Hl. pose proof (rng_le _ _ _ Hr). unfold reverse_p. wcat. wcat. wmut. wmut. wnew. wnew.
    wb. eapply (reverse_loop_wp); [congruence|exact H|exact Hr|ilia|ilia|exact Hw|exact Hc|lk|lk|]. intros k. wfree. wfree. wfin0.
  Qed.

  (** ** rotate *)
  Lemma rotate_step_wp F N X m s a b f nf x m' (Q : unit -> list A -> gmap iid nat -> Prop) : F <> N -> F <> X -> N <> X ->
    swp m f x = Ok m' -> rng L a b -> a <= f < b -> a <= x < b -> a <= nf <= b -> writable L a -> cat_ge L FORWARD a ->
    s !! F = Some f -> s !! N = Some nf -> s !! X = Some x ->
    Q tt m' (<[N := if S f =? nf then S x else nf]> (<[X := S x]> (<[F := S f]> s))) ->
    fwp L (rotate_step_p F N X) m s Q.
  Proof.
    intros N1 N2 N3 Hm Hr Hf Hx Hnf Hw Hc HF HN HX HQ. unfold rotate_step_p.
    wb. eapply (iter_swap_wp _ _ _ _ f x a b a b); [exact Hm|exact Hr|ilia|exact Hr|ilia|exact Hw|exact Hw|exact Hc|exact Hc|lk|lk|].
    wb. winc Hr. wb. winc Hr. wb. weq Hr. destruct (S f =? nf).
    - wassign Hr. done.
    - apply fwp_ret. rewrite (insert_id _ N) in HQ by lk. done.
  Qed.
  Lemma rotate_loop1_bounds : forall fuel m f nf x j m' f' nf', rotate_loop1 fuel m f nf x j = Ok (m', f', nf') ->
    f < nf -> nf <= x -> x < j -> f < f' /\ f' <= nf' /\ nf' <= j /\ f' < nf'.
  Proof.
    intros fuel. induction fuel as [|fuel IH]; intros m f nf x j m' f' nf'; cbn [rotate_loop1]; [done|].
    intros [m1 [_ H]]%rbind_Ok Hf Hx Hj. destruct (Nat.eqb_spec (S x) j).
    - destruct (Nat.eqb_spec (S f) nf); injection H as <- <- <-; lia.
    - destruct (Nat.eqb_spec (S f) nf); apply IH in H; lia.
  Qed.
  Lemma rotate_loop1_length : forall fuel (m : list A) f nf x j m' f' nf', rotate_loop1 fuel m f nf x j = Ok (m', f', nf') ->
    length m' = length m.
  Proof.
    assert (forall x y (u w : list A), swp u x y = Ok w -> length w = length u) as Hsw.
    { intros x y u w (p&q&u1&_&_&->%wr_inv&->%wr_inv)%swp_inv. by rewrite !insert_length. }
    intros fuel. induction fuel as [|fuel IH]; intros m f nf x j m' f' nf'; cbn [rotate_loop1]; [done|].
    intros [m2 [H2 H]]%rbind_Ok. apply Hsw in H2. rewrite <- H2. destruct (S x =? j); [by injection H as <- _ _|]. by eapply IH.
  Qed.
  Lemma rotate_loop1_wp F N X E : F <> N -> F <> X -> N <> X -> F <> E -> N <> E -> X <> E ->
    forall fuel m a f nf x j m' f' nf' s (Q : unit -> list A -> gmap iid nat -> Prop),
    rotate_loop1 fuel m f nf x j = Ok (m', f', nf') -> rng L a j -> a <= f < nf -> nf <= x < j -> writable L a -> cat_ge L FORWARD a ->
    s !! F = Some f -> s !! N = Some nf -> s !! X = Some x -> s !! E = Some j ->
    Q tt m' (<[N := nf']> (<[X := j]> (<[F := f']> s))) ->
    fwp L (Loop tt (fun _ => rotate_step_p F N X;;; b <~ Ne X E;; Ret (if b then inl tt else inr tt))) m s Q.
  Proof.
    intros N1 N2 N3 N4 N5 N6 fuel. induction fuel as [|fuel IH]; intros m a f nf x j m' f' nf' s Q; cbn [rotate_loop1]; [done|].
    intros H Hr Hf Hx Hw Hc HF HN HX HE HQ. apply rbind_Ok in H as (m1&Hm&H). apply fwp_loop.
    wb. eapply (rotate_step_wp F N X _ _ a j f nf x); [congruence..|exact Hm|exact Hr|ilia|ilia|ilia|exact Hw|exact Hc|lk|lk|lk|].
    wb. eapply fwp_ne; [lk|lk|by eapply rng_eq; [exact Hr|ilia..]|]. apply fwp_ret.
    destruct (Nat.eqb_spec (S x) j) as [<-|Hne]; cbn [negb].
    - injection H as <- <- <-. done.
    - eapply (IH _ a _ _ _ j); [exact H|exact Hr|destruct (Nat.eqb_spec (S f) nf); ilia|destruct (Nat.eqb_spec (S f) nf); ilia|exact Hw|exact Hc|lk|lk|lk|lk|].
      match goal with |- Q _ _ ?z => replace z with (<[N:=nf']> (<[X:=j]> (<[F:=f']> s))) by mapeq end. done.
  Qed.
  Lemma rotate_loop2_wp F N X E : F <> N -> F <> X -> N <> X -> F <> E -> N <> E -> X <> E ->
    forall fuel m a f nf x j m' s (Q : unit -> list A -> gmap iid nat -> Prop),
    rotate_loop2 fuel m f nf x j = Ok m' -> rng L a j -> a <= f -> (f < nf \/ f = j /\ nf = j) -> nf <= x <= j -> writable L a -> cat_ge L FORWARD a ->
    s !! F = Some f -> s !! N = Some nf -> s !! X = Some x -> s !! E = Some j ->
    (forall k1 k2 k3, Q tt m' (<[N := k1]> (<[X := k2]> (<[F := k3]> s)))) ->
    fwp L (While (Ne X E) (rotate_step_p F N X;;; e <~ Eq X E;; (if e then Assign X N else Ret tt))) m s Q.
  Proof.
    intros N1 N2 N3 N4 N5 N6 fuel. induction fuel as [|fuel IH]; intros m a f nf x j m' s Q; cbn [rotate_loop2]; [done|].
    intros H Hr Ha Hf Hx Hw Hc HF HN HX HE HQ. apply fwp_while. wne Hr. destruct (Nat.eqb_spec x j) as [->|Hne]; cbn [negb].
    - injection H as <-. specialize (HQ nf j f). by rewrite !insert_id in HQ by lk.
    - apply rbind_Ok in H as (m1&Hm&H). 
      wb. eapply (rotate_step_wp F N X _ _ a j f nf x); [congruence..|exact Hm|exact Hr|ilia|ilia|ilia|exact Hw|exact Hc|lk|lk|lk|].
      wb. eapply fwp_eq; [lk|lk|by eapply rng_eq; [exact Hr|ilia..]|].
      destruct (Nat.eqb_spec (S x) j) as [Ej|Hne2].
      + eapply fwp_assign; [lk|lk|eapply alike_rng; [exact Hr|ilia..|destruct (S f =? nf); ilia]|].
        eapply (IH _ a _ _ _ j); [exact H|exact Hr|ilia|destruct (Nat.eqb_spec (S f) nf); ilia|destruct (Nat.eqb_spec (S f) nf); ilia|exact Hw|exact Hc|lk|lk|lk|lk|].
        intros k1 k2 k3. match goal with |- Q _ _ ?z => replace z with (<[N:=k1]> (<[X:=k2]> (<[F:=k3]> s))) by mapeq end. done.
      + apply fwp_ret.
        eapply (IH _ a _ _ _ j); [exact H|exact Hr|ilia|destruct (Nat.eqb_spec (S f) nf); ilia|destruct (Nat.eqb_spec (S f) nf); ilia|exact Hw|exact Hc|lk|lk|lk|lk|].
        intros k1 k2 k3. match goal with |- Q _ _ ?z => replace z with (<[N:=k1]> (<[X:=k2]> (<[F:=k3]> s))) by mapeq end. done.
  Qed.
  (** the second loop and the frees *)
  Lemma rotate_tail_wp F N X E m s a f nf x j m' (v : option iid) : F <> N -> F <> X -> N <> X -> F <> E -> N <> E -> X <> E ->
    rotate_loop2 (S (length m)) m f nf nf j = Ok m' -> rng L a j -> a <= f -> f < nf <= j -> a <= x <= j -> writable L a -> cat_ge L FORWARD a ->
    s !! F = Some f -> s !! N = Some nf -> s !! X = Some x -> s !! E = Some j ->
    fwp L (Assign X N;;;
      While (Ne X E) (rotate_step_p F N X;;; e <~ Eq X E;; (if e then Assign X N else Ret tt));;;
      Free X;;; Free F;;; Free N;;; Free E;;; Ret v) m s
      (fun r m1 s1 => r = v /\ m1 = m' /\ s1 = delete E (delete N (delete F (delete X s)))).
  Proof.
    intros N1 N2 N3 N4 N5 N6 H Hr Ha Hf Hx Hw Hc HF HN HX HE.
    wb. eapply fwp_assign; [lk|lk|eapply alike_rng; [exact Hr|ilia..]|].
    wb. eapply (rotate_loop2_wp F N X E); [congruence..|exact H|exact Hr|ilia|ilia|ilia|exact Hw|exact Hc|lk|lk|lk|lk|].
    intros k1 k2 k3. wfree. wfree. wfree. wfree. apply fwp_ret. split; [done|]. split; [done|]. mapeq.
  Qed.
  Lemma rotate_wp first n_first last o m s i nf j m' e :
    algo_rotate m i nf j = Ok (m', e) -> rng L i j -> i <= nf <= j -> i <= e <= j -> writable L i -> cat_ge L FORWARD i ->
    s !! first = Some i -> s !! n_first = Some nf -> s !! last = Some j -> out_pre L s o i ->
    fwp L (rotate_p first n_first last o) m s (fun r m1 s1 => m1 = m' /\ out_set o e s r s1).
  Proof.
    intros H Hr Hnf Hij Hw Hc Hf Hn Hl Ho. unfold rotate_p, algo_rotate in *.
    wb. eapply fwp_forward3; [lk|lk|lk|exact Hc|eapply cat_rng; [exact Hr|ilia|exact Hc]|eapply cat_rng; [exact Hr|ilia|exact Hc]|].
    wmut. wmut. wb. weq Hr. destruct (Nat.eqb_spec i nf) as [->|Hne].
    { injection H as <- <-. wout Ho Hr. intros v s' Hs'. done. }
    wb. weq Hr. destruct (Nat.eqb_spec nf j) as [->|Hne2].
    { injection H as <- <-. wout Ho Hr. intros v s' Hs'. done. }
    apply rbind_Ok in H as ([[m1 f1] nf1]&H1&H). apply rbind_Ok in H as (m2&H2&[= <- <-]). cbn [fst snd] in *.
    pose proof (rotate_loop1_bounds _ _ _ _ _ _ _ _ _ H1 ltac:(ilia) ltac:(ilia) ltac:(ilia)) as (B1&B2&B3&B4).
    wnew. wnew. wnew. wnew.
    wb. eapply (rotate_loop1_wp); [..|exact H1|exact Hr|ilia|ilia|exact Hw|exact Hc|lk|lk|lk|lk|]; [congruence..|].
    wb. wout Ho Hr. intros v s' Hs'.
    eapply fwp_mono; [eapply (rotate_tail_wp _ _ _ _ m1 s' i f1 nf1 j j); [congruence|congruence|congruence|congruence|congruence|congruence| |exact Hr|ilia|ilia|ilia|exact Hw|exact Hc| | | | ]|].
    - enough (length m1 = length m) as -> by exact H2.
      by eapply rotate_loop1_length.
    - eapply out_set_lookup; [exact Hs'|lk|one].
    - eapply out_set_lookup; [exact Hs'|lk|one].
    - eapply out_set_lookup; [exact Hs'|lk|one].
    - eapply out_set_lookup; [exact Hs'|lk|one].
    - intros r mm ss (->&->&->). split; [done|].
      match goal with |- out_set _ _ _ _ (delete ?d (delete ?c (delete ?b (delete ?a _)))) =>
        eapply (out_set_delete _ _ _ _ _ a) in Hs'; [|lk|one];
        eapply (out_set_delete _ _ _ _ _ b) in Hs'; [|lk|one];
        eapply (out_set_delete _ _ _ _ _ c) in Hs'; [|lk|one];
        eapply (out_set_delete _ _ _ _ _ d) in Hs'; [|lk|one] end.
      match type of Hs' with out_set _ _ ?x _ _ => replace s with x by mapeq end. exact Hs'.
  Qed.

  (** ** random_shuffle *)
  Lemma shuffle_loop_wp F X Y r : F <> X -> F <> Y -> X <> Y ->
    forall i m f b kx ky m' s (Q : nat * option iid * option iid -> list A -> gmap iid nat -> Prop),
    shuffle_loop m f i r = Ok m' -> rng L f b -> f + i < b -> (forall k, 0 < k <= i -> r k <= k) -> writable L f -> cat_ge L RANDOM f ->
    s !! F = Some f -> s !! X = Some kx -> s !! Y = Some ky -> f <= kx <= b -> f <= ky <= b ->
    (forall k1 k2, Q (0, Some X, Some Y) m' (<[X := k1]> (<[Y := k2]> s))) ->
    fwp L (WhileV (i, Some X, Some Y) (fun '(i, _, _) => Ret (0 <? i))
            (fun '(i, x, y) => x' <~ copy_and_move x F (Z.of_nat i);; y' <~ copy_and_move y F (Z.of_nat (r i));;
               iter_swap_p x' y';;; Ret (i - 1, Some x', Some y'))) m s Q.
  Proof.
    intros N1 N2 N3 i. induction i as [|i IH]; intros m f b kx ky m' s Q; cbn [shuffle_loop].
    - intros [= <-] Hr Hb Hrr Hw Hc HF HX HY Hkx Hky HQ. apply fwp_whilev, fwp_ret. cbn.
      specialize (HQ kx ky). by rewrite !insert_id in HQ by lk.
    - intros H Hr Hb Hrr Hw Hc HF HX HY Hkx Hky HQ. apply rbind_Ok in H as (m1&Hm&H). apply fwp_whilev, fwp_ret. cbn [Nat.ltb Nat.leb].
      pose proof (Hrr (S i) ltac:(ilia)).
      wb. cbn [copy_and_move]. wb. eapply fwp_assign_and_move; [lk|lk|eapply alike_rng; [exact Hr|ilia..]|apply (rng_advz L m f b f (f + S i)); [lia|exact Hr|ilia..|by left; lia]|].
      apply fwp_ret. wb. wb. eapply fwp_assign_and_move; [lk|lk|eapply alike_rng; [exact Hr|ilia..]|apply (rng_advz L m f b f (f + r (S i))); [lia|exact Hr|ilia..|by left; lia]|].
      apply fwp_ret.
      assert (cat_ge L FORWARD f) as Hc2 by (eapply (cat_weaken L RANDOM); [unfold FORWARD, RANDOM; lia|done]).
      wb. eapply (iter_swap_wp _ _ _ _ (f + S i) (f + r (S i)) f b f b); [exact Hm|exact Hr|ilia|exact Hr|ilia|exact Hw|exact Hw|exact Hc2|exact Hc2|lk|lk|].
      apply fwp_ret. replace (S i - 1) with i by ilia.
      eapply (IH _ f b _ _ m'); [exact H|exact Hr|ilia|intros k Hk; apply Hrr; ilia|exact Hw|exact Hc|lk|lk|lk|ilia|ilia|].
      intros k1 k2. match goal with |- Q _ _ ?z => replace z with (<[X:=k1]> (<[Y:=k2]> s)) by mapeq end. done.
  Qed.
  Lemma exactly_wp x c m s k (Q : unit -> list A -> gmap iid nat -> Prop) : s !! x = Some k -> flat_cat L k = Ok c -> Q tt m s ->
    fwp L (exactly x c) m s Q.
  Proof.
    intros Hx Hk HQ. apply fwp_bind. eapply (wp_cat (flat L)); [exact Hx|exact Hk|]. cbn [fst snd].
    rewrite Nat.eqb_refl. by apply fwp_ret.
  Qed.
  Lemma random_shuffle_by_wp first last r m s i j m' :
    algo_random_shuffle_by m i j r = Ok m' -> rng L i j -> (forall k, 0 < k < j - i -> r k <= k) -> writable L i ->
    flat_cat L i = Ok RANDOM -> flat_cat L j = Ok RANDOM -> s !! first = Some i -> s !! last = Some j ->
    fwp L (random_shuffle_by_p first last r) m s (makes s tt m').
  Proof.
    intros H Hr Hrr Hw Hc Hc2 Hf Hl. pose proof (rng_le _ _ _ Hr). unfold random_shuffle_by_p, algo_random_shuffle_by in *.
    assert (cat_ge L RANDOM i) as Hc3.
    { unfold flat_cat in Hc. destruct (loc L i) as [[[a o] d]|] eqn:E; [|done]. injection Hc as Hc. exists a, o, d. split; [done|lia]. }
    wb. eapply exactly_wp; [lk|done|]. wb. eapply exactly_wp; [lk|done|]. wmut. wnew. wnew.
    wb. eapply fwp_dist; [lk|lk|by eapply rng_dist; [exact Hr|ilia..]|].
    replace (Z.to_nat (Z.of_nat j - Z.of_nat i - 1)) with (j - i - 1) by lia.
    destruct (j - i - 1) as [|k] eqn:Ek.
    { cbn [shuffle_loop] in H. injection H as <-. wb. apply fwp_whilev, fwp_ret. cbn. wb. apply fwp_ret. wb. apply fwp_ret.
      wfree. eapply fwp_free; [lk|]. split; [done|]. split; [done|]. mapeq. }
    cbn [shuffle_loop] in H. apply rbind_Ok in H as (m1&Hm&H). pose proof (Hrr (S k) ltac:(ilia)).
    wb. apply fwp_whilev, fwp_ret. cbn [Nat.ltb Nat.leb copy_and_move].
    wb. eapply fwp_new_and_move; [lk|apply (rng_advz L m i j i (i + S k)); [lia|exact Hr|ilia..|by left; lia]|]. intros X HX. fresh_hyps.
    wb. eapply fwp_new_and_move; [lk|apply (rng_advz L m i j i (i + r (S k))); [lia|exact Hr|ilia..|by left; lia]|]. intros Y HY. fresh_hyps.
    assert (cat_ge L FORWARD i) as Hc4 by (eapply (cat_weaken L RANDOM); [unfold FORWARD, RANDOM; lia|done]).
    wb. eapply (iter_swap_wp _ _ _ _ (i + S k) (i + r (S k)) i j i j); [exact Hm|exact Hr|ilia|exact Hr|ilia|exact Hw|exact Hw|exact Hc4|exact Hc4|lk|lk|].
    apply fwp_ret. replace (S k - 1) with k by ilia.
    eapply (shuffle_loop_wp _ X Y r); [congruence..|exact H|exact Hr|ilia|intros k' Hk'; apply Hrr; ilia|exact Hw|exact Hc3|lk|lk|lk|ilia|ilia|].
    intros k1 k2. cbn [fst snd free_opt]. wfree. wfree. wfree. eapply fwp_free; [lk|]. split; [done|]. split; [done|]. mapeq.
  Qed.
End mod_proofs3.
