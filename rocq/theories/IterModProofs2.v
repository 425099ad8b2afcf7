(** IterModProofs2.v — continuation of IterModProofs.v: the functions of c_modifying.c that work in place. *)
From stdpp Require Import list gmap.
From Verif Require Import Base Iter IterFlat IterWp IterNonMod IterNonModProofs IterMod IterModProofs AlgoNonMod AlgoMod.
From stdpp Require Import list.

Section mod_proofs2.
  Context {A : Type} (L : layout).
  Implicit Types (m : list A) (s : gmap iid nat).

  (** ** fill, generate *)
  Lemma gen_loop_wp {St} (gen : St -> St * A) F E : F <> E ->
    forall fuel m st i0 i j n m' st' n' s (Q : St * nat -> list A -> gmap iid nat -> Prop),
    gen_loop fuel gen m st i j n = Ok (m', st', n') -> rng L i0 j -> i0 <= i <= j -> writable L i0 ->
    s !! F = Some i -> s !! E = Some j -> Q (st', n') m' (<[F := j]> s) ->
    fwp L (WhileV (st, n) (fun _ => Ne F E) (fun '(st, n) => Write F (gen st).2;;; Inc F;;; Ret ((gen st).1, S n))) m s Q.
  Proof.
    intros N fuel. induction fuel as [|fuel IH]; intros m st i0 i j n m' st' n' s Q; cbn [gen_loop]; [done|].
    intros H Hr Hi Hw HF HE HQ. apply fwp_whilev. wne Hr. destruct (Nat.eqb_spec i j) as [->|Hij]; cbn [negb].
    - injection H as <- <- <-. by rewrite insert_id in HQ.
    - destruct (gen st) as [st1 v] eqn:Eg. apply rbind_Ok in H as (m1&Hm&H). cbn [fst snd].
      wb. wwr Hr Hw Hm. wb. winc Hr. apply fwp_ret.
      eapply (IH _ _ i0); [exact H|exact Hr|ilia|exact Hw|lk|lk|]. by rewrite insert_insert.
  Qed.
  Lemma generate_wp {St} (gen : St -> St * A) first last m st s i j m' st' n :
    algo_generate m i j gen st = Ok (m', st', n) -> rng L i j -> writable L i -> cat_ge L FORWARD i ->
    s !! first = Some i -> s !! last = Some j ->
    fwp L (generate_p first last gen st) m s (makes s (st', n) m').
  Proof.
    intros H Hr Hw Hc Hf Hl. pose proof (rng_le _ _ _ Hr). unfold generate_p. wcat. wcat. wmut. wnew. wnew.
    wb. eapply gen_loop_wp; [congruence|exact H|exact Hr|ilia|exact Hw|lk|lk|]. wfree. wfree. wfin0.
  Qed.
  Lemma fill_loop_wp (value : A) F E : F <> E ->
    forall fuel m st i0 i j n m' st' n' s (Q : nat -> list A -> gmap iid nat -> Prop),
    gen_loop fuel (fun u : unit => (u, value)) m st i j n = Ok (m', st', n') -> rng L i0 j -> i0 <= i <= j -> writable L i0 ->
    s !! F = Some i -> s !! E = Some j -> Q n' m' (<[F := j]> s) ->
    fwp L (each_p F E (fun n => Write F value;;; Inc F;;; Ret (S n)) n) m s Q.
  Proof.
    intros N fuel. induction fuel as [|fuel IH]; intros m st i0 i j n m' st' n' s Q; cbn [gen_loop]; [done|].
    intros H Hr Hi Hw HF HE HQ. apply fwp_whilev. wne Hr. destruct (Nat.eqb_spec i j) as [->|Hij]; cbn [negb].
    - injection H as <- <- <-. by rewrite insert_id in HQ.
    - apply rbind_Ok in H as (m1&Hm&H).
      wb. wwr Hr Hw Hm. wb. winc Hr. apply fwp_ret.
      eapply (IH _ _ i0); [exact H|exact Hr|ilia|exact Hw|lk|lk|]. by rewrite insert_insert.
  Qed.
  Lemma fill_wp first last value m s i j m' n :
    algo_fill m i j value = Ok (m', n) -> rng L i j -> writable L i -> cat_ge L FORWARD i ->
    s !! first = Some i -> s !! last = Some j ->
    fwp L (fill_p first last value) m s (makes s n m').
  Proof.
    intros H Hr Hw Hc Hf Hl. apply rbind_Ok in H as ([[m1 []] n1]&H&[= <- <-]). pose proof (rng_le _ _ _ Hr).
    unfold fill_p. wcat. wcat. wmut. wnew. wnew.
    wb. eapply fill_loop_wp; [congruence|exact H|exact Hr|ilia|exact Hw|lk|lk|]. wfree. wfree. wfin0.
  Qed.
  Lemma generate_n_loop_wp {St} (gen : St -> St * A) F : forall n m st i0 i j m' st' e s
      (Q : nat * St -> list A -> gmap iid nat -> Prop),
    algo_generate_n m i n gen st = Ok (m', st', e) -> rng L i0 j -> i0 <= i -> i + n <= j -> writable L i0 ->
    s !! F = Some i -> (e = i + n -> Q (0, st') m' (<[F := e]> s)) ->
    fwp L (WhileV (n, st) (fun '(n, _) => Ret (negb (n =? 0)))
           (fun '(n, st) => Write F (gen st).2;;; Inc F;;; Ret (n - 1, (gen st).1))) m s Q.
  Proof.
    intros n. induction n as [|n IH]; intros m st i0 i j m' st' e s Q; cbn [algo_generate_n].
    - intros [= <- <- <-] Hr Hi Hj Hw HF HQ. apply fwp_whilev, fwp_ret. cbn [Nat.eqb negb].
      rewrite insert_id in HQ by done. apply HQ. ilia.
    - intros H Hr Hi Hj Hw HF HQ. apply fwp_whilev, fwp_ret. cbn [Nat.eqb negb].
      destruct (gen st) as [st1 v] eqn:Eg. apply rbind_Ok in H as (m1&Hm&H). cbn [fst snd].
      wb. wwr Hr Hw Hm. wb. winc Hr. apply fwp_ret. replace (S n - 1) with n by ilia.
      eapply (IH _ _ i0); [exact H|exact Hr|ilia|ilia|exact Hw|lk|]. intros He. rewrite insert_insert. apply HQ. ilia.
  Qed.
  Lemma generate_n_wp {St} (gen : St -> St * A) first n o m st s i j m' st' e :
    algo_generate_n m i n gen st = Ok (m', st', e) -> rng L i j -> i + n <= j -> writable L i -> cat_ge L FORWARD i ->
    s !! first = Some i -> out_pre L s o i ->
    fwp L (generate_n_p first n gen o st) m s (leaves s o st' m' e).
  Proof.
    intros H Hr Hj Hw Hc Hf Ho. pose proof (rng_le _ _ _ Hr).
    unfold generate_n_p. wcat. wmut. destruct (Nat.eqb_spec n 0) as [->|Hn].
    { injection H as <- <- <-. wb. wout Ho Hr. intros v s' Hs'. apply fwp_ret. by split. }
    wnew. wb. eapply (generate_n_loop_wp gen _ _ _ _ i i j); [exact H|exact Hr|ilia|ilia|exact Hw|lk|]. intros He.
    wb. wout Ho Hr. intros v s' Hs'. wfree_out Hs'. wfin Hs'.
  Qed.
  Lemma fill_n_loop_wp (value : A) F : forall n m st i0 i j m' st' e s
      (Q : nat -> list A -> gmap iid nat -> Prop),
    algo_generate_n m i n (fun u : unit => (u, value)) st = Ok (m', st', e) -> rng L i0 j -> i0 <= i -> i + n <= j -> writable L i0 ->
    s !! F = Some i -> (e = i + n -> Q 0 m' (<[F := e]> s)) ->
    fwp L (WhileV n (fun n => Ret (negb (n =? 0))) (fun n => Write F value;;; Inc F;;; Ret (n - 1))) m s Q.
  Proof.
    intros n. induction n as [|n IH]; intros m st i0 i j m' st' e s Q; cbn [algo_generate_n].
    - intros [= <- <- <-] Hr Hi Hj Hw HF HQ. apply fwp_whilev, fwp_ret. cbn [Nat.eqb negb].
      rewrite insert_id in HQ by done. apply HQ. ilia.
    - intros H Hr Hi Hj Hw HF HQ. apply fwp_whilev, fwp_ret. cbn [Nat.eqb negb].
      apply rbind_Ok in H as (m1&Hm&H).
      wb. wwr Hr Hw Hm. wb. winc Hr. apply fwp_ret. replace (S n - 1) with n by ilia.
      eapply (IH _ _ i0); [exact H|exact Hr|ilia|ilia|exact Hw|lk|]. intros He. rewrite insert_insert. apply HQ. ilia.
  Qed.
  Lemma fill_n_wp first n value o m s i j m' e :
    algo_fill_n m i n value = Ok (m', e) -> rng L i j -> i + n <= j -> writable L i -> cat_ge L FORWARD i ->
    s !! first = Some i -> out_pre L s o i ->
    fwp L (fill_n_p first n value o) m s (fun r m1 s1 => m1 = m' /\ out_set o e s r s1).
  Proof.
    intros H Hr Hj Hw Hc Hf Ho. apply rbind_Ok in H as ([[m1 []] e1]&H&[= <- <-]). pose proof (rng_le _ _ _ Hr).
    unfold fill_n_p. wcat. wmut.
    wnew. wb. eapply (fill_n_loop_wp value _ _ _ _ i i j); [exact H|exact Hr|ilia|ilia|exact Hw|lk|]. intros He.
    wb. wout Ho Hr. intros v s' Hs'. wfree_out Hs'. apply fwp_ret. split; [done|]. cbn [fst snd].
    match type of Hs' with out_set _ _ ?x _ _ => replace s with x by mapeq end. exact Hs'.
  Qed.

  (** ** remove, replace *)
  Lemma remove_loop_mono p : forall fuel m f i j n m' f' n', remove_loop fuel p m f i j n = Ok (m', f', n') -> i <= j -> f <= f' <= f + (j - i).
  Proof.
    intros fuel. induction fuel as [|fuel IH]; intros m f i j n m' f' n'; cbn [remove_loop]; [done|].
    destruct (Nat.eqb_spec i j); [intros [= <- <- <-]; lia|]. intros [x [_ H]]%rbind_Ok Hij.
    destruct (negb (p x)); [apply rbind_Ok in H as (m1&_&H)|]; apply IH in H; lia.
  Qed.
  Lemma remove_loop_wp p F i E : F <> i -> F <> E -> i <> E ->
    forall fuel m a f k j n m' f' n' s (Q : nat -> list A -> gmap iid nat -> Prop),
    remove_loop fuel p m f k j n = Ok (m', f', n') -> rng L a j -> a <= f -> f < k -> k <= j -> writable L a ->
    s !! F = Some f -> s !! i = Some k -> s !! E = Some j -> Q n' m' (<[F := f']> (<[i := j]> s)) ->
    fwp L (remove_loop_p p F i E n) m s Q.
  Proof.
    intros N1 N2 N3 fuel. induction fuel as [|fuel IH]; intros m a f k j n m' f' n' s Q; cbn [remove_loop]; [done|].
    intros H Hr Ha Hf Hk Hw HF Hi HE HQ. apply fwp_whilev. wne Hr. destruct (Nat.eqb_spec k j) as [->|Hij]; cbn [negb].
    - injection H as <- <- <-. by rewrite !insert_id in HQ by lk.
    - apply rbind_Ok in H as (x&Hx&H). wb. wrd Hr Hx. wb. destruct (negb (p x)).
      + apply rbind_Ok in H as (m1&Hm&H). wb. wda Hr Hx Hr Hw Hm. wb. winc Hr. apply fwp_ret. wb. winc Hr. apply fwp_ret.
        eapply (IH _ a (S f) (S k) j); [exact H|exact Hr|ilia|ilia|ilia|exact Hw|lk|lk|lk|].
        replace (<[F:=f']> (<[i:=j]> (<[i:=S k]> (<[F:=S f]> s)))) with (<[F:=f']> (<[i:=j]> s)) by mapeq. done.
      + apply fwp_ret. wb. winc Hr. apply fwp_ret.
        eapply (IH _ a f (S k) j); [exact H|exact Hr|ilia|ilia|ilia|exact Hw|lk|lk|lk|].
        replace (<[F:=f']> (<[i:=j]> (<[i:=S k]> s))) with (<[F:=f']> (<[i:=j]> s)) by mapeq. done.
  Qed.
  (** the part after the search, with [F] at the first match [f] *)
  Lemma remove_tail_wp p o m s s0 F E i f j m' e n (N : F <> E) :
    (if f =? j then Ok (m, f, 0) else remove_loop (S (length m)) p m f (S f) j 1) = Ok (m', e, n) ->
    rng L i j -> i <= f <= j -> writable L i -> s !! F = Some f -> s !! E = Some j ->
    out_pre L s0 o i -> s0 !! F = None -> s0 !! E = None -> s = <[F := f]> (<[E := j]> s0) ->
    fwp L (b <~ Ne F E;;
      n <~ (if b then i <~ new_and_move F 1;; n <~ remove_loop_p p F i E 1;; Free i;;; Ret n else Ret 0);;
      v <~ copy_or_assign o F;; Free F;;; Free E;;; Ret (n, v)) m s (leaves s0 o n m' e).
  Proof.
    intros H Hr Hf Hw HF HE Ho HF0 HE0 Hs. wb. wne Hr.
    assert (o <> Some (Some F)) as HoF by (eapply out_ne; [exact Ho|done]).
    assert (o <> Some (Some E)) as HoE by (eapply out_ne; [exact Ho|done]).
    destruct (Nat.eqb_spec f j) as [->|Hfj]; cbn [negb].
    - injection H as <- <- <-. wb. apply fwp_ret.
      wb. rewrite Hs. wout Ho Hr. intros v s' Hs'. wfree_out Hs'. wfree_out Hs'. wfin Hs'.
    - wb. wb. eapply fwp_new_and_move; [lk|apply (rng_advz L m i j f (S f)); [lia|exact Hr|ilia|ilia|by left; lia]|].
      intros y Hy. rewrite Hs in Hy. fresh_hyps. pose proof (remove_loop_mono _ _ _ _ _ _ _ _ _ _ H ltac:(ilia)) as Hb.
      wb. eapply remove_loop_wp; [congruence..|exact H|exact Hr|ilia|ilia|ilia|exact Hw|lk|lk|lk|].
      wb. eapply fwp_free; [lk|]. apply fwp_ret. rewrite Hs.
      wb. match goal with |- fwp _ _ _ ?x _ => replace x with (<[F := e]> (<[E := j]> s0)) by mapeq end.
      wout Ho Hr. intros v s' Hs'. wfree_out Hs'. wfree_out Hs'. wfin Hs'.
  Qed.
  Lemma remove_if_wp first last o pred m s i j m' e n :
    algo_remove_if m i j pred = Ok (m', e, n) -> rng L i j -> writable L i -> cat_ge L FORWARD i ->
    s !! first = Some i -> s !! last = Some j -> out_pre L s o i ->
    fwp L (remove_if_p first last o pred) m s (leaves s o n m' e).
  Proof.
    intros H Hr Hw Hc Hf Hl Ho. apply rbind_Ok in H as ([b f]&Hfind&H). pose proof (rng_le _ _ _ Hr).
    destruct (find_if_bounds _ _ _ _ _ _ Hfind ltac:(ilia)) as [Hb _].
    unfold remove_if_p. wcat. wcat. wmut. wnew. wnew.
    wb. eapply fwp_mono; [eapply (find_if_wp L _ _ _ _ _ _ i j); [exact Hfind|exact Hr|lk|lk|catsolve|]|].
    { exists i. split; [lk|]. eapply alike_rng; [exact Hr|ilia..]. }
    intros r m1 s1 (_&->&[_ ->]).
    eapply (remove_tail_wp pred _ m _ s); [congruence|exact H|exact Hr|ilia|exact Hw|lk|lk|exact Ho|done|done|mapeq].
  Qed.
  Lemma remove_wp eqf first last o value m s i j m' e n :
    algo_remove eqf m i j value = Ok (m', e, n) -> rng L i j -> writable L i -> cat_ge L FORWARD i ->
    s !! first = Some i -> s !! last = Some j -> out_pre L s o i ->
    fwp L (remove_p eqf first last value o) m s (leaves s o n m' e).
  Proof.
    intros H Hr Hw Hc Hf Hl Ho. apply rbind_Ok in H as ([b f]&Hfind&H). pose proof (rng_le _ _ _ Hr).
    destruct (find_by_bounds _ _ _ _ _ _ _ Hfind ltac:(ilia)) as [Hb _].
    unfold remove_p. wcat. wcat. wmut. wnew. wnew.
    wb. eapply fwp_mono; [eapply (find_by_wp L _ _ _ _ _ _ _ i j); [exact Hfind|exact Hr|lk|lk|catsolve|]|].
    { exists i. split; [lk|]. eapply alike_rng; [exact Hr|ilia..]. }
    intros r m1 s1 (_&->&[_ ->]).
    eapply (remove_tail_wp (fun x => eqf x value) _ m _ s); [congruence|exact H|exact Hr|ilia|exact Hw|lk|lk|exact Ho|done|done|mapeq].
  Qed.
  Lemma replace_loop_wp p (new : A) F E : F <> E ->
    forall fuel m a i j n m' n' s (Q : nat -> list A -> gmap iid nat -> Prop),
    replace_loop fuel p new m i j n = Ok (m', n') -> rng L a j -> a <= i <= j -> writable L a ->
    s !! F = Some i -> s !! E = Some j -> Q n' m' (<[F := j]> s) ->
    fwp L (each_p F E (fun n => x <~ Deref F;; n' <~ (if p x then Write F new;;; Ret (S n) else Ret n);; Inc F;;; Ret n') n) m s Q.
  Proof.
    intros N fuel. induction fuel as [|fuel IH]; intros m a i j n m' n' s Q; cbn [replace_loop]; [done|].
    intros H Hr Hi Hw HF HE HQ. apply fwp_whilev. wne Hr. destruct (Nat.eqb_spec i j) as [->|Hij]; cbn [negb].
    - injection H as <- <-. by rewrite insert_id in HQ.
    - apply rbind_Ok in H as (x&Hx&H). wb. wrd Hr Hx. wb. destruct (p x).
      + apply rbind_Ok in H as (m1&Hm&H). wb. wwr Hr Hw Hm. apply fwp_ret. wb. winc Hr. apply fwp_ret.
        eapply (IH _ a); [exact H|exact Hr|ilia|exact Hw|lk|lk|]. by rewrite insert_insert.
      + apply fwp_ret. wb. winc Hr. apply fwp_ret.
        eapply (IH _ a); [exact H|exact Hr|ilia|exact Hw|lk|lk|]. by rewrite insert_insert.
  Qed.
  Lemma replace_if_wp first last pred new m s i j m' n :
    algo_replace_if m i j pred new = Ok (m', n) -> rng L i j -> writable L i -> cat_ge L FORWARD i ->
    s !! first = Some i -> s !! last = Some j ->
    fwp L (replace_if_p first last pred new) m s (makes s n m').
  Proof.
    intros H Hr Hw Hc Hf Hl. apply rbind_Ok in H as ([b f]&Hfind&H). pose proof (rng_le _ _ _ Hr).
    destruct (find_if_bounds _ _ _ _ _ _ Hfind ltac:(ilia)) as [Hb _].
    unfold replace_if_p. wcat. wcat. wmut. wnew. wnew.
    wb. eapply fwp_mono; [eapply (find_if_wp L _ _ _ _ _ _ i j); [exact Hfind|exact Hr|lk|lk|catsolve|]|].
    { exists i. split; [lk|]. eapply alike_rng; [exact Hr|ilia..]. }
    intros r m1 s1 (_&->&[_ ->]). wb. unfold replace_loop_p.
    eapply replace_loop_wp; [congruence|exact H|exact Hr|ilia|exact Hw|lk|lk|]. wfree. wfree. wfin0.
  Qed.
  Lemma replace_wp eqf first last old new m s i j m' n :
    algo_replace eqf m i j old new = Ok (m', n) -> rng L i j -> writable L i -> cat_ge L FORWARD i ->
    s !! first = Some i -> s !! last = Some j ->
    fwp L (replace_p eqf first last old new) m s (makes s n m').
  Proof.
    intros H Hr Hw Hc Hf Hl. apply rbind_Ok in H as ([b f]&Hfind&H). pose proof (rng_le _ _ _ Hr).
    destruct (find_by_bounds _ _ _ _ _ _ _ Hfind ltac:(ilia)) as [Hb _].
    unfold replace_p. wcat. wcat. wmut. wnew. wnew.
    wb. eapply fwp_mono; [eapply (find_by_wp L _ _ _ _ _ _ _ i j); [exact Hfind|exact Hr|lk|lk|catsolve|]|].
    { exists i. split; [lk|]. eapply alike_rng; [exact Hr|ilia..]. }
    intros r m1 s1 (_&->&[_ ->]). wb. unfold replace_loop_p.
    eapply replace_loop_wp; [congruence|exact H|exact Hr|ilia|exact Hw|lk|lk|]. wfree. wfree. wfin0.
  Qed.

  (** ** unique *)
  Lemma unique_loop_mono p : forall fuel m f i j n m' f' n', unique_loop fuel p m f i j n = Ok (m', f', n') -> i <= j -> f <= f' <= f + (j - i).
  Proof.
    intros fuel. induction fuel as [|fuel IH]; intros m f i j n m' f' n'; cbn [unique_loop]; [done|].
    destruct (Nat.eqb_spec i j); [intros [= <- <- <-]; lia|]. intros [x [_ [y [_ H]]%rbind_Ok]]%rbind_Ok Hij.
    destruct (negb (p x y)); [apply rbind_Ok in H as (m1&_&H)|]; apply IH in H; lia.
  Qed.
  (** destination [D] in the range [a, c), source [X] in the range [b, j) *)
  Lemma unique_loop_wp p D X E : D <> X -> D <> E -> X <> E ->
    forall fuel m a d c b k j n m' d' n' s (Q : nat -> list A -> gmap iid nat -> Prop),
    unique_loop fuel p m d k j n = Ok (m', d', n') -> rng L a c -> a <= d -> d' < c -> rng L b j -> b <= k <= j -> writable L a ->
    s !! D = Some d -> s !! X = Some k -> s !! E = Some j -> Q n' m' (<[D := d']> (<[X := j]> s)) ->
    fwp L (WhileV n (fun _ => Ne X E) (fun n => x <~ Deref D;; y <~ Deref X;;
      n' <~ (if negb (p x y) then Inc D;;; DerefAssign D X;;; Ret (S n) else Ret n);; Inc X;;; Ret n')) m s Q.
  Proof.
    intros N1 N2 N3 fuel. induction fuel as [|fuel IH]; intros m a d c b k j n m' d' n' s Q; cbn [unique_loop]; [done|].
    intros H Hr Ha Hc Hr2 Hk Hw HD HX HE HQ. apply fwp_whilev. wne Hr2. destruct (Nat.eqb_spec k j) as [->|Hij]; cbn [negb].
    - injection H as <- <- <-. by rewrite !insert_id in HQ by lk.
    - apply rbind_Ok in H as (x&Hx&H). apply rbind_Ok in H as (y&Hy&H).
      assert (d <= d' ) as Hdd.
      { destruct (negb (p x y)); [apply rbind_Ok in H as (m1&_&H)|]; apply unique_loop_mono in H; ilia. }
      wb. wrd Hr Hx. wb. wrd Hr2 Hy. wb. destruct (negb (p x y)).
      + apply rbind_Ok in H as (m1&Hm&H). pose proof (unique_loop_mono _ _ _ _ _ _ _ _ _ _ H ltac:(ilia)) as Hb.
        wb. winc Hr. wb. wda Hr2 Hy Hr Hw Hm. apply fwp_ret. wb. winc Hr2. apply fwp_ret.
        eapply (IH _ a (S d) c b (S k) j); [exact H|exact Hr|ilia|ilia|exact Hr2|ilia|exact Hw|lk|lk|lk|].
        replace (<[D:=d']> (<[X:=j]> (<[X:=S k]> (<[D:=S d]> s)))) with (<[D:=d']> (<[X:=j]> s)) by mapeq. done.
      + apply fwp_ret. wb. winc Hr2. apply fwp_ret.
        eapply (IH _ a d c b (S k) j); [exact H|exact Hr|ilia|ilia|exact Hr2|ilia|exact Hw|lk|lk|lk|].
        replace (<[D:=d']> (<[X:=j]> (<[X:=S k]> s))) with (<[D:=d']> (<[X:=j]> s)) by mapeq. done.
  Qed.
  Lemma unique_by_wp first last o pred m s i j m' e n :
    algo_unique_by m i j pred = Ok (m', e, n) -> rng L i j -> writable L i -> cat_ge L FORWARD i ->
    s !! first = Some i -> s !! last = Some j -> out_pre L s o i ->
    fwp L (unique_by_p first last o pred) m s (leaves s o n m' e).
  Proof.
    intros H Hr Hw Hc Hf Hl Ho. pose proof (rng_le _ _ _ Hr). unfold algo_unique_by in H.
    unfold unique_by_p. wcat. wcat. wmut. wb. weq Hr. destruct (Nat.eqb_spec i j) as [->|Hij].
    - injection H as <- <- <-. wb. wout Ho Hr. intros v s' Hs'. apply fwp_ret. by split.
    - apply rbind_Ok in H as ([[m1 f] n1]&H&[= <- <- <-]). cbn [fst snd].
      pose proof (unique_loop_mono _ _ _ _ _ _ _ _ _ _ H ltac:(ilia)) as Hb.
      wnew. wnew. wb. eapply fwp_new_and_move; [lk|apply (rng_advz L m i j i (S i)); [lia|exact Hr|ilia|ilia|by left; lia]|].
      intros y Hy. fresh_hyps.
      wb. eapply (unique_loop_wp pred); [congruence..|exact H|exact Hr|ilia|ilia|exact Hr|ilia|exact Hw|lk|lk|lk|].
      wb. winc Hr. wb. wout Ho Hr. intros v s' Hs'. wfree_out Hs'. wfree_out Hs'. wfree_out Hs'. wfin Hs'.
  Qed.
  Lemma unique_copy_by_wp first last d_first o pred m s i j d c m' e n :
    algo_unique_copy_by m i j d pred = Ok (m', e, n) -> o <> None -> rng L i j -> rng L d c -> e <= c -> writable L d ->
    cat_ge L FORWARD i -> cat_ge L FORWARD d ->
    s !! first = Some i -> s !! last = Some j -> s !! d_first = Some d -> out_pre L s o d ->
    fwp L (unique_copy_by_p first last d_first o pred) m s (leaves s o n m' e).
  Proof.
    intros H Hno Hr Hr2 He Hw Hc Hc2 Hf Hl Hd Ho. pose proof (rng_le _ _ _ Hr). pose proof (rng_le _ _ _ Hr2). unfold algo_unique_copy_by in H.
    unfold unique_copy_by_p. destruct o as [w|]; [|done].
    wb. eapply fwp_forward3; [lk|lk|lk|exact Hc|eapply cat_rng; [exact Hr|ilia|exact Hc]|exact Hc2|].
    wmut. wb. weq Hr. destruct (Nat.eqb_spec i j) as [->|Hij].
    - injection H as <- <- <-. wb. wout Ho Hr2. intros v s' Hs'. apply fwp_ret. by split.
    - apply rbind_Ok in H as (x&Hx&H). apply rbind_Ok in H as (m0&Hm0&H).
      apply rbind_Ok in H as ([[m1 f] n1]&H&[= <- <- <-]). cbn [fst snd] in *.
      pose proof (unique_loop_mono _ _ _ _ _ _ _ _ _ _ H ltac:(ilia)) as Hb.
      wnew. wnew. wnew. wb. wda Hr Hx Hr2 Hw Hm0. wb. winc Hr.
      wb. unfold each_p. eapply (unique_loop_wp pred); [congruence..|exact H|exact Hr2|ilia|ilia|exact Hr|ilia|exact Hw|lk|lk|lk|].
      wb. winc Hr2. wb. wout Ho Hr2. intros v s' Hs'. wfree_out Hs'. wfree_out Hs'. wfree_out Hs'. wfin Hs'.
  Qed.
End mod_proofs2.
