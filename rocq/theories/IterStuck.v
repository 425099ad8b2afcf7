(** IterStuck.v — a run that ends in undefined behaviour does so for every larger bound on the loops, so no
    normal outcome exists. *)
From stdpp Require Import list gmap.
From Verif Require Import Base Iter.
From stdpp Require Import list.

Section stuck.
  Context {A : Type} (W : world A).
  Lemma run_mono_any {R : Type} (p : prog A R) : forall n n' st x, n <= n' -> run W n p st = x -> x <> NoFuel -> run W n' p st = x.
  Proof.
    induction p as [R r|R|X R p IHp k IHk|X R x body IH|s|i|d s|i|i|i z|i j|i j|i j|i|i v|i|i];
      intros n n' st y Hn; try (intros H _; exact H).
    - cbn [run]. destruct (run W n p st) as [[x st1]| |] eqn:E; cbn [rbind]; intros H Hy.
      + rewrite (IHp n n' st _ Hn E) by done. cbn [rbind]. by eapply IHk.
      + by rewrite (IHp n n' st _ Hn E).
      + by subst.
    - rewrite !run_Loop.
      enough (forall a a' x st, a <= a' -> run_loop W n body a x st = y -> y <> NoFuel -> run_loop W n' body a' x st = y) as H
        by (apply H; done).
      intros a. induction a as [|a IHa]; intros a' z st0 Ha; [by intros <-|].
      destruct a' as [|a']; [lia|]. cbn [run_loop].
      destruct (run W n (body z) st0) as [[w st1]| |] eqn:E; cbn [rbind]; intros H Hy.
      + rewrite (IH z n n' st0 _ Hn E) by done. cbn [rbind]. destruct w as [x'|r]; [|done]. eapply IHa; [lia|done..].
      + by rewrite (IH z n n' st0 _ Hn E).
      + by subst.
  Qed.
  Lemma stuck {R : Type} (p : prog A R) st n : run W n p st = UB -> forall r st', ~ exec W p st r st'.
  Proof.
    intros H r st' [n' H']. pose proof (run_mono_any p n (max n n') st _ ltac:(lia) H ltac:(done)) as E1.
    pose proof (run_mono W p n' (max n n') st _ ltac:(lia) H') as E2. congruence.
  Qed.
End stuck.
