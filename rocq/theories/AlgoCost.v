(** AlgoCost.v — how many iterations the halving loops of binary search and heaps make.  The first argument of a loop of
    the model bounds its iterations ([NoFuel] if it is exceeded). *)
From Verif Require Import Base Spec AlgoOrd AlgoHeap.
From stdpp Require Import list.

Lemma div2_lt n k : n < 2 * k -> n / 2 < k.
Proof. intros H. apply Nat.div_lt_upper_bound; lia. Qed.
Lemma div2_le n : 2 * (n / 2) <= n < 2 * (n / 2) + 2.
Proof. pose proof (Nat.div_mod n 2). pose proof (Nat.mod_upper_bound n 2). lia. Qed.

Section cost.
  Context {A : Type} (comp : A -> A -> bool).
  Implicit Types m : list A.
  Lemma bsearch_cost go m k : forall count fuel first, count < 2 ^ k -> k < fuel ->
    bsearch_loop fuel go m first count = bsearch_loop (S k) go m first count /\ bsearch_loop (S k) go m first count <> NoFuel.
  Proof.
    induction k as [|k IH]; intros count fuel first Hc Hk; (destruct fuel as [|fuel]; [lia|]).
    - cbn in Hc. assert (count = 0) as -> by lia. done.
    - change (2 ^ S k) with (2 ^ k + (2 ^ k + 0)) in Hc. pose proof (div2_le count) as Hd.
      cbn [bsearch_loop]. destruct (count =? 0) eqn:E; [done|]. apply Nat.eqb_neq in E.
      unfold rd. destruct (m !! (first + count / 2)) as [x|]; [|done]. cbn [rbind].
      destruct (go x); apply IH; lia.
  Qed.
  Lemma push_cost m k : forall m fuel first hole v, S hole < 2 ^ k -> k <= fuel -> 0 < k ->
    push_heap_loop comp fuel m first hole v = push_heap_loop comp k m first hole v /\ push_heap_loop comp k m first hole v <> NoFuel.
  Proof.
    clear m. induction k as [|k IH]; intros m fuel first hole v Hc Hk Hk0; [lia|]. destruct fuel as [|fuel]; [lia|].
    change (2 ^ S k) with (2 ^ k + (2 ^ k + 0)) in Hc. cbn [push_heap_loop]. destruct (0 <? hole) eqn:E; [|done]. apply Nat.ltb_lt in E.
    unfold rd. destruct (m !! (first + get_parent hole)) as [x|]; [|done]. cbn [rbind]. destruct (comp x v); [|done].
    unfold wr. destruct (m !! (first + hole)) as [?|]; [|done]. cbn [rbind]. pose proof (div2_le (hole - 1)) as Hd. unfold get_parent.
    apply IH; [lia|lia|]. destruct k; [cbn in *; lia|lia].
  Qed.
  Lemma perc_cost k : forall m fuel first len hole, len < S hole * 2 ^ k -> k < fuel ->
    percolate_down comp fuel m first len hole = percolate_down comp (S k) m first len hole /\ percolate_down comp (S k) m first len hole <> NoFuel.
  Proof.
    induction k as [|k IH]; intros m fuel first len hole Hc Hk; (destruct fuel as [|fuel]; [lia|]).
    - cbn [percolate_down]. unfold get_left, get_right. rewrite !(proj2 (Nat.ltb_ge _ _)) by (cbn in Hc; lia). cbn [rbind]. by rewrite Nat.eqb_refl.
    - assert (Hnext : forall c m', 2 * hole + 1 <= c ->
        percolate_down comp fuel m' first len c = percolate_down comp (S k) m' first len c /\ percolate_down comp (S k) m' first len c <> NoFuel).
      { intros c m' Hc'. apply IH; [|lia]. eapply Nat.lt_le_trans; [exact Hc|]. rewrite Nat.pow_succ_r'. nia. }
      clear IH Hc Hk. remember (S k) as k' eqn:Ek. clear Ek. cbn [percolate_down].
      unfold get_left, get_right, swp, wr, rd.
      repeat match goal with
      | |- context [if ?c then _ else _] => destruct c eqn:?; cbn [rbind negb]; try done
      | |- context [match m !! ?i with _ => _ end] => destruct (m !! i) eqn:?; cbn [rbind]; try done
      | |- context [match <[_ := _]> m !! ?i with _ => _ end] => destruct (<[_ := _]> m !! i) eqn:?; cbn [rbind]; try done
      end; try (apply Hnext; lia); rewrite ?Nat.eqb_refl in *; try done.
  Qed.
  Lemma pop_cost k : forall m fuel first len hole, len < S hole * 2 ^ k -> k < fuel ->
    pop_heap_loop comp fuel m first len hole = pop_heap_loop comp (S k) m first len hole /\ pop_heap_loop comp (S k) m first len hole <> NoFuel.
  Proof.
    induction k as [|k IH]; intros m fuel first len hole Hc Hk; (destruct fuel as [|fuel]; [lia|]).
    - cbn [pop_heap_loop]. unfold get_left, get_right. rewrite !(proj2 (Nat.ltb_ge _ _)) by (cbn in Hc; lia). done.
    - assert (Hnext : forall c m', 2 * hole + 1 <= c ->
        pop_heap_loop comp fuel m' first len c = pop_heap_loop comp (S k) m' first len c /\ pop_heap_loop comp (S k) m' first len c <> NoFuel).
      { intros c m' Hc'. apply IH; [|lia]. eapply Nat.lt_le_trans; [exact Hc|]. rewrite Nat.pow_succ_r'. nia. }
      clear IH Hc Hk. remember (S k) as k' eqn:Ek. clear Ek. cbn [pop_heap_loop].
      unfold get_left, get_right, swp, wr, rd.
      repeat match goal with
      | |- context [if ?c then _ else _] => destruct c eqn:?; cbn [rbind negb]; try done
      | |- context [match m !! ?i with _ => _ end] => destruct (m !! i) eqn:?; cbn [rbind]; try done
      | |- context [match <[_ := _]> m !! ?i with _ => _ end] => destruct (<[_ := _]> m !! i) eqn:?; cbn [rbind]; try done
      end; try (apply Hnext; lia); try done.
  Qed.
End cost.
