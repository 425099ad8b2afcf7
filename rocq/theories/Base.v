(** Base.v — the outcome monad and the flat-cell memory shared by all models.

    Models are total Gallina functions into [res]:
    - [Ok a]   : the C function returns normally with [a];
    - [UB]     : the C code would perform an undefined access (a dereference, or write,
                 outside the memory it owns, of an uninitialised slot, of a freed node,
                 of a null pointer, or a call through a null function pointer);
    - [NoFuel] : the recursion bound of the *model* was exhausted.  It corresponds to nothing
                 in C; every theorem asserts an [Ok] outcome and so excludes it. *)
From Coq Require Export ZArith Lia.
From Coq Require Export ZifyBool ZifyNat ZifyN.
From stdpp Require Export prelude list numbers option.
Export List.ListNotations.
#[export] Set Default Goal Selector "!".

Inductive res (A : Type) : Type :=
| Ok (a : A)
| UB
| NoFuel.
Global Arguments Ok {A} a.
Global Arguments UB {A}.
Global Arguments NoFuel {A}.

Definition rbind {A B} (x : res A) (k : A -> res B) : res B :=
  match x with Ok a => k a | UB => UB | NoFuel => NoFuel end.
Notation "'do' p <- e ; k" := (rbind e (fun p => k))
  (at level 200, p pattern, e at level 100, k at level 200, right associativity).

Lemma rbind_Ok {A B} (x : res A) (k : A -> res B) b :
  rbind x k = Ok b <-> exists a, x = Ok a /\ k a = Ok b.
Proof.
  destruct x as [a| |]; cbn; split; try (intros [? [? ?]]; congruence); try congruence.
  intros H. exists a. auto.
Qed.

(** ** Flat-cell memory.
    One memory is a list of cells; an iterator is a cell index.  This models the abstract
    iterator interface of /repo/include/c_def.h 294-303 (C_ITER_INC = +1, C_ITER_DEC = -1,
    C_ITER_ADVANCE, C_ITER_DISTANCE, C_ITER_EQ, C_ITER_LESS on positions) on which every
    function of /repo/algorithm is written. *)
Section mem.
  Context {A : Type}.
  (** C_ITER_DEREF used as an rvalue (c_def.h 298). *)
  Definition rd (m : list A) (i : nat) : res A :=
    match m !! i with Some x => Ok x | None => UB end.
  (** C_ITER_DEREF_ASSIGN_V (c_def.h 311): value_type->assign through a dereferenced iterator. *)
  Definition wr (m : list A) (i : nat) (x : A) : res (list A) :=
    match m !! i with Some _ => Ok (<[i := x]> m) | None => UB end.
  (** algo_iter_swap / __c_iter_swap: exchange the two cells
      (algorithm/c_modifying.c 621-631 and 580-592, through a temporary). *)
  Definition swp (m : list A) (i j : nat) : res (list A) :=
    do x <- rd m i; do y <- rd m j; do m1 <- wr m i y; wr m1 j x.

  Lemma rd_Ok m i x : m !! i = Some x -> rd m i = Ok x.
  Proof. unfold rd. by intros ->. Qed.
  Lemma rd_inv m i x : rd m i = Ok x -> m !! i = Some x.
  Proof. unfold rd. destruct (m !! i) eqn:E; congruence. Qed.
  Lemma wr_Ok m i x : i < length m -> wr m i x = Ok (<[i:=x]> m).
  Proof. intros H. unfold wr. destruct (lookup_lt_is_Some_2 m i H) as [y ->]. done. Qed.
  Lemma rd_lt m i : i < length m -> exists x, m !! i = Some x /\ rd m i = Ok x.
  Proof. intros H. destruct (lookup_lt_is_Some_2 m i H) as [y Hy]. exists y. split; [done|]. by apply rd_Ok. Qed.
  Lemma rd_at pre x post i : i = length pre -> rd (pre ++ x :: post) i = Ok x.
  Proof. intros ->. apply rd_Ok. rewrite lookup_app_r by lia. by rewrite Nat.sub_diag. Qed.
  Lemma wr_at pre x y post i : i = length pre -> wr (pre ++ x :: post) i y = Ok (pre ++ y :: post).
  Proof.
    intros ->. rewrite wr_Ok by (rewrite app_length; cbn; lia).
    f_equal. rewrite insert_app_r_alt by lia. by rewrite Nat.sub_diag.
  Qed.
  Lemma swp_at pre x mid y post i j :
    i = length pre -> j = length pre + S (length mid) ->
    swp (pre ++ x :: mid ++ y :: post) i j = Ok (pre ++ y :: mid ++ x :: post).
  Proof.
    intros Hi Hj. unfold swp. rewrite rd_at by done. cbn [rbind].
    replace (pre ++ x :: mid ++ y :: post) with ((pre ++ x :: mid) ++ y :: post) at 1
      by (rewrite <- app_assoc; done).
    rewrite rd_at by (rewrite app_length; cbn; lia). cbn [rbind].
    rewrite wr_at by done. cbn [rbind].
    replace (pre ++ y :: mid ++ y :: post) with ((pre ++ y :: mid) ++ y :: post)
      by (rewrite <- app_assoc; done).
    rewrite wr_at by (rewrite app_length; cbn; lia). by rewrite <- app_assoc.
  Qed.
  Lemma swp_same m i : i < length m -> swp m i i = Ok m.
  Proof.
    intros H. destruct (rd_lt m i H) as [x [Hx Hr]]. unfold swp. rewrite Hr. cbn [rbind].
    rewrite wr_Ok by done. cbn [rbind]. rewrite wr_Ok by (rewrite insert_length; done).
    by rewrite list_insert_insert, list_insert_id.
  Qed.
  Lemma swp_Ok m i j x y : m !! i = Some x -> m !! j = Some y ->
    swp m i j = Ok (<[j:=x]> (<[i:=y]> m)).
  Proof.
    intros Hx Hy. unfold swp. rewrite (rd_Ok _ _ _ Hx), (rd_Ok _ _ _ Hy). cbn [rbind].
    rewrite wr_Ok by (eapply lookup_lt_Some; eauto). cbn [rbind].
    rewrite wr_Ok; [done|]. rewrite insert_length. eapply lookup_lt_Some; eauto.
  Qed.
End mem.

(** normalise nested appends, right associated *)
Ltac applist := repeat first [progress (rewrite <- !app_assoc) | progress (cbn [app])].
