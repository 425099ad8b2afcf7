(** Path.v — singly linked paths in a pointer map; used by the list and forward list proofs. *)
From Verif Require Import Base.
From stdpp Require Import list gmap.

Section path.
  Context {K : Type} `{Countable K}.
  Implicit Types m : gmap K K.
  Implicit Types xs ys : list K.

  (** [path m xs e]: following [m] from the first of [xs] passes exactly through [xs] and then reaches [e] *)
  Fixpoint path m xs (e : K) : Prop :=
    match xs with
    | [] => True
    | x :: r => m !! x = Some (hd e r) /\ path m r e
    end.
  (** the last of [x :: xs] *)
  Fixpoint lst (x : K) xs : K := match xs with [] => x | y :: r => lst y r end.

  Lemma lst_cons x y xs : lst x (y :: xs) = lst y xs.
  Proof. done. Qed.
  Lemma lst_snoc x y xs : lst x (xs ++ [y]) = y.
  Proof. revert x. induction xs as [|z xs IH]; intros; [done|]. cbn. apply IH. Qed.
  Lemma lst_app x xs ys : lst x (xs ++ ys) = lst (lst x xs) ys.
  Proof. revert x. induction xs as [|z xs IH]; intros; [done|]. cbn. apply IH. Qed.
  Lemma lst_in x xs : lst x xs ∈ x :: xs.
  Proof. revert x. induction xs as [|z xs IH]; intros; [by left|]. rewrite lst_cons. right. apply IH. Qed.
  Lemma lst_rev x xs : lst x (rev xs) = hd x xs.
  Proof. destruct xs as [|z xs]; [done|]. cbn. by rewrite lst_snoc. Qed.
  Lemma hd_rev x xs : hd x (rev xs) = lst x xs.
  Proof. rewrite <- lst_rev. by rewrite rev_involutive. Qed.
  Lemma hd_app e xs ys : hd e (xs ++ ys) = hd (hd e ys) xs.
  Proof. by destruct xs. Qed.

  Lemma path_app m xs ys e : path m (xs ++ ys) e <-> path m xs (hd e ys) /\ path m ys e.
  Proof.
    induction xs as [|x xs IH]; cbn; [tauto|]. rewrite IH, hd_app. tauto.
  Qed.
  Lemma path_frame m m' xs e : path m xs e -> (forall y, y ∈ xs -> m' !! y = m !! y) -> path m' xs e.
  Proof.
    induction xs as [|x xs IH]; cbn; [done|]. intros [H1 H2] Hf. split.
    - rewrite Hf; [done|]. left.
    - apply IH; [done|]. intros y Hy. apply Hf. by right.
  Qed.
  Lemma path_insert m xs e k v : path m xs e -> k ∉ xs -> path (<[k := v]> m) xs e.
  Proof. intros Hp Hk. eapply path_frame; [done|]. intros y Hy. apply lookup_insert_ne. by intros ->. Qed.
  Lemma path_delete m xs e k : path m xs e -> k ∉ xs -> path (delete k m) xs e.
  Proof. intros Hp Hk. eapply path_frame; [done|]. intros y Hy. apply lookup_delete_ne. by intros ->. Qed.
  Lemma path_some m xs e y : path m xs e -> y ∈ xs -> is_Some (m !! y).
  Proof.
    induction xs as [|x xs IH]; cbn; intros Hp Hy; [by apply elem_of_nil in Hy|].
    destruct Hp as [H1 H2]. apply elem_of_cons in Hy as [->|Hy]; [rewrite H1; eauto|eauto].
  Qed.
  Lemma path_last m x xs e : path m (x :: xs) e -> m !! lst x xs = Some e.
  Proof.
    revert x. induction xs as [|y xs IH]; intros x [H1 H2]; [done|]. rewrite lst_cons. by apply IH.
  Qed.
  Lemma path_redirect m x xs e e' : NoDup (x :: xs) -> path m (x :: xs) e ->
    path (<[lst x xs := e']> m) (x :: xs) e'.
  Proof.
    revert x. induction xs as [|y xs IH]; intros x Hnd [H1 H2].
    - cbn. split; [|done]. by rewrite lookup_insert.
    - rewrite lst_cons. apply NoDup_cons in Hnd as [Hx Hnd]. split; [|by apply IH].
      rewrite lookup_insert_ne; [done|]. intros <-. apply Hx, lst_in.
  Qed.
  (** the same without naming the last element *)
  Lemma path_redirect_at m pre p e e' : p ∉ pre -> path m (pre ++ [p]) e -> path (<[p := e']> m) (pre ++ [p]) e'.
  Proof.
    intros Hp Hpa. apply path_app in Hpa as [H1 [H2 _]]. apply path_app. split.
    - by apply path_insert.
    - cbn. by rewrite lookup_insert.
  Qed.
  Lemma nodup_size {B} (m : gmap K B) xs : NoDup xs -> (forall y, y ∈ xs -> is_Some (m !! y)) -> length xs <= size m.
  Proof.
    intros Hnd Hs. rewrite <- size_dom. rewrite <- (size_list_to_set (C := gset K) xs Hnd).
    apply subseteq_size. intros y Hy. apply elem_of_list_to_set in Hy. apply elem_of_dom. by apply Hs.
  Qed.
End path.
