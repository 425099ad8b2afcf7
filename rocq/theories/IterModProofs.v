(** IterModProofs.v — on flat cells, the iterator programs of IterMod.v compute what the functions of
    AlgoMod.v compute, leave the iterator objects of the caller alone except for the out parameters, and
    free their copies. *)
From stdpp Require Import list gmap.
From Verif Require Import Base Iter IterFlat IterWp IterNonMod IterNonModProofs IterMod AlgoNonMod AlgoMod.
From stdpp Require Import list.

Ltac wmut := apply fwp_bind; eapply fwp_is_mutable; [lk|first [eassumption |
  match goal with Hr : rng ?L ?i ?j, Hw : writable ?L ?i |- writable ?L ?k => solve [eapply (writable_rng L i j); [exact Hr|ilia|exact Hw]] end]|].
Ltac wwr Hr Hw Hm := eapply fwp_write; [lk|erewrite rng_write by (exact Hr || exact Hw || ilia); exact Hm|].
Ltac wdec Hr Hc := eapply fwp_dec; [lk|by eapply rng_dec; [exact Hr|exact Hc|ilia]|].
(** [DerefAssign]: [Hx : rd m i = Ok x] in range [Hr], [Hm : wr m d x = Ok m'] in range [Hr2] *)
Ltac wda Hr Hx Hr2 Hw Hm := unfold DerefAssign; apply fwp_bind; wrd Hr Hx; wwr Hr2 Hw Hm.

Section mod_proofs.
  Context {A : Type} (L : layout).
  Implicit Types (m : list A) (s : gmap iid nat).

  (** a result, a new memory, and a position stored through the out parameter *)
  Definition leaves {R : Type} (s : gmap iid nat) (o : out) (v : R) (mm : list A) (k : nat)
      (r : R * option iid) (m' : list A) (s' : gmap iid nat) : Prop :=
    r.1 = v /\ m' = mm /\ out_set o k s r.2 s'.
  Definition makes {R : Type} (s : gmap iid nat) (v : R) (mm : list A) (r : R) (m' : list A) (s' : gmap iid nat) : Prop :=
    r = v /\ m' = mm /\ s' = s.

  Lemma fwp_forward3 x y z m s i j k (Q : unit -> list A -> gmap iid nat -> Prop) :
    s !! x = Some i -> s !! y = Some j -> s !! z = Some k -> cat_ge L FORWARD i -> cat_ge L FORWARD j -> cat_ge L FORWARD k ->
    Q tt m s -> fwp L (forward3 x y z) m s Q.
  Proof.
    intros Hx Hy Hz H1 H2 H3 HQ. unfold forward3. wb. eapply fwp_at_least; [lk|done|]. wb. eapply fwp_at_least; [lk|done|].
    eapply fwp_at_least; [lk|done|done].
  Qed.

  (** what one turn of a copying loop must do *)
  Definition emits (emit : A -> option A) (F D : iid) (B : nat -> prog A nat) : Prop :=
    forall m m' s i0 i j d0 d c n x (Q : nat -> list A -> gmap iid nat -> Prop),
      s !! F = Some i -> s !! D = Some d -> rng L i0 j -> i0 <= i < j -> rng L d0 c -> d0 <= d -> writable L d0 -> rd m i = Ok x ->
      match emit x with
      | Some y => d < c /\ wr m d y = Ok m' /\ Q (S n) m' (<[D := S d]> (<[F := S i]> s))
      | None => Q n m (<[F := S i]> s)
      end -> fwp L (B n) m s Q.
  Lemma emit_loop_mono emit : forall fuel m i j d n m' d' n', emit_loop fuel emit m i j d n = Ok (m', d', n') -> d <= d'.
  Proof.
    intros fuel. induction fuel as [|fuel IH]; intros m i j d n m' d' n'; cbn [emit_loop]; [done|].
    destruct (i =? j); [intros [= <- <- <-]; lia|]. intros [x [_ H]]%rbind_Ok.
    destruct (emit x); [apply rbind_Ok in H as (m1&_&H)|]; apply IH in H; lia.
  Qed.
  Lemma emit_loop_wp emit F D E B : emits emit F D B -> F <> E -> F <> D -> E <> D ->
    forall fuel m i0 i j d0 d c n m' d' n' s (Q : nat -> list A -> gmap iid nat -> Prop),
    emit_loop fuel emit m i j d n = Ok (m', d', n') -> rng L i0 j -> i0 <= i <= j -> rng L d0 c -> d0 <= d -> d' <= c -> writable L d0 ->
    s !! F = Some i -> s !! E = Some j -> s !! D = Some d ->
    Q n' m' (<[D := d']> (<[F := j]> s)) -> fwp L (each_p F E B n) m s Q.
  Proof.
    intros HB N1 N2 N3 fuel. induction fuel as [|fuel IH]; intros m i0 i j d0 d c n m' d' n' s Q; cbn [emit_loop]; [done|].
    intros H Hr Hi Hr2 Hd Hc Hw HF HE HD HQ. apply fwp_whilev. wne Hr.
    destruct (Nat.eqb_spec i j) as [->|Hij]; cbn [negb].
    - injection H as <- <- <-. by rewrite !insert_id in HQ by lk.
    - apply rbind_Ok in H as (x&Hx&H). destruct (emit x) as [y|] eqn:Ee.
      + apply rbind_Ok in H as (m1&Hm&H). pose proof (emit_loop_mono _ _ _ _ _ _ _ _ _ _ H) as Hd'.
        eapply (HB _ m1 _ i0 i j d0 d c); [lk|lk|exact Hr|ilia|exact Hr2|ilia|exact Hw|exact Hx|]. rewrite Ee. split; [ilia|]. split; [done|].
        eapply (IH _ i0 (S i) j d0 (S d) c); [exact H|exact Hr|ilia|exact Hr2|ilia|ilia|exact Hw|lk|lk|lk|].
        replace (<[D:=d']> (<[F:=j]> (<[D:=S d]> (<[F:=S i]> s)))) with (<[D:=d']> (<[F:=j]> s)) by mapeq. done.
      + eapply (HB _ m _ i0 i j d0 d c); [lk|lk|exact Hr|ilia|exact Hr2|ilia|exact Hw|exact Hx|]. rewrite Ee.
        eapply (IH _ i0 (S i) j d0 d c); [exact H|exact Hr|ilia|exact Hr2|ilia|ilia|exact Hw|lk|lk|lk|].
        replace (<[D:=d']> (<[F:=j]> (<[F:=S i]> s))) with (<[D:=d']> (<[F:=j]> s)) by mapeq. done.
  Qed.
  Lemma copying_wp emit first last d_first o body m s i j d c m' d' n :
    (forall F D, F <> D -> emits emit F D (body F D)) ->
    emit_loop (S (length m)) emit m i j d 0 = Ok (m', d', n) -> rng L i j -> rng L d c -> d' <= c -> writable L d ->
    s !! first = Some i -> s !! last = Some j -> s !! d_first = Some d -> out_pre L s o d ->
    fwp L (copying_p first last d_first o body) m s (leaves s o n m' d').
  Proof.
    intros HB H Hr Hr2 Hc Hw Hf Hl Hd Ho. pose proof (rng_le _ _ _ Hr). pose proof (emit_loop_mono _ _ _ _ _ _ _ _ _ _ H).
    unfold copying_p. wnew. wnew. wnew.
    wb. eapply (emit_loop_wp emit); [apply HB; congruence|congruence..|exact H|exact Hr|ilia|exact Hr2|ilia|exact Hc|exact Hw|lk|lk|lk|].
    wb. wout Ho Hr2. intros v s' Hs'. wfree_out Hs'. wfree_out Hs'. wfree_out Hs'. wfin Hs'.
  Qed.

  Lemma copy_body_ok F D : F <> D -> emits Some F D (fun n => DerefAssign D F;;; Inc F;;; Inc D;;; Ret (S n)).
  Proof.
    intros N m m' s i0 i j d0 d c n x Q HF HD Hr Hi Hr2 Hd Hw Hx (Hc&Hm&HQ).
    wb. wda Hr Hx Hr2 Hw Hm. wb. winc Hr. wb. winc Hr2. by apply fwp_ret.
  Qed.
  Lemma filter_body_ok (pred : A -> bool) F D : F <> D -> emits (fun x => if pred x then Some x else None) F D (fun n =>
      x <~ Deref F;; n' <~ (if pred x then DerefAssign D F;;; Inc D;;; Ret (S n) else Ret n);; Inc F;;; Ret n').
  Proof.
    intros N m m' s i0 i j d0 d c n x Q HF HD Hr Hi Hr2 Hd Hw Hx HQ. wb. wrd Hr Hx. wb. destruct (pred x).
    - destruct HQ as (Hc&Hm&HQ). wb. wda Hr Hx Hr2 Hw Hm. wb. winc Hr2. apply fwp_ret. wb. winc Hr. apply fwp_ret.
      replace (<[F:=S i]> (<[D:=S d]> s)) with (<[D:=S d]> (<[F:=S i]> s)) by mapeq. done.
    - apply fwp_ret. wb. winc Hr. by apply fwp_ret.
  Qed.
  Lemma replace_body_ok (pred : A -> bool) (new : A) F D : F <> D -> emits (fun x => Some (if pred x then new else x)) F D (fun n =>
      x <~ Deref F;; (if pred x then Write D new else DerefAssign D F);;; Inc D;;; Inc F;;; Ret (S n)).
  Proof.
    intros N m m' s i0 i j d0 d c n x Q HF HD Hr Hi Hr2 Hd Hw Hx (Hc&Hm&HQ). wb. wrd Hr Hx. wb.
    assert (fwp L (Inc D;;; Inc F;;; Ret (S n)) m' s Q) as Hk.
    { wb. winc Hr2. wb. winc Hr. apply fwp_ret.
      replace (<[F:=S i]> (<[D:=S d]> s)) with (<[D:=S d]> (<[F:=S i]> s)) by mapeq. done. }
    destruct (pred x).
    - wwr Hr2 Hw Hm. exact Hk.
    - wda Hr Hx Hr2 Hw Hm. exact Hk.
  Qed.
  Lemma transform_body_ok (op : A -> A) F D : F <> D -> emits (fun x => Some (op x)) F D (fun n =>
      x <~ Deref F;; Write D (op x);;; Inc F;;; Inc D;;; Ret (S n)).
  Proof.
    intros N m m' s i0 i j d0 d c n x Q HF HD Hr Hi Hr2 Hd Hw Hx (Hc&Hm&HQ). wb. wrd Hr Hx. wb. wwr Hr2 Hw Hm.
    wb. winc Hr. wb. winc Hr2. by apply fwp_ret.
  Qed.

  (** the context of a copying function *)
  Definition copy_pre (s : gmap iid nat) (first last d_first : iid) (i j d c d' : nat) : Prop :=
    rng L i j /\ rng L d c /\ d' <= c /\ writable L d /\ cat_ge L FORWARD i /\ cat_ge L FORWARD d /\
    s !! first = Some i /\ s !! last = Some j /\ s !! d_first = Some d.
  Ltac copying lem :=
    intros H HP Ho; destruct HP as (Hr&Hr2&Hc&Hw&Hci&Hcd&Hf&Hl&Hd); pose proof (rng_le _ _ _ Hr);
    wb; eapply fwp_forward3; [lk|lk|lk|exact Hci|eapply cat_rng; [exact Hr|ilia|exact Hci]|exact Hcd|];
    try wmut;
    eapply (copying_wp _ _ _ _ _ _ _ _ _ _ _ _ _ _ _ lem); [exact H|exact Hr|exact Hr2|exact Hc|exact Hw|done..].
  Lemma copy_wp first last d_first o m s i j d c m' d' n :
    algo_copy m i j d = Ok (m', d', n) -> copy_pre s first last d_first i j d c d' -> out_pre L s o d ->
    fwp L (copy_p first last d_first o) m s (leaves s o n m' d').
  Proof. copying copy_body_ok. Qed.
  Lemma copy_if_wp first last d_first o pred m s i j d c m' d' n :
    algo_copy_if m i j d pred = Ok (m', d', n) -> copy_pre s first last d_first i j d c d' -> out_pre L s o d ->
    fwp L (copy_if_p first last d_first o pred) m s (leaves s o n m' d').
  Proof. copying (filter_body_ok pred). Qed.
  Lemma remove_copy_wp eqf first last d_first value o m s i j d c m' d' n :
    algo_remove_copy eqf m i j d value = Ok (m', d', n) -> copy_pre s first last d_first i j d c d' -> out_pre L s o d ->
    fwp L (remove_copy_p eqf first last d_first value o) m s (leaves s o n m' d').
  Proof. copying (filter_body_ok (fun x => negb (eqf x value))). Qed.
  Lemma remove_copy_if_wp first last d_first o pred m s i j d c m' d' n :
    algo_remove_copy_if m i j d pred = Ok (m', d', n) -> copy_pre s first last d_first i j d c d' -> out_pre L s o d ->
    fwp L (remove_copy_if_p first last d_first o pred) m s (leaves s o n m' d').
  Proof. copying (filter_body_ok (fun x => negb (pred x))). Qed.
  Lemma replace_copy_wp eqf first last d_first old new o m s i j d c m' d' n :
    algo_replace_copy eqf m i j d old new = Ok (m', d', n) -> copy_pre s first last d_first i j d c d' -> out_pre L s o d ->
    fwp L (replace_copy_p eqf first last d_first old new o) m s (leaves s o n m' d').
  Proof. copying (replace_body_ok (fun x => eqf x old) new). Qed.
  Lemma replace_copy_if_wp first last d_first pred new o m s i j d c m' d' n :
    algo_replace_copy_if m i j d pred new = Ok (m', d', n) -> copy_pre s first last d_first i j d c d' -> out_pre L s o d ->
    fwp L (replace_copy_if_p first last d_first pred new o) m s (leaves s o n m' d').
  Proof. copying (replace_body_ok pred new). Qed.
  Lemma transform_wp first last d_first op m s i j d c m' d' n :
    emit_loop (S (length m)) (fun x => Some (op x)) m i j d 0 = Ok (m', d', n) -> copy_pre s first last d_first i j d c d' ->
    fwp L (transform_p first last d_first op) m s (makes s n m').
  Proof.
    intros H (Hr&Hr2&Hc&Hw&Hci&Hcd&Hf&Hl&Hd). pose proof (rng_le _ _ _ Hr).
    wb. eapply fwp_forward3; [lk|lk|lk|exact Hci|eapply cat_rng; [exact Hr|ilia|exact Hci]|exact Hcd|].
    wmut. wnew. wnew. wnew.
    wb. eapply (emit_loop_wp (fun x => Some (op x))); [apply transform_body_ok; congruence|congruence..|exact H|exact Hr|ilia|exact Hr2|ilia|exact Hc|exact Hw|lk|lk|lk|].
    wfree. wfree. wfree. wfin0.
  Qed.

  Lemma copy_backward_loop_wp F D E : F <> E -> F <> D -> E <> D ->
    forall fuel m i j d0 d dl n m' d' n' s (Q : nat -> list A -> gmap iid nat -> Prop),
    copy_backward_loop fuel m i j d n = Ok (m', d', n') -> rng L i j -> cat_ge L BIDIRECTION i ->
    rng L d0 dl -> d0 <= d' -> d <= dl -> writable L d0 -> cat_ge L BIDIRECTION d0 ->
    s !! F = Some i -> s !! E = Some j -> s !! D = Some d ->
    Q n' m' (<[D := d']> (<[E := i]> s)) ->
    fwp L (WhileV n (fun _ => Ne E F) (fun n => Dec E;;; Dec D;;; DerefAssign D E;;; Ret (S n))) m s Q.
  Proof.
    intros N1 N2 N3 fuel. induction fuel as [|fuel IH]; intros m i j d0 d dl n m' d' n' s Q; cbn [copy_backward_loop]; [done|].
    intros H Hr Hc Hr2 Hd0 Hdl Hw Hc2 HF HE HD HQ. pose proof (rng_le _ _ _ Hr). apply fwp_whilev. wne Hr.
    destruct (Nat.eqb_spec j i) as [->|Hij]; cbn [negb].
    - injection H as <- <- <-. by rewrite !insert_id in HQ by lk.
    - destruct j as [|j]; [done|]. destruct d as [|d]; [done|].
      apply rbind_Ok in H as (x&Hx&H). apply rbind_Ok in H as (m1&Hm&H).
      assert (d' <= d) as Hd'.
      { clear -H. revert m1 j d n H. induction fuel as [|fuel IH]; intros m1 j d n; cbn [copy_backward_loop]; [done|].
        destruct (j =? i); [intros [= <- <- <-]; lia|]. destruct j; [done|]. destruct d; [done|].
        intros [x [_ [m2 [_ H]]%rbind_Ok]]%rbind_Ok. apply IH in H. lia. }
      wb. wdec Hr Hc. wb. wdec Hr2 Hc2. replace (S j - 1) with j by ilia. replace (S d - 1) with d by ilia.
      wb. wda Hr Hx Hr2 Hw Hm. apply fwp_ret.
      eapply (IH _ i j d0 d dl); [exact H|eapply rng_sub; [exact Hr|ilia..]|exact Hc|exact Hr2|ilia|ilia|exact Hw|exact Hc2|lk|lk|lk|].
      replace (<[D:=d']> (<[E:=i]> (<[D:=d]> (<[E:=j]> s)))) with (<[D:=d']> (<[E:=i]> s)) by mapeq. done.
  Qed.
  Lemma copy_backward_wp first last d_last o m s i j d0 dl m' d' n :
    algo_copy_backward m i j dl = Ok (m', d', n) -> rng L i j -> rng L d0 dl -> d0 <= d' <= dl -> writable L d0 ->
    cat_ge L BIDIRECTION i -> cat_ge L BIDIRECTION d0 -> s !! first = Some i -> s !! last = Some j -> s !! d_last = Some dl ->
    out_pre L s o d0 ->
    fwp L (copy_backward_p first last d_last o) m s (leaves s o n m' d').
  Proof.
    intros H Hr Hr2 Hd' Hw Hc Hc2 Hf Hl Hd Ho. pose proof (rng_le _ _ _ Hr). pose proof (rng_le _ _ _ Hr2).
    unfold copy_backward_p. wcat. wcat. wb. eapply fwp_at_least; [lk|eapply (cat_rng L _ d0 dl); [exact Hr2|ilia|exact Hc2]|].
    wmut. wnew. wnew. wnew.
    wb. eapply copy_backward_loop_wp; [congruence..|exact H|exact Hr|exact Hc|exact Hr2|ilia|ilia|exact Hw|exact Hc2|lk|lk|lk|].
    wb. wout Ho Hr2. intros v s' Hs'. wfree_out Hs'. wfree_out Hs'. wfree_out Hs'. wfin Hs'.
  Qed.
  Lemma reverse_copy_loop_wp F D E : F <> E -> F <> D -> E <> D ->
    forall fuel m i j d0 d c n m' d' n' s (Q : nat -> list A -> gmap iid nat -> Prop),
    reverse_copy_loop fuel m i j d n = Ok (m', d', n') -> rng L i j -> cat_ge L BIDIRECTION i ->
    rng L d0 c -> d0 <= d -> d' <= c -> writable L d0 ->
    s !! F = Some i -> s !! E = Some j -> s !! D = Some d ->
    Q n' m' (<[D := d']> (<[E := i]> s)) ->
    fwp L (WhileV n (fun _ => Ne F E) (fun n => Dec E;;; DerefAssign D E;;; Inc D;;; Ret (S n))) m s Q.
  Proof.
    intros N1 N2 N3 fuel. induction fuel as [|fuel IH]; intros m i j d0 d c n m' d' n' s Q; cbn [reverse_copy_loop]; [done|].
    intros H Hr Hc Hr2 Hd0 Hdl Hw HF HE HD HQ. pose proof (rng_le _ _ _ Hr). apply fwp_whilev. wne Hr.
    destruct (Nat.eqb_spec i j) as [->|Hij]; cbn [negb].
    - injection H as <- <- <-. by rewrite !insert_id in HQ by lk.
    - destruct j as [|j]; [done|].
      apply rbind_Ok in H as (x&Hx&H). apply rbind_Ok in H as (m1&Hm&H).
      assert (S d <= d') as Hd'.
      { clear -H. revert m1 j d n H. induction fuel as [|fuel IH]; intros m1 j d n; cbn [reverse_copy_loop]; [done|].
        destruct (i =? j); [intros [= <- <- <-]; lia|]. destruct j; [done|].
        intros [x [_ [m2 [_ H]]%rbind_Ok]]%rbind_Ok. apply IH in H. lia. }
      wb. wdec Hr Hc. replace (S j - 1) with j by ilia.
      wb. wda Hr Hx Hr2 Hw Hm. wb. winc Hr2. apply fwp_ret.
      eapply (IH _ i j d0 (S d) c); [exact H|eapply rng_sub; [exact Hr|ilia..]|exact Hc|exact Hr2|ilia|ilia|exact Hw|lk|lk|lk|].
      replace (<[D:=d']> (<[E:=i]> (<[D:=S d]> (<[E:=j]> s)))) with (<[D:=d']> (<[E:=i]> s)) by mapeq. done.
  Qed.
  Lemma reverse_copy_wp first last d_first o m s i j d c m' d' n :
    algo_reverse_copy m i j d = Ok (m', d', n) -> rng L i j -> rng L d c -> d <= d' <= c -> writable L d ->
    cat_ge L BIDIRECTION i -> cat_ge L FORWARD d -> s !! first = Some i -> s !! last = Some j -> s !! d_first = Some d ->
    out_pre L s o d ->
    fwp L (reverse_copy_p first last d_first o) m s (leaves s o n m' d').
  Proof.
    intros H Hr Hr2 Hd' Hw Hc Hc2 Hf Hl Hd Ho. pose proof (rng_le _ _ _ Hr). pose proof (rng_le _ _ _ Hr2).
    unfold reverse_copy_p. wcat. wcat. wcat. wmut. wnew. wnew. wnew.
    wb. eapply reverse_copy_loop_wp; [congruence..|exact H|exact Hr|exact Hc|exact Hr2|ilia|ilia|exact Hw|lk|lk|lk|].
    wb. wout Ho Hr2. intros v s' Hs'. wfree_out Hs'. wfree_out Hs'. wfree_out Hs'. wfin Hs'.
  Qed.
  Lemma rotate_copy_wp first n_first last d_first o m s i nf j d c m1 d1 n1 m' d' n2 :
    algo_copy m nf j d = Ok (m1, d1, n1) -> algo_copy m1 i nf d1 = Ok (m', d', n2) -> rng L i j -> i <= nf <= j ->
    rng L d c -> d <= d1 <= d' -> d' <= c -> writable L d ->
    cat_ge L FORWARD i -> cat_ge L FORWARD d -> s !! first = Some i -> s !! n_first = Some nf -> s !! last = Some j -> s !! d_first = Some d ->
    out_pre L s o d ->
    fwp L (rotate_copy_p first n_first last d_first o) m s (leaves s o (n1 + n2) m' d').
  Proof.
    intros H1 H2 Hr Hnf Hr2 Hd1 Hd' Hw Hc Hc2 Hf Hn Hl Hd Ho. pose proof (rng_le _ _ _ Hr). pose proof (rng_le _ _ _ Hr2).
    unfold rotate_copy_p. wcat. wcat. wcat. wcat. wmut. wnew. wnew. wnew. wnew.
    wb. eapply fwp_mono; [eapply (copy_wp _ _ _ _ _ _ nf j d c); [exact H1| |]|].
    { split_and!; [eapply rng_sub; [exact Hr|ilia..]|exact Hr2|ilia|exact Hw|eapply cat_rng; [exact Hr|ilia|exact Hc]|exact Hc2|lk|lk|lk]. }
    { exists d. split; [lk|]. eapply alike_rng; [exact Hr2|ilia..]. }
    intros [v1 w1] mm ss (E1&->&[_ ->]). cbn [fst] in E1. subst v1.
    wb. eapply fwp_mono; [eapply (copy_wp _ _ _ _ _ _ i nf d1 c); [exact H2| |]|].
    { split_and!; [eapply rng_sub; [exact Hr|ilia..]|eapply rng_sub; [exact Hr2|ilia..]|ilia|eapply writable_rng; [exact Hr2|ilia|exact Hw]
        |exact Hc|eapply cat_rng; [exact Hr2|ilia|exact Hc2]|lk|lk|lk]. }
    { exists d1. split; [lk|]. eapply alike_rng; [exact Hr2|ilia..]. }
    intros [v2 w2] mm ss (E2&->&[_ ->]). cbn [fst] in E2. subst v2. cbn [fst].
    wb. wout Ho Hr2. intros v s' Hs'. wfree_out Hs'. wfree_out Hs'. wfree_out Hs'. wfree_out Hs'. wfin Hs'.
  Qed.
End mod_proofs.
