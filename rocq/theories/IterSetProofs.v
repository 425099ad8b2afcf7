(** IterSetProofs.v — the programs of IterOrd.v that write the union, merge, ... of two ranges, and
    algo_partition_copy, on flat cells. *)
From stdpp Require Import list gmap.
From Verif Require Import Base Spec Iter IterFlat IterWp IterNonMod IterNonModProofs IterMod IterModProofs IterModProofs3 IterOrd IterOrdProofs IterOrdProofs2
  AlgoNonMod AlgoMod AlgoOrd.
From stdpp Require Import list.

Section set_proofs.
  Context {A : Type} (L : layout).
  Implicit Types (m : list A) (s : gmap iid nat).

  (** what one turn of a two-range loop must do *)
  Definition finger_after (f : finger) (x y : A) m s (F1 F2 D : iid) (i1 i2 d c n : nat) (Q : nat -> list A -> gmap iid nat -> Prop) : Prop :=
    match f with
    | Emit1_Adv1 => exists m', d < c /\ wr m d x = Ok m' /\ Q (S n) m' (<[D := S d]> (<[F1 := S i1]> s))
    | Emit2_Adv2 => exists m', d < c /\ wr m d y = Ok m' /\ Q (S n) m' (<[D := S d]> (<[F2 := S i2]> s))
    | Emit1_AdvBoth => exists m', d < c /\ wr m d x = Ok m' /\ Q (S n) m' (<[D := S d]> (<[F2 := S i2]> (<[F1 := S i1]> s)))
    | Skip1 => Q n m (<[F1 := S i1]> s)
    | Skip2 => Q n m (<[F2 := S i2]> s)
    | SkipBoth => Q n m (<[F2 := S i2]> (<[F1 := S i1]> s))
    end.
  Definition fingers (step : A -> A -> finger) (F1 F2 D : iid) (B : nat -> prog A nat) : Prop :=
    forall m s i01 i1 j1 i02 i2 j2 d0 d c n x y (Q : nat -> list A -> gmap iid nat -> Prop),
      s !! F1 = Some i1 -> s !! F2 = Some i2 -> s !! D = Some d -> rng L i01 j1 -> i01 <= i1 < j1 -> rng L i02 j2 -> i02 <= i2 < j2 ->
      rng L d0 c -> d0 <= d -> writable L d0 -> rd m i1 = Ok x -> rd m i2 = Ok y ->
      finger_after (step x y) x y m s F1 F2 D i1 i2 d c n Q -> fwp L (B n) m s Q.

  Lemma merge_body_ok (comp : A -> A -> bool) F1 F2 D : F1 <> F2 -> F1 <> D -> F2 <> D -> fingers (merge_step comp) F1 F2 D (merge_body comp F1 F2 D).
  Proof.
    intros N1 N2 N3 m s i01 i1 j1 i02 i2 j2 d0 d c n x y Q HF1 HF2 HD Hr1 Hi1 Hr2 Hi2 Hr Hd Hw Hx Hy HQ. unfold merge_body, CompAt.
    wb. wb. wrd Hr1 Hx. wb. wrd Hr2 Hy. apply fwp_ret. unfold merge_step in HQ. wb. destruct (comp x y); destruct HQ as (m'&Hc&Hm&HQ).
    - wb. wda Hr1 Hx Hr Hw Hm. winc Hr1. wb. winc Hr. by apply fwp_ret.
    - wb. wda Hr2 Hy Hr Hw Hm. winc Hr2. wb. winc Hr. by apply fwp_ret.
  Qed.
  Lemma difference_body_ok (comp : A -> A -> bool) F1 F2 D : F1 <> F2 -> F1 <> D -> F2 <> D -> fingers (difference_step comp) F1 F2 D (difference_body comp F1 F2 D).
  Proof.
    intros N1 N2 N3 m s i01 i1 j1 i02 i2 j2 d0 d c n x y Q HF1 HF2 HD Hr1 Hi1 Hr2 Hi2 Hr Hd Hw Hx Hy HQ. unfold difference_body, CompAt, both_p.
    wb. wb. wrd Hr1 Hx. wb. wrd Hr2 Hy. apply fwp_ret. unfold difference_step in HQ. destruct (comp x y).
    - destruct HQ as (m'&Hc&Hm&HQ). wb. wda Hr1 Hx Hr Hw Hm. wb. winc Hr1. wb. winc Hr. by apply fwp_ret.
    - wb. wb. winc Hr1. winc Hr2. by apply fwp_ret.
  Qed.
  Lemma intersection_body_ok (comp : A -> A -> bool) F1 F2 D : F1 <> F2 -> F1 <> D -> F2 <> D -> fingers (intersection_step comp) F1 F2 D (intersection_body comp F1 F2 D).
  Proof.
    intros N1 N2 N3 m s i01 i1 j1 i02 i2 j2 d0 d c n x y Q HF1 HF2 HD Hr1 Hi1 Hr2 Hi2 Hr Hd Hw Hx Hy HQ. unfold intersection_body, CompAt, both_p, emit_p.
    wb. wb. wrd Hr1 Hx. wb. wrd Hr2 Hy. apply fwp_ret. unfold intersection_step in HQ. destruct (comp x y).
    { wb. winc Hr1. by apply fwp_ret. }
    wb. wb. wrd Hr2 Hy. wb. wrd Hr1 Hx. apply fwp_ret. destruct (comp y x).
    { wb. winc Hr2. by apply fwp_ret. }
    destruct HQ as (m'&Hc&Hm&HQ). wb. wb. wda Hr1 Hx Hr Hw Hm. winc Hr. wb. wb. winc Hr1. winc Hr2. apply fwp_ret.
    replace (<[F2:=S i2]> (<[F1:=S i1]> (<[D:=S d]> s))) with (<[D:=S d]> (<[F2:=S i2]> (<[F1:=S i1]> s))) by mapeq. done.
  Qed.
  Lemma symdiff_body_ok (comp : A -> A -> bool) F1 F2 D : F1 <> F2 -> F1 <> D -> F2 <> D -> fingers (symdiff_step comp) F1 F2 D (symdiff_body comp F1 F2 D).
  Proof.
    intros N1 N2 N3 m s i01 i1 j1 i02 i2 j2 d0 d c n x y Q HF1 HF2 HD Hr1 Hi1 Hr2 Hi2 Hr Hd Hw Hx Hy HQ. unfold symdiff_body, CompAt, both_p, emit_p.
    wb. wb. wrd Hr1 Hx. wb. wrd Hr2 Hy. apply fwp_ret. unfold symdiff_step in HQ. destruct (comp x y).
    { destruct HQ as (m'&Hc&Hm&HQ). wb. wb. wda Hr1 Hx Hr Hw Hm. winc Hr. wb. winc Hr1. apply fwp_ret.
      replace (<[F1:=S i1]> (<[D:=S d]> s)) with (<[D:=S d]> (<[F1:=S i1]> s)) by mapeq. done. }
    wb. wb. wrd Hr2 Hy. wb. wrd Hr1 Hx. apply fwp_ret. destruct (comp y x).
    { destruct HQ as (m'&Hc&Hm&HQ). wb. wb. wda Hr2 Hy Hr Hw Hm. winc Hr. wb. winc Hr2. apply fwp_ret.
      replace (<[F2:=S i2]> (<[D:=S d]> s)) with (<[D:=S d]> (<[F2:=S i2]> s)) by mapeq. done. }
    wb. wb. winc Hr1. winc Hr2. by apply fwp_ret.
  Qed.
  Lemma union_body_ok (comp : A -> A -> bool) F1 F2 D : F1 <> F2 -> F1 <> D -> F2 <> D -> fingers (union_step comp) F1 F2 D (union_body comp F1 F2 D).
  Proof.
    intros N1 N2 N3 m s i01 i1 j1 i02 i2 j2 d0 d c n x y Q HF1 HF2 HD Hr1 Hi1 Hr2 Hi2 Hr Hd Hw Hx Hy HQ. unfold union_body, CompAt, both_p, emit_p.
    wb. wb. wrd Hr1 Hx. wb. wrd Hr2 Hy. apply fwp_ret. unfold union_step in HQ. destruct (comp x y).
    { destruct HQ as (m'&Hc&Hm&HQ). wb. wb. wda Hr1 Hx Hr Hw Hm. winc Hr. wb. winc Hr1. apply fwp_ret.
      replace (<[F1:=S i1]> (<[D:=S d]> s)) with (<[D:=S d]> (<[F1:=S i1]> s)) by mapeq. done. }
    wb. wb. wrd Hr2 Hy. wb. wrd Hr1 Hx. apply fwp_ret. destruct (comp y x).
    { destruct HQ as (m'&Hc&Hm&HQ). wb. wb. wda Hr2 Hy Hr Hw Hm. winc Hr. wb. winc Hr2. apply fwp_ret.
      replace (<[F2:=S i2]> (<[D:=S d]> s)) with (<[D:=S d]> (<[F2:=S i2]> s)) by mapeq. done. }
    destruct HQ as (m'&Hc&Hm&HQ). wb. wb. wda Hr1 Hx Hr Hw Hm. winc Hr. wb. wb. winc Hr1. winc Hr2. apply fwp_ret.
    replace (<[F2:=S i2]> (<[F1:=S i1]> (<[D:=S d]> s))) with (<[D:=S d]> (<[F2:=S i2]> (<[F1:=S i1]> s))) by mapeq. done.
  Qed.

  Lemma zip_loop_mono step : forall fuel m i1 j1 i2 j2 d n m' k1 k2 d' n', zip_loop fuel step m i1 j1 i2 j2 d n = Ok (m', k1, k2, d', n') -> d <= d'.
  Proof.
    intros fuel. induction fuel as [|fuel IH]; intros m i1 j1 i2 j2 d n m' k1 k2 d' n'; cbn [zip_loop]; [done|].
    destruct ((i1 =? j1) || (i2 =? j2)); [intros [= <- <- <- <- <-]; lia|]. intros [x [_ [y [_ H]]%rbind_Ok]]%rbind_Ok.
    destruct (step x y); [apply rbind_Ok in H as (m1&_&H)..| | |]; apply IH in H; lia.
  Qed.
  Lemma zip_loop_wp step F1 E1 F2 E2 D B i01 j1 i02 j2 d0 c : fingers step F1 F2 D B ->
    F1 <> E1 -> F1 <> F2 -> F1 <> E2 -> E1 <> F2 -> E1 <> E2 -> F2 <> E2 -> F1 <> D -> E1 <> D -> F2 <> D -> E2 <> D ->
    rng L i01 j1 -> rng L i02 j2 -> rng L d0 c -> writable L d0 ->
    forall fuel m i1 i2 d n m' k1 k2 d' n' s (Q : nat -> list A -> gmap iid nat -> Prop),
    zip_loop fuel step m i1 j1 i2 j2 d n = Ok (m', k1, k2, d', n') -> i01 <= i1 <= j1 -> i02 <= i2 <= j2 -> d0 <= d -> d' <= c ->
    s !! F1 = Some i1 -> s !! E1 = Some j1 -> s !! F2 = Some i2 -> s !! E2 = Some j2 -> s !! D = Some d ->
    (i01 <= k1 <= j1 -> i02 <= k2 <= j2 -> Q n' m' (<[D := d']> (<[F2 := k2]> (<[F1 := k1]> s)))) ->
    fwp L (WhileV n (fun _ => pand (Ne F1 E1) (Ne F2 E2)) B) m s Q.
  Proof.
    intros HB N1 N2 N3 N4 N5 N6 N7 N8 N9 N10 Hr1 Hr2 Hr Hw fuel. induction fuel as [|fuel IH]; intros m i1 i2 d n m' k1 k2 d' n' s Q; cbn [zip_loop]; [done|].
    intros H Hi1 Hi2 Hd Hc HF1 HE1 HF2 HE2 HD HQ. apply fwp_whilev. apply fwp_pand. wne Hr1.
    destruct (Nat.eqb_spec i1 j1) as [Ej1|Hn1]; cbn [negb orb] in *.
    { injection H as <- <- <- <- <-. specialize (HQ ltac:(ilia) ltac:(ilia)). by rewrite !insert_id in HQ by lk. }
    wne Hr2. destruct (Nat.eqb_spec i2 j2) as [Ej2|Hn2]; cbn [negb orb] in *.
    { injection H as <- <- <- <- <-. specialize (HQ ltac:(ilia) ltac:(ilia)). by rewrite !insert_id in HQ by lk. }
    apply rbind_Ok in H as (x&Hx&H). apply rbind_Ok in H as (y&Hy&H).
    eapply (HB _ _ i01 i1 j1 i02 i2 j2 d0 d c); [lk|lk|lk|exact Hr1|ilia|exact Hr2|ilia|exact Hr|ilia|exact Hw|exact Hx|exact Hy|].
    unfold finger_after. destruct (step x y).
    1-3: apply rbind_Ok in H as (m1&Hm&H); pose proof (zip_loop_mono _ _ _ _ _ _ _ _ _ _ _ _ _ _ H) as Hd'; exists m1; split; [ilia|]; split; [done|].
    all: eapply IH; [exact H|ilia|ilia|ilia|ilia|lk|lk|lk|lk|lk|]; intros Hk1 Hk2; toQ (<[D:=d']> (<[F2:=k2]> (<[F1:=k1]> s))); auto.
  Qed.

  (** the context of a two-range function *)
  Definition two_pre s (first1 last1 first2 last2 d_first : iid) (i1 j1 i2 j2 d c d' : nat) : Prop :=
    rng L i1 j1 /\ rng L i2 j2 /\ rng L d c /\ d' <= c /\ writable L d /\ cat_ge L FORWARD i1 /\ cat_ge L FORWARD i2 /\ cat_ge L FORWARD d /\
    s !! first1 = Some i1 /\ s !! last1 = Some j1 /\ s !! first2 = Some i2 /\ s !! last2 = Some j2 /\ s !! d_first = Some d.
  Lemma algo_copy_mono m i j d m' d' n : algo_copy m i j d = Ok (m', d', n) -> d <= d'.
  Proof. apply emit_loop_mono. Qed.

  Lemma two_range_wp step copy1 copy2 body first1 last1 first2 last2 d_first o m s i1 j1 i2 j2 d c m' d' n :
    (forall F1 F2 D, F1 <> F2 -> F1 <> D -> F2 <> D -> fingers step F1 F2 D (body F1 F2 D)) ->
    zip_then_copy step copy1 copy2 m i1 j1 i2 j2 d = Ok (m', d', n) ->
    two_pre s first1 last1 first2 last2 d_first i1 j1 i2 j2 d c d' -> out_pre L s o d ->
    fwp L (two_range_p body copy1 copy2 first1 last1 first2 last2 d_first o) m s (leaves s o n m' d').
  Proof.
    intros HB H (Hr1&Hr2&Hr&Hc&Hw&Hc1&Hc2&Hc3&Hf1&Hl1&Hf2&Hl2&Hd) Ho. pose proof (rng_le _ _ _ Hr1). pose proof (rng_le _ _ _ Hr2). pose proof (rng_le _ _ _ Hr).
    unfold zip_then_copy in H. apply rbind_Ok in H as ([[[[m1 k1] k2] d1] n1]&Hz&H).
    apply rbind_Ok in H as ([[m2 d2] n2]&Hy1&H). apply rbind_Ok in H as ([[m3 d3] n3]&Hy2&H). cbn [fst snd] in *. injection H as -> -> <-.
    pose proof (zip_loop_mono _ _ _ _ _ _ _ _ _ _ _ _ _ _ Hz) as D1.
    assert (d1 <= d2) as D2 by (destruct copy1; [by eapply algo_copy_mono|by injection Hy1 as <- <- <-]).
    assert (d2 <= d') as D3 by (destruct copy2; [by eapply algo_copy_mono|by injection Hy2 as <- <- <-]).
    unfold two_range_p.
    apply fwp_bind. eapply fwp_forward2; [lk|lk|exact Hc1|eapply cat_rng; [exact Hr1|ilia|exact Hc1]|].
    apply fwp_bind. eapply fwp_forward2; [lk|lk|exact Hc2|eapply cat_rng; [exact Hr2|ilia|exact Hc2]|].
    apply fwp_bind. eapply fwp_at_least; [lk|exact Hc3|].
    wb. eapply fwp_out_at_least; [exact Ho|done|].
    apply fwp_bind. eapply fwp_is_mutable; [lk|exact Hw|].
    wnew. wnew. wnew. wnew. wnew.
    wb. eapply (zip_loop_wp step _ _ _ _ _ _ i1 j1 i2 j2 d c); [apply HB; congruence|congruence..|exact Hr1|exact Hr2|exact Hr|exact Hw|exact Hz|ilia|ilia|ilia|ilia|lk|lk|lk|lk|lk|].
    intros K1 K2. wb.
    assert (forall s0 F E D k j e mm mm' e' nn (b : bool) n0 (Q : nat -> list A -> gmap iid nat -> Prop), F <> D -> E <> D ->
      (if b then algo_copy mm k j e else Ok (mm, e, 0)) = Ok (mm', e', nn) ->
      rng L k j -> cat_ge L FORWARD k -> d <= e <= c -> e' <= c ->
      s0 !! F = Some k -> s0 !! E = Some j -> s0 !! D = Some e -> Q (n0 + nn) mm' (<[D := e']> s0) ->
      fwp L (if b then r <~ copy_p F E D (Some (Some D));; Ret (n0 + r.1) else Ret n0) mm s0 Q) as Hcopy.
    { intros s0 F E D k j e mm mm' e' nn b n0 Q N1 N2 Hcp Hrk Hck He He' HF HE HD HQ. destruct b.
      - wb. eapply fwp_mono; [eapply (copy_wp _ _ _ _ _ _ _ k j e c); [exact Hcp| |]|].
        { split_and!; [exact Hrk|eapply rng_sub; [exact Hr|ilia..]|ilia|eapply writable_rng; [exact Hr|ilia|exact Hw]
            |exact Hck|eapply cat_rng; [exact Hr|ilia|exact Hc3]|lk|lk|lk]. }
        { exists e. split; [lk|]. eapply alike_rng; [exact Hr|ilia..]. }
        intros [v1 w1] m4 s4 (E4&->&[_ ->]). cbn [fst] in E4. subst v1. cbn [fst]. by apply fwp_ret.
      - injection Hcp as <- <- <-. apply fwp_ret. rewrite Nat.add_0_r in HQ. by rewrite insert_id in HQ by lk. }
    eapply (Hcopy _ _ _ _ k1 j1 d1); [congruence|congruence|exact Hy1|eapply rng_sub; [exact Hr1|ilia..]|eapply cat_rng; [exact Hr1|ilia|exact Hc1]|ilia|ilia|lk|lk|lk|].
    wb. eapply (Hcopy _ _ _ _ k2 j2 d2); [congruence|congruence|exact Hy2|eapply rng_sub; [exact Hr2|ilia..]|eapply cat_rng; [exact Hr2|ilia|exact Hc2]|ilia|ilia|lk|lk|lk|].
    wb. wout Ho Hr. intros v s' Hs'. wfree_out Hs'. wfree_out Hs'. wfree_out Hs'. wfree_out Hs'. wfree_out Hs'. wfin Hs'.
  Qed.

  (** ** algo_partition_copy *)
  Lemma partition_copy_mono (pred : A -> bool) : forall fuel m i j dt df n m' t u n', partition_copy_loop fuel pred m i j dt df n = Ok (m', t, u, n') -> dt <= t /\ df <= u.
  Proof.
    intros fuel. induction fuel as [|fuel IH]; intros m i j dt df n m' t u n'; cbn [partition_copy_loop]; [done|].
    destruct (i =? j); [intros [= <- <- <- <-]; lia|]. intros [x [_ H]]%rbind_Ok.
    destruct (pred x); apply rbind_Ok in H as (m1&_&H); apply IH in H; lia.
  Qed.
  Lemma partition_copy_loop_wp (pred : A -> bool) F E T U i0 j t0 ct u0 cu :
    F <> E -> F <> T -> F <> U -> E <> T -> E <> U -> T <> U -> rng L i0 j -> rng L t0 ct -> rng L u0 cu -> writable L t0 -> writable L u0 ->
    forall fuel m i dt df n m' t u n' s (Q : nat -> list A -> gmap iid nat -> Prop),
    partition_copy_loop fuel pred m i j dt df n = Ok (m', t, u, n') -> i0 <= i <= j -> t0 <= dt -> t <= ct -> u0 <= df -> u <= cu ->
    s !! F = Some i -> s !! E = Some j -> s !! T = Some dt -> s !! U = Some df ->
    Q n' m' (<[U := u]> (<[T := t]> (<[F := j]> s))) ->
    fwp L (each_p F E (fun n =>
      x <~ Deref F;;
      (if pred x then DerefAssign T F;;; Inc T else DerefAssign U F;;; Inc U);;;
      Inc F;;; Ret (S n)) n) m s Q.
  Proof.
    intros N1 N2 N3 N4 N5 N6 Hr Hrt Hru Hwt Hwu fuel. induction fuel as [|fuel IH]; intros m i dt df n m' t u n' s Q; cbn [partition_copy_loop]; [done|].
    intros H Hi Ht Hct Hu Hcu HF HE HT HU HQ. apply fwp_whilev. wne Hr. destruct (Nat.eqb_spec i j) as [->|Hij]; cbn [negb].
    { injection H as <- <- <- <-. by rewrite !insert_id in HQ by lk. }
    apply rbind_Ok in H as (x&Hx&H). wb. wrd Hr Hx. wb. destruct (pred x); apply rbind_Ok in H as (m1&Hm&H);
      pose proof (partition_copy_mono _ _ _ _ _ _ _ _ _ _ _ _ H) as [? ?].
    - wb. wda Hr Hx Hrt Hwt Hm. winc Hrt. wb. winc Hr. apply fwp_ret. eapply IH; [exact H|ilia|ilia|ilia|ilia|ilia|lk|lk|lk|lk|].
      toQ (<[U:=u]> (<[T:=t]> (<[F:=j]> s))). done.
    - wb. wda Hr Hx Hru Hwu Hm. winc Hru. wb. winc Hr. apply fwp_ret. eapply IH; [exact H|ilia|ilia|ilia|ilia|ilia|lk|lk|lk|lk|].
      toQ (<[U:=u]> (<[T:=t]> (<[F:=j]> s))). done.
  Qed.
  (** what [algo_partition_copy] leaves: both out parameters are stored *)
  Definition leaves2 (s : gmap iid nat) (o1 o2 : out) (v : nat) (mm : list A) (k1 k2 : nat) (r : nat * option iid * option iid) (m' : list A) (s' : gmap iid nat) : Prop :=
    r.1.1 = v /\ m' = mm /\ exists s1, out_set o1 k1 s r.1.2 s1 /\ out_set o2 k2 s1 r.2 s'.
  Lemma partition_copy_wp (pred : A -> bool) first last dft dff o1 o2 m s i j dt ct df cu m' t u n :
    algo_partition_copy m i j dt df pred = Ok (m', t, u, n) ->
    rng L i j -> rng L dt ct -> rng L df cu -> t <= ct -> u <= cu -> writable L dt -> writable L df ->
    cat_ge L FORWARD i -> cat_ge L FORWARD dt -> cat_ge L FORWARD df ->
    s !! first = Some i -> s !! last = Some j -> s !! dft = Some dt -> s !! dff = Some df ->
    out_pre L s o1 dt -> out_pre L s o2 df -> (forall x y, o1 = Some (Some x) -> o2 = Some (Some y) -> x <> y) ->
    fwp L (partition_copy_p first last dft dff o1 o2 pred) m s (leaves2 s o1 o2 n m' t u).
  Proof.
    intros H Hr Hrt Hru Hct Hcu Hwt Hwu Hc Hc1 Hc2 Hf Hl Ht Hu Ho1 Ho2 Hne. pose proof (rng_le _ _ _ Hr). pose proof (rng_le _ _ _ Hrt). pose proof (rng_le _ _ _ Hru).
    pose proof (partition_copy_mono _ _ _ _ _ _ _ _ _ _ _ _ H) as [? ?]. unfold partition_copy_p.
    apply fwp_bind. eapply fwp_forward2; [lk|lk|exact Hc|eapply cat_rng; [exact Hr|ilia|exact Hc]|].
    apply fwp_bind. eapply fwp_forward2; [lk|lk|exact Hc1|exact Hc2|].
    wb. eapply fwp_out_at_least; [exact Ho1|done|]. wb. eapply fwp_out_at_least; [exact Ho2|done|].
    apply fwp_bind. eapply fwp_is_mutable; [lk|exact Hwt|]. apply fwp_bind. eapply fwp_is_mutable; [lk|exact Hwu|].
    wnew. wnew. wnew. wnew.
    wb. eapply (partition_copy_loop_wp pred _ _ _ _ i j dt ct df cu); [congruence..|exact Hr|exact Hrt|exact Hru|exact Hwt|exact Hwu|exact H|ilia|ilia|ilia|ilia|ilia|lk|lk|lk|lk|].
    wb. wout Ho1 Hrt. intros v s1 Hs1.
    wb. eapply (fwp_copy_or_assign L _ _ _ _ u).
    { destruct o2 as [[y|]|]; [|done..]. destruct Ho2 as (k2&Hk2&Ha2). exists k2. split.
      - eapply out_set_lookup; [exact Hs1|lk|]. intros ->. by eapply (Hne y y).
      - eapply alike_trans; [exact Ha2|]. eapply alike_rng; [exact Hru|ilia..]. }
    { eapply out_set_lookup; [exact Hs1|lk|one]. }
    intros w s2 Hs2. wfree_out2 Hs1 Hs2. wfree_out2 Hs1 Hs2. wfree_out2 Hs1 Hs2. wfree_out2 Hs1 Hs2.
    apply fwp_ret. split; [done|]. split; [done|]. cbn [fst snd]. eexists. split; [|exact Hs2].
    match type of Hs1 with out_set _ _ ?x _ _ => replace s with x by mapeq end. exact Hs1.
  Qed.
End set_proofs.
