(** PropertiesPrime.v — theorems about the built-in types (Prime.v). *)
From Verif Require Import Base Spec Prime AlgoSort PropertiesAlgo.
From Coq Require Import Floats.SpecFloat.
From stdpp Require Import list.
Open Scope Z_scope.

Lemma unsigned_bound bs : Forall (fun b => 0 <= b < 256) bs -> 0 <= unsigned bs < 256 ^ Z.of_nat (length bs).
Proof.
  induction 1 as [|b bs Hb _ IH]; [cbn; lia|]. cbn [unsigned length]. rewrite Nat2Z.inj_succ, Z.pow_succ_r by lia. lia.
Qed.
Lemma digits_obj n : forall z, length (digits n z) = n /\ Forall (fun b => 0 <= b < 256) (digits n z).
Proof.
  induction n as [|n IH]; intros z; [split; [done|by apply Forall_nil]|]. destruct (IH (z / 256)) as [H1 H2]. cbn [digits length]. split; [by rewrite H1|].
  apply Forall_cons. split; [apply Z.mod_pos_bound; lia|done].
Qed.
Lemma unsigned_digits n : forall z, 0 <= z < 256 ^ Z.of_nat n -> unsigned (digits n z) = z.
Proof.
  induction n as [|n IH]; intros z Hz; [cbn in *; lia|]. cbn [digits unsigned]. rewrite Nat2Z.inj_succ, Z.pow_succ_r in Hz by lia.
  rewrite IH; [pose proof (Z.div_mod z 256); lia|]. split; [apply Z.div_pos; lia|apply Z.div_lt_upper_bound; lia].
Qed.
Lemma digits_unsigned bs : Forall (fun b => 0 <= b < 256) bs -> digits (length bs) (unsigned bs) = bs.
Proof.
  induction 1 as [|b bs Hb _ IH]; [done|]. cbn [length digits unsigned]. f_equal.
  - rewrite Z.mul_comm, Z.mod_add by lia. by apply Z.mod_small.
  - replace ((b + 256 * unsigned bs) / 256) with (unsigned bs); [done|]. rewrite Z.mul_comm, Z.div_add by lia. rewrite (Z.div_small b) by lia. lia.
Qed.
Lemma modulus_even t : (0 < it_size t)%nat -> exists k, modulus t = 2 * k /\ 0 < k.
Proof.
  intros H. unfold modulus. destruct (it_size t) as [|n]; [lia|]. exists (128 * 256 ^ Z.of_nat n).
  rewrite Nat2Z.inj_succ, Z.pow_succ_r by lia. pose proof (Z.pow_pos_nonneg 256 (Z.of_nat n)). lia.
Qed.
Lemma ival_range t bs : (0 < it_size t)%nat -> iobj t bs -> in_type t (ival t bs).
Proof.
  intros Hs [Hl Hb]. pose proof (unsigned_bound bs Hb) as Hu. rewrite Hl in Hu. fold (modulus t) in Hu. unfold in_type, ival.
  destruct (it_signed t); cbn [andb]; [|lia]. destruct (Z.leb_spec (modulus t) (2 * unsigned bs)); lia.
Qed.
Lemma ival_ibytes t z : (0 < it_size t)%nat -> in_type t z -> ival t (ibytes t z) = z.
Proof.
  intros Hs Hz. destruct (modulus_even t Hs) as (k&Hk&Hk0). unfold ival, ibytes. rewrite unsigned_digits by (apply Z.mod_pos_bound; lia).
  unfold in_type in Hz. destruct (it_signed t); cbn [andb].
  - destruct (Z.leb_spec 0 z).
    + rewrite Z.mod_small by lia. destruct (Z.leb_spec (modulus t) (2 * z)); lia.
    + replace (z mod modulus t) with (z + modulus t); [destruct (Z.leb_spec (modulus t) (2 * (z + modulus t))); lia|].
      rewrite <- (Z.mod_small (z + modulus t) (modulus t)) by lia. rewrite Z.add_mod, Z.mod_same, Z.add_0_r, Z.mod_mod by lia. done.
  - by rewrite Z.mod_small.
Qed.
Lemma ibytes_ival t bs : (0 < it_size t)%nat -> iobj t bs -> ibytes t (ival t bs) = bs.
Proof.
  intros Hs [Hl Hb]. pose proof (unsigned_bound bs Hb) as Hu. rewrite Hl in Hu. fold (modulus t) in Hu. unfold ibytes.
  assert (ival t bs mod modulus t = unsigned bs) as ->; [|rewrite <- Hl; by apply digits_unsigned].
  unfold ival. destruct (it_signed t && _); [|by apply Z.mod_small].
  rewrite <- (Z.mod_small (unsigned bs) (modulus t)) at 2 by lia. rewrite <- (Z.mod_add (unsigned bs - modulus t) 1) by lia. f_equal. lia.
Qed.

(** ** C103 the integer types: create stores 0, copy and assign store the value, less and equal are the order of the
    values, and equal objects are identical *)
Theorem C103_integer_types : forall t, (0 < it_size t)%nat ->
  (forall obj, iobj t (prime_create t obj) /\ ival t (prime_create t obj) = 0) /\
  (forall z, in_type t z -> iobj t (ibytes t z) /\ ival t (ibytes t z) = z) /\
  (forall dst src, iobj t dst -> iobj t src -> prime_copy t dst src = src /\ prime_assign t false dst src = src /\ prime_assign t true src src = src) /\
  (forall x y, iobj t x -> iobj t y -> (prime_less t x y = true <-> ival t x < ival t y) /\ (prime_equal t x y = true <-> x = y)) /\
  StrictWeakOrder (prime_less t) /\
  (forall x y, prime_equal t x y = negb (prime_less t x y) && negb (prime_less t y x)).
Proof.
  intros t Hs. assert (Hobj : forall z, iobj t (ibytes t z)) by (intros z; apply digits_obj).
  split; [|split; [|split; [|split; [|split]]]].
  - intros obj. split; [apply Hobj|]. apply ival_ibytes; [done|]. destruct (modulus_even t Hs) as (k&Hk&Hk0). unfold in_type. destruct (it_signed t); lia.
  - intros z Hz. split; [apply Hobj|by apply ival_ibytes].
  - intros dst src Hd Hsrc. unfold prime_copy, prime_assign. by rewrite ibytes_ival.
  - intros x y Hx Hy. unfold prime_less, prime_equal. split; [lia|]. rewrite Z.eqb_eq. split; [|by intros ->].
    intros E. rewrite <- (ibytes_ival t x), <- (ibytes_ival t y) by done. by rewrite E.
  - unfold prime_less. split; lia.
  - intros x y. unfold prime_less, prime_equal. lia.
Qed.
Print Assumptions C103_integer_types.
Example C103_example : let int := IType 4 true in iobj int [253; 255; 255; 255] /\ ival int [253; 255; 255; 255] = -3 /\
  prime_less int [253; 255; 255; 255] [2; 1; 0; 0] = true /\ ival (IType 4 false) [253; 255; 255; 255] = 4294967293.
Proof. split; [split; [done|repeat (apply Forall_cons; split; [lia|]); by apply Forall_nil]|done]. Qed.

(** ** C104 float and double: not strict weak orders (NaN): refuted *)
Definition fl (z : positive) : spec_float := S754_finite false z 0.
Theorem C104_float_order_refuted : ~ StrictWeakOrder float_less /\
  (* equality is not reflexive, and sorting leaves 3 before 2 *)
  float_equal S754_nan S754_nan = false /\
  algo_sort_by float_less [fl 1; fl 3; S754_nan; fl 2] 0 4 = Ok [fl 1; fl 3; S754_nan; fl 2].
Proof.
  split; [|split; [done|vm_compute; reflexivity]]. intros [_ _ H]. specialize (H (fl 1) S754_nan (fl 2) eq_refl eq_refl eq_refl eq_refl). discriminate H.
Qed.
Print Assumptions C104_float_order_refuted.
Lemma fcompare x y : match x, y with
  | S754_finite s1 m1 e1, S754_finite s2 m2 e2 =>
    SFltb x y = match s1, s2 with
                | false, false => (e1 <? e2) || ((e1 =? e2) && (Z.pos m1 <? Z.pos m2))
                | true, true => (e2 <? e1) || ((e2 =? e1) && (Z.pos m2 <? Z.pos m1))
                | true, false => true | false, true => false end
  | _, _ => True end.
Proof.
  destruct x as [| | |s1 m1 e1]; try done. destruct y as [| | |s2 m2 e2]; try done. unfold SFltb. cbn [SFcompare].
  change (Pos.compare_cont Eq m1 m2) with (Pos.compare m1 m2). destruct s1, s2; try done;
  destruct (Z.compare_spec e1 e2); destruct (Pos.compare_spec m1 m2); cbn [CompOpp]; lia.
Qed.
Lemma feq x y : is_number x -> is_number y -> float_equal x y = negb (float_less x y) && negb (float_less y x).
Proof.
  unfold is_number, float_equal, float_less, SFeqb, SFltb. intros Hx Hy.
  destruct x as [[]|[]| |[] m1 e1]; try done; destruct y as [[]|[]| |[] m2 e2]; try done; cbn [SFcompare];
  change (Pos.compare_cont Eq ?a ?b) with (Pos.compare a b); rewrite (Z.compare_antisym e1 e2), (Pos.compare_antisym m1 m2);
  destruct (e1 ?= e2), (m1 ?= m2)%positive; done.
Qed.
(** Missing: NaN (refuted).  On numbers (zeros, finite numbers and infinities) less is a strict weak order and equal
    its equivalence. *)
Theorem C104_float_order_partial :
  (forall x, is_number x -> float_less x x = false) /\
  (forall x y z, is_number x -> is_number y -> is_number z -> float_less x y = true -> float_less y z = true -> float_less x z = true) /\
  (forall x y z, is_number x -> is_number y -> is_number z -> float_less x y = false -> float_less y x = false ->
     float_less y z = false -> float_less z y = false -> float_less x z = false) /\
  (forall x y, is_number x -> is_number y -> float_equal x y = negb (float_less x y) && negb (float_less y x)).
Proof.
  unfold is_number, float_less. split; [|split; [|split]].
  - intros x _. pose proof (fcompare x x) as H. destruct x as [[]|[]| |[] m e]; try done; rewrite H; lia.
  - intros x y z Hx Hy Hz. pose proof (fcompare x y) as H1. pose proof (fcompare y z) as H2. pose proof (fcompare x z) as H3.
    destruct x as [[]|[]| |[] m1 e1]; try done; destruct y as [[]|[]| |[] m2 e2]; try done; destruct z as [[]|[]| |[] m3 e3]; try done; try rewrite H1; try rewrite H2; try rewrite H3; try done; lia.
  - intros x y z Hx Hy Hz. pose proof (fcompare x y) as H1. pose proof (fcompare y z) as H2. pose proof (fcompare x z) as H3. pose proof (fcompare y x) as H4. pose proof (fcompare z y) as H5.
    destruct x as [[]|[]| |[] m1 e1]; try done; destruct y as [[]|[]| |[] m2 e2]; try done; destruct z as [[]|[]| |[] m3 e3]; try done; try rewrite H1; try rewrite H2; try rewrite H3; try rewrite H4; try rewrite H5; try done; lia.
  - intros x y. apply feq.
Qed.
Print Assumptions C104_float_order_partial.
Example C104_example : float_less (fl 2) (fl 3) = true /\ is_number (fl 2) /\ float_less (S754_zero true) (S754_zero false) = false.
Proof. split; [vm_compute; reflexivity|]. split; [discriminate|vm_compute; reflexivity]. Qed.
