(** RandomIterProofs.v — arithmetic of the random access iterators. *)
From Verif Require Import Base RandomIter.
From stdpp Require Import list.
Local Open Scope Z_scope.

(** a block of [cap] elements of [es] bytes at [base] that fits the address space, and is no larger than
    PTRDIFF_MAX as C requires of every object *)
Definition block_ok (base es cap : Z) : Prop :=
  0 <= base /\ 0 < es < 2 ^ 63 /\ 0 <= cap /\ base + cap * es < 2 ^ 64 /\ cap * es < 2 ^ 63.
Definition slot (base es i : Z) : Z := base + i * es.

Lemma to_u64_id x : 0 <= x < 2 ^ 64 -> to_u64 x = x.
Proof. intros. unfold to_u64. by rewrite Z.mod_small. Qed.
Lemma to_s64_id x : - 2 ^ 63 <= x < 2 ^ 63 -> to_s64 x = x.
Proof.
  intros H. unfold to_s64. destruct (decide (0 <= x)) as [H0|H0].
  - rewrite Z.mod_small by lia. destruct (Z.ltb_spec x (2 ^ 63)); lia.
  - assert (x mod 2 ^ 64 = x + 2 ^ 64) as ->.
    { rewrite <- (Z_mod_plus_full x 1), Z.mul_1_l. apply Z.mod_small. lia. }
    destruct (Z.ltb_spec (x + 2 ^ 64) (2 ^ 63)); lia.
Qed.
Lemma to_u64_congr x y : (exists k, x = y + k * 2 ^ 64) -> to_u64 x = to_u64 y.
Proof. intros [k ->]. unfold to_u64. apply Z_mod_plus_full. Qed.
Lemma to_u64_eq x : exists k, to_u64 x = x + k * 2 ^ 64.
Proof. exists (- (x / 2 ^ 64)). unfold to_u64. pose proof (Z.div_mod x (2 ^ 64) ltac:(lia)). lia. Qed.

Section iters.
  Context (base es cap : Z) (HB : block_ok base es cap).
  Notation slot := (slot base es).

  Lemma slot_range i : 0 <= i <= cap -> 0 <= slot i < 2 ^ 64.
  Proof. destruct HB as (? & ? & ? & ? & ?). intros H'. unfold RandomIterProofs.slot. nia. Qed.
  Lemma slot_inj i j : slot i = slot j -> i = j.
  Proof. destruct HB as (? & ? & ? & ? & ?). unfold RandomIterProofs.slot. nia. Qed.
  Lemma slot_lt i j : iter_less (slot i) (slot j) = (i <? j).
  Proof.
    destruct HB as (? & ? & ? & ? & ?). unfold RandomIterProofs.slot, iter_less.
    destruct (Z.ltb_spec (base + i * es) (base + j * es)), (Z.ltb_spec i j); nia.
  Qed.
  Lemma iter_inc_ok i : 0 <= i < cap -> iter_inc es (slot i) = slot (i + 1).
  Proof. intros H. unfold iter_inc. rewrite <- (to_u64_id (slot (i + 1))) by (apply slot_range; lia). f_equal. unfold RandomIterProofs.slot. lia. Qed.
  Lemma iter_dec_ok i : 0 < i <= cap -> iter_dec es (slot i) = slot (i - 1).
  Proof. intros H. unfold iter_dec. rewrite <- (to_u64_id (slot (i - 1))) by (apply slot_range; lia). f_equal. unfold RandomIterProofs.slot. lia. Qed.
  Lemma mul_u64 n : exists k, to_u64 (to_u64 n * es) = n * es + k * 2 ^ 64.
  Proof.
    destruct (to_u64_eq n) as [k ->]. destruct (to_u64_eq ((n + k * 2 ^ 64) * es)) as [k' ->].
    exists (k * es + k'). lia.
  Qed.
  Lemma iter_advance_ok i n : 0 <= i <= cap -> 0 <= i + n <= cap -> iter_advance es (slot i) n = slot (i + n).
  Proof.
    intros Hi Hn. unfold iter_advance. destruct (Z.eqb_spec n 0) as [->|_]; [by rewrite Z.add_0_r|].
    rewrite <- (to_u64_id (slot (i + n))) by (by apply slot_range). apply to_u64_congr.
    destruct (mul_u64 n) as [k ->]. exists k. unfold RandomIterProofs.slot. lia.
  Qed.
  Lemma riter_advance_ok i n : 0 <= i <= cap -> 0 <= i - n <= cap -> riter_advance es (slot i) n = slot (i - n).
  Proof.
    intros Hi Hn. unfold riter_advance.
    rewrite <- (to_u64_id (slot (i - n))) by (by apply slot_range). apply to_u64_congr.
    destruct (mul_u64 n) as [k ->]. exists (- k). unfold RandomIterProofs.slot. lia.
  Qed.
  (** the unsigned quotient *)
  Lemma udiv d : - cap <= d <= cap -> to_s64 (to_u64 (to_s64 (d * es)) / es) =
    if (0 <=? d) || (es =? 1) then d else 2 ^ 64 / es + d.
  Proof.
    destruct HB as (H1 & H2 & H3 & H4 & H5). intros Hd.
    assert (- (cap * es) <= d * es <= cap * es) as Hm by nia.
    assert (cap <= cap * es) as Hm2 by nia.
    rewrite (to_s64_id (d * es)) by lia. destruct (Z.leb_spec 0 d) as [H0|H0]; cbn [orb].
    - rewrite to_u64_id by nia. rewrite Z.div_mul by lia. apply to_s64_id. lia.
    - assert (to_u64 (d * es) = d * es + 2 ^ 64) as ->.
      { rewrite <- (to_u64_id (d * es + 2 ^ 64)) by (split; [lia|nia]). apply to_u64_congr. exists (-1). lia. }
      rewrite Z.add_comm, Z.div_add by lia. destruct (Z.eqb_spec es 1) as [->|Hes].
      + rewrite Z.div_1_r. rewrite <- (to_s64_id d) at 2 by lia. unfold to_s64.
        assert ((2 ^ 64 + d) mod 2 ^ 64 = d mod 2 ^ 64) as ->; [|done].
        rewrite Z.add_comm. rewrite <- (Z_mod_plus_full d 1 (2 ^ 64)). f_equal.
      + assert (2 ^ 64 / es <= 2 ^ 63) by (apply Z.div_le_upper_bound; lia).
        assert (cap <= 2 ^ 64 / es) by (apply Z.div_le_lower_bound; lia).
        apply to_s64_id. lia.
  Qed.
  Lemma iter_distance_ok i j : 0 <= i <= cap -> 0 <= j <= cap ->
    iter_distance es (slot i) (slot j) =
      if (i <=? j) || (es =? 1) then j - i else 2 ^ 64 / es + (j - i).
  Proof.
    intros Hi Hj. unfold iter_distance.
    replace (slot j - slot i) with ((j - i) * es) by (unfold RandomIterProofs.slot; lia).
    rewrite udiv by lia. destruct (Z.leb_spec 0 (j - i)), (Z.leb_spec i j); try lia; done.
  Qed.
  Lemma riter_distance_ok i j : 0 <= i <= cap -> 0 <= j <= cap ->
    riter_distance es (slot i) (slot j) =
      if (j <=? i) || (es =? 1) then i - j else 2 ^ 64 / es + (i - j).
  Proof. intros Hi Hj. unfold riter_distance. by apply iter_distance_ok. Qed.
  Lemma quotient_pos : es <> 1 -> forall k, 0 <= k <= cap -> 2 ^ 64 / es - k <> - k /\ 0 <= 2 ^ 64 / es - k.
  Proof.
    destruct HB as (H1 & H2 & H3 & H4 & H5). intros Hes k Hk.
    assert (cap <= 2 ^ 64 / es) by (apply Z.div_le_lower_bound; lia).
    assert (2 ^ 64 / es <> 0) by (rewrite Z.div_small_iff; lia). lia.
  Qed.
  Lemma riter_inc_ok i : 0 < i <= cap -> riter_inc es (slot i) = slot (i - 1).
  Proof. apply iter_dec_ok. Qed.
  Lemma riter_dec_ok i : 0 <= i < cap -> riter_dec es (slot i) = slot (i + 1).
  Proof. apply iter_inc_ok. Qed.
End iters.
