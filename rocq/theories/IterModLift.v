(** IterModLift.v — the programs of IterMod.v on containers. *)
From stdpp Require Import list gmap.
From Verif Require Import Base Spec Iter IterFlat IterWp IterWorld SpecIter IterWorldProofs IterLift Facts AlgoNonMod AlgoNonModProofs
  AlgoMod AlgoModProofs IterNonMod IterNonModProofs IterMod IterModProofs IterModProofs2 IterModProofs3 IterNonModLift.
From stdpp Require Import list.

Section lifted.
  Context {A : Type} {CK : Checked} `{Inhabited A}.
  Implicit Types (M : cmem A) (S : gmap iid cpos) (q : cont * list cpos * list A).

  (** ** one container *)
  Lemma slice_patch_0 (m l : list A) n i : i + length l <= n -> n <= length m -> slice (patch m i l) 0 n = patch (slice m 0 n) i l.
  Proof. intros H1 H2. apply (slice_patch_in m l 0 n i H1 H2). Qed.
  Lemma one_plain_patch M S q f2 L m s b JW J {R : Type} (p : prog A R) v d l : runs_on M S q q true f2 L m s b JW J ->
    d + length l <= length q.2 -> fwp L p m s (makes s v (patch m d l)) -> changes M S q d l p v.
  Proof.
    intros HR Hd Hp. pose proof (op_len _ _ _ _ _ _ _ (ro_open1 _ _ _ _ _ _ _ _ _ _ _ _ HR)) as Hlen. cbn [plus] in Hlen.
    destruct (one_plain M S q f2 L m s b JW J p v (patch m d l) HR) as (M'&He&Hb); [done|].
    exists M'. split; [done|]. by rewrite slice_patch_0, (ro_whole1 _ _ _ _ _ _ _ _ _ _ _ _ HR) in Hb by lia.
  Qed.
  Lemma one_out_patch M S q f2 L m s b JW J {R : Type} (p : prog A (R * option iid)) o v d l k : runs_on M S q q true f2 L m s b JW J ->
    d + length l <= length q.2 -> k <= length q.2 -> fwp L p m s (leaves s o v (patch m d l) k) -> changes_out M S q o d l k p v.
  Proof.
    intros HR Hd Hk Hp. pose proof (op_len _ _ _ _ _ _ _ (ro_open1 _ _ _ _ _ _ _ _ _ _ _ _ HR)) as Hlen. cbn [plus] in Hlen.
    destruct (one_out M S q f2 L m s b JW J p o v k (patch m d l) HR Hk) as (w&M'&S'&He&Hb&Hst); [done|].
    exists w, M', S'. split; [done|]. split; [|done]. by rewrite slice_patch_0, (ro_whole1 _ _ _ _ _ _ _ _ _ _ _ _ HR) in Hb by lia.
  Qed.
  (** ** two containers, the second one written *)
  Lemma two_becomes M M' q2 l : shows M' q2.1.1 q2.1.2 l -> (forall q', (false = true -> obj_of q'.1.1 <> obj_of q2.1.1) ->
      (true = true -> obj_of q'.1.1 <> obj_of q2.1.1) -> shown M q' -> shown M' q') -> becomes M [(q2, l)] M'.
  Proof.
    intros H1 H2. split.
    - intros q' vs' [= -> ->]%elem_of_list_singleton. done.
    - intros q' Hq' Hs. apply H2; [..|done]; intros _; eapply Hq'; by apply elem_of_list_singleton.
  Qed.
  Lemma two_plain_patch M S q1 q2 L m s b JW J {R : Type} (p : prog A R) v d l : runs_on M S q1 q2 false true L m s b JW J ->
    d + length l <= length q2.2 -> fwp L p m s (makes s v (patch m (b + d) l)) -> changes M S q2 d l p v.
  Proof.
    intros HR Hd Hp. pose proof (op_len _ _ _ _ _ _ _ (ro_open2 _ _ _ _ _ _ _ _ _ _ _ _ HR)) as Hlen.
    destruct (ro_run _ _ _ _ _ _ _ _ _ _ _ _ HR _ _ _ Hp) as (r&m'&s'&M'&S'&He&(->&->&->)&HJ&_&H2&H3).
    rewrite (ro_fun _ _ _ _ _ _ _ _ _ _ _ _ HR _ _ _ HJ (ro_J _ _ _ _ _ _ _ _ _ _ _ _ HR)) in He.
    exists M'. split; [done|]. rewrite slice_patch_in, (ro_whole2 _ _ _ _ _ _ _ _ _ _ _ _ HR) in H2 by lia.
    apply two_becomes; [done|]. intros q' _ ?. by apply H3.
  Qed.
  Lemma two_out_patch M S q1 q2 L m s b JW J {R : Type} (p : prog A (R * option iid)) o v d l k : runs_on M S q1 q2 false true L m s b JW J ->
    d + length l <= length q2.2 -> k <= length q2.2 -> fwp L p m s (leaves s o v (patch m (b + d) l) (b + k)) ->
    changes_out M S q2 o d l k p v.
  Proof.
    intros HR Hd Hk Hp. pose proof (op_len _ _ _ _ _ _ _ (ro_open2 _ _ _ _ _ _ _ _ _ _ _ _ HR)) as Hlen.
    destruct (ro_run _ _ _ _ _ _ _ _ _ _ _ _ HR _ _ _ Hp) as ([r w]&m'&s'&M'&S'&He&(Hr&->&Ho)&HJ&_&H2&H3). cbn [fst snd] in *. subst r.
    destruct (ro_out2 _ _ _ _ _ _ _ _ _ _ _ _ HR _ _ _ _ _ _ Hk (ro_J _ _ _ _ _ _ _ _ _ _ _ _ HR) Ho) as (S2&Hst&HJ2).
    rewrite (ro_fun _ _ _ _ _ _ _ _ _ _ _ _ HR _ _ _ HJ HJ2) in He.
    exists w, M', S2. split; [done|]. split; [|done]. rewrite slice_patch_in, (ro_whole2 _ _ _ _ _ _ _ _ _ _ _ _ HR) in H2 by lia.
    apply two_becomes; [done|]. intros q' _ ?. by apply H3.
  Qed.

  Lemma open_sdx M S q1 q2 first last d_first i j d xs : shown M q1 -> shown M q2 -> range_in S q1 first last i j -> at_all S q1 xs ->
    at_pos S q2 d_first d -> unmixed q1 (first :: last :: xs.*1) q2 [d_first] -> mutable q2.1.1 = true -> same_or_apart q1 q2 ->
    exists L m s b JW J, (runs_on M S q1 q2 false true L m s b JW J /\ range m i j /\ j <= length q1.2 /\ d <= length q2.2 /\
      slice m i j = slice q1.2 i j /\ b + length q2.2 <= length m /\ (q1 = q2 /\ b = 0 \/ length q1.2 < b) /\
      (forall e, e <= b + length q2.2 -> copy_pre L s first last d_first i j (b + d) (b + length q2.2) e) /\
      (forall o, out_ok S q2 o -> out_pre L s o (b + d)) /\ cat_ge L FORWARD (b + d) /\
      (BIDIRECTION <= cat_of q1.1.1 -> cat_ge L BIDIRECTION i) /\
      rng L b (b + d) /\ (forall o, out_ok S q2 o -> out_pre L s o b) /\ writable L b /\
      (BIDIRECTION <= cat_of q2.1.1 -> cat_ge L BIDIRECTION b)) /\ (forall x k, (x, k) ∈ xs -> s !! x = Some k).
  Proof.
    intros H1 H2 HR Hxs Hd Hu Hmu Hap. destruct (range_at _ _ _ _ _ _ HR) as [Hat0 Hij].
    assert (at_all S q1 ((first, i) :: (last, j) :: xs)) as Hat.
    { inversion Hat0 as [|? ? ? Hat1]; subst. inversion Hat1; subst. by repeat constructor. }
    clear Hat0.
    pose proof (at_le _ _ _ _ _ H1 (proj1 (proj2 HR))) as Hj. pose proof (at_le _ _ _ _ _ H2 Hd) as Hdl.
    assert (at_all S q2 [(d_first, d)]) as Hat2 by (by repeat constructor).
    destruct (run_two M S q1 q2 _ _ false true H1 H2 Hat Hat2 Hu) as (L&m&s&b&JW&J&HRO&Hs1&Hs2); [done|done|done|].
    pose proof (ro_open1 _ _ _ _ _ _ _ _ _ _ _ _ HRO) as HO1. pose proof (ro_open2 _ _ _ _ _ _ _ _ _ _ _ _ HRO) as HO2.
    pose proof (op_len _ _ _ _ _ _ _ HO1) as Hlen1. pose proof (op_len _ _ _ _ _ _ _ HO2) as Hlen2. cbn [plus] in Hlen1.
    exists L, m, s, b, JW, J. split; [|intros x k Hx; by apply Hs1, elem_of_list_further, elem_of_list_further]. split; [done|]. split; [split; lia|]. split; [done|]. split; [done|].
    split; [apply (op_slice _ _ _ _ _ _ _ HO1 i j Hj)|]. split; [lia|]. split; [apply (ro_sep _ _ _ _ _ _ _ _ _ _ _ _ HRO)|].
    split; [|split; [|split; [|split; [|split; [|split; [|split]]]]]].
    - intros e He. split; [apply (op_rng _ _ _ _ _ _ _ HO1 i j); lia|]. split; [apply (op_rng _ _ _ _ _ _ _ HO2 d (length q2.2)); lia|].
      split; [done|]. split; [apply (op_mut _ _ _ _ _ _ _ HO2 d); [lia|done]|].
      split; [apply (op_cat _ _ _ _ _ _ _ HO1 i); [lia|apply cat_forward]|]. split; [apply (op_cat _ _ _ _ _ _ _ HO2 d); [lia|apply cat_forward]|].
      split; [apply Hs1, elem_of_list_here|]. split; [apply Hs1, elem_of_list_further, elem_of_list_here|]. apply Hs2, elem_of_list_here.
    - intros o Ho. apply (op_out _ _ _ _ _ _ _ HO2 d); [lia|done].
    - apply (op_cat _ _ _ _ _ _ _ HO2 d); [lia|apply cat_forward].
    - intros Hc. apply (op_cat _ _ _ _ _ _ _ HO1 i); [lia|done].
    - rewrite <- (Nat.add_0_r b) at 1. apply (op_rng _ _ _ _ _ _ _ HO2 0 d); lia.
    - intros o Ho. rewrite <- (Nat.add_0_r b). apply (op_out _ _ _ _ _ _ _ HO2 0); [lia|done].
    - rewrite <- (Nat.add_0_r b). apply (op_mut _ _ _ _ _ _ _ HO2 0); [lia|done].
    - intros Hc. rewrite <- (Nat.add_0_r b). apply (op_cat _ _ _ _ _ _ _ HO2 0); [lia|done].
  Qed.
  Ltac open2 HS :=
    destruct HS as (HS1&HS2&HS3&HS4&HS5&HS6&HS7);
    destruct (open_sdx _ _ _ _ _ _ _ _ _ _ [] HS1 HS2 HS3 ltac:(constructor) HS4 HS5 HS6 HS7)
      as (L&m&s&b&JW&J&(HRO&Hrange&Hj&Hd&Hsl&Hlen&Hsep&Hpre&Hout&Hcd&Hcb&Hrb&Hob&Hwb&Hcb2)&_).
  Lemma apart_flat q1 q2 i j d b : (q1 = q2 -> d <= i \/ j <= d) -> j <= length q1.2 -> (q1 = q2 /\ b = 0 \/ length q1.2 < b) -> b + d <= i \/ j <= b + d.
  Proof. intros H1 Hj [[-> ->]|Hb]; [apply H1; done|lia]. Qed.

  Lemma copy_run M S q1 q2  first last d_first o i j d : source_dest M S q1 q2 first last d_first i j d -> out_ok S q2 o ->
    d + (j - i) <= length q2.2 -> (q1 = q2 -> d <= i \/ j <= d) ->
    changes_out M S q2 o d (slice q1.2 i j) (d + (j - i)) (copy_p first last d_first o) (j - i).
  Proof.
    intros HS Ho Hfit Hov. open2 HS. pose proof (apart_flat _ _ _ _ _ _ Hov Hj Hsep).
    assert (length (slice q1.2 i j) = j - i) as Hn by (by apply slice_len').
    eapply two_out_patch; [exact HRO|rewrite ?map_length; lia|lia|]. rewrite <- Hsl, Nat.add_assoc.
    eapply copy_wp; [apply copy_ok; [done|lia|done]|apply Hpre; lia|by apply Hout].
  Qed.
  Lemma replace_copy_run M S q1 q2 (eqf : A -> A -> bool) old new first last d_first o i j d : source_dest M S q1 q2 first last d_first i j d -> out_ok S q2 o ->
    d + (j - i) <= length q2.2 -> (q1 = q2 -> d <= i \/ j <= d) ->
    changes_out M S q2 o d (map (fun x => if eqf x old then new else x) (slice q1.2 i j)) (d + (j - i)) (replace_copy_p eqf first last d_first old new o) (j - i).
  Proof.
    intros HS Ho Hfit Hov. open2 HS. pose proof (apart_flat _ _ _ _ _ _ Hov Hj Hsep).
    assert (length (slice q1.2 i j) = j - i) as Hn by (by apply slice_len').
    eapply two_out_patch; [exact HRO|rewrite ?map_length; lia|lia|]. rewrite <- Hsl, Nat.add_assoc.
    eapply replace_copy_wp; [apply replace_copy_ok; [done|lia|done]|apply Hpre; lia|by apply Hout].
  Qed.
  Lemma replace_copy_if_run M S q1 q2 (pred : A -> bool) new first last d_first o i j d : source_dest M S q1 q2 first last d_first i j d -> out_ok S q2 o ->
    d + (j - i) <= length q2.2 -> (q1 = q2 -> d <= i \/ j <= d) ->
    changes_out M S q2 o d (map (fun x => if pred x then new else x) (slice q1.2 i j)) (d + (j - i)) (replace_copy_if_p first last d_first pred new o) (j - i).
  Proof.
    intros HS Ho Hfit Hov. open2 HS. pose proof (apart_flat _ _ _ _ _ _ Hov Hj Hsep).
    assert (length (slice q1.2 i j) = j - i) as Hn by (by apply slice_len').
    eapply two_out_patch; [exact HRO|rewrite ?map_length; lia|lia|]. rewrite <- Hsl, Nat.add_assoc.
    eapply replace_copy_if_wp; [apply replace_copy_if_ok; [done|lia|done]|apply Hpre; lia|by apply Hout].
  Qed.
  Lemma copy_if_run M S q1 q2 (pred : A -> bool) first last d_first o i j d : source_dest M S q1 q2 first last d_first i j d -> out_ok S q2 o ->
    let kept := List.filter pred (slice q1.2 i j) in
    d + length kept <= length q2.2 -> (q1 = q2 -> d <= i \/ j <= d) ->
    changes_out M S q2 o d kept (d + length kept) (copy_if_p first last d_first o pred) (length kept).
  Proof.
    intros HS Ho kept Hfit Hov. open2 HS. pose proof (apart_flat _ _ _ _ _ _ Hov Hj Hsep).
    eapply two_out_patch; [exact HRO|lia|lia|]. subst kept. rewrite <- Hsl in *. rewrite Nat.add_assoc.
    eapply copy_if_wp; [apply copy_if_ok; [done|lia|done]|apply Hpre; lia|by apply Hout].
  Qed.
  Lemma remove_copy_run M S q1 q2 (eqf : A -> A -> bool) value first last d_first o i j d : source_dest M S q1 q2 first last d_first i j d -> out_ok S q2 o ->
    let kept := List.filter (fun x => negb (eqf x value)) (slice q1.2 i j) in
    d + length kept <= length q2.2 -> (q1 = q2 -> d <= i \/ j <= d) ->
    changes_out M S q2 o d kept (d + length kept) (remove_copy_p eqf first last d_first value o) (length kept).
  Proof.
    intros HS Ho kept Hfit Hov. open2 HS. pose proof (apart_flat _ _ _ _ _ _ Hov Hj Hsep).
    eapply two_out_patch; [exact HRO|lia|lia|]. subst kept. rewrite <- Hsl in *. rewrite Nat.add_assoc.
    eapply remove_copy_wp; [apply remove_copy_ok; [done|lia|done]|apply Hpre; lia|by apply Hout].
  Qed.
  Lemma remove_copy_if_run M S q1 q2 (pred : A -> bool) first last d_first o i j d : source_dest M S q1 q2 first last d_first i j d -> out_ok S q2 o ->
    let kept := List.filter (fun x => negb (pred x)) (slice q1.2 i j) in
    d + length kept <= length q2.2 -> (q1 = q2 -> d <= i \/ j <= d) ->
    changes_out M S q2 o d kept (d + length kept) (remove_copy_if_p first last d_first o pred) (length kept).
  Proof.
    intros HS Ho kept Hfit Hov. open2 HS. pose proof (apart_flat _ _ _ _ _ _ Hov Hj Hsep).
    eapply two_out_patch; [exact HRO|lia|lia|]. subst kept. rewrite <- Hsl in *. rewrite Nat.add_assoc.
    eapply remove_copy_if_wp; [apply remove_copy_if_ok; [done|lia|done]|apply Hpre; lia|by apply Hout].
  Qed.
  Lemma transform_run M S q1 q2 (op : A -> A) first last d_first i j d : source_dest M S q1 q2 first last d_first i j d ->
    d + (j - i) <= length q2.2 -> (q1 = q2 -> d <= i \/ j <= d) ->
    changes M S q2 d (map op (slice q1.2 i j)) (transform_p first last d_first op) (j - i).
  Proof.
    intros HS Hfit Hov. open2 HS. pose proof (apart_flat _ _ _ _ _ _ Hov Hj Hsep).
    assert (length (slice m i j) = j - i) as Hn by (apply slice_len'; destruct Hrange; lia).
    eapply two_plain_patch; [exact HRO|rewrite map_length, <- Hsl; lia|]. rewrite <- Hsl.
    pose proof (emit_ok (fun x => Some (op x)) m i j (b + d) Hrange) as E. rewrite !omap_some, !map_length, Hn in E.
    eapply transform_wp; [apply E; [lia|done]|apply Hpre; lia].
  Qed.
  Lemma copy_backward_run M S q1 q2 first last d_last o i j d : source_dest M S q1 q2 first last d_last i j d -> out_ok S q2 o ->
    BIDIRECTION <= cat_of q1.1.1 -> BIDIRECTION <= cat_of q2.1.1 ->
    j - i <= d -> (q1 = q2 -> j <= d \/ d <= i) ->
    changes_out M S q2 o (d - (j - i)) (slice q1.2 i j) (d - (j - i)) (copy_backward_p first last d_last o) (j - i).
  Proof.
    intros HS Ho Hc1 Hc2 Hfit Hov. open2 HS. assert (j <= b + d \/ b + d <= i) as Hov'.
    { destruct Hsep as [[-> ->]|?]; [by apply Hov|lia]. }
    destruct (Hpre 0 ltac:(lia)) as (Hr&_&_&_&_&_&Hf&Hl&Hdd).
    assert (length (slice q1.2 i j) = j - i) as Hn by (by apply slice_len').
    eapply two_out_patch; [exact HRO|lia|lia|]. rewrite <- Hsl, !Nat.add_sub_assoc by lia.
    eapply copy_backward_wp; [apply copy_backward_ok; [done|lia|done]|exact Hr|exact Hrb|lia|exact Hwb|auto|auto|done|done|done|by apply Hob].
  Qed.
  Lemma reverse_copy_run M S q1 q2 first last d_first o i j d : source_dest M S q1 q2 first last d_first i j d -> out_ok S q2 o ->
    BIDIRECTION <= cat_of q1.1.1 -> d + (j - i) <= length q2.2 -> (q1 = q2 -> d + (j - i) <= i \/ j <= d) ->
    changes_out M S q2 o d (rev (slice q1.2 i j)) (d + (j - i)) (reverse_copy_p first last d_first o) (j - i).
  Proof.
    intros HS Ho Hc Hfit Hov. open2 HS. assert (b + d + (j - i) <= i \/ j <= b + d) as Hov'.
    { destruct Hsep as [[-> ->]|?]; [by apply Hov|lia]. }
    destruct (Hpre (b + length q2.2) ltac:(lia)) as (Hr&Hr2&_&Hw&_&_&Hf&Hl&Hdd).
    assert (length (slice q1.2 i j) = j - i) as Hn by (by apply slice_len').
    eapply two_out_patch; [exact HRO|rewrite rev_length; lia|lia|]. rewrite <- Hsl, Nat.add_assoc.
    eapply reverse_copy_wp; [apply reverse_copy_ok; [done|lia|done]|exact Hr|exact Hr2|lia|exact Hw|auto|done|done|done|done|by apply Hout].
  Qed.
  Lemma rotate_copy_run M S q1 q2 first n_first last d_first o i nf j d : source_dest M S q1 q2 first last d_first i j d -> out_ok S q2 o ->
    at_pos S q1 n_first nf -> i <= nf <= j -> unmixed q1 [first; last; n_first] q2 [d_first] ->
    d + (j - i) <= length q2.2 -> (q1 = q2 -> d + (j - i) <= i \/ j <= d) ->
    changes_out M S q2 o d (slice q1.2 nf j ++ slice q1.2 i nf) (d + (j - i)) (rotate_copy_p first n_first last d_first o) (j - i).
  Proof.
    intros HS Ho Hat Hnf Hu Hfit Hov. destruct HS as (HS1&HS2&HS3&HS4&HS5&HS6&HS7).
    destruct (open_sdx _ _ _ _ _ _ _ _ _ _ [(n_first, nf)] HS1 HS2 HS3 ltac:(by repeat constructor) HS4 Hu HS6 HS7)
      as (L&m&s&b&JW&J&(HRO&Hrange&Hj&Hd&Hsl&Hlen&Hsep&Hpre&Hout&Hcd&Hcb&Hrb&Hob&Hwb&Hcb2)&Hxs).
    assert (b + d + (j - i) <= i \/ j <= b + d) as Hov'.
    { destruct Hsep as [[-> ->]|?]; [by apply Hov|lia]. }
    destruct (Hpre (b + length q2.2) ltac:(lia)) as (Hr&Hr2&_&Hw&Hci&_&Hf&Hl&Hdd).
    pose proof (ro_open1 _ _ _ _ _ _ _ _ _ _ _ _ HRO) as HO1.
    pose proof (op_slice _ _ _ _ _ _ _ HO1 nf j ltac:(lia)) as E1. pose proof (op_slice _ _ _ _ _ _ _ HO1 i nf ltac:(lia)) as E2. cbn [plus] in E1, E2.
    eapply two_out_patch; [exact HRO|rewrite app_length, !slice_len' by lia; lia|lia|]. rewrite <- E1, <- E2, Nat.add_assoc.
    pose proof (rotate_copy_ok m i nf j (b + d) ltac:(lia) ltac:(destruct Hrange; lia) ltac:(lia) Hov') as E.
    unfold algo_rotate_copy in E. apply rbind_Ok in E as ([[m1 d1] n1]&F1&E). apply rbind_Ok in E as ([[m2 d2] n2]&F2&E).
    cbn [fst snd] in *. injection E as -> -> E.
    assert (d1 = b + d + (j - nf)) as ->.
    { rewrite copy_ok in F1; [congruence|split; destruct Hrange; lia|lia|lia]. }
    eapply fwp_mono; [eapply rotate_copy_wp; [exact F1|exact F2|exact Hr|done|exact Hr2|lia|lia|exact Hw|exact Hci|done|done|apply Hxs, elem_of_list_here|done|done|by apply Hout]|].
    intros r mm ss (Hr1&Hr3&Hr4). split; [rewrite <- E; exact Hr1|split; [exact Hr3|exact Hr4]].
  Qed.
  Lemma unique_copy_by_run M S q1 q2 (pred : A -> A -> bool) first last d_first o i j d : source_dest M S q1 q2 first last d_first i j d -> out_ok S q2 o -> o <> None ->
    let kept := unique_spec pred (slice q1.2 i j) in
    d + length kept <= length q2.2 -> (q1 = q2 -> d <= i \/ j <= d) ->
    changes_out M S q2 o d kept (d + length kept) (unique_copy_by_p first last d_first o pred) (length kept).
  Proof.
    intros HS Ho Hno kept Hfit Hov. open2 HS. pose proof (apart_flat _ _ _ _ _ _ Hov Hj Hsep).
    destruct (Hpre (b + length q2.2) ltac:(lia)) as (Hr&Hr2&_&Hw&Hci&_&Hf&Hl&Hdd).
    eapply two_out_patch; [exact HRO|lia|lia|]. subst kept. rewrite <- Hsl in *. rewrite Nat.add_assoc.
    eapply unique_copy_by_wp; [apply unique_copy_ok; [done|lia|done]|done|exact Hr|exact Hr2|lia|exact Hw|exact Hci|done|done|done|done|by apply Hout].
  Qed.

  (** ** In place *)
  Lemma open_own M S q first last i j xs : own_range M S q first last i j -> at_all S q xs ->
    exists L m s b JW J, runs_on M S q q true false L m s b JW J /\ range m i j /\ j <= length q.2 /\ i <= j /\ length q.2 <= length m /\
      slice m i j = slice q.2 i j /\ rng L i j /\ writable L i /\ cat_ge L FORWARD i /\ s !! first = Some i /\ s !! last = Some j /\
      (forall o, out_ok S q o -> out_pre L s o i) /\ (forall x k, (x, k) ∈ xs -> s !! x = Some k).
  Proof.
    intros (HM&HR&Hmu) Hxs. destruct (range_at _ _ _ _ _ _ HR) as [Hat0 Hij]. pose proof (at_le _ _ _ _ _ HM (proj1 (proj2 HR))) as Hj.
    assert (at_all S q ((first, i) :: (last, j) :: xs)) as Hat.
    { inversion Hat0 as [|? ? ? Hat1]; subst. inversion Hat1; subst. by repeat constructor. }
    destruct (run_one M S q _ true HM Hat (fun _ => Hmu)) as (L&m&s&b&JW&J&HRO&Hs).
    pose proof (ro_open1 _ _ _ _ _ _ _ _ _ _ _ _ HRO) as HO. pose proof (op_len _ _ _ _ _ _ _ HO) as Hlen. cbn [plus] in Hlen.
    exists L, m, s, b, JW, J. split; [done|]. split; [split; lia|]. split; [done|]. split; [done|]. split; [lia|].
    split; [apply (op_slice _ _ _ _ _ _ _ HO i j Hj)|].
    split; [apply (op_rng _ _ _ _ _ _ _ HO i j); lia|]. split; [apply (op_mut _ _ _ _ _ _ _ HO i); [lia|done]|].
    split; [apply (op_cat _ _ _ _ _ _ _ HO i); [lia|apply cat_forward]|].
    split; [apply Hs, elem_of_list_here|]. split; [apply Hs, elem_of_list_further, elem_of_list_here|].
    split; [intros o Ho; apply (op_out _ _ _ _ _ _ _ HO i); [lia|done]|].
    intros x k Hx. by apply Hs, elem_of_list_further, elem_of_list_further.
  Qed.
  Ltac open1w HS :=
    destruct (open_own _ _ _ _ _ _ _ [] HS ltac:(constructor)) as (L&m&s&b&JW&J&HRO&Hrange&Hj&Hij&Hlen&Hsl&Hr&Hw&Hc&Hf&Hl&Hout&_).
  Lemma fill_run M S q first last i j value : own_range M S q first last i j ->
    changes M S q i (replicate (j - i) value) (fill_p first last value) (j - i).
  Proof.
    intros HS. open1w HS. eapply one_plain_patch; [exact HRO|rewrite replicate_length; lia|].
    eapply fill_wp; [by apply fill_ok|done..].
  Qed.
  Lemma generate_run {St} M S q first last i j (gen : St -> St * A) st : own_range M S q first last i j ->
    changes M S q i (generated gen st (j - i)).1 (generate_p first last gen st) ((generated gen st (j - i)).2, j - i).
  Proof.
    intros HS. open1w HS. eapply one_plain_patch; [exact HRO|rewrite generated_length; lia|].
    eapply generate_wp; [by apply generate_ok|done..].
  Qed.
  Lemma replace_if_run M S q first last i j (pred : A -> bool) new : own_range M S q first last i j ->
    changes M S q i (map (fun x => if pred x then new else x) (slice q.2 i j)) (replace_if_p first last pred new)
      (length (List.filter pred (slice q.2 i j))).
  Proof.
    intros HS. open1w HS. eapply one_plain_patch; [exact HRO|rewrite map_length, slice_len'; lia|]. rewrite <- Hsl.
    eapply replace_if_wp; [by apply replace_if_ok|done..].
  Qed.
  Lemma replace_run M S q (eqf : A -> A -> bool) first last i j old new : own_range M S q first last i j ->
    changes M S q i (map (fun x => if eqf x old then new else x) (slice q.2 i j)) (replace_p eqf first last old new)
      (length (List.filter (fun x => eqf x old) (slice q.2 i j))).
  Proof.
    intros HS. open1w HS. eapply one_plain_patch; [exact HRO|rewrite map_length, slice_len'; lia|]. rewrite <- Hsl.
    eapply replace_wp; [by apply replace_ok|done..].
  Qed.
  Lemma filter_le (f : A -> bool) (l : list A) : length (List.filter f l) <= length l.
  Proof. induction l as [|x l IH]; cbn; [done|]. destruct (f x); cbn; lia. Qed.
  Lemma remove_if_run M S q first last i j o (pred : A -> bool) : own_range M S q first last i j -> out_ok S q o ->
    let kept := List.filter (fun x => negb (pred x)) (slice q.2 i j) in
    changes_out M S q o i kept (i + length kept) (remove_if_p first last o pred) (length (List.filter pred (slice q.2 i j))).
  Proof.
    intros HS Ho kept. open1w HS. pose proof (filter_le (fun x => negb (pred x)) (slice q.2 i j)) as Hk. rewrite slice_len' in Hk by done.
    eapply one_out_patch; [exact HRO|subst kept; lia|subst kept; lia|]. subst kept. rewrite <- Hsl.
    eapply remove_if_wp; [by apply remove_if_ok|done..|by apply Hout].
  Qed.
  Lemma remove_run M S q (eqf : A -> A -> bool) first last i j o value : own_range M S q first last i j -> out_ok S q o ->
    let kept := List.filter (fun x => negb (eqf x value)) (slice q.2 i j) in
    changes_out M S q o i kept (i + length kept) (remove_p eqf first last value o) (length (List.filter (fun x => eqf x value) (slice q.2 i j))).
  Proof.
    intros HS Ho kept. open1w HS. pose proof (filter_le (fun x => negb (eqf x value)) (slice q.2 i j)) as Hk. rewrite slice_len' in Hk by done.
    eapply one_out_patch; [exact HRO|subst kept; lia|subst kept; lia|]. subst kept. rewrite <- Hsl.
    eapply remove_wp; [by apply remove_ok|done..|by apply Hout].
  Qed.
  Lemma unique_le (p : A -> A -> bool) l : length (unique_spec p l) <= length l.
  Proof.
    destruct l as [|x l]; [done|]. cbn. enough (forall x, length (keep_runs p x l) <= length l) as E by (specialize (E x); lia).
    induction l as [|y l IH]; intros z; cbn; [done|]. destruct (p z y); cbn; [specialize (IH z)|specialize (IH y)]; lia.
  Qed.
  Lemma unique_by_run M S q first last i j o (pred : A -> A -> bool) : own_range M S q first last i j -> out_ok S q o ->
    let kept := unique_spec pred (slice q.2 i j) in
    changes_out M S q o i kept (i + length kept) (unique_by_p first last o pred) (length kept).
  Proof.
    intros HS Ho kept. open1w HS. pose proof (unique_le pred (slice q.2 i j)) as Hk. rewrite slice_len' in Hk by done.
    eapply one_out_patch; [exact HRO|subst kept; lia|subst kept; lia|]. subst kept. rewrite <- Hsl.
    eapply unique_by_wp; [by apply unique_ok|done..|by apply Hout].
  Qed.
  Lemma one_o_patch M S q f2 L m s b JW J (p : prog A (option iid)) o d l k : runs_on M S q q true f2 L m s b JW J ->
    d + length l <= length q.2 -> k <= length q.2 -> fwp L p m s (fun r m1 s1 => m1 = patch m d l /\ out_set o k s r s1) ->
    changes_o M S q o d l k p.
  Proof.
    intros HR Hd Hk Hp. pose proof (op_len _ _ _ _ _ _ _ (ro_open1 _ _ _ _ _ _ _ _ _ _ _ _ HR)) as Hlen. cbn [plus] in Hlen.
    destruct (ro_run _ _ _ _ _ _ _ _ _ _ _ _ HR _ _ _ Hp) as (w&m'&s'&M'&S'&He&(->&Ho)&HJ&H1&_&H3).
    destruct (ro_out1 _ _ _ _ _ _ _ _ _ _ _ _ HR _ _ _ _ _ _ Hk (ro_J _ _ _ _ _ _ _ _ _ _ _ _ HR) Ho) as (S2&Hst&HJ2).
    rewrite (ro_fun _ _ _ _ _ _ _ _ _ _ _ _ HR _ _ _ HJ HJ2) in He.
    exists w, M', S2. split; [done|]. split; [|done]. rewrite slice_patch_0, (ro_whole1 _ _ _ _ _ _ _ _ _ _ _ _ HR) in H1 by lia. split.
    - intros q' vs' [= -> ->]%elem_of_list_singleton. done.
    - intros q' Hq' Hs. apply H3; [..|done]; intros _; eapply Hq'; by apply elem_of_list_singleton.
  Qed.
  (** a position and [n] elements after it *)
  Lemma open_n M S q first i n : shown M q -> at_pos S q first i -> i + n <= length q.2 -> mutable q.1.1 = true ->
    exists L m s b JW J, runs_on M S q q true false L m s b JW J /\ i + n <= length m /\ rng L i (i + n) /\ writable L i /\ cat_ge L FORWARD i /\
      s !! first = Some i /\ (forall o, out_ok S q o -> out_pre L s o i).
  Proof.
    intros HM Hat Hn Hmu.
    destruct (run_one M S q [(first, i)] true HM ltac:(by repeat constructor) (fun _ => Hmu)) as (L&m&s&b&JW&J&HRO&Hs).
    pose proof (ro_open1 _ _ _ _ _ _ _ _ _ _ _ _ HRO) as HO. pose proof (op_len _ _ _ _ _ _ _ HO) as Hlen. cbn [plus] in Hlen.
    exists L, m, s, b, JW, J. split; [done|]. split; [lia|].
    split; [apply (op_rng _ _ _ _ _ _ _ HO i (i + n)); lia|]. split; [apply (op_mut _ _ _ _ _ _ _ HO i); [lia|done]|].
    split; [apply (op_cat _ _ _ _ _ _ _ HO i); [lia|apply cat_forward]|].
    split; [apply Hs, elem_of_list_here|]. intros o Ho; apply (op_out _ _ _ _ _ _ _ HO i); [lia|done].
  Qed.
  Lemma fill_n_run M S q first i n value o : shown M q -> at_pos S q first i -> i + n <= length q.2 -> mutable q.1.1 = true -> out_ok S q o ->
    changes_o M S q o i (replicate n value) (i + n) (fill_n_p first n value o).
  Proof.
    intros HM Hat Hn Hmu Ho. destruct (open_n _ _ _ _ _ _ HM Hat Hn Hmu) as (L&m&s&b&JW&J&HRO&Hlen&Hr&Hw&Hc&Hf&Hout).
    eapply one_o_patch; [exact HRO|rewrite replicate_length; lia|lia|]. eapply fill_n_wp; [by apply fill_n_ok|exact Hr|lia|done..|by apply Hout].
  Qed.
  Lemma generate_n_run {St} M S q first i n (gen : St -> St * A) o st : shown M q -> at_pos S q first i -> i + n <= length q.2 ->
    mutable q.1.1 = true -> out_ok S q o ->
    changes_out M S q o i (generated gen st n).1 (i + n) (generate_n_p first n gen o st) (generated gen st n).2.
  Proof.
    intros HM Hat Hn Hmu Ho. destruct (open_n _ _ _ _ _ _ HM Hat Hn Hmu) as (L&m&s&b&JW&J&HRO&Hlen&Hr&Hw&Hc&Hf&Hout).
    eapply one_out_patch; [exact HRO|rewrite generated_length; lia|lia|]. eapply generate_n_wp; [by apply generate_n_top|exact Hr|lia|done..|by apply Hout].
  Qed.
  Lemma reverse_run M S q first last i j : own_range M S q first last i j -> BIDIRECTION <= cat_of q.1.1 ->
    changes M S q i (rev (slice q.2 i j)) (reverse_p first last) (j - i).
  Proof.
    intros HS Hcat. open1w HS. eapply one_plain_patch; [exact HRO|rewrite rev_length, slice_len'; lia|]. rewrite <- Hsl.
    eapply reverse_wp; [by apply reverse_ok|done|done| |done..].
    apply (op_cat _ _ _ _ _ _ _ (ro_open1 _ _ _ _ _ _ _ _ _ _ _ _ HRO) i); [lia|done].
  Qed.
  Lemma rotate_run M S q first n_first last i nf j o : own_range M S q first last i j -> at_pos S q n_first nf -> i <= nf <= j -> out_ok S q o ->
    changes_o M S q o i (slice q.2 nf j ++ slice q.2 i nf) (i + (j - nf)) (rotate_p first n_first last o).
  Proof.
    intros HS Hat Hnf Ho.
    destruct (open_own _ _ _ _ _ _ _ [(n_first, nf)] HS ltac:(by repeat constructor)) as (L&m&s&b&JW&J&HRO&Hrange&Hj&Hij&Hlen&Hsl&Hr&Hw&Hc&Hf&Hl&Hout&Hxs).
    pose proof (ro_open1 _ _ _ _ _ _ _ _ _ _ _ _ HRO) as HO1.
    pose proof (op_slice _ _ _ _ _ _ _ HO1 nf j ltac:(lia)) as E1. pose proof (op_slice _ _ _ _ _ _ _ HO1 i nf ltac:(lia)) as E2. cbn [plus] in E1, E2.
    eapply one_o_patch; [exact HRO|rewrite app_length, !slice_len' by lia; lia|lia|]. rewrite <- E1, <- E2.
    eapply rotate_wp; [apply rotate_ok; lia|exact Hr|lia|lia|exact Hw|exact Hc|done|apply Hxs, elem_of_list_here|done|by apply Hout].
  Qed.
  Lemma shuffle_run M S q first last i j (r : nat -> nat) : own_range M S q first last i j -> cat_of q.1.1 = RANDOM ->
    (forall k, 0 < k < j - i -> r k <= k) ->
    exists l, Permutation (slice q.2 i j) l /\ changes M S q i l (random_shuffle_by_p first last r) tt.
  Proof.
    intros HS Hcat Hrr. open1w HS. destruct (shuffle_ok m i j r Hrange Hrr) as (l&Hl2&Hp). exists l. rewrite <- Hsl. split; [done|].
    pose proof (Permutation_length Hp) as Hpl. rewrite slice_len' in Hpl by lia.
    pose proof (ro_open1 _ _ _ _ _ _ _ _ _ _ _ _ HRO) as HO1.
    eapply one_plain_patch; [exact HRO|lia|]. eapply random_shuffle_by_wp; [exact Hl2|done|done|done| | |done..].
    - rewrite <- Hcat. apply (op_cateq _ _ _ _ _ _ _ HO1 i). lia.
    - rewrite <- Hcat. apply (op_cateq _ _ _ _ _ _ _ HO1 j). lia.
  Qed.

  (** ** Swapping *)
  Lemma both_patch M S q1 q2 L m s b JW J {R : Type} (p : prog A R) v i l1 d l2 : runs_on M S q1 q2 true true L m s b JW J -> obj_of q1.1.1 <> obj_of q2.1.1 ->
    i + length l1 <= length q1.2 -> d + length l2 <= length q2.2 -> fwp L p m s (makes s v (patch (patch m i l1) (b + d) l2)) ->
    exists M', exec (cworld A) p (M, S) v (M', S) /\ becomes M [(q1, patch q1.2 i l1); (q2, patch q2.2 d l2)] M'.
  Proof.
    intros HR Hne Hi Hd Hp. pose proof (op_len _ _ _ _ _ _ _ (ro_open2 _ _ _ _ _ _ _ _ _ _ _ _ HR)) as Hlen.
    destruct (ro_sep _ _ _ _ _ _ _ _ _ _ _ _ HR) as [[-> _]|Hsep]; [done|].
    destruct (ro_run _ _ _ _ _ _ _ _ _ _ _ _ HR _ _ _ Hp) as (r&m'&s'&M'&S'&He&(->&->&->)&HJ&H1&H2&H3).
    rewrite (ro_fun _ _ _ _ _ _ _ _ _ _ _ _ HR _ _ _ HJ (ro_J _ _ _ _ _ _ _ _ _ _ _ _ HR)) in He.
    assert (length (patch m i l1) = length m) as Hpl by (apply patch_length; lia).
    exists M'. split; [done|]. split.
    - intros q' vs' Hin. apply elem_of_cons in Hin as [[= -> ->]|[= -> ->]%elem_of_list_singleton].
      + pose proof (slice_patch_out (patch m i l1) l2 0 (length q1.2) (b + d)) as E. cbn [plus] in E.
        rewrite E, slice_patch_0, (ro_whole1 _ _ _ _ _ _ _ _ _ _ _ _ HR) in H1 by lia. done.
      + rewrite slice_patch_in, slice_patch_out, (ro_whole2 _ _ _ _ _ _ _ _ _ _ _ _ HR) in H2 by lia. done.
    - intros q' Hq' Hs. apply H3; [..|done]; intros _; eapply Hq'; [apply elem_of_list_here|apply elem_of_list_further, elem_of_list_here].
  Qed.
  Lemma open_both M S q1 q2 xs ys : shown M q1 -> shown M q2 -> at_all S q1 xs -> at_all S q2 ys -> unmixed q1 (xs.*1) q2 (ys.*1) ->
    mutable q1.1.1 = true -> mutable q2.1.1 = true -> obj_of q1.1.1 <> obj_of q2.1.1 ->
    exists L m s b JW J, runs_on M S q1 q2 true true L m s b JW J /\ length q1.2 < b /\ b + length q2.2 < length m /\
      (forall x i, (x, i) ∈ xs -> s !! x = Some i) /\ (forall x i, (x, i) ∈ ys -> s !! x = Some (b + i)).
  Proof.
    intros H1 H2 Hx Hy Hu Hm1 Hm2 Hne.
    destruct (run_two M S q1 q2 xs ys true true H1 H2 Hx Hy Hu) as (L&m&s&b&JW&J&HRO&Hs1&Hs2); [done|done|by right|].
    exists L, m, s, b, JW, J. split; [done|]. split.
    { destruct (ro_sep _ _ _ _ _ _ _ _ _ _ _ _ HRO) as [[-> _]|Hsep]; [done|done]. }
    split; [|done]. apply (op_len _ _ _ _ _ _ _ (ro_open2 _ _ _ _ _ _ _ _ _ _ _ _ HRO)).
  Qed.
  Lemma swap_range_apart_run M S q1 q2 first1 last1 first2 i j d : own_range M S q1 first1 last1 i j -> shown M q2 -> at_pos S q2 first2 d ->
    mutable q2.1.1 = true -> obj_of q1.1.1 <> obj_of q2.1.1 -> unmixed q1 [first1; last1] q2 [first2] -> d + (j - i) <= length q2.2 ->
    exists M', exec (cworld A) (swap_range_p first1 last1 first2) (M, S) (j - i) (M', S) /\
      becomes M [(q1, patch q1.2 i (slice q2.2 d (d + (j - i)))); (q2, patch q2.2 d (slice q1.2 i j))] M'.
  Proof.
    intros (H1&HR&Hm1) H2 Hd Hm2 Hne Hu Hfit. destruct (range_at _ _ _ _ _ _ HR) as [Hat Hij].
    pose proof (at_le _ _ _ _ _ H1 (proj1 (proj2 HR))) as Hj.
    destruct (open_both M S q1 q2 _ [(first2, d)] H1 H2 Hat) as (L&m&s&b&JW&J&HRO&Hb&Hlen&Hs1&Hs2); [by repeat constructor|done..|].
    pose proof (ro_open1 _ _ _ _ _ _ _ _ _ _ _ _ HRO) as HO1. pose proof (ro_open2 _ _ _ _ _ _ _ _ _ _ _ _ HRO) as HO2.
    pose proof (op_slice _ _ _ _ _ _ _ HO1 i j ltac:(lia)) as E1. pose proof (op_slice _ _ _ _ _ _ _ HO2 d (d + (j - i)) ltac:(lia)) as E2.
    cbn [plus] in E1.
    eapply both_patch; [exact HRO|done|rewrite slice_len' by lia; lia|rewrite slice_len' by lia; lia|].
    rewrite <- E1, <- E2. rewrite Nat.add_assoc.
    eapply swap_range_wp; [apply swap_range_ok; [split; lia|lia|lia]|apply (op_rng _ _ _ _ _ _ _ HO1 i j); lia|
      apply (op_rng _ _ _ _ _ _ _ HO2 d (length q2.2)); lia|lia|apply (op_mut _ _ _ _ _ _ _ HO1 i); [lia|done]|
      apply (op_mut _ _ _ _ _ _ _ HO2 d); [lia|done]|apply (op_cat _ _ _ _ _ _ _ HO1 i); [lia|apply cat_forward]|
      apply (op_cat _ _ _ _ _ _ _ HO2 d); [lia|apply cat_forward]|apply Hs1, elem_of_list_here|
      apply Hs1, elem_of_list_further, elem_of_list_here|apply Hs2, elem_of_list_here].
  Qed.
  Lemma one_becomes M S q f2 L m s b JW J {R : Type} (p : prog A R) v d1 l1 d2 l2 : runs_on M S q q true f2 L m s b JW J ->
    d1 + length l1 <= length q.2 -> d2 + length l2 <= length q.2 -> fwp L p m s (makes s v (patch (patch m d1 l1) d2 l2)) ->
    exists M', exec (cworld A) p (M, S) v (M', S) /\ becomes M [(q, patch (patch q.2 d1 l1) d2 l2)] M'.
  Proof.
    intros HR Hd1 Hd2 Hp. pose proof (op_len _ _ _ _ _ _ _ (ro_open1 _ _ _ _ _ _ _ _ _ _ _ _ HR)) as Hlen. cbn [plus] in Hlen.
    destruct (one_plain M S q f2 L m s b JW J p v _ HR Hp) as (M'&He&Hb).
    exists M'. split; [done|]. rewrite slice_patch_0, slice_patch_0, (ro_whole1 _ _ _ _ _ _ _ _ _ _ _ _ HR) in Hb; [done|lia|lia|lia|].
    rewrite patch_length; lia.
  Qed.
  Lemma swap_range_same_run M S q first1 last1 first2 i j d : own_range M S q first1 last1 i j -> at_pos S q first2 d ->
    d + (j - i) <= length q.2 -> (j <= d \/ d + (j - i) <= i) ->
    exists M', exec (cworld A) (swap_range_p first1 last1 first2) (M, S) (j - i) (M', S) /\
      becomes M [(q, patch (patch q.2 i (slice q.2 d (d + (j - i)))) d (slice q.2 i j))] M'.
  Proof.
    intros HS Hat Hfit Hov.
    destruct (open_own _ _ _ _ _ _ _ [(first2, d)] HS ltac:(by repeat constructor)) as (L&m&s&b&JW&J&HRO&Hrange&Hj&Hij&Hlen&Hsl&Hr&Hw&Hc&Hf&Hl&Hout&Hxs).
    pose proof (ro_open1 _ _ _ _ _ _ _ _ _ _ _ _ HRO) as HO1.
    pose proof (op_slice _ _ _ _ _ _ _ HO1 d (d + (j - i)) ltac:(lia)) as E2. cbn [plus] in E2.
    eapply one_becomes; [exact HRO|rewrite slice_len' by lia; lia|rewrite slice_len' by lia; lia|].
    rewrite <- Hsl, <- E2.
    eapply swap_range_wp; [apply swap_range_ok; [done|lia|lia]|exact Hr|apply (op_rng _ _ _ _ _ _ _ HO1 d (length q.2)); lia|lia|done|
      apply (op_mut _ _ _ _ _ _ _ HO1 d); [lia|done]|done|apply (op_cat _ _ _ _ _ _ _ HO1 d); [lia|apply cat_forward]|done|done|].
    apply Hxs, elem_of_list_here.
  Qed.
  Lemma iter_swap_apart_run M S q1 q2 x y i d vx vy : shown M q1 -> shown M q2 -> at_pos S q1 x i -> at_pos S q2 y d ->
    mutable q1.1.1 = true -> mutable q2.1.1 = true -> obj_of q1.1.1 <> obj_of q2.1.1 -> x <> y -> q1.2 !! i = Some vx -> q2.2 !! d = Some vy ->
    exists M', exec (cworld A) (iter_swap_p x y) (M, S) tt (M', S) /\
      becomes M [(q1, <[i := vy]> q1.2); (q2, <[d := vx]> q2.2)] M'.
  Proof.
    intros H1 H2 Hx Hy Hm1 Hm2 Hne Hxy Hvx Hvy. pose proof (lookup_lt_Some _ _ _ Hvx). pose proof (lookup_lt_Some _ _ _ Hvy).
    destruct (open_both M S q1 q2 [(x, i)] [(y, d)] H1 H2) as (L&m&s&b&JW&J&HRO&Hb&Hlen&Hs1&Hs2); [by repeat constructor|by repeat constructor| |done..|].
    { right. intros z. cbn. rewrite !elem_of_list_singleton. intros -> ?. done. }
    pose proof (ro_open1 _ _ _ _ _ _ _ _ _ _ _ _ HRO) as HO1. pose proof (ro_open2 _ _ _ _ _ _ _ _ _ _ _ _ HRO) as HO2.
    pose proof (op_len _ _ _ _ _ _ _ HO1) as Hlen1. cbn [plus] in Hlen1.
    rewrite !insert_patch by done. eapply both_patch; [exact HRO|done|cbn; lia|cbn; lia|].
    assert (length (patch m i [vy]) = length m) as Hpl by (apply patch_length; cbn; lia).
    rewrite <- !insert_patch by lia.
    eapply (iter_swap_wp L x y m s i (b + d) i (length q1.2) (b + d) (b + length q2.2));
      [apply swp_Ok; [by etransitivity; [apply (op_m _ _ _ _ _ _ _ HO1 i)|]|by rewrite (op_m _ _ _ _ _ _ _ HO2 d)]
      |apply (op_rng _ _ _ _ _ _ _ HO1 i (length q1.2)); lia|lia|apply (op_rng _ _ _ _ _ _ _ HO2 d (length q2.2)); lia|lia
      |apply (op_mut _ _ _ _ _ _ _ HO1 i); [lia|done]|apply (op_mut _ _ _ _ _ _ _ HO2 d); [lia|done]
      |apply (op_cat _ _ _ _ _ _ _ HO1 i); [lia|apply cat_forward]|apply (op_cat _ _ _ _ _ _ _ HO2 d); [lia|apply cat_forward]
      |apply Hs1, elem_of_list_here|apply Hs2, elem_of_list_here|done].
  Qed.
  Lemma iter_swap_same_run M S q x y i d vx vy : shown M q -> at_pos S q x i -> at_pos S q y d ->
    mutable q.1.1 = true -> q.2 !! i = Some vx -> q.2 !! d = Some vy ->
    exists M', exec (cworld A) (iter_swap_p x y) (M, S) tt (M', S) /\ becomes M [(q, <[d := vx]> (<[i := vy]> q.2))] M'.
  Proof.
    intros HM Hx Hy Hmu Hvx Hvy. pose proof (lookup_lt_Some _ _ _ Hvx). pose proof (lookup_lt_Some _ _ _ Hvy).
    destruct (run_one M S q [(x, i); (y, d)] true HM ltac:(by repeat constructor) (fun _ => Hmu)) as (L&m&s&b&JW&J&HRO&Hs).
    pose proof (ro_open1 _ _ _ _ _ _ _ _ _ _ _ _ HRO) as HO. pose proof (op_len _ _ _ _ _ _ _ HO) as Hlen. cbn [plus] in Hlen.
    rewrite !insert_patch by (rewrite ?insert_length; done).
    eapply one_becomes; [exact HRO|cbn; lia|cbn; lia|].
    assert (length (patch m i [vy]) = length m) as Hpl by (apply patch_length; cbn; lia).
    rewrite <- !insert_patch by lia.
    eapply (iter_swap_wp L x y m s i d i (length q.2) d (length q.2));
      [apply swp_Ok; [by etransitivity; [apply (op_m _ _ _ _ _ _ _ HO i)|]|by etransitivity; [apply (op_m _ _ _ _ _ _ _ HO d)|]]
      |apply (op_rng _ _ _ _ _ _ _ HO i (length q.2)); lia|lia|apply (op_rng _ _ _ _ _ _ _ HO d (length q.2)); lia|lia
      |apply (op_mut _ _ _ _ _ _ _ HO i); [lia|done]|apply (op_mut _ _ _ _ _ _ _ HO d); [lia|done]
      |apply (op_cat _ _ _ _ _ _ _ HO i); [lia|apply cat_forward]|apply (op_cat _ _ _ _ _ _ _ HO d); [lia|apply cat_forward]
      |apply Hs, elem_of_list_here|apply Hs, elem_of_list_further, elem_of_list_here|done].
  Qed.
End lifted.
