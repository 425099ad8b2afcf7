(** IterOrdLift.v — the programs of IterOrd.v on containers. *)
From stdpp Require Import list gmap.
From Verif Require Import Base Spec Iter IterFlat IterWp IterWorld SpecIter SpecIterOrd IterWorldProofs IterLift IterLift3 Facts AlgoNonMod AlgoNonModProofs
  AlgoMod AlgoModProofs AlgoOrd AlgoOrdProofs AlgoSetProofs AlgoSort AlgoSortProofs IterNonMod IterNonModProofs IterMod IterModProofs IterModProofs3
  IterNonModLift IterModLift IterOrd IterOrdProofs IterOrdProofs2 IterSetProofs.
From stdpp Require Import list.

Section lifted.
  Context {A : Type} {CK : Checked} `{Inhabited A}.
  Local Notation qc := (cont * list cpos * list A)%type.
  Implicit Types (M : cmem A) (S : gmap iid cpos) (q : qc).

  (** ** one range, read only *)
  Lemma exec_untag {R T : Type} (p : prog A R) (f : R -> T) st t st' : exec (cworld A) (Bind p (fun v => Ret (f v))) st t st' ->
    exists v, f v = t /\ exec (cworld A) p st v st'.
  Proof.
    intros [fuel Hr]. cbn [run] in Hr. apply rbind_Ok in Hr as ([v st1]&H1&H2). injection H2 as <- <-. exists v. split; [done|]. by exists fuel.
  Qed.
  Lemma reads_point M S q L m s o k (p : prog A (option iid)) : reads1 M q S L m s -> k <= length q.2 ->
    fwp L p m s (sets s o m k) -> points M S q o k p.
  Proof.
    intros [_ HR] Hk Hp. destruct (HR (Bind p (fun v => Ret (true, v))) o true k Hk) as (v&S'&He&Hst).
    - wb. eapply fwp_mono; [exact Hp|]. intros r m' s' [-> Ho]. by apply fwp_ret.
    - apply exec_untag in He as (w&[= ->]&He). by exists v, S'.
  Qed.
  Record opened M S q (first last : iid) (i j : nat) (L : layout) (m : list A) (s : gmap iid nat) : Prop := {
    od_reads : reads1 M q S L m s;
    od_range : range m i j; od_j : j <= length q.2; od_rng : rng L i j; od_cat : cat_ge L FORWARD i;
    od_first : s !! first = Some i; od_last : s !! last = Some j;
    od_m : forall k, k < length q.2 -> m !! k = q.2 !! k;
    od_slice : forall a b, b <= length q.2 -> slice m a b = slice q.2 a b;
    od_out : forall o, out_ok S q o -> out_pre L s o i;
    od_two : forall (p : prog A (option iid * option iid)) o1 o2 k1 k2, k1 <= length q.2 -> k2 <= length q.2 ->
       fwp L p m s (sets2 s o1 o2 m k1 k2) -> points2 M S q o1 o2 k1 k2 p;
    od_cateq : flat_cat L i = Ok (cat_of q.1.1) }.
  Lemma open_read M S q first last i j : shown M q -> range_in S q first last i j -> exists L m s, opened M S q first last i j L m s.
  Proof.
    intros HM HR. destruct (range_at _ _ _ _ _ _ HR) as [Hat Hij].
    pose proof (at_le _ _ _ _ _ HM (proj1 (proj2 HR))) as Hj.
    assert (placed [q] S (pl_of 0 [(first, i); (last, j)])) as HP.
    { pose proof (placed_same M q S _ [] HM Hat ltac:(constructor)) as E. by rewrite app_nil_r in E. }
    assert (Forall (shown M) [q]) as HF by (by repeat constructor).
    destruct (lift_reads M [q] S _ HF HP) as (L&m&s&Hb&HW&(R1&R2&R3)).
    pose proof (rw_open _ _ _ _ _ _ _ 0 q HW eq_refl) as HO. rewrite Hb in HO.
    assert (forall x k, (x, k) ∈ [(first, i); (last, j)] -> s !! x = Some k) as Hs.
    { intros x k Hin. rewrite <- (Nat.add_0_l k), <- Hb. apply (rw_pl _ _ _ _ _ _ _ HW). by apply pl_of_to. }
    pose proof (op_len _ _ _ _ _ _ _ HO) as Hlen. cbn [plus] in Hlen.
    exists L, m, s. split.
    - split; [exact R1|]. intros p o b k Hk Hp. apply (R2 p o b 0 q k eq_refl Hk). by rewrite Hb.
    - split; lia.
    - done.
    - apply (op_rng _ _ _ _ _ _ _ HO i j); lia.
    - apply (op_cat _ _ _ _ _ _ _ HO i); [lia|apply cat_forward].
    - apply Hs, elem_of_list_here.
    - apply Hs, elem_of_list_further, elem_of_list_here.
    - apply (op_m _ _ _ _ _ _ _ HO).
    - intros a b Hb'. apply (op_slice _ _ _ _ _ _ _ HO a b); lia.
    - intros o Ho. apply (op_out _ _ _ _ _ _ _ HO i); [lia|done].
    - intros p o1 o2 k1 k2 Hk1 Hk2 Hp.
      destruct (R3 (Bind p (fun v => Ret (true, v.1, v.2))) o1 o2 true 0 q k1 0 q k2 eq_refl Hk1 eq_refl Hk2) as (v1&v2&S1&S'&He&Hst).
      { wb. eapply fwp_mono; [exact Hp|]. intros r m' s' [-> Ho]. apply fwp_ret. cbn [fst snd]. by rewrite Hb. }
      apply exec_untag in He as ([w1 w2]&[= -> ->]&He). exists v1, v2, S1, S'. by split.
    - apply (op_cateq _ _ _ _ _ _ _ HO i). lia.
  Qed.
  Lemma boundary_at M S q first last i j L m s (pred : A -> bool) k : opened M S q first last i j L m s -> boundary m i j pred k <-> boundary q.2 i j pred k.
  Proof.
    intros HO. pose proof (od_j _ _ _ _ _ _ _ _ _ _ HO) as Hj. unfold boundary. split; intros (Hk&H1&H2);
      pose proof (od_slice _ _ _ _ _ _ _ _ _ _ HO i k ltac:(lia)) as E1; pose proof (od_slice _ _ _ _ _ _ _ _ _ _ HO k j ltac:(lia)) as E2.
    - rewrite E1 in H1. rewrite E2 in H2. done.
    - rewrite E1, E2. done.
  Qed.
  Ltac oread HM HR := destruct (open_read _ _ _ _ _ _ _ HM HR) as (L&m&s&HO);
    pose proof (od_reads _ _ _ _ _ _ _ _ _ _ HO) as HRD; pose proof (proj1 HRD) as HR1;
    pose proof (od_range _ _ _ _ _ _ _ _ _ _ HO) as Hrange; pose proof (od_j _ _ _ _ _ _ _ _ _ _ HO) as Hj;
    pose proof (od_rng _ _ _ _ _ _ _ _ _ _ HO) as Hrng; pose proof (od_cat _ _ _ _ _ _ _ _ _ _ HO) as Hcat;
    pose proof (od_first _ _ _ _ _ _ _ _ _ _ HO) as Hf; pose proof (od_last _ _ _ _ _ _ _ _ _ _ HO) as Hl;
    pose proof (od_slice _ _ _ _ _ _ _ _ _ _ HO) as Hsl; pose proof (od_out _ _ _ _ _ _ _ _ _ _ HO) as Hout;
    pose proof (od_m _ _ _ _ _ _ _ _ _ _ HO) as Hm; pose proof (fun pred k => boundary_at _ _ _ _ _ _ _ _ _ _ pred k HO) as Hbd.

  (** partitioning *)
  Lemma is_partitioned_run M S q first last i j (pred : A -> bool) : shown M q -> range_in S q first last i j ->
    exists b, answers M S (is_partitioned_p first last pred) b /\ (b = true <-> exists k, boundary q.2 i j pred k).
  Proof.
    intros HM HR. oread HM HR. destruct (is_partitioned_ok m i j pred Hrange) as (b&Hb&Hi). exists b. split.
    - apply HR1. by eapply is_partitioned_wp.
    - rewrite Hi. split; intros [k Hk]; exists k; by apply Hbd.
  Qed.
  Lemma partition_point_run M S q first last i j (pred : A -> bool) o : shown M q -> range_in S q first last i j -> out_ok S q o ->
    exists k, i <= k <= j /\ (forall x, x ∈ slice q.2 i k -> pred x = true) /\ (k < j -> exists x, q.2 !! k = Some x /\ pred x = false) /\
      points M S q o k (partition_point_p first last o pred).
  Proof.
    intros HM HR Ho. oread HM HR. destruct (scan_boundary pred m i j Hrange) as (k&Hk&Hb&H1&H2). exists k. split; [done|].
    split; [by rewrite <- Hsl by lia|]. split. { intros Hlt. rewrite <- Hm by lia. auto. }
    eapply reads_point; [done|lia|]. eapply partition_point_wp; [exact Hk|done..|by apply Hout].
  Qed.
  Lemma partition_point_boundary_run M S q first last i j (pred : A -> bool) o k : shown M q -> range_in S q first last i j -> out_ok S q o ->
    boundary q.2 i j pred k -> points M S q o k (partition_point_p first last o pred).
  Proof.
    intros HM HR Ho Hb. oread HM HR. pose proof (proj1 Hb). apply Hbd in Hb.
    eapply reads_point; [done|lia|]. eapply partition_point_wp; [by apply partition_point_ok|done..|by apply Hout].
  Qed.
  Lemma filter_parts (p : A -> bool) (l : list A) : length (List.filter p l) + length (List.filter (fun x => negb (p x)) l) = length l.
  Proof. induction l as [|x l IH]; cbn; [done|]. destruct (p x); cbn; lia. Qed.
  Lemma partition_run M S q first last i j (pred : A -> bool) o : own_range M S q first last i j -> out_ok S q o ->
    let yes := List.filter pred (slice q.2 i j) in
    exists no, Permutation (List.filter (fun x => negb (pred x)) (slice q.2 i j)) no /\
      changes_o M S q o i (yes ++ no) (i + length yes) (partition_p first last o pred).
  Proof.
    intros HS Ho yes. destruct (open_own _ _ _ _ _ _ _ [] HS ltac:(constructor)) as (L&m&s&b&JW&J&HRO&Hrange&Hj&Hij&Hlen&Hsl&Hr&Hw&Hc&Hf&Hl&Hout&_).
    destruct (partition_ok m i j pred Hrange) as (no&Hno&Hp). rewrite Hsl in Hno, Hp. exists no. split; [done|].
    pose proof (Permutation_length Hno) as Hn. pose proof (filter_parts pred (slice q.2 i j)) as Hfp. rewrite slice_len' in Hfp by done.
    eapply one_o_patch; [exact HRO|rewrite app_length; subst yes; lia|subst yes; lia|].
    eapply fwp_mono; [eapply partition_wp; [exact Hp|done..|by apply Hout]|]. intros r m1 s1 [-> Hs]. by split.
  Qed.

  (** binary search *)
  Lemma lower_bound_run M S q (comp : A -> A -> bool) first last i j value o k : shown M q -> range_in S q first last i j -> out_ok S q o ->
    boundary q.2 i j (fun x => comp x value) k -> points M S q o k (lower_bound_by_p comp first last value o).
  Proof.
    intros HM HR Ho Hb. oread HM HR. pose proof (proj1 Hb). apply Hbd in Hb.
    eapply reads_point; [done|lia|]. eapply lower_bound_by_wp; [by apply lower_bound_ok|done..|by apply Hout].
  Qed.
  Lemma upper_bound_run M S q (comp : A -> A -> bool) first last i j value o k : shown M q -> range_in S q first last i j -> out_ok S q o ->
    boundary q.2 i j (fun x => negb (comp value x)) k -> points M S q o k (upper_bound_by_p comp first last value o).
  Proof.
    intros HM HR Ho Hb. oread HM HR. pose proof (proj1 Hb). apply Hbd in Hb.
    eapply reads_point; [done|lia|]. eapply upper_bound_by_wp; [by apply upper_bound_ok|done..|by apply Hout].
  Qed.
  Lemma equal_range_run M S q (comp : A -> A -> bool) first last i j value v1 v2 lo hi : shown M q -> range_in S q first last i j ->
    out_ok S q (Some v1) -> out_ok S q (Some v2) ->
    boundary q.2 i j (fun x => comp x value) lo -> boundary q.2 i j (fun x => negb (comp value x)) hi ->
    points2 M S q (Some v1) (Some v2) lo hi (equal_range_by_p comp first last value (Some v1) (Some v2)).
  Proof.
    intros HM HR Ho1 Ho2 Hb1 Hb2. oread HM HR. pose proof (proj1 Hb1). pose proof (proj1 Hb2). apply Hbd in Hb1, Hb2.
    eapply (od_two _ _ _ _ _ _ _ _ _ _ HO); [lia|lia|]. eapply equal_range_by_wp; [by apply equal_range_ok|done..|by apply Hout|by apply Hout].
  Qed.
  Lemma binary_search_run M S q (comp : A -> A -> bool) first last i j value lo hi : shown M q -> range_in S q first last i j ->
    boundary q.2 i j (fun x => comp x value) lo -> boundary q.2 i j (fun x => negb (comp value x)) hi ->
    exists b, answers M S (binary_search_by_p comp first last value) b /\ (b = true <-> exists x, x ∈ slice q.2 i j /\ equivb comp x value = true).
  Proof.
    intros HM HR Hb1 Hb2. oread HM HR. apply Hbd in Hb1, Hb2. destruct (binary_search_ok comp m i j value lo hi Hrange Hb1 Hb2) as (b&Hb&Hi).
    exists b. rewrite Hsl in Hi by lia. split; [|done]. apply HR1. by eapply binary_search_by_wp.
  Qed.
  Lemma sorted_bounds q (comp : A -> A -> bool) i j value : StrictWeakOrder comp -> i <= j -> j <= length q.2 -> sorted comp (slice q.2 i j) ->
    exists lo hi, boundary q.2 i j (fun x => comp x value) lo /\ boundary q.2 i j (fun x => negb (comp value x)) hi.
  Proof.
    intros HW Hij Hj Hs. destruct (sorted_lower comp q.2 i j value HW) as [lo Hlo]; [by split|done|].
    destruct (sorted_upper comp q.2 i j value HW) as [hi Hhi]; [by split|done|]. by exists lo, hi.
  Qed.
  Lemma bsearch_safe_run M S q (comp : A -> A -> bool) first last i j value o : shown M q -> range_in S q first last i j -> out_ok S q o ->
    exists lo hi b, i <= lo <= j /\ i <= hi <= j /\ points M S q o lo (lower_bound_by_p comp first last value o) /\
      points M S q o hi (upper_bound_by_p comp first last value o) /\ answers M S (binary_search_by_p comp first last value) b.
  Proof.
    intros HM HR Ho. oread HM HR. destruct Hrange as [Hij Hjm].
    destruct (bsearch_safe (fun x => comp x value) m (Datatypes.S (length m)) (j - i) i) as (lo & Hlo & Rlo); [lia|lia|].
    destruct (bsearch_safe (fun x => negb (comp value x)) m (Datatypes.S (length m)) (j - i) i) as (hi & Hhi & Rhi); [lia|lia|].
    assert (exists b, algo_binary_search_by comp m i j value = Ok b) as [b Hb].
    { unfold algo_binary_search_by, algo_lower_bound_by. rewrite Hlo. cbn [rbind]. destruct (lo =? j) eqn:E; [eauto|].
      apply Nat.eqb_neq in E. destruct (lookup_lt_is_Some_2 m lo) as [x Hx]; [lia|]. rewrite (rd_Ok _ _ _ Hx). eauto. }
    exists lo, hi, b. split; [lia|]. split; [lia|]. split; [|split].
    - eapply reads_point; [done|lia|]. eapply lower_bound_by_wp; [exact Hlo|done..|by apply Hout].
    - eapply reads_point; [done|lia|]. eapply upper_bound_by_wp; [exact Hhi|done..|by apply Hout].
    - apply HR1. by eapply binary_search_by_wp.
  Qed.

  (** minima and maxima *)
  Lemma smallest_eq (comp : A -> A -> bool) (m l : list A) i j k : (forall a, a < j -> m !! a = l !! a) -> smallest_at comp m i j k -> smallest_at comp l i j k.
  Proof.
    intros E (x&Hk&Hx&Ha). exists x. split; [done|]. split; [rewrite <- E by lia; done|]. intros a y Ha' Hy. apply Ha; [done|]. by rewrite E by lia.
  Qed.
  Lemma greatest_eq (comp : A -> A -> bool) (m l : list A) i j k : (forall a, a < j -> m !! a = l !! a) -> greatest_at comp m i j k -> greatest_at comp l i j k.
  Proof.
    intros E (x&Hk&Hx&Ha). exists x. split; [done|]. split; [rewrite <- E by lia; done|]. intros a y Ha' Hy. apply Ha; [done|]. by rewrite E by lia.
  Qed.
  Lemma minmax_run M S q (comp : A -> A -> bool) first last i j o v1 v2 : StrictWeakOrder comp -> shown M q -> range_in S q first last i j -> i < j ->
    out_ok S q o -> out_ok S q (Some v1) -> out_ok S q (Some v2) ->
    exists mn mx, smallest_at comp q.2 i j mn /\ greatest_at comp q.2 i j mx /\
      points M S q o mn (min_element_by_p comp first last o) /\ points M S q o mx (max_element_by_p comp first last o) /\
      points2 M S q (Some v1) (Some v2) mn mx (minmax_element_by_p comp first last (Some v1) (Some v2)).
  Proof.
    intros HW HM HR Hne Ho Ho1 Ho2. oread HM HR.
    destruct (minmax_all comp m i j HW Hrange Hne) as (mn&mx&H3&H1&H2&Hmn&Hmx). exists mn, mx.
    assert (forall a, a < j -> m !! a = q.2 !! a) as E by (intros a Ha; apply Hm; lia).
    assert (mn < j /\ mx < j) as [Lmn Lmx]. { destruct Hmn as (?&?&_), Hmx as (?&?&_). lia. }
    split; [by eapply smallest_eq|]. split; [by eapply greatest_eq|]. split; [|split].
    - eapply reads_point; [done|lia|]. eapply min_element_by_wp; [done..|by apply Hout].
    - eapply reads_point; [done|lia|]. eapply max_element_by_wp; [done..|by apply Hout].
    - eapply (od_two _ _ _ _ _ _ _ _ _ _ HO); [lia|lia|]. eapply minmax_element_by_wp; [done..|by apply Hout|by apply Hout].
  Qed.
  Lemma minmax_empty_run M S q (comp : A -> A -> bool) first last i o v1 v2 : shown M q -> range_in S q first last i i ->
    out_ok S q o -> out_ok S q (Some v1) -> out_ok S q (Some v2) ->
    points M S q o i (min_element_by_p comp first last o) /\ points M S q o i (max_element_by_p comp first last o) /\
    points2 M S q (Some v1) (Some v2) i i (minmax_element_by_p comp first last (Some v1) (Some v2)).
  Proof.
    intros HM HR Ho Ho1 Ho2. oread HM HR. destruct (minmax_empty comp m i) as (H3&H1&H2). split; [|split].
    - eapply reads_point; [done|lia|]. eapply min_element_by_wp; [done..|by apply Hout].
    - eapply reads_point; [done|lia|]. eapply max_element_by_wp; [done..|by apply Hout].
    - eapply (od_two _ _ _ _ _ _ _ _ _ _ HO); [lia|lia|]. eapply minmax_element_by_wp; [done..|by apply Hout|by apply Hout].
  Qed.
  Lemma is_sorted_run M S q (comp : A -> A -> bool) first last i j : StrictWeakOrder comp -> shown M q -> range_in S q first last i j ->
    exists b, answers M S (is_sorted_by_p comp first last) b /\ (b = true <-> sorted comp (slice q.2 i j)).
  Proof.
    intros HW HM HR. oread HM HR. destruct (is_sorted_ok comp HW m i j Hrange) as (b&Hb&Hi). rewrite Hsl in Hi by lia. exists b. split; [|done].
    apply HR1. by eapply is_sorted_by_wp.
  Qed.
  Lemma is_sorted_until_run M S q (comp : A -> A -> bool) first last i j o : StrictWeakOrder comp -> shown M q -> range_in S q first last i j -> out_ok S q o ->
    exists u, i <= u <= j /\ (u = j <-> sorted comp (slice q.2 i j)) /\
      (u < j -> Datatypes.S u < j /\ sorted comp (slice q.2 i (Datatypes.S u)) /\ ~ sorted comp (slice q.2 i (Datatypes.S (Datatypes.S u)))) /\
      points M S q o u (is_sorted_until_by_p comp first last o).
  Proof.
    intros HW HM HR Ho. oread HM HR. destruct (is_sorted_until_ok comp HW m i j Hrange) as (u&Hu&Hb&Hi&Hlt). exists u. split; [done|].
    rewrite Hsl in Hi by lia. split; [done|]. split.
    - intros Hl'. destruct (Hlt Hl') as (L1&L2&L3). rewrite Hsl in L2, L3 by lia. done.
    - eapply reads_point; [done|lia|]. eapply is_sorted_until_by_wp; [done..|by apply Hout].
  Qed.

  (** ** two ranges, read only *)
  Lemma open_two M S q1 q2 first1 last1 first2 last2 i1 j1 i2 j2 : two_ranges M S q1 q2 first1 last1 first2 last2 i1 j1 i2 j2 ->
    exists L m s b, (forall (R : Type) (p : prog A R) (v : R), fwp L p m s (just s m v) -> answers M S p v) /\
      range m i1 j1 /\ range m (b + i2) (b + j2) /\ slice m i1 j1 = slice q1.2 i1 j1 /\ slice m (b + i2) (b + j2) = slice q2.2 i2 j2 /\
      rng L i1 j1 /\ rng L (b + i2) (b + j2) /\ s !! first1 = Some i1 /\ s !! last1 = Some j1 /\ s !! first2 = Some (b + i2) /\ s !! last2 = Some (b + j2) /\
      cat_ge L FORWARD i1 /\ cat_ge L FORWARD (b + i2).
  Proof.
    intros (H1&H2&R1&R2&Hu). destruct (range_at _ _ _ _ _ _ R1) as [Hat1 Hij1]. destruct (range_at _ _ _ _ _ _ R2) as [Hat2 Hij2].
    pose proof (at_le _ _ _ _ _ H1 (proj1 (proj2 R1))) as Hj1. pose proof (at_le _ _ _ _ _ H2 (proj1 (proj2 R2))) as Hj2.
    destruct (read_two M q1 q2 S _ _ H1 H2 Hat1 Hat2 Hu) as (L&m&s&b&HO1&HO2&(HRD&_)&Hs1&Hs2&_).
    pose proof (op_len _ _ _ _ _ _ _ HO1) as Hlen1. pose proof (op_len _ _ _ _ _ _ _ HO2) as Hlen2. cbn [plus] in Hlen1.
    exists L, m, s, b. split; [exact HRD|]. split; [split; lia|]. split; [split; lia|].
    split; [apply (op_slice _ _ _ _ _ _ _ HO1 i1 j1); lia|]. split; [apply (op_slice _ _ _ _ _ _ _ HO2 i2 j2); lia|].
    split; [apply (op_rng _ _ _ _ _ _ _ HO1 i1 j1); lia|]. split; [apply (op_rng _ _ _ _ _ _ _ HO2 i2 j2); lia|].
    split; [apply Hs1, elem_of_list_here|]. split; [apply Hs1, elem_of_list_further, elem_of_list_here|].
    split; [apply Hs2, elem_of_list_here|]. split; [apply Hs2, elem_of_list_further, elem_of_list_here|].
    split; [apply (op_cat _ _ _ _ _ _ _ HO1 i1); [lia|apply cat_forward]|apply (op_cat _ _ _ _ _ _ _ HO2 i2); [lia|apply cat_forward]].
  Qed.
  Lemma lexicographical_compare_run M S q1 q2 (comp : A -> A -> bool) first1 last1 first2 last2 i1 j1 i2 j2 : two_ranges M S q1 q2 first1 last1 first2 last2 i1 j1 i2 j2 ->
    exists b, answers M S (lexicographical_compare_by_p comp first1 last1 first2 last2) b /\
      (b = true <-> lex_less comp (slice q1.2 i1 j1) (slice q2.2 i2 j2)).
  Proof.
    intros HT. destruct (open_two _ _ _ _ _ _ _ _ _ _ _ _ HT) as (L&m&s&b&HRD&Hr1&Hr2&Hs1&Hs2&Hg1&Hg2&Hf1&Hl1&Hf2&Hl2&Hc1&Hc2).
    destruct (lexicographical_compare_ok comp m _ _ _ _ Hr1 Hr2) as (r&Hr&Hi). rewrite Hs1, Hs2 in Hi. exists r. split; [|done].
    apply HRD. by eapply lexicographical_compare_by_wp.
  Qed.
  Lemma includes_run M S q1 q2 (comp : A -> A -> bool) first1 last1 first2 last2 i1 j1 i2 j2 : StrictWeakOrder comp -> two_ranges M S q1 q2 first1 last1 first2 last2 i1 j1 i2 j2 ->
    sorted comp (slice q1.2 i1 j1) -> sorted comp (slice q2.2 i2 j2) ->
    exists b, answers M S (includes_by_p comp first1 last1 first2 last2) b /\
      (b = true <-> forall x, occ comp x (slice q2.2 i2 j2) <= occ comp x (slice q1.2 i1 j1)).
  Proof.
    intros HW HT S1 S2. destruct (open_two _ _ _ _ _ _ _ _ _ _ _ _ HT) as (L&m&s&b&HRD&Hr1&Hr2&Hs1&Hs2&Hg1&Hg2&Hf1&Hl1&Hf2&Hl2&Hc1&Hc2).
    rewrite <- Hs1 in S1. rewrite <- Hs2 in S2. destruct (includes_ok comp HW m _ _ _ _ Hr1 Hr2 S1 S2) as (r&Hr&Hi). rewrite Hs1, Hs2 in Hi. exists r. split; [|done].
    apply HRD. by eapply includes_by_wp.
  Qed.

  (** ** two sources, one destination *)
  Lemma unmixed_split q1 (xs : list iid) q2 ys : unmixed q1 xs q2 ys -> split_or_same q1 xs q2 ys false.
  Proof. intros [->|Hd]; [by left|]. right. by split. Qed.
  Lemma unmixed_split_w q1 (xs : list iid) q2 ys : unmixed q1 xs q2 ys -> same_or_apart q1 q2 -> split_or_same q1 xs q2 ys true.
  Proof. intros [E|Hd]; [intros _; by left|]. intros [E|Ho]; [by left|]. right. by split. Qed.
  Lemma two_range_run M S q1 q2 q3 step copy1 copy2 body first1 last1 first2 last2 d_first o i1 j1 i2 j2 d :
    (forall L F1 F2 D, F1 <> F2 -> F1 <> D -> F2 <> D -> fingers L step F1 F2 D (body F1 F2 D)) ->
    two_sources M S q1 q2 q3 first1 last1 first2 last2 d_first i1 j1 i2 j2 d -> out_ok S q3 o ->
    let l := AlgoSetProofs.zip step copy1 copy2 (slice q1.2 i1 j1) (slice q2.2 i2 j2) in
    room q1 q2 q3 i1 j1 i2 j2 d l ->
    changes_out M S q3 o d l (d + length l) (two_range_p body copy1 copy2 first1 last1 first2 last2 d_first o) (length l).
  Proof.
    intros HB ((H1&H2&R1&R2&U12)&H3&Hd&Hmu&U13&A13&U23&A23) Ho l (Hfit&Ov1&Ov2).
    destruct (range_at _ _ _ _ _ _ R1) as [Hat1 Hij1]. destruct (range_at _ _ _ _ _ _ R2) as [Hat2 Hij2].
    assert (at_all S q3 [(d_first, d)]) as Hat3 by (by repeat constructor).
    pose proof (at_le _ _ _ _ _ H1 (proj1 (proj2 R1))) as Hj1. pose proof (at_le _ _ _ _ _ H2 (proj1 (proj2 R2))) as Hj2.
    pose proof (at_le _ _ _ _ _ H3 Hd) as Hdl.
    destruct (run_three M S q1 q2 q3 _ _ _ false false true H1 H2 H3 Hat1 Hat2 Hat3) as (L&m&s&b1&b2&b3&JW&J&HRO&Hs1&Hs2&Hs3);
      [by apply unmixed_split|by apply unmixed_split_w|by apply unmixed_split_w|done..|].
    pose proof (r3_open1 _ _ _ _ _ _ _ _ _ _ _ _ _ _ _ _ HRO) as HO1. pose proof (r3_open2 _ _ _ _ _ _ _ _ _ _ _ _ _ _ _ _ HRO) as HO2.
    pose proof (r3_open3 _ _ _ _ _ _ _ _ _ _ _ _ _ _ _ _ HRO) as HO3.
    pose proof (op_len _ _ _ _ _ _ _ HO1) as Hlen1. pose proof (op_len _ _ _ _ _ _ _ HO2) as Hlen2. pose proof (op_len _ _ _ _ _ _ _ HO3) as Hlen3.
    pose proof (op_slice _ _ _ _ _ _ _ HO1 i1 j1 ltac:(lia)) as E1. pose proof (op_slice _ _ _ _ _ _ _ HO2 i2 j2 ltac:(lia)) as E2.
    assert (forall q b i j, same_or_sep q b q3 b3 -> j <= length q.2 -> (q = q3 -> apart d (d + length l) i j) ->
      apart (b3 + d) (b3 + d + length l) (b + i) (b + j)) as Hap.
    { intros q b i j [[-> ->]|[Hs|Hs]] Hj Hov; unfold apart in *; [destruct (Hov eq_refl); lia|lia|lia]. }
    pose proof (zip_then_copy_ok step copy1 copy2 m (b1 + i1) (b1 + j1) (b2 + i2) (b2 + j2) (b3 + d)) as Hz.
    cbv zeta in Hz. rewrite E1, E2 in Hz. fold l in Hz.
    specialize (Hz ltac:(split; lia) ltac:(split; lia) ltac:(lia)
      (Hap _ _ _ _ (r3_sep13 _ _ _ _ _ _ _ _ _ _ _ _ _ _ _ _ HRO) Hj1 Ov1) (Hap _ _ _ _ (r3_sep23 _ _ _ _ _ _ _ _ _ _ _ _ _ _ _ _ HRO) Hj2 Ov2)).
    assert (fwp L (two_range_p body copy1 copy2 first1 last1 first2 last2 d_first o) m s (leaves s o (length l) (patch m (b3 + d) l) (b3 + d + length l))) as Hp.
    { eapply (two_range_wp L step _ _ _ _ _ _ _ _ _ _ _ _ _ _ _ _ (b3 + length q3.2)); [apply HB|exact Hz| |].
      - split; [apply (op_rng _ _ _ _ _ _ _ HO1); lia|]. split; [apply (op_rng _ _ _ _ _ _ _ HO2); lia|]. split; [apply (op_rng _ _ _ _ _ _ _ HO3); lia|].
        split; [lia|]. split; [apply (op_mut _ _ _ _ _ _ _ HO3); [lia|done]|].
        split; [apply (op_cat _ _ _ _ _ _ _ HO1); [lia|apply cat_forward]|]. split; [apply (op_cat _ _ _ _ _ _ _ HO2); [lia|apply cat_forward]|].
        split; [apply (op_cat _ _ _ _ _ _ _ HO3); [lia|apply cat_forward]|].
        split; [apply Hs1, elem_of_list_here|]. split; [apply Hs1, elem_of_list_further, elem_of_list_here|].
        split; [apply Hs2, elem_of_list_here|]. split; [apply Hs2, elem_of_list_further, elem_of_list_here|]. apply Hs3, elem_of_list_here.
      - apply (op_out _ _ _ _ _ _ _ HO3); [lia|done]. }
    destruct (r3_run _ _ _ _ _ _ _ _ _ _ _ _ _ _ _ _ HRO _ _ _ Hp) as ([r w]&m'&s'&M'&S'&He&(Hr&->&Ho')&HJ&_&Hsh&Hfr). cbn [fst snd] in *. subst r.
    rewrite <- Nat.add_assoc in Ho'.
    destruct (r3_out3 _ _ _ _ _ _ _ _ _ _ _ _ _ _ _ _ HRO _ (d + length l) _ _ _ _ ltac:(lia) (r3_J _ _ _ _ _ _ _ _ _ _ _ _ _ _ _ _ HRO) Ho') as (S2&Hst&HJ2).
    rewrite (r3_fun _ _ _ _ _ _ _ _ _ _ _ _ _ _ _ _ HRO _ _ _ HJ HJ2) in He.
    exists w, M', S2. split; [done|]. split; [|done]. rewrite slice_patch_in in Hsh by lia.
    pose proof (op_slice _ _ _ _ _ _ _ HO3 0 (length q3.2) ltac:(lia)) as E3. rewrite Nat.add_0_r in E3. rewrite E3, slice_whole in Hsh.
    apply two_becomes; [done|]. intros q' _ Hq'. by apply Hfr.
  Qed.

  (** ** one source, two destinations *)
  Lemma partition_copy_run M S q1 q2 q3 (pred : A -> bool) first last dft dff o1 o2 i j dt df :
    two_dests M S q1 q2 q3 first last dft dff i j dt df -> out_ok S q2 o1 -> out_ok S q3 o2 -> two_outs o1 o2 ->
    let yes := List.filter pred (slice q1.2 i j) in let no := List.filter (fun x => negb (pred x)) (slice q1.2 i j) in
    dt + length yes <= length q2.2 -> df + length no <= length q3.2 ->
    (q1 = q2 -> apart dt (dt + length yes) i j) -> (q1 = q3 -> apart df (df + length no) i j) ->
    (q2 = q3 -> apart dt (dt + length yes) df (df + length no)) ->
    exists v w M' S1 S', exec (cworld A) (partition_copy_p first last dft dff o1 o2 pred) (M, S) (j - i, v, w) (M', S') /\
      stored q2 o1 (dt + length yes) S v S1 /\ stored q3 o2 (df + length no) S1 w S' /\
      (q2 = q3 -> becomes M [(q2, patch (patch q2.2 dt yes) df no)] M') /\
      (obj_of q2.1.1 <> obj_of q3.1.1 -> becomes M [(q2, patch q2.2 dt yes); (q3, patch q3.2 df no)] M').
  Proof.
    intros (H1&H2&H3&R1&Hdt&Hdf&Mu2&Mu3&U12&A12&U13&A13&U23&A23) Ho1 Ho2 Hoo yes no Fit1 Fit2 Ov12 Ov13 Ov23.
    destruct (range_at _ _ _ _ _ _ R1) as [Hat1 Hij].
    assert (at_all S q2 [(dft, dt)]) as Hat2 by (by repeat constructor). assert (at_all S q3 [(dff, df)]) as Hat3 by (by repeat constructor).
    pose proof (at_le _ _ _ _ _ H1 (proj1 (proj2 R1))) as Hj.
    destruct (run_three M S q1 q2 q3 _ _ _ false true true H1 H2 H3 Hat1 Hat2 Hat3) as (L&m&s&b1&b2&b3&JW&J&HRO&Hs1&Hs2&Hs3);
      [by apply unmixed_split_w|by apply unmixed_split_w|by apply unmixed_split_w|done..|].
    pose proof (r3_open1 _ _ _ _ _ _ _ _ _ _ _ _ _ _ _ _ HRO) as HO1. pose proof (r3_open2 _ _ _ _ _ _ _ _ _ _ _ _ _ _ _ _ HRO) as HO2.
    pose proof (r3_open3 _ _ _ _ _ _ _ _ _ _ _ _ _ _ _ _ HRO) as HO3.
    pose proof (op_len _ _ _ _ _ _ _ HO1) as Hlen1. pose proof (op_len _ _ _ _ _ _ _ HO2) as Hlen2. pose proof (op_len _ _ _ _ _ _ _ HO3) as Hlen3.
    pose proof (op_slice _ _ _ _ _ _ _ HO1 i j ltac:(lia)) as E1.
    pose proof (op_slice _ _ _ _ _ _ _ HO2 0 (length q2.2) ltac:(lia)) as E2. rewrite Nat.add_0_r, slice_whole in E2.
    pose proof (op_slice _ _ _ _ _ _ _ HO3 0 (length q3.2) ltac:(lia)) as E3. rewrite Nat.add_0_r, slice_whole in E3.
    assert (forall q b i j q' b' d n, same_or_sep q b q' b' -> j <= length q.2 -> d + n <= length q'.2 -> (q = q' -> apart d (d + n) i j) ->
      apart (b' + d) (b' + d + n) (b + i) (b + j)) as Hap.
    { intros q b i' j' q' b' d n [[-> ->]|[Hs|Hs]] Hj' Hf' Hov; unfold apart in *; [destruct (Hov eq_refl); lia|lia|lia]. }
    pose proof (partition_copy_ok m (b1 + i) (b1 + j) (b2 + dt) (b3 + df) pred) as Hz. cbv zeta in Hz. rewrite E1 in Hz. fold yes no in Hz.
    assert (apart (b2 + dt) (b2 + dt + length yes) (b3 + df) (b3 + df + length no)) as Hov.
    { destruct (r3_sep23 _ _ _ _ _ _ _ _ _ _ _ _ _ _ _ _ HRO) as [[-> ->]|[Hs|Hs]]; unfold apart in *; [destruct (Ov23 eq_refl); lia|lia|lia]. }
    specialize (Hz ltac:(split; lia) ltac:(lia) ltac:(lia) (Hap _ _ _ _ _ _ _ _ (r3_sep12 _ _ _ _ _ _ _ _ _ _ _ _ _ _ _ _ HRO) Hj Fit1 Ov12)
      (Hap _ _ _ _ _ _ _ _ (r3_sep13 _ _ _ _ _ _ _ _ _ _ _ _ _ _ _ _ HRO) Hj Fit2 Ov13) Hov).
    replace (b1 + j - (b1 + i)) with (j - i) in Hz by lia.
    assert (fwp L (partition_copy_p first last dft dff o1 o2 pred) m s
      (leaves2 s o1 o2 (j - i) (patch (patch m (b2 + dt) yes) (b3 + df) no) (b2 + dt + length yes) (b3 + df + length no))) as Hp.
    { eapply (partition_copy_wp L pred _ _ _ _ _ _ _ _ _ _ _ (b2 + length q2.2) _ (b3 + length q3.2)); [exact Hz|..].
      - apply (op_rng _ _ _ _ _ _ _ HO1); lia.
      - apply (op_rng _ _ _ _ _ _ _ HO2); lia.
      - apply (op_rng _ _ _ _ _ _ _ HO3); lia.
      - lia.
      - lia.
      - apply (op_mut _ _ _ _ _ _ _ HO2); [lia|done].
      - apply (op_mut _ _ _ _ _ _ _ HO3); [lia|done].
      - apply (op_cat _ _ _ _ _ _ _ HO1); [lia|apply cat_forward].
      - apply (op_cat _ _ _ _ _ _ _ HO2); [lia|apply cat_forward].
      - apply (op_cat _ _ _ _ _ _ _ HO3); [lia|apply cat_forward].
      - apply Hs1, elem_of_list_here.
      - apply Hs1, elem_of_list_further, elem_of_list_here.
      - apply Hs2, elem_of_list_here.
      - apply Hs3, elem_of_list_here.
      - apply (op_out _ _ _ _ _ _ _ HO2); [lia|done].
      - apply (op_out _ _ _ _ _ _ _ HO3); [lia|done].
      - intros x y -> -> ->. by apply (Hoo y). }
    destruct (r3_run _ _ _ _ _ _ _ _ _ _ _ _ _ _ _ _ HRO _ _ _ Hp) as ([[r v] w]&m'&s'&M'&S'&He&(Hr&->&(s1&P1&P2))&HJ&Hsh2&Hsh3&Hfr). cbn [fst snd] in *. subst r.
    rewrite <- Nat.add_assoc in P1, P2.
    destruct (r3_out2 _ _ _ _ _ _ _ _ _ _ _ _ _ _ _ _ HRO _ (dt + length yes) _ _ _ _ ltac:(lia) (r3_J _ _ _ _ _ _ _ _ _ _ _ _ _ _ _ _ HRO) P1) as (S1&Hst1&HJ1).
    destruct (r3_out3 _ _ _ _ _ _ _ _ _ _ _ _ _ _ _ _ HRO _ (df + length no) _ _ _ _ ltac:(lia) HJ1 P2) as (S2&Hst2&HJ2).
    rewrite (r3_fun _ _ _ _ _ _ _ _ _ _ _ _ _ _ _ _ HRO _ _ _ HJ HJ2) in He.
    exists v, w, M', S1, S2. split; [done|]. split; [done|]. split; [done|]. split.
    - intros Eq. pose proof (r3_one23 _ _ _ _ _ _ _ _ _ _ _ _ _ _ _ _ HRO eq_refl Eq) as Eb. subst q3 b3.
      rewrite slice_patch_in in Hsh3 by (rewrite ?patch_length; lia). rewrite slice_patch_in, E2 in Hsh3 by lia. split.
      + intros q' vs' [= -> ->]%elem_of_list_singleton. done.
      + intros q' Hq' Hss. apply Hfr; [done|..|done]; intros _; eapply Hq'; by apply elem_of_list_singleton.
    - intros Hne. assert (b2 + length q2.2 < b3 \/ b3 + length q3.2 < b2) as Hs.
      { destruct (r3_sep23 _ _ _ _ _ _ _ _ _ _ _ _ _ _ _ _ HRO) as [[-> _]|Hs]; [done|done]. }
      rewrite slice_patch_in in Hsh3 by (rewrite ?patch_length; lia). rewrite (slice_patch_out m), E3 in Hsh3 by lia.
      rewrite slice_patch_out in Hsh2 by (rewrite ?patch_length; lia). rewrite slice_patch_in, E2 in Hsh2 by lia. split.
      + intros q' vs' [[= -> ->]|[= -> ->]%elem_of_list_singleton]%elem_of_cons; done.
      + intros q' Hq' Hss. apply Hfr; [done|..|done]; intros _; eapply Hq'; [apply elem_of_list_here|apply elem_of_list_further, elem_of_list_here].
  Qed.
End lifted.
