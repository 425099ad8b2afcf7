(** IterNonModLift.v — the programs of IterNonMod.v on containers. *)
From stdpp Require Import list gmap.
From Verif Require Import Base Spec Iter IterFlat IterWp IterWorld SpecIter IterWorldProofs IterLift AlgoNonMod AlgoNonModProofs
  IterNonMod IterNonModProofs.
From stdpp Require Import list.

Section lifted.
  Context {A : Type} {CK : Checked} `{Inhabited A}.
  Implicit Types (M : cmem A) (S : gmap iid cpos) (q : cont * list cpos * list A).

  Lemma cat_input q : INPUT <= cat_of q.1.1.
  Proof. pose proof (cat_forward q.1.1). unfold INPUT, FORWARD in *. lia. Qed.
  Lemma last_position_iff f l (P Q : nat -> Prop) r :
    (forall k, f <= k < l -> P k <-> Q k) -> last_position f l P r -> last_position f l Q r.
  Proof.
    intros HPQ. destruct r as [[|] j]; cbn [last_position].
    - intros (H1&H2&H3). split_and!; [lia|lia|by apply HPQ|]. intros k Hk HQ. apply (H3 k Hk), HPQ; [lia|done].
    - intros (->&H3). split; [done|]. intros k Hk HQ. apply (H3 k Hk), HPQ; [lia|done].
  Qed.
  Lemma position_le f l (P : nat -> Prop) b k : f <= l -> first_position f l P (b, k) -> f <= k <= l.
  Proof. intros Hl. destruct b; cbn; [intros (?&_)|intros (->&_)]; lia. Qed.
  Lemma last_position_le f l (P : nat -> Prop) b k : f <= l -> last_position f l P (b, k) -> f <= k <= l.
  Proof. intros Hl. destruct b; cbn; [intros (?&_)|intros (->&_)]; lia. Qed.

  (** open one range *)
  Ltac open1 HM HR :=
    destruct (range_at _ _ _ _ _ _ HR) as [Hat ?];
    pose proof (at_le _ _ _ _ _ HM (proj1 HR)); pose proof (at_le _ _ _ _ _ HM (proj1 (proj2 HR)));
    destruct (read_one _ _ _ _ HM Hat) as (L&m&s&HO&HRD&Hs); pose proof (proj1 HRD) as HR1;
    assert (Hf := Hs _ _ ltac:(apply elem_of_list_here)); assert (Hl := Hs _ _ ltac:(apply elem_of_list_further, elem_of_list_here));
    match type of HR with range_in _ ?q _ _ ?i ?j =>
      assert (range m i j) as Hrange by (pose proof (op_len _ _ _ _ _ _ _ HO); split; cbn in *; lia);
      assert (rng L i j) as Hrng by (apply (op_rng _ _ _ _ _ _ _ HO i j); lia);
      assert (slice m i j = slice q.2 i j) as Hsl by (apply (op_slice _ _ _ _ _ _ _ HO i j); lia);
      assert (cat_ge L INPUT i) as Hci by (apply (op_cat _ _ _ _ _ _ _ HO i); [lia|apply cat_input]);
      assert (cat_ge L FORWARD i) as Hcf by (apply (op_cat _ _ _ _ _ _ _ HO i); [lia|apply cat_forward]);
      assert (forall k, k < length q.2 -> m !! k = q.2 !! k) as Hm by (apply (op_m _ _ _ _ _ _ _ HO))
    end.

  Lemma all_of_run M S q first last i j pred : shown M q -> range_in S q first last i j ->
    exists b, exec (cworld A) (all_of_p first last pred) (M, S) b (M, S) /\
      (b = true <-> forall x, x ∈ slice q.2 i j -> pred x = true).
  Proof.
    intros HM HR. open1 HM HR. destruct (all_of_ok m i j pred Hrange) as (b&Hb&Hs'). exists b. split.
    - apply HR1. by eapply all_of_wp.
    - by rewrite <- Hsl.
  Qed.
  Lemma any_of_run M S q first last i j pred : shown M q -> range_in S q first last i j ->
    exists b, exec (cworld A) (any_of_p first last pred) (M, S) b (M, S) /\
      (b = true <-> exists x, x ∈ slice q.2 i j /\ pred x = true).
  Proof.
    intros HM HR. open1 HM HR. destruct (any_of_ok m i j pred Hrange) as (b&Hb&Hs'). exists b. split.
    - apply HR1. by eapply any_of_wp.
    - by rewrite <- Hsl.
  Qed.
  Lemma none_of_run M S q first last i j pred : shown M q -> range_in S q first last i j ->
    exists b, exec (cworld A) (none_of_p first last pred) (M, S) b (M, S) /\
      (b = true <-> forall x, x ∈ slice q.2 i j -> pred x = false).
  Proof.
    intros HM HR. open1 HM HR. destruct (none_of_ok m i j pred Hrange) as (b&Hb&Hs'). exists b. split.
    - apply HR1. by eapply none_of_wp.
    - by rewrite <- Hsl.
  Qed.
  Lemma count_if_run M S q first last i j pred : shown M q -> range_in S q first last i j ->
    exec (cworld A) (count_if_p first last pred) (M, S) (length (List.filter pred (slice q.2 i j))) (M, S).
  Proof.
    intros HM HR. open1 HM HR. rewrite <- Hsl. apply HR1. eapply count_if_wp; try done. by apply count_if_ok.
  Qed.
  Lemma count_run M S q eqf first last i j value : shown M q -> range_in S q first last i j ->
    exec (cworld A) (count_p eqf first last value) (M, S) (length (List.filter (fun x => eqf x value) (slice q.2 i j))) (M, S).
  Proof.
    intros HM HR. open1 HM HR. rewrite <- Hsl. apply HR1. eapply count_wp; try done. by apply count_ok.
  Qed.

  Lemma cell_iff q (m : list A) p k : k < length q.2 -> (forall k, k < length q.2 -> m !! k = q.2 !! k) -> cell m p k <-> cell q.2 p k.
  Proof. intros Hk Hm. unfold cell. by rewrite Hm. Qed.
  (** a search that returns the first (last) position *)
  Definition finds M S q o (run : prog A (bool * option iid)) (P : bool * nat -> Prop) : Prop :=
    exists b k v S', exec (cworld A) run (M, S) (b, v) (M, S') /\ P (b, k) /\ stored q o k S v S'.
  Lemma finds_first M S q o (run : prog A (bool * option iid)) L m s i j (P P' : nat -> Prop) (algo : res (bool * nat)) :
    reads1 M q S L m s -> i <= j -> j <= length q.2 -> (exists r, algo = Ok r /\ first_position i j P r) ->
    (forall b k, algo = Ok (b, k) -> fwp L run m s (found_at s m o b k)) -> (forall k, i <= k < j -> P k <-> P' k) ->
    finds M S q o run (first_position i j P').
  Proof.
    intros (_&HR) Hi Hj ([b k]&Hb&Hp) Hw HP. pose proof (position_le _ _ _ _ _ Hi Hp).
    destruct (HR run o b k) as (v&S'&He&Hst); [lia|by apply Hw|]. exists b, k, v, S'. split; [done|]. split; [|done].
    by eapply first_position_iff.
  Qed.
  Lemma finds_last M S q o (run : prog A (bool * option iid)) L m s i j (P P' : nat -> Prop) (algo : res (bool * nat)) :
    reads1 M q S L m s -> i <= j -> j <= length q.2 -> (exists r, algo = Ok r /\ last_position i j P r) ->
    (forall b k, algo = Ok (b, k) -> fwp L run m s (found_at s m o b k)) -> (forall k, i <= k < j -> P k <-> P' k) ->
    finds M S q o run (last_position i j P').
  Proof.
    intros (_&HR) Hi Hj ([b k]&Hb&Hp) Hw HP. pose proof (last_position_le _ _ _ _ _ Hi Hp).
    destruct (HR run o b k) as (v&S'&He&Hst); [lia|by apply Hw|]. exists b, k, v, S'. split; [done|]. split; [|done].
    by eapply last_position_iff.
  Qed.

  Lemma find_if_run M S q first last i j o pred : shown M q -> range_in S q first last i j -> out_ok S q o ->
    finds M S q o (find_if_p first last o pred) (first_position i j (cell q.2 pred)).
  Proof.
    intros HM HR Ho. open1 HM HR. eapply (finds_first _ _ _ _ _ _ _ _ _ _ _ _ _ HRD); [lia|lia|exact (find_if_ok m i j pred Hrange)|intros b k Hb; by eapply find_if_wp; try done; apply (op_out _ _ _ _ _ _ _ HO); [lia|done]|].
    intros k' ?. apply cell_iff; [lia|done].
  Qed.
  Lemma find_if_not_run M S q first last i j o pred : shown M q -> range_in S q first last i j -> out_ok S q o ->
    finds M S q o (find_if_not_p first last o pred) (first_position i j (cell q.2 (fun x => negb (pred x)))).
  Proof.
    intros HM HR Ho. open1 HM HR. eapply (finds_first _ _ _ _ _ _ _ _ _ _ _ _ _ HRD); [lia|lia|exact (find_if_not_ok m i j pred Hrange)|intros b k Hb; by eapply find_if_not_wp; try done; apply (op_out _ _ _ _ _ _ _ HO); [lia|done]|].
    intros k' ?. apply cell_iff; [lia|done].
  Qed.
  Lemma find_by_run M S q first last i j o value pred : shown M q -> range_in S q first last i j -> out_ok S q o ->
    finds M S q o (find_by_p first last o value pred) (first_position i j (cell q.2 (fun x => pred x value))).
  Proof.
    intros HM HR Ho. open1 HM HR. eapply (finds_first _ _ _ _ _ _ _ _ _ _ _ _ _ HRD); [lia|lia|exact (find_by_ok m i j value pred Hrange)|intros b k Hb; by eapply find_by_wp; try done; apply (op_out _ _ _ _ _ _ _ HO); [lia|done]|].
    intros k' ?. apply cell_iff; [lia|done].
  Qed.
  Lemma adjacent_find_by_run M S q first last i j o pred : shown M q -> range_in S q first last i j -> out_ok S q o ->
    finds M S q o (adjacent_find_by_p first last o pred) (first_position i j (adjacent_at q.2 pred j)).
  Proof.
    intros HM HR Ho. open1 HM HR. eapply (finds_first _ _ _ _ _ _ _ _ _ _ _ _ _ HRD); [lia|lia|exact (adjacent_find_ok m i j pred Hrange)|intros b k Hb; by eapply adjacent_find_by_wp; try done; apply (op_out _ _ _ _ _ _ _ HO); [lia|done]|].
    intros k' ?. unfold adjacent_at.
    split; intros (Hlt&Hx); (split; [done|]); [rewrite <- !Hm by lia|rewrite !Hm by lia]; done.
  Qed.
  Lemma run_iff q (m : list A) pred value j n k : j <= length q.2 -> (forall k, k < length q.2 -> m !! k = q.2 !! k) ->
    run_at m pred value j n k <-> run_at q.2 pred value j n k.
  Proof.
    intros Hj Hm. unfold run_at. split; intros (Hlt&Hx); (split; [done|]); intros d Hd; specialize (Hx d Hd).
    - apply (cell_iff q m); [lia|done|done].
    - apply (cell_iff q m); [lia|done|done].
  Qed.
  Lemma search_n_by_run M S q first last i j n value o pred : shown M q -> range_in S q first last i j -> out_ok S q o ->
    finds M S q o (search_n_by_p first last n value o pred) (first_position i j (fun k => 0 < n /\ run_at q.2 pred value j n k)).
  Proof.
    intros HM HR Ho. open1 HM HR.
    eapply (finds_first _ _ _ _ _ _ _ _ _ _ (fun k => 0 < n /\ run_at m pred value j n k) _ (algo_search_n_by m i j n value pred) HRD);
      [lia|lia| |intros b k Hb; by eapply search_n_by_wp; try done; apply (op_out _ _ _ _ _ _ _ HO); [lia|done]|].
    - destruct (decide (n = 0)) as [->|Hn].
      + exists (false, j). split; [done|]. split; [done|]. intros k _ [? _]. lia.
      + destruct (search_n_ok m i j n value pred Hrange) as (r&Hr&Hp); [lia|]. exists r. split; [done|].
        eapply first_position_iff; [|exact Hp]. intros k _. split; [intros ?; split; [lia|done]|by intros [_ ?]].
    - intros k' ?. by rewrite (run_iff q m) by (first [lia|done]).
  Qed.
  Lemma search_last_n_by_run M S q first last i j n value o pred : shown M q -> range_in S q first last i j -> out_ok S q o ->
    finds M S q o (search_last_n_by_p first last n value o pred) (last_position i j (fun k => 0 < n /\ run_at q.2 pred value j n k)).
  Proof.
    intros HM HR Ho. open1 HM HR.
    eapply (finds_last _ _ _ _ _ _ _ _ _ _ (fun k => 0 < n /\ run_at m pred value j n k) _ (algo_search_last_n_by m i j n value pred) HRD);
      [lia|lia| |intros b k Hb; by eapply search_last_n_by_wp; try done; apply (op_out _ _ _ _ _ _ _ HO); [lia|done]|].
    - destruct (decide (n = 0)) as [->|Hn].
      + exists (false, j). split; [done|]. split; [done|]. intros k _ [? _]. lia.
      + destruct (search_last_n_ok m i j n value pred Hrange) as (r&Hr&Hp); [lia|]. exists r. split; [done|].
        eapply last_position_iff; [|exact Hp]. intros k _. split; [intros ?; split; [lia|done]|by intros [_ ?]].
    - intros k' ?. by rewrite (run_iff q m) by (first [lia|done]).
  Qed.

  (** open two ranges *)
  Ltac open2 HM1 HM2 HA1 HA2 HU :=
    destruct (read_two _ _ _ _ _ _ HM1 HM2 HA1 HA2 HU) as (L&m&s&b2&HO&HO2&HRD&Hs&Hs2&Hsame&HR3).
  Lemma equal_by_run M S q1 q2 first1 last1 first2 i j a pred : shown M q1 -> shown M q2 -> range_in S q1 first1 last1 i j ->
    at_pos S q2 first2 a -> a + (j - i) <= length q2.2 -> unmixed q1 [first1; last1] q2 [first2] ->
    exists b, exec (cworld A) (equal_by_p first1 last1 first2 pred) (M, S) b (M, S) /\
      (b = true <-> forall d, d < j - i -> exists x y, q1.2 !! (i + d) = Some x /\ q2.2 !! (a + d) = Some y /\ pred x y = true).
  Proof.
    intros HM1 HM2 HR Ha Hc HU. destruct (range_at _ _ _ _ _ _ HR) as [Hat1 Hij]. pose proof (at_le _ _ _ _ _ HM1 (proj1 (proj2 HR))) as Hj.
    assert (at_all S q2 [(first2, a)]) as Hat2 by (by repeat constructor).
    open2 HM1 HM2 Hat1 Hat2 HU. pose proof (op_len _ _ _ _ _ _ _ HO). pose proof (op_len _ _ _ _ _ _ _ HO2).
    destruct (equal_ok m i j (b2 + a) pred) as (b&Hb&Hspec); [split; cbn in *; lia|lia|]. exists b. split.
    - apply (proj1 HRD). eapply (equal_by_wp _ _ _ _ _ _ _ i j (b2 + a) (b2 + (a + (j - i)))).
      + exact Hb.
      + apply (op_rng _ _ _ _ _ _ _ HO i j); lia.
      + apply (op_rng _ _ _ _ _ _ _ HO2); lia.
      + lia.
      + apply Hs, elem_of_list_here.
      + apply Hs, elem_of_list_further, elem_of_list_here.
      + apply Hs2, elem_of_list_here.
      + apply (op_cat _ _ _ _ _ _ _ HO i); [lia|apply cat_input].
      + apply (op_cat _ _ _ _ _ _ _ HO2 a); [lia|apply cat_input].
    - rewrite Hspec. split; intros He d Hd; destruct (He d Hd) as (x&y&Hx&Hy&Hp); exists x, y; (split_and!; [| |done]).
      + rewrite <- Hx. symmetry. apply (op_m _ _ _ _ _ _ _ HO (i + d)). lia.
      + rewrite <- Hy, <- Nat.add_assoc. symmetry. apply (op_m _ _ _ _ _ _ _ HO2 (a + d)). lia.
      + rewrite <- Hx. apply (op_m _ _ _ _ _ _ _ HO (i + d)). lia.
      + rewrite <- Hy, <- Nat.add_assoc. apply (op_m _ _ _ _ _ _ _ HO2 (a + d)). lia.
  Qed.
  Lemma mismatch_by_run M S q1 q2 first1 last1 first2 i j a o1 o2 pred : shown M q1 -> shown M q2 -> range_in S q1 first1 last1 i j ->
    at_pos S q2 first2 a -> a + (j - i) <= length q2.2 -> unmixed q1 [first1; last1] q2 [first2] -> out_ok S q1 o1 -> out_ok S q2 o2 ->
    exists b k v1 v2 S1 S', exec (cworld A) (mismatch_by_p first1 last1 first2 o1 o2 pred) (M, S) (b, v1, v2) (M, S') /\
      first_position i j (fun k => exists x y, q1.2 !! k = Some x /\ q2.2 !! (a + (k - i)) = Some y /\ pred x y = false) (b, k) /\
      stored q1 o1 k S v1 S1 /\ stored q2 o2 (a + (k - i)) S1 v2 S'.
  Proof.
    intros HM1 HM2 HR Ha Hc HU Ho1 Ho2. destruct (range_at _ _ _ _ _ _ HR) as [Hat1 Hij]. pose proof (at_le _ _ _ _ _ HM1 (proj1 (proj2 HR))) as Hj.
    assert (at_all S q2 [(first2, a)]) as Hat2 by (by repeat constructor).
    open2 HM1 HM2 Hat1 Hat2 HU. pose proof (op_len _ _ _ _ _ _ _ HO). pose proof (op_len _ _ _ _ _ _ _ HO2).
    destruct (mismatch_ok m i j (b2 + a) pred) as ([b k]&Hb&Hspec); [split; cbn in *; lia|lia|]. cbn [snd] in Hb.
    pose proof (position_le _ _ _ _ _ Hij Hspec) as Hk.
    destruct (HR3 (mismatch_by_p first1 last1 first2 o1 o2 pred) o1 o2 b k (a + (k - i))) as (v1&v2&S1&S'&He&Hst1&Hst2); [lia|lia| |].
    - rewrite (Nat.add_assoc b2 a (k - i)). eapply (mismatch_by_wp _ _ _ _ _ _ _ _ _ i j (b2 + a) (b2 + (a + (j - i)))).
      + exact Hb.
      + apply (op_rng _ _ _ _ _ _ _ HO i j); lia.
      + apply (op_rng _ _ _ _ _ _ _ HO2); lia.
      + lia.
      + apply Hs, elem_of_list_here.
      + apply Hs, elem_of_list_further, elem_of_list_here.
      + apply Hs2, elem_of_list_here.
      + apply (op_cat _ _ _ _ _ _ _ HO i); [lia|apply cat_input].
      + apply (op_cat _ _ _ _ _ _ _ HO2 a); [lia|apply cat_input].
      + apply (op_out _ _ _ _ _ _ _ HO i); [lia|done].
      + apply (op_out _ _ _ _ _ _ _ HO2 a); [lia|done].
      + intros x -> ->. destruct Ho1 as (p1&Hp1&Hk1), Ho2 as (p2&Hp2&Hk2). rewrite Hp1 in Hp2. injection Hp2 as <-.
        apply Hsame; [congruence|lia|lia].
    - exists b, k, v1, v2, S1, S'. split; [done|]. split; [|done]. eapply first_position_iff; [|exact Hspec].
      intros k' Hk'. split; intros (x&y&Hx&Hy&Hp); exists x, y; (split_and!; [| |done]).
      + rewrite <- Hx. symmetry. apply (op_m _ _ _ _ _ _ _ HO k'). lia.
      + rewrite <- Hy, <- Nat.add_assoc. symmetry. apply (op_m _ _ _ _ _ _ _ HO2 (a + (k' - i))). lia.
      + rewrite <- Hx. apply (op_m _ _ _ _ _ _ _ HO k'). lia.
      + rewrite <- Hy, <- Nat.add_assoc. apply (op_m _ _ _ _ _ _ _ HO2 (a + (k' - i))). lia.
  Qed.

  Lemma matches_iff q1 q2 L (m : list A) s S b2 a c k pred : open_at q1 false S L m s 0 -> open_at q2 false S L m s b2 ->
    c <= length q2.2 -> k < length q1.2 ->
    matches_any m pred (b2 + a) (b2 + c) k <-> matches_one_of q1.2 pred (slice q2.2 a c) k.
  Proof.
    intros HO HO2 Hc Hk. unfold matches_any, matches_one_of. rewrite (op_slice _ _ _ _ _ _ _ HO2) by done.
    pose proof (op_m _ _ _ _ _ _ _ HO k Hk) as E. cbn [plus] in E. by rewrite E.
  Qed.
  Lemma pattern_iff q1 q2 L (m : list A) s S b2 a c j k pred : open_at q1 false S L m s 0 -> open_at q2 false S L m s b2 ->
    j <= length q1.2 -> c <= length q2.2 ->
    occurs_at m pred j (b2 + a) (b2 + c) k <-> pattern_at q1.2 pred j (slice q2.2 a c) k.
  Proof.
    intros HO HO2 Hj Hc. unfold occurs_at, pattern_at. rewrite slice_len' by done.
    replace (b2 + c - (b2 + a)) with (c - a) by lia. split; intros [Hk He]; (split; [done|]).
    - intros d y Hy. rewrite slice_lookup in Hy. case_decide; [|done]. destruct (He d) as (x&y'&Hx&Hy'&Hp); [done|].
      rewrite <- Nat.add_assoc, (op_m _ _ _ _ _ _ _ HO2) in Hy' by lia. rewrite Hy in Hy'. injection Hy' as <-.
      pose proof (op_m _ _ _ _ _ _ _ HO (k + d)) as E. cbn [plus] in E. rewrite E in Hx by lia. by exists x.
    - intros d Hd. destruct (lookup_lt_is_Some_2 (slice q2.2 a c) d) as [y Hy]; [rewrite slice_len'; lia|].
      destruct (He d y Hy) as (x&Hx&Hp). exists x, y. rewrite slice_lookup, decide_True in Hy by done. split_and!; [| |done].
      + rewrite <- Hx. apply (op_m _ _ _ _ _ _ _ HO (k + d)). lia.
      + rewrite <- Hy, <- Nat.add_assoc. apply (op_m _ _ _ _ _ _ _ HO2 (a + d)). lia.
  Qed.

  Ltac two_ranges HM1 HM2 HR1 HR2 HU :=
    destruct (range_at _ _ _ _ _ _ HR1) as [Hat1 Hij]; pose proof (at_le _ _ _ _ _ HM1 (proj1 (proj2 HR1))) as Hj;
    destruct (range_at _ _ _ _ _ _ HR2) as [Hat2 Hac]; pose proof (at_le _ _ _ _ _ HM2 (proj1 (proj2 HR2))) as Hc;
    destruct (read_two _ _ _ _ _ _ HM1 HM2 Hat1 Hat2 HU) as (L&m&s&b2&HO&HO2&HRD&Hs&Hs2&_);
    pose proof (op_len _ _ _ _ _ _ _ HO); pose proof (op_len _ _ _ _ _ _ _ HO2).
  Ltac two_wp lem i j b2 a c HO HO2 Hs Hs2 :=
    eapply (lem _ _ _ _ _ _ _ _ _ _ i j (b2 + a) (b2 + c));
    [eassumption
    |apply (op_rng _ _ _ _ _ _ _ HO i j); lia
    |apply (op_rng _ _ _ _ _ _ _ HO2); lia
    |apply Hs, elem_of_list_here
    |apply Hs, elem_of_list_further, elem_of_list_here
    |apply Hs2, elem_of_list_here
    |apply Hs2, elem_of_list_further, elem_of_list_here
    |apply (op_cat _ _ _ _ _ _ _ HO i); [lia|first [apply cat_input|apply cat_forward]]
    |apply (op_cat _ _ _ _ _ _ _ HO2 a); [lia|apply cat_forward]
    |apply (op_out _ _ _ _ _ _ _ HO i); [lia|done]].
  Lemma find_first_of_by_run M S q1 q2 first last s_first s_last i j a c o pred : shown M q1 -> shown M q2 ->
    range_in S q1 first last i j -> range_in S q2 s_first s_last a c -> unmixed q1 [first; last] q2 [s_first; s_last] -> out_ok S q1 o ->
    finds M S q1 o (find_first_of_by_p first last s_first s_last o pred)
      (first_position i j (matches_one_of q1.2 pred (slice q2.2 a c))).
  Proof.
    intros HM1 HM2 HR1 HR2 HU Ho. two_ranges HM1 HM2 HR1 HR2 HU.
    eapply (finds_first _ _ _ _ _ _ _ _ _ _ (matches_any m pred (b2 + a) (b2 + c)) _ (algo_find_first_of_by m i j (b2 + a) (b2 + c) pred) HRD);
      [lia|lia| | |].
    - apply find_first_of_ok; split; cbn in *; lia.
    - intros b k Hb. two_wp (@find_first_of_by_wp) i j b2 a c HO HO2 Hs Hs2.
    - intros k Hk. eapply matches_iff; [exact HO|exact HO2|lia|lia].
  Qed.
  Lemma find_last_of_by_run M S q1 q2 first last s_first s_last i j a c o pred : shown M q1 -> shown M q2 ->
    range_in S q1 first last i j -> range_in S q2 s_first s_last a c -> unmixed q1 [first; last] q2 [s_first; s_last] -> out_ok S q1 o ->
    finds M S q1 o (find_last_of_by_p first last s_first s_last o pred) (last_position i j (matches_one_of q1.2 pred (slice q2.2 a c))).
  Proof.
    intros HM1 HM2 HR1 HR2 HU Ho. two_ranges HM1 HM2 HR1 HR2 HU.
    eapply (finds_last _ _ _ _ _ _ _ _ _ _ (matches_any m pred (b2 + a) (b2 + c)) _ (algo_find_last_of_by m i j (b2 + a) (b2 + c) pred) HRD);
      [lia|lia| | |].
    - apply find_last_of_ok; split; cbn in *; lia.
    - intros b k Hb. two_wp (@find_last_of_by_wp) i j b2 a c HO HO2 Hs Hs2.
    - intros k Hk. eapply matches_iff; [exact HO|exact HO2|lia|lia].
  Qed.
  Lemma search_by_run M S q1 q2 first last s_first s_last i j a c o pred : shown M q1 -> shown M q2 ->
    range_in S q1 first last i j -> range_in S q2 s_first s_last a c -> unmixed q1 [first; last] q2 [s_first; s_last] -> out_ok S q1 o ->
    finds M S q1 o (search_by_p first last s_first s_last o pred) (first_position i j (pattern_at q1.2 pred j (slice q2.2 a c))).
  Proof.
    intros HM1 HM2 HR1 HR2 HU Ho. two_ranges HM1 HM2 HR1 HR2 HU.
    eapply (finds_first _ _ _ _ _ _ _ _ _ _ (occurs_at m pred j (b2 + a) (b2 + c)) _ (algo_search_by m i j (b2 + a) (b2 + c) pred) HRD);
      [lia|lia| | |].
    - apply search_ok; split; cbn in *; lia.
    - intros b k Hb. two_wp (@search_by_wp) i j b2 a c HO HO2 Hs Hs2.
    - intros k Hk. eapply pattern_iff; [exact HO|exact HO2|lia|lia].
  Qed.
  Lemma search_last_by_run M S q1 q2 first last s_first s_last i j a c o pred : shown M q1 -> shown M q2 ->
    range_in S q1 first last i j -> range_in S q2 s_first s_last a c -> unmixed q1 [first; last] q2 [s_first; s_last] -> out_ok S q1 o ->
    finds M S q1 o (search_last_by_p first last s_first s_last o pred) (last_position i j (pattern_at q1.2 pred j (slice q2.2 a c))).
  Proof.
    intros HM1 HM2 HR1 HR2 HU Ho. two_ranges HM1 HM2 HR1 HR2 HU.
    eapply (finds_last _ _ _ _ _ _ _ _ _ _ (occurs_at m pred j (b2 + a) (b2 + c)) _ (algo_search_last_by m i j (b2 + a) (b2 + c) pred) HRD);
      [lia|lia| | |].
    - apply search_last_ok; split; cbn in *; lia.
    - intros b k Hb. two_wp (@search_last_by_wp) i j b2 a c HO HO2 Hs Hs2.
    - intros k Hk. eapply pattern_iff; [exact HO|exact HO2|lia|lia].
  Qed.

  (** for_each *)
  Lemma visit_none {St} (op : St -> A -> St * option A) (l : list A) st : (forall st x, (op st x).2 = None) ->
    (visit (full op) st l).1 = l.
  Proof.
    intros Hn. revert st. induction l as [|x l IH]; intros st; [done|]. cbn [visit].
    assert (full op st x = ((op st x).1, x)) as -> by (unfold full; by rewrite Hn).
    specialize (IH (op st x).1). destruct (visit (full op) (op st x).1 l) as [r st'']. cbn [fst] in *. by rewrite IH.
  Qed.
  Lemma patch_slice_self (l : list A) i j : i <= j <= length l -> patch l i (slice l i j) = l.
  Proof.
    intros Hij. apply list_eq. intros k. rewrite patch_lookup by (rewrite slice_len'; lia). rewrite slice_len', slice_lookup by lia.
    repeat case_decide; try lia; [|done]. f_equal. lia.
  Qed.
  Lemma for_each_run {St} M S q first last i j (op : St -> A -> St * option A) st : shown M q -> range_in S q first last i j ->
    mutable q.1.1 = true \/ (forall st x, (op st x).2 = None) ->
    exists M', exec (cworld A) (for_each_p first last op st) (M, S) ((visit (full op) st (slice q.2 i j)).2, j - i) (M', S) /\
      becomes M [(q, patch q.2 i (visit (full op) st (slice q.2 i j)).1)] M'.
  Proof.
    intros HM HR [Hmu|Hno].
    - destruct (range_at _ _ _ _ _ _ HR) as [Hat Hij]. pose proof (at_le _ _ _ _ _ HM (proj1 (proj2 HR))) as Hj.
      destruct (run_one M S q _ true HM Hat (fun _ => Hmu)) as (L&m&s&b&JW&J&HRO&Hs).
      pose proof (ro_open1 _ _ _ _ _ _ _ _ _ _ _ _ HRO) as HO. pose proof (op_len _ _ _ _ _ _ _ HO) as Hlen. cbn [plus] in Hlen.
      pose proof (op_slice _ _ _ _ _ _ _ HO i j Hj) as Hsl. cbn [plus] in Hsl.
      destruct (one_plain M S q false L m s b JW J (for_each_p first last op st) ((visit (full op) st (slice m i j)).2, j - i)
        (patch m i (visit (full op) st (slice m i j)).1) HRO) as (M'&He&Hb).
      + eapply fwp_mono; [eapply (for_each_wp L op first last m st s i j)|].
        * apply for_each_ok. split; lia.
        * apply (op_rng _ _ _ _ _ _ _ HO i j); lia.
        * left. apply (op_mut _ _ _ _ _ _ _ HO i); [lia|done].
        * apply Hs, elem_of_list_here.
        * apply Hs, elem_of_list_further, elem_of_list_here.
        * apply (op_cat _ _ _ _ _ _ _ HO i); [lia|apply cat_input].
        * done.
      + exists M'. rewrite Hsl in *. split; [done|].
        pose proof (slice_patch_in m (visit (full op) st (slice q.2 i j)).1 0 (length q.2) i) as E. cbn [plus] in E.
        rewrite E in Hb; [|rewrite visit_length, slice_len'; lia|lia]. by rewrite (ro_whole1 _ _ _ _ _ _ _ _ _ _ _ _ HRO) in Hb.
    - open1 HM HR. exists M. split.
      + apply HR1. eapply fwp_mono; [eapply (for_each_wp L op first last m st s i j)|].
        * by apply for_each_ok.
        * done.
        * by right.
        * done.
        * done.
        * done.
        * rewrite <- Hsl. intros r m' s' (->&->&->). cbn [fst snd]. rewrite visit_none by done. split_and!; [done| |done].
          apply patch_slice_self. destruct Hrange. lia.
      + rewrite visit_none by done. rewrite patch_slice_self by lia. split; [|done].
        intros q' vs' [= -> ->]%elem_of_list_singleton. done.
  Qed.
  Lemma for_each_n_run {St} M S q first i n o (op : St -> A -> St * option A) st : shown M q -> at_pos S q first i ->
    i + n <= length q.2 -> out_ok S q o -> mutable q.1.1 = true \/ (forall st x, (op st x).2 = None) ->
    exists v M' S', exec (cworld A) (for_each_n_p first n o op st) (M, S) ((visit (full op) st (slice q.2 i (i + n))).2, v) (M', S') /\
      becomes M [(q, patch q.2 i (visit (full op) st (slice q.2 i (i + n))).1)] M' /\ stored q o (i + n) S v S'.
  Proof.
    intros HM HA Hj Ho.
    assert (at_all S q [(first, i)]) as Hat by (by repeat constructor). intros [Hmu|Hno].
    - destruct (run_one M S q _ true HM Hat (fun _ => Hmu)) as (L&m&s&b&JW&J&HRO&Hs).
      pose proof (ro_open1 _ _ _ _ _ _ _ _ _ _ _ _ HRO) as HO. pose proof (op_len _ _ _ _ _ _ _ HO) as Hlen. cbn [plus] in Hlen.
      pose proof (op_slice _ _ _ _ _ _ _ HO i (i + n) Hj) as Hsl. cbn [plus] in Hsl.
      destruct (one_out M S q false L m s b JW J (for_each_n_p first n o op st) o (visit (full op) st (slice m i (i + n))).2 (i + n)
        (patch m i (visit (full op) st (slice m i (i + n))).1) HRO Hj) as (w&M'&S'&He&Hb&Hst).
      + eapply fwp_mono; [eapply (for_each_n_wp L op first n o m st s i (i + n))|].
        * apply for_each_n_ok. lia.
        * apply (op_rng _ _ _ _ _ _ _ HO i (i + n)); lia.
        * lia.
        * left. apply (op_mut _ _ _ _ _ _ _ HO i); [lia|done].
        * apply Hs, elem_of_list_here.
        * apply (op_cat _ _ _ _ _ _ _ HO i); [lia|apply cat_input].
        * apply (op_out _ _ _ _ _ _ _ HO i); [lia|done].
        * done.
      + exists w, M', S'. rewrite Hsl in *. split; [done|]. split; [|done].
        pose proof (slice_patch_in m (visit (full op) st (slice q.2 i (i + n))).1 0 (length q.2) i) as E. cbn [plus] in E.
        rewrite E in Hb; [|rewrite visit_length, slice_len'; lia|lia]. by rewrite (ro_whole1 _ _ _ _ _ _ _ _ _ _ _ _ HRO) in Hb.
    - destruct (run_one M S q _ false HM Hat) as (L&m&s&b&JW&J&HRO&Hs); [done|].
      pose proof (ro_open1 _ _ _ _ _ _ _ _ _ _ _ _ HRO) as HO. pose proof (op_len _ _ _ _ _ _ _ HO) as Hlen. cbn [plus] in Hlen.
      pose proof (op_slice _ _ _ _ _ _ _ HO i (i + n) Hj) as Hsl. cbn [plus] in Hsl.
      assert (fwp L (for_each_n_p first n o op st) m s (fun r m1 s1 => r.1 = (visit (full op) st (slice m i (i + n))).2 /\ m1 = m /\ out_set o (i + n) s r.2 s1)) as Hp.
      { eapply fwp_mono; [eapply (for_each_n_wp L op first n o m st s i (i + n))|].
        * apply for_each_n_ok. lia.
        * apply (op_rng _ _ _ _ _ _ _ HO i (i + n)); lia.
        * lia.
        * by right.
        * apply Hs, elem_of_list_here.
        * apply (op_cat _ _ _ _ _ _ _ HO i); [lia|apply cat_input].
        * apply (op_out _ _ _ _ _ _ _ HO i); [lia|done].
        * cbn [fst snd]. intros r m' s' (->&->&Hos). rewrite visit_none by done. split_and!; [done| |done].
          apply patch_slice_self. lia. }
      destruct (ro_run _ _ _ _ _ _ _ _ _ _ _ _ HRO _ _ _ Hp) as ([r w]&m'&s'&M'&S'&He&(Hr&->&Hos)&HJ&H1&_&H3).
      cbn [fst snd] in *. subst r.
      destruct (ro_out1 _ _ _ _ _ _ _ _ _ _ _ _ HRO _ _ _ _ _ _ Hj (ro_J _ _ _ _ _ _ _ _ _ _ _ _ HRO) Hos) as (S2&Hst&HJ2).
      rewrite (ro_fun _ _ _ _ _ _ _ _ _ _ _ _ HRO _ _ _ HJ HJ2) in He.
      exists w, M', S2. rewrite Hsl in He. split; [done|]. split; [|done].
      rewrite visit_none by done. rewrite patch_slice_self by lia. split.
      + intros q' vs' [= -> ->]%elem_of_list_singleton. by rewrite (ro_whole1 _ _ _ _ _ _ _ _ _ _ _ _ HRO) in H1.
      + intros q' _ Hs'. by apply H3.
  Qed.
End lifted.
