(** IntroCount.v — how many comparisons c_algo_sort_by makes. *)
From Verif Require Import Base Spec Facts AlgoNonMod AlgoMod AlgoModProofs AlgoHeap AlgoHeapProofs AlgoSort AlgoSortProofs AlgoCost DListCount HeapCount.
From stdpp Require Import list.

(** ** the functions of AlgoSort.v once more, also returning how often [comp] was called *)
Section counted.
  Context {A : Type} (comp : A -> A -> bool).
  Implicit Types m : list A.
  (** c_sorting.c 40-73 *)
  Definition median_of_three_n (x y z : A) : A * nat :=
    if comp x y then
      if comp y z then (y, 2) else if comp x z then (z, 3) else (x, 3)
    else if comp x z then (x, 2)
    else if comp y z then (z, 3)
    else (y, 3).
  (** c_sorting.c 86-88 *)
  Fixpoint scan_up_n (fuel : nat) m (first : nat) (pivot : A) : res (nat * nat) :=
    match fuel with
    | 0 => NoFuel
    | S fuel' => do x <- rd m first; if comp x pivot then do (r, n) <- scan_up_n fuel' m (S first) pivot; Ok (r, S n) else Ok (first, 1)
    end.
  (** c_sorting.c 91-94 *)
  Fixpoint scan_down_n (fuel : nat) m (last : nat) (pivot : A) : res (nat * nat) :=
    match fuel with
    | 0 => NoFuel
    | S fuel' =>
      match last with
      | 0 => UB
      | S last' => do x <- rd m last'; if comp pivot x then do (r, n) <- scan_down_n fuel' m last' pivot; Ok (r, S n) else Ok (last', 1)
      end
    end.
  (** c_sorting.c 75-108 *)
  Fixpoint partition_by_n (fuel : nat) m (first last : nat) (pivot : A) : res (list A * nat * nat) :=
    match fuel with
    | 0 => NoFuel
    | S fuel' =>
      do (i, a) <- scan_up_n (S (length m)) m first pivot;
      do (j, b) <- scan_down_n (S (length m)) m last pivot;
      if negb (i <? j) then Ok (m, i, a + b)
      else do m' <- swp m i j; do (r, n) <- partition_by_n fuel' m' (S i) j pivot; Ok (r, a + b + n)
    end.
  (** c_sorting.c 110-159 *)
  Fixpoint introspective_sort_n (depth_limit : nat) m (first last : nat) : res (list A * nat) :=
    if threshold <? last - first then
      match depth_limit with
      | 0 => algo_partial_sort_by_n comp m first last last
      | S depth' =>
        let middle := first + (last - first) / 2 in
        do x <- rd m first; do y <- rd m middle; do z <- rd m (last - 1);
        let (pivot, c) := median_of_three_n x y z in
        do (m1, part, c1) <- partition_by_n (S (length m)) m first last pivot;
        do (m2, c2) <- introspective_sort_n depth' m1 part last;
        do (m3, c3) <- introspective_sort_n depth' m2 first part; Ok (m3, c + c1 + c2 + c3)
      end
    else Ok (m, 0).
  (** c_sorting.c 161-185 *)
  Fixpoint unguarded_linear_n (fuel : nat) m (last : nat) (value : vref) : res (list A * nat) :=
    match fuel with
    | 0 => NoFuel
    | S fuel' =>
      match last with
      | 0 => UB
      | S next =>
        do v <- deref m value; do y <- rd m next;
        if comp v y then do m' <- wr m last y; do (r, n) <- unguarded_linear_n fuel' m' next value; Ok (r, S n)
        else do m' <- wr m last v; Ok (m', 1)
      end
    end.
  (** c_sorting.c 187-222 *)
  Definition linear_sort_n m (first last : nat) : res (list A * nat) :=
    do v <- rd m last; do x <- rd m first;
    if comp v x then
      do (md, _) <- algo_copy_backward m first last (S last); do m' <- wr md.1 first v; Ok (m', 1)
    else do (r, n) <- unguarded_linear_n (S (length m)) m last (Tmp v); Ok (r, S n).
  (** c_sorting.c 224-243 *)
  Fixpoint insertion_loop_n (fuel : nat) m (first i last : nat) : res (list A * nat) :=
    match fuel with
    | 0 => NoFuel
    | S fuel' =>
      if i =? last then Ok (m, 0)
      else do (m', c) <- linear_sort_n m first i; do (r, n) <- insertion_loop_n fuel' m' first (S i) last; Ok (r, c + n)
    end.
  Definition insertion_sort_n m (first last : nat) : res (list A * nat) :=
    if first =? last then Ok (m, 0) else insertion_loop_n (S (length m)) m first (S first) last.
  (** c_sorting.c 245-263 *)
  Fixpoint unguarded_insertion_n (fuel : nat) m (i last : nat) : res (list A * nat) :=
    match fuel with
    | 0 => NoFuel
    | S fuel' =>
      if i =? last then Ok (m, 0)
      else do (m', c) <- unguarded_linear_n (S (length m)) m i (Cell i);
           do (r, n) <- unguarded_insertion_n fuel' m' (S i) last; Ok (r, c + n)
    end.
  (** c_sorting.c 265-285 *)
  Definition final_insertion_sort_n m (first last : nat) : res (list A * nat) :=
    if threshold <? last - first then
      do (m1, c) <- insertion_sort_n m first (first + threshold);
      do (r, n) <- unguarded_insertion_n (S (length m)) m1 (first + threshold) last; Ok (r, c + n)
    else insertion_sort_n m first last.
  (** c_sorting.c 348-365 *)
  Definition algo_sort_by_n m (first last : nat) : res (list A * nat) :=
    if first =? last then Ok (m, 0)
    else do (m1, c) <- introspective_sort_n (lg (last - first) * 2) m first last;
         do (r, n) <- final_insertion_sort_n m1 first last; Ok (r, c + n).

  (** these are the functions of the model *)
  Ltac er := repeat match goal with
    | |- context [rbind (rd ?m ?i)] => destruct (rd m i) as [?| |]; cbn [rbind erase]; [|done..]
    | |- context [rbind (deref ?m ?i)] => destruct (deref m i) as [?| |]; cbn [rbind erase]; [|done..]
    | |- context [rbind (swp ?m ?i ?j)] => destruct (swp m i j) as [?| |]; cbn [rbind erase]; [|done..]
    | |- context [rbind (wr ?m ?i ?j)] => destruct (wr m i j) as [?| |]; cbn [rbind erase]; [|done..]
    end.
  Lemma fst_median x y z : (median_of_three_n x y z).1 = median_of_three comp x y z.
  Proof. unfold median_of_three_n, median_of_three. by destruct (comp x y), (comp y z), (comp x z). Qed.
  Lemma snd_median x y z : (median_of_three_n x y z).2 <= 3.
  Proof. unfold median_of_three_n. destruct (comp x y), (comp y z), (comp x z); cbn; lia. Qed.
  Lemma erase_up fuel : forall m i p, erase (scan_up_n fuel m i p) = scan_up comp fuel m i p.
  Proof. induction fuel as [|f IH]; intros *; cbn [scan_up scan_up_n]; [done|]. er. destruct (comp _ _); [|done]. by rewrite erase_then, IH. Qed.
  Lemma erase_down fuel : forall m i p, erase (scan_down_n fuel m i p) = scan_down comp fuel m i p.
  Proof.
    induction fuel as [|f IH]; intros *; cbn [scan_down scan_down_n]; [done|]. destruct i; [done|]. er.
    destruct (comp _ _); [|done]. by rewrite erase_then, IH.
  Qed.
  Lemma erase_partition fuel : forall m i l p, erase (partition_by_n fuel m i l p) = partition_by comp fuel m i l p.
  Proof.
    induction fuel as [|f IH]; intros *; cbn [partition_by partition_by_n]; [done|]. rewrite <- erase_up.
    destruct (scan_up_n _ _ _ _) as [[a ca]| |]; cbn [rbind erase]; [|done..]. rewrite <- erase_down.
    destruct (scan_down_n _ _ _ _) as [[b cb]| |]; cbn [rbind erase]; [|done..]. destruct (negb (a <? b)); [done|]. er.
    by rewrite erase_then, IH.
  Qed.
  Lemma erase_intro d : forall m f l, erase (introspective_sort_n d m f l) = introspective_sort comp d m f l.
  Proof.
    induction d as [|d IH]; intros *; cbn [introspective_sort introspective_sort_n]; (destruct (threshold <? l - f); [|done]).
    { apply erase_partial_sort. }
    er. rewrite <- fst_median. destruct (median_of_three_n _ _ _) as [p c]. cbn [fst]. rewrite <- erase_partition.
    destruct (partition_by_n _ _ _ _ _) as [[[m1 part] c1]| |]; cbn [rbind erase]; [|done..].
    rewrite <- IH. destruct (introspective_sort_n d m1 part l) as [[m2 c2]| |]; cbn [rbind erase]; [|done..].
    by rewrite erase_then, IH.
  Qed.
  Lemma erase_ulinear fuel : forall m i v, erase (unguarded_linear_n fuel m i v) = unguarded_linear comp fuel m i v.
  Proof.
    induction fuel as [|f IH]; intros *; cbn [unguarded_linear unguarded_linear_n]; [done|]. destruct i; [done|]. er.
    destruct (comp _ _); [er; by rewrite erase_then, IH|]. by destruct (wr _ _ _).
  Qed.
  Lemma erase_linear m f l : erase (linear_sort_n m f l) = linear_sort comp m f l.
  Proof.
    unfold linear_sort, linear_sort_n. er. destruct (comp _ _); [|by rewrite erase_then, erase_ulinear].
    destruct (algo_copy_backward _ _ _ _) as [[md ?]| |]; cbn [rbind]; [|done..]. by destruct (wr _ _ _).
  Qed.
  Lemma erase_iloop fuel : forall m f i l, erase (insertion_loop_n fuel m f i l) = insertion_loop comp fuel m f i l.
  Proof.
    induction fuel as [|fu IH]; intros *; cbn [insertion_loop insertion_loop_n]; [done|]. destruct (i =? l); [done|].
    rewrite <- erase_linear. destruct (linear_sort_n _ _ _) as [[m1 c]| |]; cbn [rbind erase]; [|done..]. by rewrite erase_then, IH.
  Qed.
  Lemma erase_isort m f l : erase (insertion_sort_n m f l) = insertion_sort comp m f l.
  Proof. unfold insertion_sort, insertion_sort_n. destruct (f =? l); [done|apply erase_iloop]. Qed.
  Lemma erase_uins fuel : forall m i l, erase (unguarded_insertion_n fuel m i l) = unguarded_insertion comp fuel m i l.
  Proof.
    induction fuel as [|fu IH]; intros *; cbn [unguarded_insertion unguarded_insertion_n]; [done|]. destruct (i =? l); [done|].
    rewrite <- erase_ulinear. destruct (unguarded_linear_n _ _ _ _) as [[m1 c]| |]; cbn [rbind erase]; [|done..]. by rewrite erase_then, IH.
  Qed.
  Lemma erase_algo_sort m f l : erase (algo_sort_by_n m f l) = algo_sort_by comp m f l.
  Proof.
    unfold algo_sort_by, algo_sort_by_n. destruct (f =? l); [done|]. rewrite <- erase_intro.
    destruct (introspective_sort_n _ _ _ _) as [[m1 c]| |]; cbn [rbind erase]; [|done..]. rewrite erase_then.
    unfold final_insertion_sort, final_insertion_sort_n. destruct (threshold <? l - f); [|apply erase_isort]. rewrite <- erase_isort.
    destruct (insertion_sort_n _ _ _) as [[m2 c2]| |]; cbn [rbind erase]; [|done..]. by rewrite erase_then, erase_uins.
  Qed.
  Lemma erase_Ok {B} (r : res (B * nat)) x : erase r = Ok x -> exists n, r = Ok (x, n).
  Proof. destruct r as [[y n]| |]; cbn; [intros [= ->]; by exists n|done..]. Qed.
  Lemma Ok_erase {B} (r : res (B * nat)) x n : r = Ok (x, n) -> erase r = Ok x.
  Proof. by intros ->. Qed.
End counted.

Section bounds.
  Context {A : Type} (comp : A -> A -> bool) (HW : StrictWeakOrder comp).
  Implicit Types m : list A.
  Lemma scan_up_count p m fuel : forall i j c, scan_up_n comp fuel m i p = Ok (j, c) -> i + c = S j.
  Proof.
    induction fuel as [|fuel IH]; intros i j c; cbn [scan_up_n]; [done|]. intros (x&_&E)%rbind_Ok. destruct (comp x p).
    - apply rbind_Ok in E as ([r n]&E&[= <- <-]). apply IH in E. lia.
    - injection E as <- <-. lia.
  Qed.
  Lemma scan_down_count p m fuel : forall l j c, scan_down_n comp fuel m l p = Ok (j, c) -> j + c = l.
  Proof.
    induction fuel as [|fuel IH]; intros l j c; cbn [scan_down_n]; [done|]. destruct l as [|l]; [done|]. intros (x&_&E)%rbind_Ok.
    destruct (comp p x).
    - apply rbind_Ok in E as ([r n]&E&[= <- <-]). apply IH in E. lia.
    - injection E as <- <-. lia.
  Qed.
  Lemma partition_count p : forall fuel m i l m' part c, l <= length m -> i <= l ->
    (exists i0 x0, i <= i0 <= l /\ m !! i0 = Some x0 /\ comp x0 p = false) ->
    (exists j0 x0, i <= S j0 /\ j0 < l /\ m !! j0 = Some x0 /\ comp p x0 = false) ->
    (i = l -> exists x0, m !! i = Some x0 /\ comp x0 p = false) ->
    partition_by_n comp fuel m i l p = Ok (m', part, c) -> c <= l - i + 2.
  Proof.
    induction fuel as [|fuel IH]; intros m i l m' part c HL Hil (i0&x0&Hi0&Hx0&Hc0) (j0&y0&Hj1&Hj2&Hy0&Hd0) HE E; [done|].
    cbn [partition_by_n] in E. apply rbind_Ok in E as ([a ca]&Ea&E). apply rbind_Ok in E as ([b cb]&Eb&E).
    pose proof (lookup_lt_Some _ _ _ Hx0) as Hlt.
    destruct (scan_up_ok comp m p i0 x0 Hx0 Hc0 (S (length m)) i) as (a'&x&Ea'&Ha&Hx&Hxc&HxA); [lia|lia|].
    destruct (scan_down_ok comp m p j0 y0 Hy0 Hd0 (S (length m)) l) as (b'&y&Eb'&Hb&Hy&Hyc&HyA); [lia|lia|lia|].
    rewrite <- erase_up, (Ok_erase _ _ _ Ea) in Ea'. injection Ea' as <-.
    rewrite <- erase_down, (Ok_erase _ _ _ Eb) in Eb'. injection Eb' as <-.
    apply scan_up_count in Ea. apply scan_down_count in Eb.
    destruct (a <? b) eqn:Eab; cbn [negb] in E; [apply Nat.ltb_lt in Eab|apply Nat.ltb_ge in Eab].
    - apply rbind_Ok in E as (m1&E1&E). apply rbind_Ok in E as ([[m2 part2] c2]&E2&E). injection E as <- <- <-.
      destruct (permutes_swp m 0 (length m) a b) as (m1'&x'&y'&Es&Hx'&Hy'&Hm1&HP); [split; lia|lia|lia|].
      rewrite Es in E1. injection E1 as ->. replace x' with x in * by congruence. replace y' with y in * by congruence.
      assert (Hm1a : m1 !! a = Some y) by (subst m1; rewrite list_lookup_insert_ne by lia; apply list_lookup_insert; lia).
      assert (Hm1b : m1 !! b = Some x) by (subst m1; apply list_lookup_insert; rewrite insert_length; lia).
      apply IH in E2; [lia|rewrite (proj1 HP); lia|lia|exists b, x; split; [lia|done]|exists a, y; split; [lia|split; [lia|done]]|].
      intros <-. by exists x.
    - injection E as <- <- <-. assert (a <= S b); [|lia].
      destruct (decide (a <= S b)) as [|Hn]; [done|]. exfalso.
      assert (is_Some (m !! (a - 1))) as [w Hw] by (apply lookup_lt_is_Some; lia).
      assert (comp w p = true) as H1 by (apply (HxA (a - 1)); [lia|done]).
      destruct (decide (a - 1 < l)) as [H2|H2]; [|lia].
      assert (comp p w = true) as H3 by (apply (HyA (a - 1)); [lia|done]).
      pose proof (swo_asym _ HW _ _ H1). congruence.
  Qed.
  Lemma intro_count N d : forall m f l m' c, range m f l -> l - f <= N ->
    introspective_sort_n comp d m f l = Ok (m', c) -> 2 * c <= d * 3 * (l - f) + (l - f) * (4 + 4 * Nat.log2 N).
  Proof.
    induction d as [|d IH]; intros m f l m' c [R1 R2] HN E; cbn [introspective_sort_n] in E;
      (destruct (threshold <? l - f) eqn:Et; [|injection E as <- <-; apply Nat.le_0_l]).
    - apply partial_sort_count in E; [|done]. rewrite Nat.sub_diag in E. pose proof (Nat.log2_le_mono (l - f) N HN). nia.
    - apply Nat.ltb_lt in Et. unfold threshold in Et.
      apply rbind_Ok in E as (x&Ex&E). apply rbind_Ok in E as (y&Ey&E). apply rbind_Ok in E as (z&Ez&E).
      pose proof (fst_median comp x y z) as Hp. pose proof (snd_median comp x y z) as Hc.
      destruct (median_of_three_n comp x y z) as [p c0]. cbn [fst snd] in *.
      apply rbind_Ok in E as ([[m1 part] c1]&E1&E). apply rbind_Ok in E as ([m2 c2]&E2&E). apply rbind_Ok in E as ([m3 c3]&E3&E).
      injection E as <- <-.
      assert (Hrd : forall i v, rd m i = Ok v -> m !! i = Some v).
      { intros i v. unfold rd. destruct (m !! i); [by intros [= ->]|done]. }
      apply Hrd in Ex, Ey, Ez. assert ((l - f) / 2 < l - f) as Hdiv by (apply Nat.div_lt; lia).
      assert (exists i0, f <= i0 < l /\ m !! i0 = Some p) as (i0&Hi0&Hip).
      { rewrite Hp. destruct (median_in comp x y z) as [-> |[-> | -> ]]; eexists; (split; [|eassumption]); lia. }
      destruct (partition_by_ok comp HW p f l (S (length m)) m f l) as (m1'&part'&Epart&Hpart&HP1&_).
      { split; lia. } { lia. } { lia. } { lia. } { lia. }
      { exists i0, p. split; [done|]. split; [done|]. apply (swo_irrefl _ HW). }
      { exists i0, p. split; [done|]. split; [done|]. apply (swo_irrefl _ HW). }
      { lia. } { lia. }
      rewrite <- erase_partition, (Ok_erase _ _ _ E1) in Epart. injection Epart as <- <-.
      apply partition_count in E1; [|lia|lia|exists i0, p; split; [lia|]; split; [done|]; apply (swo_irrefl _ HW)
        |exists i0, p; split; [lia|]; split; [lia|]; split; [done|]; apply (swo_irrefl _ HW)|lia].
      assert (HL1 : length m1 = length m) by apply HP1.
      destruct (introspective_ok comp HW d m1 part l) as (m2'&Em2&HP2); [split; lia|].
      rewrite <- erase_intro, (Ok_erase _ _ _ E2) in Em2. injection Em2 as <-.
      assert (HL2 : length m2 = length m) by (rewrite (proj1 HP2); done).
      apply IH in E2; [|split; lia|lia]. apply IH in E3; [|split; lia|lia].
      assert (Hsplit : l - f = (l - part) + (part - f)) by lia.
      set (K := 4 + 4 * Nat.log2 N) in *. clearbody K. nia.
  Qed.

  Lemma ulinear_count v : forall fuel m i m' c, unguarded_linear_n comp fuel m i (Tmp v) = Ok (m', c) -> forall a f, f < i -> m !! f = Some a -> comp v a = false -> c <= i - f.
  Proof.
    induction fuel as [|fuel IH]; intros m i m' c E a f Hi Ha Hv; [done|]. destruct i as [|i]; [lia|].
    cbn [unguarded_linear_n deref rbind] in E. apply rbind_Ok in E as (y&Ey&E).
    destruct (comp v y) eqn:C; [|apply rbind_Ok in E as (?&_&[= <- <-]); lia].
    assert (m !! i = Some y) as Hy by (unfold rd in Ey; destruct (m !! i); congruence).
    apply rbind_Ok in E as (m1&E1&E). apply rbind_Ok in E as ([m2 c2]&E2&[= <- <-]).
    assert (f <> i) by (intros ->; congruence).
    assert (m1 !! f = Some a) as Ha1.
    { unfold wr in E1. destruct (m !! S i); [|done]. injection E1 as <-. by rewrite list_lookup_insert_ne by lia. }
    apply (IH _ _ _ _ E2 a f) in Hv; [lia|lia|done].
  Qed.
  Lemma linear_count m f i m' c : f < i -> linear_sort_n comp m f i = Ok (m', c) -> c <= S (i - f).
  Proof.
    intros Hf. unfold linear_sort_n. intros (v&Hv&E)%rbind_Ok. apply rbind_Ok in E as (x&Hx&E).
    destruct (comp v x) eqn:C.
    - apply rbind_Ok in E as ([md ?]&_&E). apply rbind_Ok in E as (?&_&[= <- <-]). lia.
    - apply rbind_Ok in E as ([r n]&E&[= <- <-]). apply (ulinear_count _ _ _ _ _ _ E x f) in C; [lia|lia|].
      unfold rd in Hx. destruct (m !! f); congruence.
  Qed.
  Lemma iloop_count f K : forall fuel m i l m' c, f < i -> i <= l -> l - f <= K ->
    insertion_loop_n comp fuel m f i l = Ok (m', c) -> 2 * c + (i - f) * (i - f) + (i - f) <= (l - f) * (l - f) + (l - f).
  Proof.
    induction fuel as [|fuel IH]; intros m i l m' c Hf Hi HK; cbn [insertion_loop_n]; [done|].
    destruct (i =? l) eqn:E; [apply Nat.eqb_eq in E as ->; intros [= <- <-]; lia|]. apply Nat.eqb_neq in E.
    intros ([m1 c1]&E1&E2)%rbind_Ok. apply rbind_Ok in E2 as ([m2 c2]&E2&[= <- <-]).
    apply linear_count in E1; [|done]. apply IH in E2; [|lia..]. replace (S i - f) with (S (i - f)) in E2 by lia. nia.
  Qed.
  (** insertion sort of [n] elements: at most n (n + 1) / 2 comparisons *)
  Lemma isort_count m f l m' c : f <= l -> insertion_sort_n comp m f l = Ok (m', c) -> 2 * c <= (l - f) * (l - f + 1).
  Proof.
    intros Hf. unfold insertion_sort_n. destruct (f =? l) eqn:E; [intros [= <- <-]; apply Nat.le_0_l|]. apply Nat.eqb_neq in E.
    intros H%(iloop_count f (l - f)); [|lia..]. nia.
  Qed.
  Lemma ucell_count m i y z fuel m' c : 2 <= i -> m !! (i - 1) = Some y -> m !! (i - 2) = Some z ->
    comp y z = false -> unguarded_linear_n comp fuel m i (Cell i) = Ok (m', c) -> c <= 2.
  Proof.
    intros Hi Hy Hz Hyz E. destruct fuel as [|fuel]; [done|]. destruct i as [|[|i]]; [lia|lia|]. cbn [unguarded_linear_n deref] in E.
    replace (S (S i) - 1) with (S i) in Hy by lia. replace (S (S i) - 2) with i in Hz by lia.
    rewrite (rd_Ok _ _ _ Hy) in E. apply rbind_Ok in E as (x&Hx&E). cbn [rbind] in E.
    assert (Hlt : S (S i) < length m) by (unfold rd in Hx; destruct (m !! S (S i)) eqn:E'; [by eapply lookup_lt_Some|done]).
    destruct (comp x y) eqn:C; [|apply rbind_Ok in E as (?&_&[= <- <-]); lia].
    rewrite wr_Ok in E by done. cbn [rbind] in E. apply rbind_Ok in E as ([r n]&E&[= <- <-]).
    destruct fuel as [|fuel]; [done|]. cbn [unguarded_linear_n deref] in E.
    rewrite (rd_Ok _ (S (S i)) y) in E by (by apply list_lookup_insert).
    rewrite (rd_Ok _ i z) in E by (by rewrite list_lookup_insert_ne by lia). cbn [rbind] in E. rewrite Hyz in E.
    apply rbind_Ok in E as (?&_&[= <- <-]). lia.
  Qed.
  Lemma uins_count f l : forall fuel m i m' c, range m f l -> f + 2 <= i <= l -> sorted comp (slice m f i) ->
    unguarded_insertion_n comp fuel m i l = Ok (m', c) -> c <= 2 * (l - i).
  Proof.
    induction fuel as [|fuel IH]; intros m i m' c [R1 R2] Hi HS E; [done|]. cbn [unguarded_insertion_n] in E.
    destruct (i =? l) eqn:El; [injection E as <- <-; lia|]. apply Nat.eqb_neq in El.
    apply rbind_Ok in E as ([m1 c1]&E1&E). apply rbind_Ok in E as ([m2 c2]&E2&[= <- <-]).
    assert (Hle : c1 <= 2).
    { destruct (lookup_lt_is_Some_2 m (i - 1)) as [y Hy]; [lia|]. destruct (lookup_lt_is_Some_2 m (i - 2)) as [z Hz]; [lia|].
      eapply (ucell_count m i y z); [lia|done|done| |exact E1]. apply (HS (i - 2 - f) (i - 1 - f)); [lia|..]; rewrite slice_lookup by lia;
          [replace (f + (i - 2 - f)) with (i - 2) by lia|replace (f + (i - 1 - f)) with (i - 1) by lia]; done. }
    destruct (unguarded_insertion_ok comp HW f (S i) 2 m i) as (m1'&E1'&HL&_&HS1&_); [split; lia|lia|lia|done|].
    cbn [unguarded_insertion] in E1'. rewrite (proj2 (Nat.eqb_neq i (S i))) in E1' by lia.
    rewrite <- erase_ulinear, (Ok_erase _ _ _ E1) in E1'. cbn [rbind] in E1'. rewrite Nat.eqb_refl in E1'. injection E1' as <-.
    apply IH in E2; [lia|split; lia|lia|done].
  Qed.
  Lemma lg_loop_log fuel : forall n k, 0 < n -> n <= fuel -> lg_loop fuel n k = k + Nat.log2 n.
  Proof.
    induction fuel as [|fuel IH]; intros n k Hn Hf; [lia|]. cbn [lg_loop]. destruct (1 <? n) eqn:E.
    - apply Nat.ltb_lt in E. pose proof (div2_le n). rewrite IH by lia. rewrite (log2_half n) by lia. lia.
    - apply Nat.ltb_ge in E. replace n with 1 by lia. cbn. lia.
  Qed.
  Lemma lg_log n : 0 < n -> lg n = Nat.log2 n.
  Proof. intros H. unfold lg. by rewrite lg_loop_log by lia. Qed.
  Lemma algo_sort_count m f l : range m f l ->
    exists m' c, algo_sort_by_n comp m f l = Ok (m', c) /\ c <= 5 * (l - f) * Nat.log2 (l - f) + 259 * (l - f).
  Proof.
    intros HR. destruct (sort_any_ok comp HW m f l HR) as (m'&E&_). rewrite <- erase_algo_sort in E.
    apply erase_Ok in E as [c E]. exists m', c. split; [done|]. destruct HR as [R1 R2].
    unfold algo_sort_by_n in E. destruct (f =? l) eqn:Ef; [injection E as <- <-; apply Nat.le_0_l|]. apply Nat.eqb_neq in Ef.
    rewrite lg_log in E by lia. apply rbind_Ok in E as ([m1 c1]&E1&E). apply rbind_Ok in E as ([m2 c2]&E2&[= <- <-]).
    destruct (introspective_ok comp HW (Nat.log2 (l - f) * 2) m f l) as (m1'&Em1&HP1); [split; lia|].
    rewrite <- erase_intro, (Ok_erase _ _ _ E1) in Em1. injection Em1 as <-.
    assert (HL1 : length m1 = length m) by apply HP1.
    apply (intro_count (l - f)) in E1; [|split; lia|lia].
    assert (2 * c2 <= 513 * (l - f)) as H2; [|nia].
    unfold final_insertion_sort_n in E2. destruct (threshold <? l - f) eqn:Et.
    - apply Nat.ltb_lt in Et. apply rbind_Ok in E2 as ([m3 c3]&E3&E2). apply rbind_Ok in E2 as ([m4 c4]&E4&[= <- <-]).
      assert (threshold = 512) as Ht by done. rewrite Ht in *.
      destruct (insertion_sort_ok comp HW m1 f (f + 512)) as (m3'&Em3&HP3&HS3&_); [split; lia|].
      rewrite <- erase_isort, (Ok_erase _ _ _ E3) in Em3. injection Em3 as <-.
      apply isort_count in E3; [|lia]. replace (f + 512 - f) with 512 in E3 by lia.
      apply (uins_count f) in E4; [|split; rewrite ?(proj1 HP3); lia|lia|done].
      clear HS3 HP3 Ht HP1. assert (exists k, l - f = 512 + k) as [k Hk] by (exists (l - f - 512); lia). rewrite Hk. lia.
    - apply Nat.ltb_ge in Et. unfold threshold in Et. apply isort_count in E2; [|lia].
      etransitivity; [exact E2|]. rewrite (Nat.mul_comm 513). apply Nat.mul_le_mono_l. lia.
  Qed.
  Lemma algo_sort_small_count m f l : range m f l -> l - f <= 512 ->
    exists m' c, algo_sort_by_n comp m f l = Ok (m', c) /\ 2 * c <= (l - f) * (l - f + 1).
  Proof.
    intros HR Hs. destruct (sort_any_ok comp HW m f l HR) as (m'&E&_). rewrite <- erase_algo_sort in E.
    apply erase_Ok in E as [c E]. exists m', c. split; [done|]. destruct HR as [R1 R2].
    unfold algo_sort_by_n in E. destruct (f =? l); [injection E as <- <-; apply Nat.le_0_l|].
    assert (introspective_sort_n comp (lg (l - f) * 2) m f l = Ok (m, 0)) as E0.
    { destruct (lg (l - f) * 2); cbn [introspective_sort_n]; by rewrite (proj2 (Nat.ltb_ge _ _)) by done. }
    rewrite E0 in E. cbn [rbind] in E. apply rbind_Ok in E as ([m2 c2]&E2&[= <- <-]). cbn [Nat.add].
    unfold final_insertion_sort_n in E2. rewrite (proj2 (Nat.ltb_ge _ _)) in E2 by done. by apply isort_count in E2.
  Qed.
End bounds.
