(** AlgoNonModProofs.v — proofs about AlgoNonMod.v *)
From Verif Require Import Base Spec Facts AlgoNonMod.
From stdpp Require Import list.

Section proofs.
  Context {A : Type}.
  Implicit Types m : list A.

  Lemma scan_while_ok p m last : last <= length m -> forall fuel i, i <= last -> last - i < fuel ->
    exists j, scan_while fuel p m i last = Ok j /\ i <= j <= last
      /\ (forall k, i <= k < j -> cell m p k)
      /\ (j < last -> exists x, m !! j = Some x /\ p x = false).
  Proof.
    intros Hl fuel. induction fuel as [|fuel IH]; intros i Hi Hf; [lia|]. cbn [scan_while].
    destruct (i =? last) eqn:E.
    - exists i. repeat split; try lia; intros; lia.
    - destruct (rd_lt m i) as [x [Hx ->]]; [lia|]. cbn [rbind]. destruct (p x) eqn:Hp.
      + destruct (IH (S i)) as [j [-> [Hj1 [Hj2 Hj3]]]]; [lia|lia|].
        exists j. repeat split; try lia; try done.
        intros k Hk. destruct (decide (k = i)) as [->|]; [exists x; done|apply Hj2; lia].
      + exists i. repeat split; try (intros; lia). intros _. eauto.
  Qed.

  Lemma first_position_iff f l (P Q : nat -> Prop) r :
    (forall k, f <= k < l -> P k <-> Q k) -> first_position f l P r -> first_position f l Q r.
  Proof.
    intros H. destruct r as [[] j]; cbn; intros HP.
    - destruct HP as [H1 [H2 H3]]. split; [done|]. split; [apply H; [lia|done]|].
      intros k Hk HQ. apply (H3 k Hk). apply H; [lia|done].
    - destruct HP as [H1 H2]. split; [done|]. intros k Hk HQ. apply (H2 k Hk). apply H; done.
  Qed.

  Lemma scan_find p m f l : range m f l ->
    exists j, scan_while (S (length m)) (fun x => negb (p x)) m f l = Ok j
      /\ first_position f l (cell m p) (negb (j =? l), j).
  Proof.
    intros [H1 H2]. destruct (scan_while_ok (fun x => negb (p x)) m l H2 (S (length m)) f)
      as [j [-> [Hj1 [Hj2 Hj3]]]]; [lia|lia|].
    exists j. split; [done|].
    assert (Hno : forall k, f <= k < j -> ~ cell m p k).
    { intros k Hk [x [Hx Hp]]. destruct (Hj2 k Hk) as [y [Hy Hq]]. rewrite Hy in Hx.
      injection Hx as ->. rewrite Hp in Hq. done. }
    destruct (j =? l) eqn:E; cbn.
    - split; [lia|]. intros k Hk. apply Hno. lia.
    - split; [lia|]. split; [|done]. destruct Hj3 as [x [Hx Hp]]; [lia|].
      exists x. split; [done|]. destruct (p x); done.
  Qed.

  Lemma find_if_ok m f l p : range m f l ->
    exists r, algo_find_if m f l p = Ok r /\ first_position f l (cell m p) r.
  Proof.
    intros H. unfold algo_find_if. destruct (scan_find p m f l H) as [j [-> Hj]]. cbn [rbind]. eauto.
  Qed.
  Lemma find_by_ok m f l v pred : range m f l ->
    exists r, algo_find_by m f l v pred = Ok r /\ first_position f l (cell m (fun x => pred x v)) r.
  Proof.
    intros H. unfold algo_find_by. destruct (scan_find (fun x => pred x v) m f l H) as [j [-> Hj]].
    cbn [rbind]. eauto.
  Qed.
  Lemma scan_while_ext p q m l : (forall x, p x = q x) -> forall fuel i, scan_while fuel p m i l = scan_while fuel q m i l.
  Proof.
    intros H fuel. induction fuel as [|fuel IH]; intros i; [done|]. cbn [scan_while].
    destruct (i =? l); [done|]. destruct (rd m i) as [x| |]; cbn [rbind]; try done. by rewrite H, IH.
  Qed.
  Lemma find_if_not_ok m f l p : range m f l ->
    exists r, algo_find_if_not m f l p = Ok r /\ first_position f l (cell m (fun x => negb (p x))) r.
  Proof.
    intros H. unfold algo_find_if_not. destruct (scan_find (fun x => negb (p x)) m f l H) as [j [Hs Hj]].
    rewrite (scan_while_ext _ p) in Hs by (intros; by rewrite negb_involutive).
    rewrite Hs. cbn [rbind]. eauto.
  Qed.

  Lemma all_of_ok m f l p : range m f l ->
    exists b, algo_all_of m f l p = Ok b /\ (b = true <-> forall x, x ∈ slice m f l -> p x = true).
  Proof.
    intros H. destruct (find_if_not_ok m f l p H) as [r [Hr Hp]].
    unfold algo_find_if_not in Hr. unfold algo_all_of. destruct (scan_while _ _ _ _ _) as [j| |]; try done.
    cbn [rbind] in *. injection Hr as <-. exists (j =? l). split; [done|].
    destruct (j =? l) eqn:E; cbn in Hp.
    - split; [|done]. intros _ x Hx. apply elem_of_slice in Hx as [k [Hk1 Hk2]].
      destruct (p x) eqn:Hpx; [done|]. destruct Hp as [_ Hp]. exfalso. apply (Hp k Hk1).
      exists x. by rewrite Hpx.
    - split; [done|]. intros Hall. destruct Hp as [Hj [[x [Hx Hpx]] _]].
      rewrite Hall in Hpx; [done|]. apply elem_of_slice. eauto.
  Qed.
  Lemma any_scan m f l p : range m f l ->
    exists j, scan_while (S (length m)) (fun x => negb (p x)) m f l = Ok j /\
     (j = l <-> forall x, x ∈ slice m f l -> p x = false).
  Proof.
    intros H. destruct (scan_find p m f l H) as [j [-> Hp]]. exists j. split; [done|].
    destruct (j =? l) eqn:E; cbn in Hp.
    - split; [|intros; lia]. intros _ x Hx. apply elem_of_slice in Hx as [k [Hk1 Hk2]].
      destruct (p x) eqn:Hpx; [|done]. destruct Hp as [_ Hp]. exfalso. apply (Hp k Hk1). by exists x.
    - split; [intros; lia|]. intros Hall. destruct Hp as [Hj [[x [Hx Hpx]] _]].
      rewrite Hall in Hpx; [done|]. apply elem_of_slice. eauto.
  Qed.
  Lemma none_of_ok m f l p : range m f l ->
    exists b, algo_none_of m f l p = Ok b /\ (b = true <-> forall x, x ∈ slice m f l -> p x = false).
  Proof.
    intros H. destruct (any_scan m f l p H) as [j [Hs Hj]]. unfold algo_none_of. rewrite Hs. cbn [rbind].
    exists (j =? l). split; [done|]. rewrite <- Hj. apply Nat.eqb_eq.
  Qed.
  Lemma any_of_ok m f l p : range m f l ->
    exists b, algo_any_of m f l p = Ok b /\ (b = true <-> exists x, x ∈ slice m f l /\ p x = true).
  Proof.
    intros H. destruct (scan_find p m f l H) as [j [Hs Hp]]. unfold algo_any_of. rewrite Hs. cbn [rbind].
    exists (negb (j =? l)). split; [done|]. destruct (j =? l) eqn:E; cbn in *.
    - split; [done|]. intros [x [Hx Hpx]]. apply elem_of_slice in Hx as [k [Hk1 Hk2]].
      destruct Hp as [_ Hp]. exfalso. apply (Hp k Hk1). by exists x.
    - split; [|done]. intros _. destruct Hp as [Hj [[x [Hx Hpx]] _]]. exists x.
      split; [|done]. apply elem_of_slice. eauto.
  Qed.

  Lemma count_loop_ok p m last : last <= length m -> forall fuel i n, i <= last -> last - i < fuel ->
    count_loop fuel p m i last n = Ok (n + length (List.filter p (slice m i last))).
  Proof.
    intros Hl fuel. induction fuel as [|fuel IH]; intros i n Hi Hf; [lia|]. cbn [count_loop].
    destruct (i =? last) eqn:E.
    - replace (slice m i last) with (@nil A); [cbn; f_equal; lia|].
      unfold slice. replace (last - i) with 0 by lia. done.
    - destruct (rd_lt m i) as [x [Hx ->]]; [lia|]. cbn [rbind]. rewrite IH by lia. f_equal.
      assert (slice m i last = x :: slice m (S i) last) as ->.
      { unfold slice. replace (last - i) with (S (last - S i)) by lia.
        by rewrite (drop_S _ _ _ Hx). }
      cbn [List.filter]. destruct (p x); cbn; lia.
  Qed.
  Lemma count_if_ok m f l p : range m f l ->
    algo_count_if m f l p = Ok (length (List.filter p (slice m f l))).
  Proof. intros [H1 H2]. unfold algo_count_if. rewrite count_loop_ok by lia. done. Qed.
  Lemma count_ok eqf m f l v : range m f l ->
    algo_count eqf m f l v = Ok (length (List.filter (fun x => eqf x v) (slice m f l))).
  Proof. intros [H1 H2]. unfold algo_count. rewrite count_loop_ok by lia. done. Qed.

  (** algo_for_each *)
  Lemma for_each_loop_ok {St} (op : St -> A -> St * A) : forall s pre post st fuel n,
    length s < fuel ->
    for_each_loop fuel op (pre ++ s ++ post) st (length pre) (length pre + length s) n
    = Ok (pre ++ (visit op st s).1 ++ post, (visit op st s).2, n + length s).
  Proof.
    induction s as [|x s IH]; intros pre post st fuel n Hf; (destruct fuel as [|fuel]; [cbn in *; lia|]); cbn [for_each_loop].
    - rewrite (proj2 (Nat.eqb_eq _ _)) by (cbn; lia). cbn. f_equal. f_equal. lia.
    - cbn [length] in *. destruct (_ =? _) eqn:E; [lia|]. cbn [app]. rewrite rd_at by done. cbn [rbind].
      cbn [visit]. destruct (op st x) as [st' x'] eqn:Eo. rewrite wr_at by done. cbn [rbind].
      specialize (IH (pre ++ [x']) post st' fuel (S n)).
      rewrite <- app_assoc in IH. cbn [app] in IH. rewrite app_length in IH. cbn [length] in IH.
      replace (length pre + 1) with (S (length pre)) in IH by lia.
      replace (length pre + S (length s)) with (S (length pre) + length s) by lia.
      rewrite IH by lia. destruct (visit op st' s) as [r st'']. cbn.
      rewrite <- app_assoc. cbn. f_equal. f_equal. lia.
  Qed.
  Lemma visit_length {St} (op : St -> A -> St * A) s : forall st, length (visit op st s).1 = length s.
  Proof.
    induction s as [|x s IH]; intros st; [done|]. cbn. destruct (op st x) as [st' x'].
    specialize (IH st'). destruct (visit op st' s). cbn in *. lia.
  Qed.
  Lemma for_each_ok {St} (op : St -> A -> St * A) m f l st : range m f l ->
    algo_for_each m f l op st
    = Ok (patch m f (visit op st (slice m f l)).1, (visit op st (slice m f l)).2, l - f).
  Proof.
    intros H. destruct (range_split m f l H) as (pre & s & post & -> & -> & -> & _ & _ & _).
    unfold algo_for_each. rewrite slice_app, for_each_loop_ok by (rewrite !app_length; lia).
    rewrite patch_app by apply visit_length. f_equal. f_equal. lia.
  Qed.
  Lemma for_each_n_ok {St} (op : St -> A -> St * A) m f n st : f + n <= length m ->
    algo_for_each_n m f n op st
    = Ok (patch m f (visit op st (slice m f (f + n))).1, (visit op st (slice m f (f + n))).2, f + n).
  Proof.
    intros H. destruct (range_split m f (f + n)) as (pre & s & post & -> & -> & Hn & _ & _ & _); [split; lia|].
    assert (n = length s) as -> by lia. clear Hn H.
    rewrite slice_app, patch_app by apply visit_length.
    revert pre st. induction s as [|x s IH]; intros pre st.
    - cbn. f_equal. f_equal. lia.
    - cbn [length algo_for_each_n app]. rewrite rd_at by done. cbn [rbind visit].
      destruct (op st x) as [st' x']. rewrite wr_at by done. cbn [rbind].
      specialize (IH (pre ++ [x']) st'). rewrite <- app_assoc in IH. cbn [app] in IH.
      rewrite app_length in IH. cbn [length] in IH.
      replace (length pre + 1) with (S (length pre)) in IH by lia.
      rewrite IH. destruct (visit op st' s) as [r st'']. cbn. rewrite <- app_assoc. cbn. f_equal. f_equal. lia.
  Qed.

  (** mismatch / equal *)
  Lemma scan2_ok pred m l : l <= length m -> forall fuel i j, i <= l -> j + (l - i) <= length m -> l - i < fuel ->
    exists n, scan2 fuel pred m i l j = Ok (i + n, j + n) /\ i + n <= l
      /\ (forall d, d < n -> exists x y, m !! (i + d) = Some x /\ m !! (j + d) = Some y /\ pred x y = true)
      /\ (i + n < l -> exists x y, m !! (i + n) = Some x /\ m !! (j + n) = Some y /\ pred x y = false).
  Proof.
    intros Hl fuel. induction fuel as [|fuel IH]; intros i j Hi Hj Hf; [lia|]. cbn [scan2].
    destruct (i =? l) eqn:E.
    - exists 0. rewrite !Nat.add_0_r. repeat split; intros; lia.
    - destruct (rd_lt m i) as [x [Hx ->]]; [lia|]. destruct (rd_lt m j) as [y [Hy ->]]; [lia|]. cbn [rbind].
      destruct (pred x y) eqn:Hp.
      + destruct (IH (S i) (S j)) as [n [-> [Hn1 [Hn2 Hn3]]]]; [lia|lia|lia|]. exists (S n).
        replace (S i + n) with (i + S n) in * by lia. replace (S j + n) with (j + S n) in * by lia.
        repeat split; [done| |done]. intros [|d] Hd.
        * rewrite !Nat.add_0_r. eauto.
        * replace (i + S d) with (S i + d) by lia. replace (j + S d) with (S j + d) by lia. apply Hn2. lia.
      + exists 0. rewrite !Nat.add_0_r. repeat split; [lia|intros; lia|eauto].
  Qed.
  Lemma mismatch_ok m f1 l1 f2 pred : range m f1 l1 -> f2 + (l1 - f1) <= length m ->
    exists r, algo_mismatch_by m f1 l1 f2 pred = Ok (r, f2 + (r.2 - f1)) /\
      first_position f1 l1 (fun k => exists x y, m !! k = Some x /\ m !! (f2 + (k - f1)) = Some y /\ pred x y = false) r.
  Proof.
    intros [H1 H2] H3. unfold algo_mismatch_by.
    destruct (scan2_ok pred m l1 H2 (S (length m)) f1 f2) as [n [-> [Hn1 [Hn2 Hn3]]]]; [lia|lia|lia|].
    cbn [rbind]. exists (negb (f1 + n =? l1), f1 + n). cbn [fst snd]. split.
    { f_equal. f_equal. lia. }
    assert (Hno : forall k, f1 <= k < f1 + n -> ~ exists x y, m !! k = Some x /\ m !! (f2 + (k - f1)) = Some y /\ pred x y = false).
    { intros k Hk [x [y [Hx [Hy Hp]]]]. destruct (Hn2 (k - f1)) as [x' [y' [Hx' [Hy' Hp']]]]; [lia|].
      replace (f1 + (k - f1)) with k in Hx' by lia. congruence. }
    destruct (f1 + n =? l1) eqn:E; cbn.
    - split; [lia|]. intros k Hk. apply Hno. lia.
    - split; [lia|]. split; [|done]. replace (f1 + n - f1) with n by lia. apply Hn3. lia.
  Qed.
  Lemma equal_ok m f1 l1 f2 pred : range m f1 l1 -> f2 + (l1 - f1) <= length m ->
    exists b, algo_equal_by m f1 l1 f2 pred = Ok b /\
      (b = true <-> forall d, d < l1 - f1 -> exists x y, m !! (f1 + d) = Some x /\ m !! (f2 + d) = Some y /\ pred x y = true).
  Proof.
    intros [H1 H2] H3. unfold algo_equal_by.
    destruct (scan2_ok pred m l1 H2 (S (length m)) f1 f2) as [n [-> [Hn1 [Hn2 Hn3]]]]; [lia|lia|lia|].
    cbn [rbind]. exists (f1 + n =? l1). split; [done|]. destruct (f1 + n =? l1) eqn:E.
    - split; [|done]. intros _ d Hd. apply Hn2. lia.
    - split; [done|]. intros Hall. destruct Hn3 as [x [y [Hx [Hy Hp]]]]; [lia|].
      destruct (Hall n) as [x' [y' [Hx' [Hy' Hp']]]]; [lia|]. congruence.
  Qed.

  (** find_first_of *)
  Lemma first_of_inner_ok pred m x sl : sl <= length m -> forall fuel s, s <= sl -> sl - s < fuel ->
    exists b, first_of_inner fuel pred m x s sl = Ok b
      /\ (b = true <-> exists y, y ∈ slice m s sl /\ pred x y = true).
  Proof.
    intros Hl fuel. induction fuel as [|fuel IH]; intros s Hs Hf; [lia|]. cbn [first_of_inner].
    destruct (s =? sl) eqn:E.
    - exists false. split; [done|]. split; [done|]. intros [y [Hy _]].
      apply elem_of_slice in Hy as [k [Hk _]]. lia.
    - destruct (rd_lt m s) as [y [Hy ->]]; [lia|]. cbn [rbind]. destruct (pred x y) eqn:Hp.
      + exists true. split; [done|]. split; [|done]. intros _. exists y. split; [|done].
        apply elem_of_slice. exists s. split; [lia|done].
      + destruct (IH (S s)) as [b [-> Hb]]; [lia|lia|]. exists b. split; [done|]. rewrite Hb.
        setoid_rewrite elem_of_slice. split.
        * intros [z [[k [Hk Hz]] Hpz]]. exists z. split; [|done]. exists k. split; [lia|done].
        * intros [z [[k [Hk Hz]] Hpz]]. exists z. split; [|done]. exists k. split; [|done].
          destruct (decide (k = s)) as [->|]; [congruence|lia].
  Qed.
  Lemma first_of_loop_ok pred m l sf sl : l <= length m -> range m sf sl ->
    forall fuel i, i <= l -> l - i < fuel ->
    exists r, first_of_loop fuel pred m i l sf sl = Ok r
      /\ first_position i l (matches_any m pred sf sl) r.
  Proof.
    intros Hl [Hs1 Hs2] fuel. induction fuel as [|fuel IH]; intros i Hi Hf; [lia|]. cbn [first_of_loop].
    destruct (i =? l) eqn:E.
    - exists (false, i). split; [done|]. cbn. split; [lia|]. intros; lia.
    - destruct (rd_lt m i) as [x [Hx ->]]; [lia|]. cbn [rbind].
      destruct (first_of_inner_ok pred m x sl Hs2 (S (length m)) sf) as [b [-> Hb]]; [lia|lia|]. cbn [rbind].
      destruct b.
      + exists (true, i). split; [done|]. cbn. split; [lia|]. split; [|intros; lia].
        destruct (proj1 Hb eq_refl) as [y Hy]. exists x, y. done.
      + destruct (IH (S i)) as [[b j] [-> Hr]]; [lia|lia|]. exists (b, j). split; [done|].
        assert (Hn : ~ matches_any m pred sf sl i).
        { intros [x' [y [Hx' [Hy Hp]]]]. assert (x' = x) as -> by congruence.
          enough (false = true) by done. apply Hb. eauto. }
        destruct b; cbn in *.
        * destruct Hr as [Hr1 [Hr2 Hr3]]. split; [lia|]. split; [done|]. intros k Hk.
          destruct (decide (k = i)) as [->|]; [done|]. apply Hr3. lia.
        * destruct Hr as [Hr1 Hr2]. split; [done|]. intros k Hk.
          destruct (decide (k = i)) as [->|]; [done|]. apply Hr2. lia.
  Qed.
  Lemma find_first_of_ok m f l sf sl pred : range m f l -> range m sf sl ->
    exists r, algo_find_first_of_by m f l sf sl pred = Ok r
      /\ first_position f l (matches_any m pred sf sl) r.
  Proof. intros [H1 H2] Hs. apply first_of_loop_ok; try done; lia. Qed.

  (** generic "last occurrence" loop *)
  Lemma last_loop_ok (search : nat -> res (bool * nat)) P l :
    (forall f, f <= l -> exists r, search f = Ok r /\ first_position f l P r) ->
    forall fuel f first acc, first <= f <= l -> l - f < fuel ->
      (match acc with
       | (true, j) => first <= j < f /\ P j /\ forall k, j < k < f -> ~ P k
       | (false, j) => j = l /\ forall k, first <= k < f -> ~ P k end) ->
      exists r, last_loop fuel search f acc = Ok r /\ last_position first l P r.
  Proof.
    intros Hs fuel. induction fuel as [|fuel IH]; intros f first acc Hf Hfu Hacc; [lia|]. cbn [last_loop].
    destruct (Hs f) as [[b i] [-> Hr]]; [lia|]. cbn [rbind]. destruct b; cbn in Hr.
    - destruct Hr as [Hi [HP Hno]]. apply IH; [lia|lia|]. split; [lia|]. split; [done|]. intros; lia.
    - destruct Hr as [-> Hno]. exists acc. split; [done|]. destruct acc as [[] j]; cbn.
      + destruct Hacc as [Hj [HP Hk]]. split; [lia|]. split; [done|]. intros k Hk'.
        destruct (decide (k < f)); [apply Hk; lia|apply Hno; lia].
      + destruct Hacc as [Hj Hk]. split; [done|]. intros k Hk'.
        destruct (decide (k < f)); [apply Hk; lia|apply Hno; lia].
  Qed.
  Lemma find_last_of_ok m f l sf sl pred : range m f l -> range m sf sl ->
    exists r, algo_find_last_of_by m f l sf sl pred = Ok r
      /\ last_position f l (matches_any m pred sf sl) r.
  Proof.
    intros [H1 H2] Hs. unfold algo_find_last_of_by. apply last_loop_ok; try lia.
    - intros f' Hf'. apply find_first_of_ok; [split; lia|done].
    - split; [done|]. intros; lia.
  Qed.

  (** adjacent_find *)
  Lemma adjacent_loop_ok pred m l : l <= length m -> forall fuel i, i < l -> l - i < fuel ->
    exists j, adjacent_loop fuel pred m i (S i) l = Ok (j, S j) /\ i <= j < l
      /\ (forall k, i <= k < j -> ~ adjacent_at m pred l k)
      /\ (S j <> l -> adjacent_at m pred l j).
  Proof.
    intros Hl fuel. induction fuel as [|fuel IH]; intros i Hi Hf; [lia|]. cbn [adjacent_loop].
    destruct (S i =? l) eqn:E.
    - exists i. repeat split; try lia; intros; lia.
    - destruct (rd_lt m i) as [x [Hx ->]]; [lia|]. destruct (rd_lt m (S i)) as [y [Hy ->]]; [lia|]. cbn [rbind].
      destruct (pred x y) eqn:Hp; cbn [negb].
      + exists i. repeat split; try (intros; lia). eauto 10.
      + destruct (IH (S i)) as [j [-> [Hj1 [Hj2 Hj3]]]]; [lia|lia|]. exists j.
        split; [done|]. split; [lia|]. split; [|done].
        intros k Hk. destruct (decide (k = i)) as [->|]; [|apply Hj2; lia].
        intros [_ [x' [y' [Hx' [Hy' Hp']]]]]. congruence.
  Qed.
  Lemma adjacent_find_ok m f l pred : range m f l ->
    exists r, algo_adjacent_find_by m f l pred = Ok r /\ first_position f l (adjacent_at m pred l) r.
  Proof.
    intros [H1 H2]. unfold algo_adjacent_find_by. destruct (f =? l) eqn:E.
    - exists (false, l). split; [done|]. cbn. split; [done|]. intros; lia.
    - destruct (adjacent_loop_ok pred m l H2 (S (length m)) f) as [j [-> [Hj1 [Hj2 Hj3]]]]; [lia|lia|].
      cbn [rbind]. destruct (S j =? l) eqn:E2; cbn [negb].
      + exists (false, l). split; [done|]. cbn. split; [done|]. intros k Hk [Hk1 Hk2].
        apply (Hj2 k); [lia|]. split; done.
      + exists (true, j). split; [done|]. cbn. split; [lia|]. split; [apply Hj3; lia|done].
  Qed.

  (** search *)
  Lemma match_loop_ok pred m l sl : l <= length m -> sl <= length m ->
    forall fuel i s, i <= l -> s <= sl -> sl - s < fuel ->
    exists n, match_loop fuel pred m i l s sl = Ok (i + n, s + n) /\ i + n <= l /\ s + n <= sl /\
      (s + n = sl <-> occurs_at m pred l s sl i).
  Proof.
    intros Hl Hsl fuel. induction fuel as [|fuel IH]; intros i s Hi Hs Hf; [lia|]. cbn [match_loop].
    destruct (i =? l) eqn:E1; [|destruct (s =? sl) eqn:E2].
    - exists 0. rewrite !Nat.add_0_r. repeat split; try lia.
      intros [Ho _]. lia.
    - exists 0. rewrite !Nat.add_0_r. repeat split; try lia.
    - destruct (rd_lt m i) as [x [Hx ->]]; [lia|]. destruct (rd_lt m s) as [y [Hy ->]]; [lia|]. cbn [rbind].
      destruct (pred x y) eqn:Hp.
      + destruct (IH (S i) (S s)) as [n [-> [Hn1 [Hn2 Hn3]]]]; [lia|lia|lia|]. exists (S n).
        replace (S i + n) with (i + S n) in * by lia. replace (S s + n) with (s + S n) in * by lia.
        split; [done|]. split; [lia|]. split; [lia|]. rewrite Hn3. split.
        * intros [Ho1 Ho2]. split; [lia|]. intros [|d] Hd; [rewrite !Nat.add_0_r; eauto|].
          replace (i + S d) with (S i + d) by lia. replace (s + S d) with (S s + d) by lia. apply Ho2. lia.
        * intros [Ho1 Ho2]. split; [lia|]. intros d Hd.
          replace (S i + d) with (i + S d) by lia. replace (S s + d) with (s + S d) by lia. apply Ho2. lia.
      + exists 0. rewrite !Nat.add_0_r. repeat split; try lia. intros [Ho1 Ho2].
        destruct (Ho2 0) as [x' [y' [Hx' [Hy' Hp']]]]; [lia|]. rewrite Nat.add_0_r in *. congruence.
  Qed.
  Lemma search_loop_ok pred m l sf sl : l <= length m -> range m sf sl ->
    forall fuel i, i <= l -> l - i < fuel ->
    exists r, search_loop fuel pred m i l sf sl = Ok r
      /\ first_position i l (occurs_at m pred l sf sl) r.
  Proof.
    intros Hl [Hs1 Hs2] fuel. induction fuel as [|fuel IH]; intros i Hi Hf; [lia|]. cbn [search_loop].
    destruct (i =? l) eqn:E.
    - exists (false, i). split; [done|]. cbn. split; [lia|]. intros; lia.
    - destruct (match_loop_ok pred m l sl Hl Hs2 (S (length m)) i sf) as [n [-> [Hn1 [Hn2 Hn3]]]]; [lia|lia|lia|].
      cbn [rbind]. destruct (sf + n =? sl) eqn:E2.
      + exists (true, i). split; [done|]. cbn. split; [lia|]. split; [|intros; lia]. apply Hn3. lia.
      + destruct (IH (S i)) as [[b j] [-> Hr]]; [lia|lia|]. exists (b, j). split; [done|].
        assert (Hn : ~ occurs_at m pred l sf sl i) by (rewrite <- Hn3; lia).
        destruct b; cbn in *.
        * destruct Hr as [Hr1 [Hr2 Hr3]]. split; [lia|]. split; [done|]. intros k Hk.
          destruct (decide (k = i)) as [->|]; [done|]. apply Hr3. lia.
        * destruct Hr as [Hr1 Hr2]. split; [done|]. intros k Hk.
          destruct (decide (k = i)) as [->|]; [done|]. apply Hr2. lia.
  Qed.
  Lemma search_ok m f l sf sl pred : range m f l -> range m sf sl ->
    exists r, algo_search_by m f l sf sl pred = Ok r /\ first_position f l (occurs_at m pred l sf sl) r.
  Proof.
    intros [H1 H2] Hs. unfold algo_search_by.
    destruct (search_loop_ok pred m l sf sl H2 Hs (S (length m)) f) as [[b i] [-> Hr]]; [lia|lia|].
    cbn [rbind]. eexists. split; [done|]. destruct b; cbn in *; [done|]. split; [done|]. apply Hr.
  Qed.
  Lemma search_last_ok m f l sf sl pred : range m f l -> range m sf sl ->
    exists r, algo_search_last_by m f l sf sl pred = Ok r /\ last_position f l (occurs_at m pred l sf sl) r.
  Proof.
    intros [H1 H2] Hs. unfold algo_search_last_by. apply last_loop_ok; try lia.
    - intros f' Hf'. apply search_ok; [split; lia|done].
    - split; [done|]. intros; lia.
  Qed.

  (** search_n *)
  Lemma run_loop_ok pred m v l : l <= length m -> forall fuel i n, i <= l -> l - i < fuel ->
    exists c, run_loop fuel pred m v i l n = Ok (i + c, n - c) /\ c <= n /\ i + c <= l
      /\ (forall d, d < c -> cell m (fun x => pred x v) (i + d))
      /\ (c < n -> i + c = l \/ exists x, m !! (i + c) = Some x /\ pred x v = false).
  Proof.
    intros Hl fuel. induction fuel as [|fuel IH]; intros i n Hi Hf; [lia|]. cbn [run_loop].
    destruct (n =? 0) eqn:E1; [|destruct (i =? l) eqn:E2].
    - exists 0. rewrite Nat.add_0_r, Nat.sub_0_r. repeat split; try lia; intros; lia.
    - exists 0. rewrite Nat.add_0_r, Nat.sub_0_r. repeat split; try lia; intros; lia.
    - destruct (rd_lt m i) as [x [Hx ->]]; [lia|]. cbn [rbind]. destruct (pred x v) eqn:Hp.
      + destruct (IH (S i) (n - 1)) as [c [-> [Hc1 [Hc2 [Hc3 Hc4]]]]]; [lia|lia|]. exists (S c).
        replace (S i + c) with (i + S c) in * by lia. replace (n - 1 - c) with (n - S c) by lia.
        repeat split; try lia.
        * intros [|d] Hd; [rewrite Nat.add_0_r; by exists x|].
          replace (i + S d) with (S i + d) by lia. apply Hc3. lia.
        * intros Hlt. apply Hc4. lia.
      + exists 0. rewrite Nat.add_0_r, Nat.sub_0_r. repeat split; try (intros; lia). intros _. right. eauto.
  Qed.
  Lemma search_n_loop_ok pred m v l n : l <= length m -> 0 < n ->
    forall fuel i, i <= l -> l - i < fuel ->
    exists r, search_n_loop fuel pred m v i l n = Ok r
      /\ first_position i l (run_at m pred v l n) r.
  Proof.
    intros Hl Hn fuel. induction fuel as [|fuel IH]; intros i Hi Hf; [lia|]. cbn [search_n_loop].
    destruct (find_by_ok m i l v pred) as [[b f] [-> Hfp]]; [split; lia|]. cbn [rbind].
    destruct b; cbn in Hfp.
    - destruct Hfp as [Hfr [Hcell Hno]].
      destruct (run_loop_ok pred m v l Hl (S (length m)) (S f) (n - 1)) as [c [-> [Hc1 [Hc2 [Hc3 Hc4]]]]]; [lia|lia|].
      cbn [rbind]. assert (Hpre : forall k, i <= k < f -> ~ run_at m pred v l n k).
      { intros k Hk [Hk1 Hk2]. apply (Hno k Hk). specialize (Hk2 0). rewrite Nat.add_0_r in Hk2. apply Hk2. lia. }
      destruct (n - 1 - c =? 0) eqn:E.
      + exists (true, f). split; [done|]. cbn. split; [lia|]. split; [|done]. split; [lia|].
        intros [|d] Hd; [by rewrite Nat.add_0_r|]. replace (f + S d) with (S f + d) by lia. apply Hc3. lia.
      + destruct Hc4 as [Heq|[x [Hx Hpx]]]; [lia| |].
        * (* reached last *)
          assert (Hnone : forall k, i <= k < l -> ~ run_at m pred v l n k).
          { intros k Hk [Hk1 Hk2]. destruct (decide (k < f)); [apply (Hpre k); [lia|done]|]. lia. }
          destruct (IH (S f + c)) as [[b j] [-> Hr]]; [lia|lia|]. exists (b, j). split; [done|].
          destruct b; cbn in *; [destruct Hr; lia|]. destruct Hr. done.
        * assert (Hnone : forall k, i <= k <= S f + c -> ~ run_at m pred v l n k).
          { intros k Hk [Hk1 Hk2]. destruct (decide (k < f)); [apply (Hpre k); [lia|done]|].
            destruct (Hk2 (S f + c - k)) as [x' [Hx' Hp']]; [lia|].
            replace (k + (S f + c - k)) with (S f + c) in Hx' by lia. congruence. }
          destruct (IH (S f + c)) as [[b j] [-> Hr]]; [lia|lia|]. exists (b, j). split; [done|].
          destruct b; cbn in *.
          -- destruct Hr as [Hr1 [Hr2 Hr3]]. split; [lia|]. split; [done|]. intros k Hk.
             destruct (decide (k <= S f + c)); [apply Hnone; lia|apply Hr3; lia].
          -- destruct Hr as [Hr1 Hr2]. split; [done|]. intros k Hk.
             destruct (decide (k <= S f + c)); [apply Hnone; lia|apply Hr2; lia].
    - exists (false, f). split; [done|]. cbn. destruct Hfp as [-> Hno]. split; [done|].
      intros k Hk [Hk1 Hk2]. apply (Hno k Hk). specialize (Hk2 0). rewrite Nat.add_0_r in Hk2. apply Hk2. lia.
  Qed.
  Lemma search_n_ok m f l n v pred : range m f l -> 0 < n ->
    exists r, algo_search_n_by m f l n v pred = Ok r /\ first_position f l (run_at m pred v l n) r.
  Proof.
    intros [H1 H2] Hn. unfold algo_search_n_by. rewrite (proj2 (Nat.eqb_neq n 0)) by lia.
    destruct (search_n_loop_ok pred m v l n H2 Hn (S (length m)) f) as [[b i] [-> Hr]]; [lia|lia|].
    cbn [rbind]. eexists. split; [done|]. destruct b; cbn in *; [done|]. split; [done|]. apply Hr.
  Qed.
  Lemma search_last_n_ok m f l n v pred : range m f l -> 0 < n ->
    exists r, algo_search_last_n_by m f l n v pred = Ok r /\ last_position f l (run_at m pred v l n) r.
  Proof.
    intros [H1 H2] Hn. unfold algo_search_last_n_by. rewrite (proj2 (Nat.eqb_neq n 0)) by lia.
    apply last_loop_ok; try lia.
    - intros f' Hf'. apply search_n_ok; [split; lia|done].
    - split; [done|]. intros; lia.
  Qed.
End proofs.
