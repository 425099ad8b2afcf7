(** IterFlat.v — iterator programs on flat cells, and on any container that exposes sequences.

    A [layout] describes several sequences laid out one after another in a flat memory, each followed
    by one cell for its end position.  [flat] is the iterator world over such a memory, in which
    everything an iterator of the given category must not do (moving past the end, reading the end,
    comparing positions of different sequences...) is undefined.  [view] says that a world exposes the
    sequences of a layout.  Theorem [simulation]: whatever a program does on flat cells it does on
    every world with such a view. *)
From stdpp Require Import list gmap.
From Verif Require Import Base Iter.
From stdpp Require Import list.

(** one sequence: its length, the category and kind (iterator_type) of its iterators, whether
    elements may be overwritten, and whether an iterator may be moved out of it *)
Record seqd := Seqd { q_len : nat; q_cat : nat; q_kind : nat; q_mut : bool; q_over : bool }.
Notation layout := (list seqd).

(** the sequence containing cell [k], and the offset in it (an offset equal to the length is the end) *)
Fixpoint loc (L : layout) (k : nat) : option (nat * nat * seqd) :=
  match L with
  | [] => None
  | d :: L' => if k <=? q_len d then Some (0, k, d)
               else match loc L' (k - S (q_len d)) with
                    | Some (s, o, e) => Some (S s, o, e) | None => None end
  end.
(** first cell of sequence [s] *)
Fixpoint base (L : layout) (s : nat) : nat :=
  match L, s with
  | d :: L', S s' => S (q_len d) + base L' s'
  | _, _ => 0
  end.
Definition total (L : layout) : nat := base L (length L).

Lemma loc_base L s d o : L !! s = Some d -> o <= q_len d -> loc L (base L s + o) = Some (s, o, d).
Proof.
  revert s. induction L as [|e L IH]; intros s; [done|].
  destruct s as [|s]; cbn [lookup list_lookup base loc].
  - intros [= ->] Ho. cbn [plus]. by rewrite (proj2 (Nat.leb_le o (q_len d)) Ho).
  - intros Hd Ho. assert (S (q_len e) + base L s + o <=? q_len e = false) as -> by (apply Nat.leb_gt; lia).
    replace (S (q_len e) + base L s + o - S (q_len e)) with (base L s + o) by lia.
    by rewrite IH.
Qed.
Lemma loc_inv L k s o d : loc L k = Some (s, o, d) -> L !! s = Some d /\ o <= q_len d /\ k = base L s + o.
Proof.
  revert k s. induction L as [|e L IH]; intros k s; cbn [loc]; [done|].
  destruct (k <=? q_len e) eqn:E.
  - intros [= <- <- <-]. apply Nat.leb_le in E. done.
  - apply Nat.leb_gt in E. destruct (loc L (k - S (q_len e))) as [[[s' o'] d']|] eqn:El; [|done].
    intros [= <- <- <-]. apply IH in El as (H1&H2&H3). cbn [base lookup list_lookup]. split_and!; [done..|lia].
Qed.
Lemma loc_total L k : total L <= k -> loc L k = None.
Proof.
  unfold total. revert k. induction L as [|d L IH]; intros k; cbn [length base loc]; [done|].
  intros H. assert (k <=? q_len d = false) as -> by (apply Nat.leb_gt; lia). rewrite IH; [done|lia].
Qed.
Lemma base_total L s d : L !! s = Some d -> base L s + q_len d < total L.
Proof.
  unfold total. revert s. induction L as [|e L IH]; intros [|s]; cbn [lookup list_lookup length base]; try done.
  - intros [= ->]. lia.
  - intros Hs. specialize (IH _ Hs). lia.
Qed.

(** ** The flat world
    An iterator that has been moved out of sequence [s] is represented by the cell [total L + s]; it may only be
    overwritten, copied and freed. *)
Definition stray (L : layout) (k : nat) : option seqd := if k <? total L then None else L !! (k - total L).
Section flat.
  Context {A : Type} (L : layout).
  Definition flat_cat (k : nat) : res nat := match loc L k with Some (_, _, d) => Ok (q_cat d) | None => UB end.
  Definition flat_mut (k : nat) : res bool :=
    match loc L k with Some (_, _, d) => if q_mut d then Ok true else UB | None => UB end.
  Definition flat_assign (k k' : nat) : res nat :=
    match loc L k, loc L k' with
    | Some (_, _, d), Some (_, _, d') => if q_kind d =? q_kind d' then Ok k' else UB
    | None, Some (_, _, d') =>
        match stray L k with Some d => if q_over d && (q_kind d =? q_kind d') then Ok k' else UB | None => UB end
    | _, _ => UB end.
  Definition flat_inc (m : list A) (k : nat) : res nat :=
    match loc L k with Some (_, o, d) => if o <? q_len d then Ok (S k) else UB | None => UB end.
  Definition flat_dec (m : list A) (k : nat) : res nat :=
    match loc L k with
    | Some (_, o, d) => if (BIDIRECTION <=? q_cat d) && (0 <? o) then Ok (k - 1) else UB
    | None => UB end.
  Definition flat_adv (m : list A) (k : nat) (n : Z) : res nat :=
    match loc L k with
    | Some (s, o, d) =>
        if ((0 <=? n)%Z || (BIDIRECTION <=? q_cat d)) && (0 <=? Z.of_nat o + n)%Z
             && (Z.of_nat o + n <=? Z.of_nat (q_len d))%Z
        then Ok (Z.to_nat (Z.of_nat k + n)) else if q_over d then Ok (total L + s) else UB
    | None => UB end.
  Definition flat_dist (m : list A) (k k' : nat) : res Z :=
    match loc L k, loc L k' with
    | Some (s, o, _), Some (s', o', _) =>
        if (s =? s') && (o <=? o') then Ok (Z.of_nat o' - Z.of_nat o)%Z else UB
    | _, _ => UB end.
  Definition flat_eq (k k' : nat) : res bool :=
    match loc L k, loc L k' with
    | Some (s, o, _), Some (s', o', _) => if s =? s' then Ok (o =? o') else UB
    | _, _ => UB end.
  Definition flat_less (k k' : nat) : res bool :=
    match loc L k, loc L k' with
    | Some (s, o, d), Some (s', o', _) => if (s =? s') && (RANDOM <=? q_cat d) then Ok (o <? o') else UB
    | _, _ => UB end.
  Definition flat_deref (m : list A) (k : nat) : res A :=
    match loc L k with Some (_, o, d) => if o <? q_len d then rd m k else UB | None => UB end.
  Definition flat_write (m : list A) (k : nat) (v : A) : res (list A) :=
    match loc L k with Some (_, o, d) => if (o <? q_len d) && q_mut d then wr m k v else UB | None => UB end.
  Definition flat : world A :=
    World A (list A) nat flat_cat flat_mut flat_assign flat_inc flat_dec flat_adv flat_dist flat_eq flat_less
      flat_deref flat_write.
End flat.

(** ** Worlds that expose sequences *)
(** the values of the sequences as a flat memory: [m] holds the elements of [vss] at the cells of the
    layout (the content of the end cells does not matter) *)
Definition lays {A} (L : layout) (m : list A) (vss : list (list A)) : Prop :=
  length m = total L /\ length vss = length L /\
  forall s d vs, L !! s = Some d -> vss !! s = Some vs ->
    length vs = q_len d /\ forall o, o < q_len d -> m !! (base L s + o) = vs !! o.

(** [view W L its I]: in every memory satisfying [I m vss], world [W] exposes the sequences [vss],
    described by [L]; the positions of the [s]-th one are [its !! s], the end position last. *)
Record view {A} (W : world A) (L : layout) (its : list (list (w_pos W)))
    (I : w_mem W -> list (list A) -> Prop) : Prop := View {
  v_its : forall s d, L !! s = Some d -> exists ps, its !! s = Some ps /\ length ps = S (q_len d);
  v_vals : forall m vss, I m vss -> length vss = length L /\
    forall s d vs, L !! s = Some d -> vss !! s = Some vs -> length vs = q_len d;
  v_cat : forall s d ps o p, L !! s = Some d -> its !! s = Some ps -> ps !! o = Some p -> w_cat W p = Ok (q_cat d);
  v_mut : forall s d ps o p, L !! s = Some d -> its !! s = Some ps -> ps !! o = Some p ->
    q_mut d = true -> w_mutable W p = Ok true;
  v_assign : forall s d ps o p s' d' ps' o' p',
    L !! s = Some d -> its !! s = Some ps -> ps !! o = Some p ->
    L !! s' = Some d' -> its !! s' = Some ps' -> ps' !! o' = Some p' ->
    q_kind d = q_kind d' -> w_assign W p p' = Ok p';
  v_inc : forall m vss s d ps o p p', I m vss -> L !! s = Some d -> its !! s = Some ps ->
    ps !! o = Some p -> ps !! S o = Some p' -> w_inc W m p = Ok p';
  v_dec : forall m vss s d ps o p p', I m vss -> L !! s = Some d -> its !! s = Some ps ->
    BIDIRECTION <= q_cat d -> ps !! o = Some p -> ps !! S o = Some p' -> w_dec W m p' = Ok p;
  v_adv : forall m vss s d ps o o' p p', I m vss -> L !! s = Some d -> its !! s = Some ps ->
    o <= o' \/ BIDIRECTION <= q_cat d -> ps !! o = Some p -> ps !! o' = Some p' ->
    w_adv W m p (Z.of_nat o' - Z.of_nat o) = Ok p';
  v_over : forall m vss s d ps o p z, I m vss -> L !! s = Some d -> its !! s = Some ps -> q_over d = true ->
    ps !! o = Some p -> exists q, w_adv W m p z = Ok q /\
      forall s' d' ps' o' p', L !! s' = Some d' -> its !! s' = Some ps' -> ps' !! o' = Some p' -> q_kind d = q_kind d' ->
        w_assign W q p' = Ok p';
  v_dist : forall m vss s d ps o o' p p', I m vss -> L !! s = Some d -> its !! s = Some ps ->
    o <= o' -> ps !! o = Some p -> ps !! o' = Some p' ->
    w_dist W m p p' = Ok (Z.of_nat o' - Z.of_nat o)%Z;
  v_eq : forall s d ps o o' p p', L !! s = Some d -> its !! s = Some ps ->
    ps !! o = Some p -> ps !! o' = Some p' -> w_eq W p p' = Ok (o =? o');
  v_less : forall s d ps o o' p p', L !! s = Some d -> its !! s = Some ps -> RANDOM <= q_cat d ->
    ps !! o = Some p -> ps !! o' = Some p' -> w_less W p p' = Ok (o <? o');
  v_deref : forall m vss s d ps vs o p v, I m vss -> L !! s = Some d -> its !! s = Some ps ->
    vss !! s = Some vs -> vs !! o = Some v -> ps !! o = Some p -> w_deref W m p = Ok v;
  v_write : forall m vss s d ps vs o p v v', I m vss -> L !! s = Some d -> its !! s = Some ps ->
    vss !! s = Some vs -> vs !! o = Some v -> ps !! o = Some p -> q_mut d = true ->
    exists m', w_write W m p v' = Ok m' /\ I m' (<[s := <[o := v']> vs]> vss);
}.

Lemma wr_inv {A} (m : list A) k v m' : wr m k v = Ok m' -> m' = <[k := v]> m.
Proof. unfold wr. destruct (m !! k); [|done]. by intros [= <-]. Qed.

Section simulation.
  Context {A : Type} (W : world A) (L : layout) (its : list (list (w_pos W)))
          (I : w_mem W -> list (list A) -> Prop).
  Context (HV : view W L its I).

  (** [p] may be overwritten by any position of the kind [kd] *)
  Definition forgets (kd : nat) (p : w_pos W) : Prop :=
    forall s' d' ps' o' p', L !! s' = Some d' -> its !! s' = Some ps' -> ps' !! o' = Some p' -> kd = q_kind d' ->
      w_assign W p p' = Ok p'.
  (** flat cell [k] stands for position [p] *)
  Definition rel (k : nat) (p : w_pos W) : Prop :=
    match loc L k with
    | Some (s, o, _) => exists ps, its !! s = Some ps /\ ps !! o = Some p
    | None => exists d, stray L k = Some d /\ (q_over d = true -> forgets (q_kind d) p)
    end.
  (** no iterator object has strayed *)
  Definition settled (s : gmap iid nat) : Prop := forall i k, s !! i = Some k -> loc L k <> None.
  Definition srel (s : gmap iid nat) (S : gmap iid (w_pos W)) : Prop :=
    forall i, match s !! i, S !! i with
              | Some k, Some p => rel k p
              | None, None => True
              | _, _ => False end.
  Definition strel (st : istate (flat (A := A) L)) (ST : istate W) : Prop :=
    (exists vss, I ST.1 vss /\ lays L st.1 vss) /\ srel st.2 ST.2.

  Lemma srel_lookup s S i k : srel s S -> s !! i = Some k -> exists p, S !! i = Some p /\ rel k p.
  Proof.
    intros H Hi. specialize (H i). rewrite Hi in H. destruct (S !! i) as [p|]; [|done]. by exists p.
  Qed.
  Lemma srel_insert s S i k p : srel s S -> rel k p -> srel (<[i:=k]> s) (<[i:=p]> S).
  Proof.
    intros H Hr j. destruct (decide (i = j)) as [->|]; [by rewrite !lookup_insert|].
    rewrite !lookup_insert_ne by done. apply H.
  Qed.
  Lemma srel_delete s S i : srel s S -> srel (delete i s) (delete i S).
  Proof.
    intros H j. destruct (decide (i = j)) as [->|]; [by rewrite !lookup_delete|].
    rewrite !lookup_delete_ne by done. apply H.
  Qed.
  Lemma srel_dom s S : srel s S -> dom s = dom S.
  Proof.
    intros H. apply set_eq. intros i. rewrite !elem_of_dom. specialize (H i).
    destruct (s !! i), (S !! i); try done; split; intros [? ?]; eauto; done.
  Qed.
  Lemma rel_fun k p p' : loc L k <> None -> rel k p -> rel k p' -> p = p'.
  Proof.
    unfold rel. destruct (loc L k) as [[[s o] d]|]; [intros _|done].
    intros (ps&H1&H2) (ps'&H3&H4). congruence.
  Qed.
  Lemma rel_loc k p s o d : rel k p -> loc L k = Some (s, o, d) ->
    exists ps, L !! s = Some d /\ its !! s = Some ps /\ ps !! o = Some p.
  Proof.
    unfold rel. intros H Hl. rewrite Hl in H. destruct H as (ps&H1&H2).
    apply loc_inv in Hl as (H3&_). eauto.
  Qed.
  Lemma rel_at s d ps o p : L !! s = Some d -> its !! s = Some ps -> ps !! o = Some p -> rel (base L s + o) p.
  Proof.
    intros H1 H2 H3. destruct (v_its _ _ _ _ HV s d H1) as (ps'&H4&H5). assert (ps' = ps) as -> by congruence.
    unfold rel. rewrite (loc_base L s d o H1); [eauto|]. apply lookup_lt_Some in H3. lia.
  Qed.
  Lemma its_at s d ps o : L !! s = Some d -> its !! s = Some ps -> o <= q_len d -> exists p, ps !! o = Some p.
  Proof.
    intros H1 H2 H3. destruct (v_its _ _ _ _ HV s d H1) as (ps'&H4&H5). assert (ps' = ps) as -> by congruence.
    destruct (lookup_lt_is_Some_2 ps o) as [p Hp]; [lia|eauto].
  Qed.
  Lemma lays_write (m : list A) vss s d vs o v : lays L m vss -> L !! s = Some d -> vss !! s = Some vs -> o < q_len d ->
    lays L (<[base L s + o := v]> m) (<[s := <[o := v]> vs]> vss).
  Proof.
    intros (H1&H2&H3) Hd Hv Ho. split_and!; [by rewrite insert_length..|].
    intros s' d' vs' Hd' Hv'.
    destruct (decide (s = s')) as [<-|Hne].
    - assert (d' = d) as -> by congruence. rewrite list_lookup_insert in Hv' by (by eapply lookup_lt_Some).
      injection Hv' as <-. destruct (H3 s d vs Hd Hv) as (H4&H5). rewrite insert_length. split; [done|].
      intros o' Ho'. destruct (decide (o = o')) as [<-|Hne].
      + rewrite list_lookup_insert; [rewrite list_lookup_insert; [done|lia]|].
        specialize (H5 o Ho). destruct (lookup_lt_is_Some_2 vs o) as [x Hx]; [lia|]. rewrite Hx in H5.
        by eapply lookup_lt_Some.
      + rewrite !list_lookup_insert_ne by lia. by apply H5.
    - rewrite list_lookup_insert_ne in Hv' by done. destruct (H3 s' d' vs' Hd' Hv') as (H4&H5). split; [done|].
      intros o' Ho'. rewrite list_lookup_insert_ne; [by apply H5|].
      intros E. assert (loc L (base L s + o) = Some (s, o, d)) as E1 by (apply loc_base; [done|lia]).
      assert (loc L (base L s' + o') = Some (s', o', d')) as E2 by (apply loc_base; [done|lia]).
      rewrite E in E1. congruence.
  Qed.

  Lemma get_Ok {s i k} : get (flat (A := A) L) s i = Ok k -> s !! i = Some k.
  Proof. unfold get. destruct (s !! i); [|done]. by intros [= ->]. Qed.
  Lemma get_S {S i p} : S !! i = Some p -> get W S i = Ok p.
  Proof. unfold get. by intros ->. Qed.

  (** Everything a program does on flat cells, it does on the containers. *)
  Theorem simulation {R : Type} (p : prog A R) : forall fuel st st' ST r,
    run (flat L) fuel p st = Ok (r, st') -> strel st ST ->
    exists ST', run W fuel p ST = Ok (r, ST') /\ strel st' ST'.
  Proof.
    induction p as [R r|R|X R p IHp k IHk|X R x body IH|src|i|d src|i|i|i z|i j|i j|i j|i|i v|i|i];
      intros fuel st st' ST res0.
    - cbn [run]. intros [= <- <-] H. by exists ST.
    - cbn [run]. done.
    - cbn [run]. intros [[x st1] [H1 H2]]%rbind_Ok Hst.
      destruct (IHp _ _ _ _ _ H1 Hst) as (ST1&H3&H4). rewrite H3. cbn [rbind]. by eapply IHk.
    - rewrite !run_Loop.
      assert (forall n x st ST, run_loop (flat L) fuel body n x st = Ok (res0, st') -> strel st ST ->
        exists ST', run_loop W fuel body n x ST = Ok (res0, ST') /\ strel st' ST') as Hl; [|by apply Hl].
      clear x st ST. intros n. induction n as [|n IHn]; intros x st ST; cbn [run_loop]; [done|].
      intros [[y st1] [H1 H2]]%rbind_Ok Hst.
      destruct (IH _ _ _ _ _ _ H1 Hst) as (ST1&H3&H4). rewrite H3. cbn [rbind].
      destruct y as [x'|r]; [by eapply IHn|]. injection H2 as <- <-. by exists ST1.
    - cbn [run]. intros [k [H1 H2]]%rbind_Ok (HI&Hs). cbn zeta in H2. injection H2 as <- <-. apply get_Ok in H1.
      destruct (srel_lookup _ _ _ _ Hs H1) as (p&Hp&Hr). rewrite (get_S Hp). cbn [rbind].
      rewrite <- (srel_dom _ _ Hs). eexists. split; [done|]. split; [done|]. by apply srel_insert.
    - cbn [run]. intros [k [H1 H2]]%rbind_Ok (HI&Hs). injection H2 as <- <-. apply get_Ok in H1.
      destruct (srel_lookup _ _ _ _ Hs H1) as (p&Hp&Hr). rewrite (get_S Hp). cbn [rbind].
      eexists. split; [done|]. split; [done|]. by apply srel_delete.
    - cbn [run]. intros [k [H1 [k' [H2 [k2 [H3 H4]]%rbind_Ok]]%rbind_Ok]]%rbind_Ok (HI&Hs). injection H4 as <- <-.
      apply get_Ok in H1. apply get_Ok in H2.
      destruct (srel_lookup _ _ _ _ Hs H1) as (p&Hp&Hr). destruct (srel_lookup _ _ _ _ Hs H2) as (p'&Hp'&Hr').
      rewrite (get_S Hp), (get_S Hp'). cbn [rbind]. cbn [flat w_assign] in H3. unfold flat_assign in H3.
      destruct (loc L k) as [[[s o] dd]|] eqn:E1.
      2:{ destruct (loc L k') as [[[s' o'] dd']|] eqn:E2; [|done]. destruct (stray L k) as [dd|] eqn:Es; [|done].
          destruct (q_over dd && (q_kind dd =? q_kind dd')) eqn:Ek; [|done]. apply andb_true_iff in Ek as [Eo Ek].
          apply Nat.eqb_eq in Ek. injection H3 as <-.
          pose proof Hr as Hr2. unfold rel in Hr2. rewrite E1, Es in Hr2. destruct Hr2 as (d2&[= <-]&Hfo).
          destruct (rel_loc _ _ _ _ _ Hr' E2) as (ps'&?&?&?).
          rewrite (Hfo Eo s' dd' ps' o' p') by done. cbn [rbind].
          eexists. split; [done|]. split; [done|]. by apply srel_insert. }
      destruct (loc L k') as [[[s' o'] dd']|] eqn:E2; [|done].
      destruct (q_kind dd =? q_kind dd') eqn:Ek; [|done]. apply Nat.eqb_eq in Ek. injection H3 as <-.
      destruct (rel_loc _ _ _ _ _ Hr E1) as (ps&?&?&?). destruct (rel_loc _ _ _ _ _ Hr' E2) as (ps'&?&?&?).
      rewrite (v_assign _ _ _ _ HV s dd ps o p s' dd' ps' o' p') by done. cbn [rbind].
      eexists. split; [done|]. split; [done|]. by apply srel_insert.
    - cbn [run]. intros [k [H1 [k2 [H3 H4]]%rbind_Ok]]%rbind_Ok ((vss&HI&Hl)&Hs). injection H4 as <- <-.
      apply get_Ok in H1. destruct (srel_lookup _ _ _ _ Hs H1) as (p&Hp&Hr). rewrite (get_S Hp). cbn [rbind].
      cbn [flat w_inc] in H3. unfold flat_inc in H3. destruct (loc L k) as [[[s o] dd]|] eqn:E1; [|done].
      destruct (o <? q_len dd) eqn:E; [|done]. apply Nat.ltb_lt in E. injection H3 as <-.
      destruct (rel_loc _ _ _ _ _ Hr E1) as (ps&?&?&?).
      destruct (its_at s dd ps (S o)) as (p'&Hp'); [done|done|lia|].
      rewrite (v_inc _ _ _ _ HV _ _ s dd ps o p p' HI) by done. cbn [rbind].
      eexists. split; [done|]. split; [by exists vss|]. apply srel_insert; [done|].
      apply loc_inv in E1 as (?&?&->). replace (S (base L s + o)) with (base L s + S o) by lia. by eapply rel_at.
    - cbn [run]. intros [k [H1 [k2 [H3 H4]]%rbind_Ok]]%rbind_Ok ((vss&HI&Hl)&Hs). injection H4 as <- <-.
      apply get_Ok in H1. destruct (srel_lookup _ _ _ _ Hs H1) as (p&Hp&Hr). rewrite (get_S Hp). cbn [rbind].
      cbn [flat w_dec] in H3. unfold flat_dec in H3. destruct (loc L k) as [[[s o] dd]|] eqn:E1; [|done].
      destruct ((BIDIRECTION <=? q_cat dd) && (0 <? o)) eqn:E; [|done].
      apply andb_true_iff in E as [Ec Eo]. apply Nat.leb_le in Ec. apply Nat.ltb_lt in Eo. injection H3 as <-.
      destruct (rel_loc _ _ _ _ _ Hr E1) as (ps&?&?&?). apply loc_inv in E1 as (?&?&->).
      destruct o as [|o]; [lia|].
      destruct (its_at s dd ps o) as (p'&Hp'); [done|done|lia|].
      rewrite (v_dec _ _ _ _ HV _ _ s dd ps o p' p HI) by done. cbn [rbind].
      eexists. split; [done|]. split; [by exists vss|]. apply srel_insert; [done|].
      replace (base L s + S o - 1) with (base L s + o) by lia. by eapply rel_at.
    - cbn [run]. intros [k [H1 [k2 [H3 H4]]%rbind_Ok]]%rbind_Ok ((vss&HI&Hl)&Hs). injection H4 as <- <-.
      apply get_Ok in H1. destruct (srel_lookup _ _ _ _ Hs H1) as (p&Hp&Hr). rewrite (get_S Hp). cbn [rbind].
      cbn [flat w_adv] in H3. unfold flat_adv in H3. destruct (loc L k) as [[[s o] dd]|] eqn:E1; [|done].
      destruct (_ && _ && _) eqn:E in H3.
      2:{ destruct (q_over dd) eqn:Eov; [|done]. injection H3 as <-.
          destruct (rel_loc _ _ _ _ _ Hr E1) as (ps&?&?&?).
          destruct (v_over _ _ _ _ HV _ _ s dd ps o p z HI) as (q&Hq&Hfo); [done..|].
          rewrite Hq. cbn [rbind]. eexists. split; [done|]. split; [by exists vss|]. apply srel_insert; [done|].
          unfold rel. rewrite loc_total by lia. exists dd. split; [|done].
          unfold stray. rewrite (proj2 (Nat.ltb_ge _ _)) by lia.
          replace (total L + s - total L) with s by lia. done. }
      apply andb_true_iff in E as [E E3]. apply andb_true_iff in E as [Ec Eo].
      apply Z.leb_le in E3. apply Z.leb_le in Eo. apply orb_true_iff in Ec. injection H3 as <-.
      destruct (rel_loc _ _ _ _ _ Hr E1) as (ps&?&?&?). apply loc_inv in E1 as (?&?&->).
      destruct (its_at s dd ps (Z.to_nat (Z.of_nat o + z))) as (p'&Hp'); [done|done|lia|].
      assert (w_adv W ST.1 p z = Ok p') as Hadv.
      { replace z with (Z.of_nat (Z.to_nat (Z.of_nat o + z)) - Z.of_nat o)%Z by lia.
        eapply (v_adv _ _ _ _ HV _ _ s dd ps o (Z.to_nat (Z.of_nat o + z)) p p' HI); [done|done| |done|done].
        destruct Ec as [Ec|Ec]; [apply Z.leb_le in Ec; left; lia|apply Nat.leb_le in Ec; by right]. }
      rewrite Hadv. cbn [rbind]. eexists. split; [done|]. split; [by exists vss|]. apply srel_insert; [done|].
      replace (Z.to_nat (Z.of_nat (base L s + o) + z)) with (base L s + Z.to_nat (Z.of_nat o + z)) by lia.
      by eapply rel_at.
    - cbn [run]. intros [k [H1 [k' [H2 [k2 [H3 H4]]%rbind_Ok]]%rbind_Ok]]%rbind_Ok ((vss&HI&Hl)&Hs). injection H4 as <- <-.
      apply get_Ok in H1. apply get_Ok in H2.
      destruct (srel_lookup _ _ _ _ Hs H1) as (p&Hp&Hr). destruct (srel_lookup _ _ _ _ Hs H2) as (p'&Hp'&Hr').
      rewrite (get_S Hp), (get_S Hp'). cbn [rbind]. cbn [flat w_dist] in H3. unfold flat_dist in H3.
      destruct (loc L k) as [[[s o] dd]|] eqn:E1; [|done]. destruct (loc L k') as [[[s' o'] dd']|] eqn:E2; [|done].
      destruct (_ && _) eqn:E in H3; [|done]. apply andb_true_iff in E as [Es E]. apply Nat.eqb_eq in Es as <-.
      apply Nat.leb_le in E. injection H3 as <-.
      destruct (rel_loc _ _ _ _ _ Hr E1) as (ps&?&?&?). destruct (rel_loc _ _ _ _ _ Hr' E2) as (ps'&?&?&?).
      assert (ps' = ps) as -> by congruence.
      rewrite (v_dist _ _ _ _ HV _ _ s dd ps o o' p p' HI) by done.
      cbn [rbind]. eexists. split; [done|]. split; [by exists vss|done].
    - cbn [run]. intros [k [H1 [k' [H2 [k2 [H3 H4]]%rbind_Ok]]%rbind_Ok]]%rbind_Ok ((vss&HI&Hl)&Hs). injection H4 as <- <-.
      apply get_Ok in H1. apply get_Ok in H2.
      destruct (srel_lookup _ _ _ _ Hs H1) as (p&Hp&Hr). destruct (srel_lookup _ _ _ _ Hs H2) as (p'&Hp'&Hr').
      rewrite (get_S Hp), (get_S Hp'). cbn [rbind]. cbn [flat w_eq] in H3. unfold flat_eq in H3.
      destruct (loc L k) as [[[s o] dd]|] eqn:E1; [|done]. destruct (loc L k') as [[[s' o'] dd']|] eqn:E2; [|done].
      destruct (s =? s') eqn:Es; [|done]. apply Nat.eqb_eq in Es as <-. injection H3 as <-.
      destruct (rel_loc _ _ _ _ _ Hr E1) as (ps&?&?&?). destruct (rel_loc _ _ _ _ _ Hr' E2) as (ps'&?&?&?).
      assert (ps' = ps) as -> by congruence.
      rewrite (v_eq _ _ _ _ HV s dd ps o o' p p') by done.
      cbn [rbind]. eexists. split; [done|]. split; [by exists vss|done].
    - cbn [run]. intros [k [H1 [k' [H2 [k2 [H3 H4]]%rbind_Ok]]%rbind_Ok]]%rbind_Ok ((vss&HI&Hl)&Hs). injection H4 as <- <-.
      apply get_Ok in H1. apply get_Ok in H2.
      destruct (srel_lookup _ _ _ _ Hs H1) as (p&Hp&Hr). destruct (srel_lookup _ _ _ _ Hs H2) as (p'&Hp'&Hr').
      rewrite (get_S Hp), (get_S Hp'). cbn [rbind]. cbn [flat w_less] in H3. unfold flat_less in H3.
      destruct (loc L k) as [[[s o] dd]|] eqn:E1; [|done]. destruct (loc L k') as [[[s' o'] dd']|] eqn:E2; [|done].
      destruct (_ && _) eqn:E in H3; [|done]. apply andb_true_iff in E as [Es E]. apply Nat.eqb_eq in Es as <-.
      apply Nat.leb_le in E. injection H3 as <-.
      destruct (rel_loc _ _ _ _ _ Hr E1) as (ps&?&?&?). destruct (rel_loc _ _ _ _ _ Hr' E2) as (ps'&?&?&?).
      assert (ps' = ps) as -> by congruence.
      rewrite (v_less _ _ _ _ HV s dd ps o o' p p') by done.
      cbn [rbind]. eexists. split; [done|]. split; [by exists vss|done].
    - cbn [run]. intros [k [H1 [k2 [H3 H4]]%rbind_Ok]]%rbind_Ok ((vss&HI&Hl)&Hs). injection H4 as <- <-.
      apply get_Ok in H1. destruct (srel_lookup _ _ _ _ Hs H1) as (p&Hp&Hr). rewrite (get_S Hp). cbn [rbind].
      cbn [flat w_deref] in H3. unfold flat_deref in H3. destruct (loc L k) as [[[s o] dd]|] eqn:E1; [|done].
      destruct (o <? q_len dd) eqn:E; [|done]. apply Nat.ltb_lt in E. apply rd_inv in H3.
      destruct (rel_loc _ _ _ _ _ Hr E1) as (ps&?&?&?). apply loc_inv in E1 as (?&?&->).
      destruct Hl as (Hl1&Hl2&Hl3). destruct (lookup_lt_is_Some_2 vss s) as [vs Hvs].
      { rewrite Hl2. by eapply lookup_lt_Some. }
      destruct (Hl3 s dd vs) as (_&Hl4); [done|done|]. rewrite Hl4 in H3 by done.
      rewrite (v_deref _ _ _ _ HV _ _ s dd ps vs o p k2 HI) by done.
      cbn [rbind]. eexists. split; [done|]. split; [by exists vss|done].
    - cbn [run]. intros [k [H1 [k2 [H3 H4]]%rbind_Ok]]%rbind_Ok ((vss&HI&Hl)&Hs). injection H4 as <- <-.
      apply get_Ok in H1. destruct (srel_lookup _ _ _ _ Hs H1) as (p&Hp&Hr). rewrite (get_S Hp). cbn [rbind].
      cbn [flat w_write] in H3. unfold flat_write in H3. destruct (loc L k) as [[[s o] dd]|] eqn:E1; [|done].
      destruct (_ && _) eqn:E in H3; [|done]. apply andb_true_iff in E as [E Em]. apply Nat.ltb_lt in E.
      destruct (rel_loc _ _ _ _ _ Hr E1) as (ps&?&?&?). apply loc_inv in E1 as (?&?&->).
      pose proof Hl as (Hl1&Hl2&Hl3). destruct (lookup_lt_is_Some_2 vss s) as [vs Hvs].
      { rewrite Hl2. by eapply lookup_lt_Some. }
      destruct (Hl3 s dd vs) as (Hl4&Hl5); [done|done|].
      destruct (lookup_lt_is_Some_2 vs o) as [x Hx]; [lia|].
      destruct (v_write _ _ _ _ HV _ _ s dd ps vs o p x v HI) as (M'&HM'&HI'); [done..|].
      rewrite HM'. cbn [rbind]. eexists. split; [done|]. split; [|done]. eexists. split; [exact HI'|].
      apply wr_inv in H3 as ->. cbn [fst].
      by eapply lays_write.
    - cbn [run]. intros [k [H1 [k2 [H3 H4]]%rbind_Ok]]%rbind_Ok ((vss&HI&Hl)&Hs). injection H4 as <- <-.
      apply get_Ok in H1. destruct (srel_lookup _ _ _ _ Hs H1) as (p&Hp&Hr). rewrite (get_S Hp). cbn [rbind].
      cbn [flat w_cat] in H3. unfold flat_cat in H3. destruct (loc L k) as [[[s o] dd]|] eqn:E1; [|done].
      injection H3 as <-. destruct (rel_loc _ _ _ _ _ Hr E1) as (ps&?&?&?).
      rewrite (v_cat _ _ _ _ HV s dd ps o p) by done. cbn [rbind]. eexists. split; [done|]. split; [by exists vss|done].
    - cbn [run]. intros [k [H1 [k2 [H3 H4]]%rbind_Ok]]%rbind_Ok ((vss&HI&Hl)&Hs). injection H4 as <- <-.
      apply get_Ok in H1. destruct (srel_lookup _ _ _ _ Hs H1) as (p&Hp&Hr). rewrite (get_S Hp). cbn [rbind].
      cbn [flat w_mutable] in H3. unfold flat_mut in H3. destruct (loc L k) as [[[s o] dd]|] eqn:E1; [|done].
      destruct (q_mut dd) eqn:Em; [|done].
      injection H3 as <-. destruct (rel_loc _ _ _ _ _ Hr E1) as (ps&?&?&?).
      rewrite (v_mut _ _ _ _ HV s dd ps o p) by done. cbn [rbind]. eexists. split; [done|]. split; [by exists vss|done].
  Qed.
End simulation.
