(** IterWp.v — reasoning about iterator programs on flat cells. *)
From stdpp Require Import list gmap.
From Verif Require Import Base Iter IterFlat.
From stdpp Require Import list.

(** ** Ranges of a layout *)
(** [\[i, j)] is a range of one sequence *)
Definition rng (L : layout) (i j : nat) : Prop :=
  exists s o d, loc L i = Some (s, o, d) /\ i <= j /\ o + (j - i) <= q_len d.
(** iterators at [i] are at least of category [c] *)
Definition cat_ge (L : layout) (c i : nat) : Prop := exists s o d, loc L i = Some (s, o, d) /\ c <= q_cat d.
(** elements of the sequence of [i] may be overwritten *)
Definition writable (L : layout) (i : nat) : Prop := exists s o d, loc L i = Some (s, o, d) /\ q_mut d = true.
(** iterators at [i] and [j] are of the same kind *)
Definition alike (L : layout) (i j : nat) : Prop :=
  exists s o d s' o' d', loc L i = Some (s, o, d) /\ loc L j = Some (s', o', d') /\
    q_kind d = q_kind d' /\ q_cat d = q_cat d'.

(** iterators of the sequence of [i] may be moved out of it *)
Definition over (L : layout) (i : nat) : Prop := exists s o d, loc L i = Some (s, o, d) /\ q_over d = true.
(** an iterator with content [i] may be overwritten with the position [j] *)
Definition covers (L : layout) (i j : nat) : Prop := flat_assign L i j = Ok j.

Section rng.
  Context (L : layout).
  Lemma rng_le i j : rng L i j -> i <= j.
  Proof. by intros (s&o&d&H1&H2&H3). Qed.
  Lemma rng_loc i j k : rng L i j -> i <= k <= j ->
    exists s o d, loc L i = Some (s, o, d) /\ loc L k = Some (s, o + (k - i), d) /\ o + (j - i) <= q_len d.
  Proof.
    intros (s&o&d&H1&H2&H3) Hk. exists s, o, d. pose proof H1 as (H4&H5&H6)%loc_inv.
    replace k with (base L s + (o + (k - i))) at 1 by lia. rewrite (loc_base L s d); [done..|lia].
  Qed.
  Lemma rng_sub i j i' j' : rng L i j -> i <= i' -> i' <= j' -> j' <= j -> rng L i' j'.
  Proof.
    intros H H1 H2 H3. pose proof (rng_loc i j i' H ltac:(lia)) as (s&o&d&E1&E2&E3).
    exists s, (o + (i' - i)), d. split_and!; [done|done|lia].
  Qed.
  Lemma rng_refl i j k : rng L i j -> i <= k <= j -> rng L k k.
  Proof. intros H H1. eapply rng_sub; [exact H|lia..]. Qed.
  Lemma rng_eq i j k k' : rng L i j -> i <= k <= j -> i <= k' <= j -> flat_eq L k k' = Ok (k =? k').
  Proof.
    intros H Hk Hk'. pose proof (rng_loc i j k H ltac:(lia)) as (s&o&d&E1&E2&E3).
    pose proof (rng_loc i j k' H ltac:(lia)) as (s'&o'&d'&E1'&E2'&E3').
    assert (s' = s /\ o' = o /\ d' = d) as (->&->&->) by (rewrite E1 in E1'; injection E1' as -> -> ->; done).
    unfold flat_eq. rewrite E2, E2', Nat.eqb_refl. f_equal.
    destruct (Nat.eqb_spec k k'); [subst; apply Nat.eqb_refl|apply Nat.eqb_neq; lia].
  Qed.
  Lemma rng_less i j k k' : rng L i j -> cat_ge L RANDOM i -> i <= k <= j -> i <= k' <= j -> flat_less L k k' = Ok (k <? k').
  Proof.
    intros H (s0&o0&d0&Ec1&Ec2) Hk Hk'. pose proof (rng_loc i j k H ltac:(lia)) as (s&o&d&E1&E2&E3).
    pose proof (rng_loc i j k' H ltac:(lia)) as (s'&o'&d'&E1'&E2'&E3').
    assert (s' = s /\ o' = o /\ d' = d) as (->&->&->) by (rewrite E1 in E1'; injection E1' as -> -> ->; done).
    assert (d0 = d) as -> by (rewrite E1 in Ec1; by injection Ec1).
    unfold flat_less. rewrite E2, E2', Nat.eqb_refl. apply Nat.leb_le in Ec2 as ->. cbn [andb]. f_equal.
    destruct (Nat.ltb_spec k k'), (Nat.ltb_spec (o + (k - i)) (o + (k' - i))); lia.
  Qed.
  Lemma rng_inc {A} (m : list A) i j k : rng L i j -> i <= k < j -> flat_inc L m k = Ok (S k).
  Proof.
    intros H Hk. pose proof (rng_loc i j k H ltac:(lia)) as (s&o&d&E1&E2&E3).
    unfold flat_inc. rewrite E2. by rewrite (proj2 (Nat.ltb_lt _ _)) by lia.
  Qed.
  Lemma rng_dec {A} (m : list A) i j k : rng L i j -> cat_ge L BIDIRECTION i -> i < k <= j -> flat_dec L m k = Ok (k - 1).
  Proof.
    intros H (s0&o0&d0&Ec1&Ec2) Hk. pose proof (rng_loc i j k H ltac:(lia)) as (s&o&d&E1&E2&E3).
    assert (d0 = d) as -> by (rewrite E1 in Ec1; by injection Ec1).
    unfold flat_dec. rewrite E2. rewrite (proj2 (Nat.ltb_lt _ _)) by lia. by apply Nat.leb_le in Ec2 as ->.
  Qed.
  Lemma rng_adv {A} (m : list A) i j k k' : rng L i j -> i <= k <= j -> i <= k' <= j ->
    k <= k' \/ cat_ge L BIDIRECTION i -> flat_adv L m k (Z.of_nat k' - Z.of_nat k) = Ok k'.
  Proof.
    intros H Hk Hk' Hc. pose proof (rng_loc i j k H ltac:(lia)) as (s&o&d&E1&E2&E3).
    unfold flat_adv. rewrite E2.
    assert ((0 <=? Z.of_nat k' - Z.of_nat k)%Z || (BIDIRECTION <=? q_cat d) = true) as ->.
    { destruct Hc as [Hc|(s0&o0&d0&Ec1&Ec2)]; apply orb_true_iff; [left; apply Z.leb_le; lia|right].
      assert (d0 = d) as -> by (rewrite E1 in Ec1; by injection Ec1). by apply Nat.leb_le. }
    cbn [andb]. rewrite (proj2 (Z.leb_le _ _)) by lia. cbn [andb]. rewrite (proj2 (Z.leb_le _ _)) by lia.
    f_equal. lia.
  Qed.
  Lemma rng_advz {A} (m : list A) i j k k' z : z = (Z.of_nat k' - Z.of_nat k)%Z -> rng L i j -> i <= k <= j -> i <= k' <= j ->
    k <= k' \/ cat_ge L BIDIRECTION i -> flat_adv L m k z = Ok k'.
  Proof. intros ->. apply rng_adv. Qed.
  Lemma rng_dist {A} (m : list A) i j k k' : rng L i j -> i <= k <= j -> i <= k' <= j ->
    k <= k' -> flat_dist L m k k' = Ok (Z.of_nat k' - Z.of_nat k)%Z.
  Proof.
    intros H Hk Hk' Hc. pose proof (rng_loc i j k H ltac:(lia)) as (s&o&d&E1&E2&E3).
    pose proof (rng_loc i j k' H ltac:(lia)) as (s'&o'&d'&E1'&E2'&E3').
    assert (s' = s /\ o' = o /\ d' = d) as (->&->&->) by (rewrite E1 in E1'; injection E1' as -> -> ->; done).
    unfold flat_dist. rewrite E2, E2', Nat.eqb_refl. cbn [andb].
    rewrite (proj2 (Nat.leb_le _ _)) by lia. f_equal. lia.
  Qed.
  Lemma rng_deref {A} (m : list A) i j k : rng L i j -> i <= k < j -> flat_deref L m k = rd m k.
  Proof.
    intros H Hk. pose proof (rng_loc i j k H ltac:(lia)) as (s&o&d&E1&E2&E3).
    unfold flat_deref. rewrite E2. by rewrite (proj2 (Nat.ltb_lt _ _)) by lia.
  Qed.
  Lemma rng_write {A} (m : list A) v i j k : rng L i j -> writable L i -> i <= k < j -> flat_write L m k v = wr m k v.
  Proof.
    intros H (s0&o0&d0&Ec1&Ec2) Hk. pose proof (rng_loc i j k H ltac:(lia)) as (s&o&d&E1&E2&E3).
    assert (d0 = d) as -> by (rewrite E1 in Ec1; by injection Ec1).
    unfold flat_write. rewrite E2. rewrite (proj2 (Nat.ltb_lt _ _)) by lia. by rewrite Ec2.
  Qed.
  Lemma cat_rng c i j k : rng L i j -> i <= k <= j -> cat_ge L c i -> cat_ge L c k.
  Proof.
    intros H Hk (s0&o0&d0&Ec1&Ec2). pose proof (rng_loc i j k H ltac:(lia)) as (s&o&d&E1&E2&E3).
    assert (d0 = d) as -> by (rewrite E1 in Ec1; by injection Ec1). by eexists _, _, d.
  Qed.
  Lemma writable_rng i j k : rng L i j -> i <= k <= j -> writable L i -> writable L k.
  Proof.
    intros H Hk (s0&o0&d0&Ec1&Ec2). pose proof (rng_loc i j k H ltac:(lia)) as (s&o&d&E1&E2&E3).
    assert (d0 = d) as -> by (rewrite E1 in Ec1; by injection Ec1). by eexists _, _, d.
  Qed.
  Lemma cat_ge_cat c i : cat_ge L c i -> exists x, flat_cat L i = Ok x /\ c <= x.
  Proof. intros (s&o&d&H1&H2). unfold flat_cat. rewrite H1. eauto. Qed.
  Lemma writable_mut i : writable L i -> flat_mut L i = Ok true.
  Proof. intros (s&o&d&H1&H2). unfold flat_mut. rewrite H1. by rewrite H2. Qed.
  Lemma cat_weaken c c' i : c' <= c -> cat_ge L c i -> cat_ge L c' i.
  Proof. intros Hc (s&o&d&H1&H2). exists s, o, d. split; [done|lia]. Qed.
  Lemma alike_assign i j : alike L i j -> flat_assign L i j = Ok j.
  Proof. intros (s&o&d&s'&o'&d'&H1&H2&H3&H4). unfold flat_assign. by rewrite H1, H2, H3, Nat.eqb_refl. Qed.
  Lemma alike_rng i j k k' : rng L i j -> i <= k <= j -> i <= k' <= j -> alike L k k'.
  Proof.
    intros H Hk Hk'. pose proof (rng_loc i j k H ltac:(lia)) as (s&o&d&E1&E2&E3).
    pose proof (rng_loc i j k' H ltac:(lia)) as (s'&o'&d'&E1'&E2'&E3').
    rewrite E1 in E1'. injection E1' as -> -> ->. by eexists _, _, _, _, _, _.
  Qed.
  (** an iterator that is moved anywhere can be put back *)
  Lemma over_adv {A} (m : list A) i j k z : rng L i j -> over L i -> i <= k <= j ->
    exists q, flat_adv L m k z = Ok q /\ forall k', i <= k' <= j -> covers L q k'.
  Proof.
    intros H (s0&o0&d0&Ec1&Ec2) Hk. pose proof (rng_loc i j k H ltac:(lia)) as (s&o&d&E1&E2&E3).
    assert (s0 = s /\ o0 = o /\ d0 = d) as (->&->&->) by (rewrite E1 in Ec1; by injection Ec1 as -> -> ->).
    unfold flat_adv. rewrite E2. destruct (_ && _ && _) eqn:E.
    - eexists. split; [done|]. intros k' Hk'. apply andb_true_iff in E as [E Eb]. apply andb_true_iff in E as [_ Ea].
      apply Z.leb_le in Ea. apply Z.leb_le in Eb.
      pose proof (rng_loc i j k' H ltac:(lia)) as (s'&o'&d'&E1'&E2'&E3').
      assert (s' = s /\ o' = o /\ d' = d) as (->&->&->) by (rewrite E1 in E1'; injection E1' as -> -> ->; done).
      pose proof E2 as (Hd&_&Hkb)%loc_inv. unfold covers, flat_assign. rewrite E2'.
      replace (Z.to_nat (Z.of_nat k + z)) with (base L s + Z.to_nat (Z.of_nat (o + (k - i)) + z)) by lia.
      rewrite (loc_base L s d) by (done || lia). by rewrite Nat.eqb_refl.
    - rewrite Ec2. eexists. split; [done|]. intros k' Hk'.
      pose proof (rng_loc i j k' H ltac:(lia)) as (s'&o'&d'&E1'&E2'&E3').
      assert (s' = s /\ o' = o /\ d' = d) as (->&->&->) by (rewrite E1 in E1'; injection E1' as -> -> ->; done).
      pose proof E2 as (Hd&_&_)%loc_inv. unfold covers, flat_assign. rewrite loc_total by lia. rewrite E2'.
      unfold stray. rewrite (proj2 (Nat.ltb_ge _ _)) by lia. replace (IterFlat.total L + s - IterFlat.total L) with s by lia.
      rewrite Hd, Ec2. cbn [andb]. by rewrite Nat.eqb_refl.
  Qed.
  Lemma alike_covers i j : alike L i j -> covers L i j.
  Proof. apply alike_assign. Qed.
  Lemma covers_rng i j k k' : rng L i j -> i <= k <= j -> i <= k' <= j -> covers L k k'.
  Proof. intros H H1 H2. apply alike_covers. by eapply alike_rng. Qed.
  Lemma alike_cat i j c : alike L i j -> cat_ge L c j -> cat_ge L c i.
  Proof.
    intros (s&o&d&s'&o'&d'&H1&H2&H3&H4) (s0&o0&d0&H5&H6). rewrite H2 in H5. injection H5 as <- <- <-.
    exists s, o, d. split; [done|lia].
  Qed.
  Lemma alike_trans i j k : alike L i j -> alike L j k -> alike L i k.
  Proof.
    intros (s&o&d&s'&o'&d'&H1&H2&H3&H4) (t&u&e&t'&u'&e'&H5&H6&H7&H8).
    rewrite H2 in H5. injection H5 as <- <- <-. eexists _, _, _, _, _, _. split_and!; [done|done|congruence|congruence].
  Qed.
End rng.

(** ** Weakest preconditions in the flat world *)
Section fwp.
  Context {A : Type} (L : layout).
  Definition fwp {R : Type} (p : prog A R) (m : list A) (s : gmap iid nat)
      (Q : R -> list A -> gmap iid nat -> Prop) : Prop :=
    wp (flat L) p (m, s) (fun r st => Q r st.1 st.2).

  Lemma fwp_mono {R : Type} (p : prog A R) m s (Q Q' : R -> list A -> gmap iid nat -> Prop) :
    fwp p m s Q -> (forall r m' s', Q r m' s' -> Q' r m' s') -> fwp p m s Q'.
  Proof. intros H HQ. eapply wp_mono; [exact H|]. intros r [m' s']. apply HQ. Qed.
  Lemma fwp_ret {R : Type} (r : R) m s (Q : R -> list A -> gmap iid nat -> Prop) : Q r m s -> fwp (Ret r) m s Q.
  Proof. intros H. by apply wp_ret. Qed.
  Lemma fwp_bind {X R : Type} (p : prog A X) (k : X -> prog A R) m s Q :
    fwp p m s (fun x m1 s1 => fwp (k x) m1 s1 Q) -> fwp (Bind p k) m s Q.
  Proof.
    intros H. apply wp_bind. eapply wp_mono; [exact H|]. intros r [m' s']. done.
  Qed.
  Lemma fwp_loop {X R : Type} (x : X) (body : X -> prog A (X + R)) m s Q :
    fwp (body x) m s (fun y m1 s1 => match y with inl x' => fwp (Loop x' body) m1 s1 Q | inr r => Q r m1 s1 end) ->
    fwp (Loop x body) m s Q.
  Proof. intros H. apply wp_loop. eapply wp_mono; [exact H|]. intros [x'|r] [m' s']; done. Qed.
  Lemma fwp_new src m (s : gmap iid nat) p (Q : iid -> list A -> gmap iid nat -> Prop) :
    s !! src = Some p -> (forall i, s !! i = None -> Q i m (<[i := p]> s)) -> fwp (New src) m s Q.
  Proof. intros H1 H2. eapply (wp_new (flat L)); [exact H1|]. intros i Hi. by apply H2. Qed.
  Lemma fwp_free i m (s : gmap iid nat) p (Q : unit -> list A -> gmap iid nat -> Prop) :
    s !! i = Some p -> Q tt m (delete i s) -> fwp (Free i) m s Q.
  Proof. intros H1 H2. by eapply (wp_free (flat L)). Qed.
  Lemma fwp_assign d sr m (s : gmap iid nat) p q (Q : unit -> list A -> gmap iid nat -> Prop) :
    s !! d = Some p -> s !! sr = Some q -> alike L p q -> Q tt m (<[d := q]> s) -> fwp (Assign d sr) m s Q.
  Proof. intros H1 H2 H3 H4. eapply (wp_assign (flat L)); [done..| |exact H4]. by apply alike_assign. Qed.
  Lemma fwp_cover d sr m (s : gmap iid nat) p q (Q : unit -> list A -> gmap iid nat -> Prop) :
    s !! d = Some p -> s !! sr = Some q -> covers L p q -> Q tt m (<[d := q]> s) -> fwp (Assign d sr) m s Q.
  Proof. intros H1 H2 H3 H4. by eapply (wp_assign (flat L)). Qed.
  Lemma fwp_inc i m (s : gmap iid nat) p (Q : unit -> list A -> gmap iid nat -> Prop) :
    s !! i = Some p -> flat_inc L m p = Ok (S p) -> Q tt m (<[i := S p]> s) -> fwp (Inc i) m s Q.
  Proof. intros H1 H2 H3. by eapply (wp_inc (flat L)). Qed.
  Lemma fwp_dec i m (s : gmap iid nat) p (Q : unit -> list A -> gmap iid nat -> Prop) :
    s !! i = Some p -> flat_dec L m p = Ok (p - 1) -> Q tt m (<[i := p - 1]> s) -> fwp (Dec i) m s Q.
  Proof. intros H1 H2 H3. by eapply (wp_dec (flat L)). Qed.
  Lemma fwp_adv i n m (s : gmap iid nat) p q (Q : unit -> list A -> gmap iid nat -> Prop) :
    s !! i = Some p -> flat_adv L m p n = Ok q -> Q tt m (<[i := q]> s) -> fwp (Adv i n) m s Q.
  Proof. intros H1 H2 H3. by eapply (wp_adv (flat L)). Qed.
  Lemma fwp_dist i j m (s : gmap iid nat) p q n (Q : Z -> list A -> gmap iid nat -> Prop) :
    s !! i = Some p -> s !! j = Some q -> flat_dist L m p q = Ok n -> Q n m s -> fwp (Dist i j) m s Q.
  Proof. intros H1 H2 H3 H4. by eapply (wp_dist (flat L)). Qed.
  Lemma fwp_eq i j m (s : gmap iid nat) p q b (Q : bool -> list A -> gmap iid nat -> Prop) :
    s !! i = Some p -> s !! j = Some q -> flat_eq L p q = Ok b -> Q b m s -> fwp (Eq i j) m s Q.
  Proof. intros H1 H2 H3 H4. by eapply (wp_eq (flat L)). Qed.
  Lemma fwp_ne i j m (s : gmap iid nat) p q b (Q : bool -> list A -> gmap iid nat -> Prop) :
    s !! i = Some p -> s !! j = Some q -> flat_eq L p q = Ok b -> Q (negb b) m s -> fwp (Ne i j) m s Q.
  Proof. intros H1 H2 H3 H4. apply fwp_bind. eapply fwp_eq; [done..|]. by apply fwp_ret. Qed.
  Lemma fwp_less i j m (s : gmap iid nat) p q b (Q : bool -> list A -> gmap iid nat -> Prop) :
    s !! i = Some p -> s !! j = Some q -> flat_less L p q = Ok b -> Q b m s -> fwp (Less i j) m s Q.
  Proof. intros H1 H2 H3 H4. by eapply (wp_less (flat L)). Qed.
  Lemma fwp_deref i m (s : gmap iid nat) p v (Q : A -> list A -> gmap iid nat -> Prop) :
    s !! i = Some p -> flat_deref L m p = Ok v -> Q v m s -> fwp (Deref i) m s Q.
  Proof. intros H1 H2 H3. by eapply (wp_deref (flat L)). Qed.
  Lemma fwp_write i v m (s : gmap iid nat) p m' (Q : unit -> list A -> gmap iid nat -> Prop) :
    s !! i = Some p -> flat_write L m p v = Ok m' -> Q tt m' s -> fwp (Write i v) m s Q.
  Proof. intros H1 H2 H3. by eapply (wp_write (flat L)). Qed.
  Lemma fwp_at_least i c m (s : gmap iid nat) p (Q : unit -> list A -> gmap iid nat -> Prop) :
    s !! i = Some p -> cat_ge L c p -> Q tt m s -> fwp (at_least i c) m s Q.
  Proof.
    intros H1 (x&H2&H3)%cat_ge_cat H4. apply fwp_bind. eapply (wp_cat (flat L)); [exact H1|exact H2|].
    unfold passert. apply Nat.leb_le in H3. cbn [fst snd]. rewrite H3. by apply fwp_ret.
  Qed.
  Lemma fwp_is_mutable i m (s : gmap iid nat) p (Q : unit -> list A -> gmap iid nat -> Prop) :
    s !! i = Some p -> writable L p -> Q tt m s -> fwp (is_mutable i) m s Q.
  Proof.
    intros H1 H2 H4. apply fwp_bind. eapply (wp_mutable (flat L)); [exact H1|by apply writable_mut|].
    cbn [fst snd passert]. by apply fwp_ret.
  Qed.

  (** what an out parameter requires, and what storing position [k] through it does *)
  Definition out_pre (s : gmap iid nat) (o : out) (k : nat) : Prop :=
    match o with Some (Some i) => exists k', s !! i = Some k' /\ alike L k' k | _ => True end.
  Definition out_set {P : Type} (o : out) (k : P) (s : gmap iid P) (v : option iid) (s' : gmap iid P) : Prop :=
    match o with
    | None => v = None /\ s' = s
    | Some None => exists i, s !! i = None /\ v = Some i /\ s' = <[i := k]> s
    | Some (Some i) => v = Some i /\ s' = <[i := k]> s
    end.
  Lemma fwp_out_at_least o c m (s : gmap iid nat) k (Q : unit -> list A -> gmap iid nat -> Prop) :
    out_pre s o k -> cat_ge L c k -> Q tt m s -> fwp (out_at_least o c) m s Q.
  Proof.
    intros H1 H2 H3. destruct o as [[i|]|]; cbn [out_at_least]; [|by apply fwp_ret..].
    destruct H1 as (k'&H4&H5). eapply fwp_at_least; [done| |done]. by eapply alike_cat.
  Qed.
  Lemma fwp_copy_or_assign o src m (s : gmap iid nat) k (Q : option iid -> list A -> gmap iid nat -> Prop) :
    out_pre s o k -> s !! src = Some k ->
    (forall v s', out_set o k s v s' -> Q v m s') -> fwp (copy_or_assign o src) m s Q.
  Proof.
    intros H1 H2 H3. destruct o as [[i|]|]; cbn [copy_or_assign].
    - destruct H1 as (k'&H4&H5). apply fwp_bind. eapply fwp_assign; [done..|]. apply fwp_ret. by apply H3.
    - apply fwp_bind. eapply fwp_new; [done|]. intros i Hi. apply fwp_ret. apply H3. cbn. eauto.
    - apply fwp_ret. by apply H3.
  Qed.
  Lemma fwp_new_and_move src n m (s : gmap iid nat) p q (Q : iid -> list A -> gmap iid nat -> Prop) :
    s !! src = Some p -> flat_adv L m p n = Ok q -> (forall i, s !! i = None -> Q i m (<[i := q]> s)) ->
    fwp (new_and_move src n) m s Q.
  Proof.
    intros H1 H2 H3. apply fwp_bind. eapply fwp_new; [done|]. intros i Hi. apply fwp_bind.
    eapply fwp_adv; [by rewrite lookup_insert|done|]. apply fwp_ret. rewrite insert_insert. by apply H3.
  Qed.
  Lemma fwp_assign_and_move i src n m (s : gmap iid nat) p0 p q (Q : unit -> list A -> gmap iid nat -> Prop) :
    s !! i = Some p0 -> s !! src = Some p -> alike L p0 p -> flat_adv L m p n = Ok q ->
    Q tt m (<[i := q]> s) -> fwp (assign_and_move i src n) m s Q.
  Proof.
    intros H1 H2 H3 H4 H5. apply fwp_bind. eapply fwp_assign; [done..|].
    eapply fwp_adv; [by rewrite lookup_insert|done|]. by rewrite insert_insert.
  Qed.
  Lemma fwp_cover_and_move i src n m (s : gmap iid nat) p0 p q (Q : unit -> list A -> gmap iid nat -> Prop) :
    s !! i = Some p0 -> s !! src = Some p -> covers L p0 p -> flat_adv L m p n = Ok q ->
    Q tt m (<[i := q]> s) -> fwp (assign_and_move i src n) m s Q.
  Proof.
    intros H1 H2 H3 H4 H5. apply fwp_bind. eapply fwp_cover; [done..|].
    eapply fwp_adv; [by rewrite lookup_insert|done|]. by rewrite insert_insert.
  Qed.
  Lemma fwp_while (cond : prog A bool) (body : prog A unit) m s (Q : unit -> list A -> gmap iid nat -> Prop) :
    fwp cond m s (fun b m1 s1 =>
      if b then fwp body m1 s1 (fun _ m2 s2 => fwp (While cond body) m2 s2 Q) else Q tt m1 s1) ->
    fwp (While cond body) m s Q.
  Proof.
    intros H. unfold While. apply fwp_loop. apply fwp_bind. eapply fwp_mono; [exact H|]. cbn beta.
    intros [|] m1 s1 H1; [|by apply fwp_ret]. apply fwp_bind. eapply fwp_mono; [exact H1|]. cbn beta.
    intros _ m2 s2 H2. by apply fwp_ret.
  Qed.
  Lemma fwp_whilev {X} (x : X) (cond : X -> prog A bool) (body : X -> prog A X) m s (Q : X -> list A -> gmap iid nat -> Prop) :
    fwp (cond x) m s (fun b m1 s1 =>
      if b then fwp (body x) m1 s1 (fun y m2 s2 => fwp (WhileV y cond body) m2 s2 Q) else Q x m1 s1) ->
    fwp (WhileV x cond body) m s Q.
  Proof.
    intros H. unfold WhileV. apply fwp_loop. apply fwp_bind. eapply fwp_mono; [exact H|]. cbn beta.
    intros [|] m1 s1 H1; [|by apply fwp_ret]. apply fwp_bind. eapply fwp_mono; [exact H1|]. cbn beta.
    intros y m2 s2 H2. by apply fwp_ret.
  Qed.
  Lemma fwp_pand (p q : prog A bool) m s (Q : bool -> list A -> gmap iid nat -> Prop) :
    fwp p m s (fun b m1 s1 => if b then fwp q m1 s1 Q else Q false m1 s1) -> fwp (pand p q) m s Q.
  Proof.
    intros H. apply fwp_bind. eapply fwp_mono; [exact H|]. cbn beta. intros [|] m1 s1 H1; [done|by apply fwp_ret].
  Qed.
End fwp.

Section out_facts.
  Context (L : layout).
  Lemma out_ne (s : gmap iid nat) o i F : out_pre L s o i -> s !! F = None -> o <> Some (Some F).
  Proof. intros H HF ->. destruct H as (k'&H&_). congruence. Qed.
  Lemma out_pre_insert (s : gmap iid nat) o i F k : out_pre L s o i -> s !! F = None -> out_pre L (<[F := k]> s) o i.
  Proof.
    intros H HF. destruct o as [[x|]|]; [|done..]. destruct H as (k'&H1&H2). exists k'. split; [|done].
    rewrite lookup_insert_ne; [done|congruence].
  Qed.
  Lemma out_pre_update (s : gmap iid nat) o i F k : out_pre L s o i -> o <> Some (Some F) -> out_pre L (<[F := k]> s) o i.
  Proof.
    intros H HF. destruct o as [[x|]|]; [|done..]. destruct H as (k'&H1&H2). exists k'. split; [|done].
    rewrite lookup_insert_ne; [done|congruence].
  Qed.
  Lemma out_pre_alike (s : gmap iid nat) o i k : out_pre L s o i -> alike L i k -> out_pre L s o k.
  Proof.
    intros H HF. destruct o as [[x|]|]; [|done..]. destruct H as (k'&H1&H2). exists k'. split; [done|].
    by eapply alike_trans.
  Qed.
  Lemma out_set_lookup {P} o (k : P) s v s' F a : out_set o k s v s' -> s !! F = Some a -> o <> Some (Some F) -> s' !! F = Some a.
  Proof.
    intros H HF Ho. destruct o as [[x|]|]; cbn in H.
    - destruct H as [_ ->]. rewrite lookup_insert_ne; [done|congruence].
    - destruct H as (i&H1&_&->). rewrite lookup_insert_ne; [done|congruence].
    - destruct H as [_ ->]. done.
  Qed.
  Lemma out_set_delete {P} o (k : P) s v s' F a : out_set o k s v s' -> s !! F = Some a -> o <> Some (Some F) ->
    out_set o k (delete F s) v (delete F s').
  Proof.
    intros H HF Ho. destruct o as [[x|]|]; cbn in *.
    - destruct H as [-> ->]. split; [done|]. apply delete_insert_ne. congruence.
    - destruct H as (i&H1&->&->). exists i. split; [|split; [done|]].
      + by rewrite lookup_delete_None; right.
      + apply delete_insert_ne. congruence.
    - by destruct H as [-> ->].
  Qed.
End out_facts.

(** [lia] without the disequalities between iterator names *)
Ltac ilia := repeat match goal with H : ?a <> ?b |- _ => match type of a with
  | iid => clear H | positive => clear H | option _ => clear H end end; lia.
(** normalise freshness hypotheses *)
Ltac fresh_hyps := repeat match goal with
  | H : <[_ := _]> _ !! _ = None |- _ => apply lookup_insert_None in H as [? ?]
  end.
(** solve [s !! i = Some k] for a store given by insertions and deletions *)
Ltac lk :=
  repeat first [ rewrite lookup_insert | rewrite lookup_insert_ne by congruence | rewrite lookup_delete_ne by congruence ];
  first [ reflexivity | eassumption ].
(** prove two finite maps equal, by cases on the names in them *)
Ltac mapeq :=
  let x := fresh "x" in
  apply map_eq; intros x;
  repeat first
    [ rewrite lookup_insert | rewrite lookup_delete
    | rewrite lookup_insert_ne by congruence | rewrite lookup_delete_ne by congruence
    | match goal with
      | |- context [<[?i := _]> _ !! x] => destruct (decide (i = x)); [subst x|]
      | |- context [delete ?i _ !! x] => destruct (decide (i = x)); [subst x|]
      end ];
  congruence.
