(** VectorProofs.v — the vector refines a sequence. *)
From Verif Require Import Base Spec SpecSeq Facts Buffer BufferProofs Vector.
From stdpp Require Import list.

Section vector.
  Context {A : Type} (dflt : A).
  Implicit Types v : vec A.
  Implicit Types l : list A.

  Definition vrep v l : Prop := exists r, buf v = map Some l ++ r /\ fin v = length l.

  Lemma vrep_cap v l : vrep v l -> fin v <= length (buf v).
  Proof. intros (r & Hb & Hf). rewrite Hb, app_length, map_length. lia. Qed.
  Lemma vrep_intro l r g d : vrep (Vec (map Some l ++ r) (length l) g d) l.
  Proof. by exists r. Qed.

  (** ** observers *)
  Lemma walk_ok l : forall n (p r : list (option A)) i j, i = length p -> j = length p + length l -> length l < n ->
    walk n (p ++ map Some l ++ r) i j = Ok l.
  Proof.
    induction l as [|a l IH]; intros n p r i j Hi Hj Hn; (destruct n as [|n]; [cbn in *; lia|]); cbn [length walk] in *.
    - rewrite (proj2 (Nat.eqb_eq _ _)) by lia. done.
    - rewrite (proj2 (Nat.eqb_neq _ _)) by lia. cbn [map app]. rewrite get_at by done. cbn [rbind].
      replace (p ++ Some a :: map Some l ++ r) with ((p ++ [Some a]) ++ map Some l ++ r) by (by applist).
      rewrite IH; [done| | |]; rewrite ?app_length; cbn; lia.
  Qed.
  Lemma rwalk_ok l : forall n (p r : list (option A)) i j, i = length p -> j = length p + length l -> length l < n ->
    rwalk n (p ++ map Some l ++ r) j i = Ok (rev l).
  Proof.
    induction l as [|a l IH] using rev_ind; intros n p r i j Hi Hj Hn; (destruct n as [|n]; [cbn in *; lia|]); cbn [rwalk].
    - cbn in Hj. rewrite (proj2 (Nat.eqb_eq _ _)) by lia. done.
    - rewrite app_length in *. cbn [length] in *. rewrite (proj2 (Nat.eqb_neq _ _)) by lia.
      destruct j as [|j]; [lia|]. rewrite (get_seg p (l ++ [a]) r (length l) _ a); [|lia|by rewrite list_lookup_middle].
      cbn [rbind]. rewrite map_app. rewrite <- (app_assoc (map Some l)). rewrite IH; [|lia|lia|lia].
      cbn [rbind]. by rewrite rev_unit.
  Qed.
  Lemma vrep_traverse v l : vrep v l -> vec_traverse v = Ok l /\ vec_rtraverse v = Ok (rev l).
  Proof.
    intros H. pose proof (vrep_cap _ _ H) as Hc. destruct H as (r & Hb & Hf). unfold vec_traverse, vec_rtraverse.
    split.
    - rewrite Hb at 2. apply (walk_ok l _ []); cbn; lia.
    - rewrite Hb at 2. apply (rwalk_ok l _ []); cbn; lia.
  Qed.
  Lemma walk_inv : forall n (b : list (option A)) i j l, walk n b i j = Ok l -> i <= j ->
    j = i + length l /\ forall k a, l !! k = Some a -> b !! (i + k) = Some (Some a).
  Proof. clear dflt.
    induction n as [|n IH]; intros b i j l H Hij; [done|]. cbn [walk] in H. destruct (i =? j) eqn:E.
    - injection H as <-. apply Nat.eqb_eq in E. cbn. split; [lia|]. done.
    - apply Nat.eqb_neq in E. apply rbind_Ok in H as (x & Hx & H). apply rbind_Ok in H as (rr & Hr & H).
      injection H as <-. apply IH in Hr as [Hj Hk]; [|lia]. cbn [length]. split; [lia|].
      intros [|k] a Ha; cbn in Ha.
      + injection Ha as <-. rewrite Nat.add_0_r. unfold get in Hx.
        destruct (b !! i) as [[y|]|]; congruence.
      + replace (i + S k) with (S i + k) by lia. by apply Hk.
  Qed.
  Lemma traverse_vrep v l : vec_traverse v = Ok l -> vrep v l.
  Proof. clear dflt.
    intros H. apply walk_inv in H as [Hf Hk]; [|lia]. cbn in Hf, Hk.
    exists (drop (length l) (buf v)). split; [|done].
    rewrite <- (take_drop (length l) (buf v)) at 1. f_equal.
    apply list_eq. intros k. change (map Some l) with (Some <$> l). rewrite list_lookup_fmap.
    destruct (decide (k < length l)) as [Hkl|Hkl].
    - destruct (lookup_lt_is_Some_2 l k Hkl) as [a Ha]. rewrite Ha. cbn. rewrite lookup_take by done. by apply Hk.
    - rewrite lookup_take_ge by lia. by rewrite lookup_ge_None_2 by lia.
  Qed.
  Lemma vrep_at v l i a : vrep v l -> l !! i = Some a -> vec_at v i = Ok a.
  Proof. intros (r & Hb & Hf) H. unfold vec_at. rewrite Hb. by apply get_map. Qed.
  Lemma vrep_front v l : vrep v l -> vec_front v = Ok (head l).
  Proof.
    intros (r & Hb & Hf). unfold vec_front, vec_empty. rewrite Hf, Hb. destruct l as [|a l]; [done|].
    cbn [length Nat.eqb]. by rewrite (get_map _ _ _ a).
  Qed.
  Lemma vrep_back v l : vrep v l -> vec_back v = Ok (last l).
  Proof.
    intros (r & Hb & Hf). unfold vec_back, vec_empty. rewrite Hf, Hb.
    destruct l as [|a l] using rev_ind; [done|]. rewrite app_length. cbn [length].
    rewrite (proj2 (Nat.eqb_neq _ _)) by lia. rewrite last_snoc.
    replace (length l + 1 - 1) with (length l) by lia. rewrite (get_map _ _ _ a); [done|]. by rewrite list_lookup_middle.
  Qed.

  (** ** reallocation *)
  Lemma realloc_ok v l n : vrep v l ->
    exists r, vec_realloc v n = Ok (Vec (map Some l ++ r) (length l) (S (gen v)) (dead v ++ l)) /\
      length l + length r = (length (buf v) * 2) `max` (n + length l).
  Proof.
    intros (r & Hb & Hf). unfold vec_realloc, vec_capacity, vec_size. rewrite Hf.
    set (cap := if _ <? _ then _ else _).
    assert (cap = (length (buf v) * 2) `max` (n + length l)) as Hcap.
    { subst cap. destruct (Nat.ltb_spec (length (buf v) * 2) (n + length l)); lia. }
    clearbody cap. rewrite Hb in *. rewrite app_length, map_length in Hcap.
    rewrite (raw_split cap (length l)) by lia.
    rewrite (mcpy_seg0 (raw (length l)) (raw (cap - length l)) (map Some l) r (length l))
      by (rewrite ?raw_length, ?map_length; done).
    cbn [rbind app]. rewrite (destroys_ok0 l r (length l)) by done. cbn [rbind].
    eexists. split; [done|]. rewrite raw_length, app_length, map_length. lia.
  Qed.

  Definition val_of (value : option (arg A)) : option A :=
    match value with None => Some dflt | Some (Val a) => Some a | Some (Own _ _) => None end.
  Lemma val_of_ok value a g : val_of value = Some a ->
    forall b : list (option A), match value with Some v => arg_get b g v | None => Ok dflt end = Ok a.
  Proof. destruct value as [[?|? ?]|]; cbn; intros H b; congruence. Qed.

  (** the tail of insert_n, once there is room *)
  Lemma insert_room (l1 l2 : list A) r g d n pos a : n <= length r -> pos = length l1 ->
    exists r', (do b <- mcpy (map Some (l1 ++ l2) ++ r) (pos + n) (map Some (l1 ++ l2) ++ r) pos (length (l1 ++ l2) - pos);
      do b' <- fill dflt g n b pos (Some (Val a));
      Ok (Vec b' (length (l1 ++ l2) + n) g d, pos))
    = Ok (Vec (map Some (l1 ++ replicate n a ++ l2) ++ r') (length (l1 ++ replicate n a ++ l2)) g d, pos).
  Proof.
    intros Hn ->. destruct (move_right (map Some l1) (map Some l2) r n (length l1) (length l2)) as (junk & Hj & Hm);
      [by rewrite map_length|by rewrite map_length|done|].
    rewrite map_app, <- app_assoc. replace (length (l1 ++ l2) - length l1) with (length l2) by (rewrite app_length; lia).
    rewrite Hm. cbn [rbind].
    rewrite (fill_n_ok dflt g a (Some (Val a)) n junk (map Some l1) (map Some l2 ++ drop n r) (length l1));
      [|done|by rewrite map_length|done]. cbn [rbind].
    exists (drop n r). f_equal. f_equal. f_equal.
    - rewrite !map_app, map_replicate. by applist.
    - rewrite !app_length, replicate_length. lia.
  Qed.

  (** whether insert_n's reallocation is large enough *)
  Definition insert_fits v (count : nat) : bool :=
    (count <=? length (buf v) - fin v) ||
    (fin v + count <=? (length (buf v) * 2) `max` (count - (length (buf v) - fin v) + fin v)).

  Lemma insert_n_ok v l pos count a : vrep v l -> pos <= length l -> insert_fits v count = true ->
    exists v', vec_insert_n dflt v pos count (Val a) = Ok (v', pos) /\
      vrep v' (seq_insert pos (replicate count a) l) /\
      (if count <=? length (buf v) - fin v
       then gen v' = gen v /\ dead v' = dead v /\ length (buf v') = length (buf v)
       else gen v' = S (gen v) /\ dead v' = dead v ++ l).
  Proof.
    intros Hv Hp Hfit. pose proof (vrep_cap _ _ Hv) as Hc. unfold vec_insert_n, vec_available.
    destruct Hv as (r & Hb & Hf). rewrite (proj2 (Nat.leb_le _ _)) by lia. cbn [negb].
    assert (seq_insert pos (replicate count a) l = take pos l ++ replicate count a ++ drop pos l) as -> by done.
    unfold insert_fits in Hfit. destruct (Nat.leb_spec count (length (buf v) - fin v)) as [Hle|Hgt].
    - rewrite (proj2 (Nat.ltb_ge _ _)) by lia. cbn [rbind].
      assert (length r = length (buf v) - fin v) as Hr by (rewrite Hb, app_length, map_length; lia).
      destruct (insert_room (take pos l) (drop pos l) r (gen v) (dead v) count pos a) as (r' & H);
        [lia|rewrite take_length; lia|]. rewrite take_drop in H. rewrite Hf, Hb. rewrite H.
      eexists. split; [done|]. split; [apply vrep_intro|]. split; [done|]. split; [done|]. cbn [buf].
      assert (forall w, vec_insert_n dflt v pos count (Val a) = Ok (w, pos) -> True) by done.
      (* the block keeps its length *)
      apply rbind_Ok in H as (b1 & H1 & H). apply rbind_Ok in H as (b2 & H2 & H). injection H as E _.
      rewrite <- E. clear - H1 H2 Hb Hr Hle Hf.
      assert (length b1 = length (map Some l ++ r)) as L1.
      { unfold mcpy in H1. destruct (_ && _) eqn:E; [|done]. injection H1 as <-.
        apply andb_prop in E as [E1 E2]. apply Nat.leb_le in E1, E2. apply patch_length.
        rewrite slice_length by (split; lia). lia. }
      assert (forall n (b : list (option A)) p b' val, fill dflt (gen v) n b p val = Ok b' -> length b' = length b) as Hfl.
      { clear. induction n as [|n IH]; intros b p b' val H; [injection H as <-; done|]. cbn [fill] in H.
        apply rbind_Ok in H as (x & _ & H). apply rbind_Ok in H as (b1 & H1 & H). apply IH in H. rewrite H.
        unfold put in H1. destruct (_ <? _); [|done]. injection H1 as <-. apply insert_length. }
      rewrite (Hfl _ _ _ _ _ H2). done.
    - rewrite (proj2 (Nat.ltb_lt _ _)) by lia. cbn [orb] in Hfit. apply Nat.leb_le in Hfit.
      destruct (realloc_ok v l (count - (length (buf v) - fin v))) as (r' & He & Hr'); [by exists r|].
      rewrite He. cbn [rbind]. cbn [buf fin gen dead].
      destruct (insert_room (take pos l) (drop pos l) r' (S (gen v)) (dead v ++ l) count pos a) as (r2 & H);
        [lia|rewrite take_length; lia|]. rewrite take_drop in H. rewrite H.
      eexists. split; [done|]. split; [apply vrep_intro|]. done.
  Qed.

  (** ... and when it is not, the memmove/fill leaves the block *)
  Lemma insert_n_overflow v l pos count a : vrep v l -> pos <= length l -> insert_fits v count = false ->
    vec_insert_n dflt v pos count (Val a) = UB.
  Proof.
    intros Hv Hp Hfit. pose proof (vrep_cap _ _ Hv) as Hc. unfold vec_insert_n, vec_available.
    unfold insert_fits in Hfit. apply orb_false_elim in Hfit as [H1 H2]. apply Nat.leb_gt in H1, H2.
    destruct (realloc_ok v l (count - (length (buf v) - fin v)) Hv) as (r' & He & Hr').
    destruct Hv as (r & Hb & Hf). rewrite (proj2 (Nat.leb_le _ _)) by lia. cbn [negb].
    rewrite (proj2 (Nat.ltb_lt _ _)) by lia. rewrite He. cbn [rbind buf fin gen dead].
    rewrite mcpy_UB; [done|]. rewrite app_length, map_length. lia.
  Qed.
  Lemma insert_n_invalid v l pos count value : vrep v l -> length l < pos ->
    vec_insert_n dflt v pos count value = Ok (v, length l).
  Proof.
    intros (r & Hb & Hf) Hp. unfold vec_insert_n. rewrite (proj2 (Nat.leb_gt _ _)) by lia. cbn. by rewrite Hf.
  Qed.
  Lemma insert_fits_one v : fin v <= length (buf v) -> insert_fits v 1 = true.
  Proof.
    intros H. unfold insert_fits. destruct (Nat.leb_spec 1 (length (buf v) - fin v)); [done|].
    cbn [orb]. apply Nat.leb_le. lia.
  Qed.

  (** ** the other modifiers *)
  Lemma push_back_ok v l a : vrep v l ->
    exists v', vec_push_back v (Val a) = Ok v' /\ vrep v' (l ++ [a]) /\
      (if fin v <? length (buf v)
       then gen v' = gen v /\ dead v' = dead v /\ length (buf v') = length (buf v)
       else gen v' = S (gen v) /\ dead v' = dead v ++ l).
  Proof.
    intros Hv. pose proof (vrep_cap _ _ Hv) as Hc. unfold vec_push_back.
    assert (forall o r g d, exists v', (do x <- arg_get (map Some l ++ o :: r) g (Val a);
       do b <- put (map Some l ++ o :: r) (length l) x; Ok (Vec b (S (length l)) g d)) = Ok v' /\
       vrep v' (l ++ [a]) /\ gen v' = g /\ dead v' = d /\ length (buf v') = length l + S (length r)) as Hput.
    { intros o r g d. cbn [arg_get rbind]. rewrite put_at by (by rewrite map_length). cbn [rbind].
      eexists. split; [done|]. split.
      - exists r. cbn. rewrite map_app, app_length. cbn. split; [by applist|lia].
      - cbn. rewrite app_length, map_length. done. }
    destruct (Nat.ltb_spec (fin v) (length (buf v))) as [Hlt|Hge].
    - rewrite (proj2 (Nat.eqb_neq _ _)) by lia. cbn [rbind]. destruct Hv as (r & Hb & Hf).
      rewrite Hb in Hlt. rewrite app_length, map_length in Hlt. destruct r as [|o r]; [cbn in Hlt; lia|].
      rewrite Hf, Hb. destruct (Hput o r (gen v) (dead v)) as (v' & H & Hr & Hg & Hd & Hl). exists v'.
      split; [exact H|]. split; [done|]. rewrite app_length, map_length. done.
    - rewrite (proj2 (Nat.eqb_eq _ _)) by lia.
      destruct (realloc_ok v l 1 Hv) as (r & He & Hr). rewrite He. cbn [rbind buf fin gen dead].
      destruct r as [|o r]; [cbn in Hr; lia|]. destruct (Hput o r (S (gen v)) (dead v ++ l)) as (v' & H & Hr' & Hg & Hd & Hl).
      exists v'. split; [exact H|]. done.
  Qed.

  Lemma pop_back_ok v l : vrep v l ->
    exists v', vec_pop_back v = Ok v' /\ vrep v' (take (length l - 1) l) /\
      buf v' = buf v /\ gen v' = gen v /\ dead v' = dead v ++ drop (length l - 1) l.
  Proof.
    intros (r & Hb & Hf). unfold vec_pop_back, vec_empty. rewrite Hf.
    destruct l as [|a l _] using rev_ind.
    { cbn. exists v. split; [done|]. split; [by exists r|]. by rewrite app_nil_r. }
    rewrite app_length. cbn [length]. rewrite (proj2 (Nat.eqb_neq _ _)) by lia.
    replace (length l + 1 - 1) with (length l) by lia. rewrite Hb.
    rewrite (get_map _ _ _ a) by (by rewrite list_lookup_middle). cbn [rbind]. eexists. split; [done|].
    rewrite take_app, drop_app. split; [|done]. exists (Some a :: r). cbn. split; [|done].
    rewrite map_app. by applist.
  Qed.

  Lemma clear_ok v l : vrep v l ->
    exists v', vec_clear v = Ok v' /\ vrep v' [] /\ buf v' = buf v /\ gen v' = gen v /\ dead v' = dead v ++ l.
  Proof.
    intros (r & Hb & Hf). unfold vec_clear, vec_empty. destruct (Nat.eqb_spec (fin v) 0) as [E|E].
    - destruct l; [|cbn in Hf; lia]. exists v. split; [done|]. split; [by exists r|]. by rewrite app_nil_r.
    - rewrite Hb, Hf. rewrite (destroys_ok0 l r (length l)) by done. cbn [rbind]. eexists. split; [done|].
      split; [|done]. by exists (map Some l ++ r).
  Qed.

  Lemma erase_range_ok v l i j : vrep v l -> i <= j <= length l ->
    exists v', vec_erase_range v i j = Ok (v', i) /\ vrep v' (seq_delete i j l) /\ gen v' = gen v /\
      length (buf v') = length (buf v) /\ dead v' = dead v ++ take (j - i) (drop i l).
  Proof.
    intros (r & Hb & Hf) Hij. unfold vec_erase_range.
    rewrite !(proj2 (Nat.leb_le _ _)) by lia. rewrite (proj2 (Nat.ltb_ge _ _)) by lia. cbn [negb orb].
    destruct (Nat.eqb_spec i j) as [->|Hne].
    { exists v. split; [done|]. split.
      - unfold seq_delete. rewrite take_drop. by exists r.
      - rewrite Nat.sub_diag. cbn. by rewrite app_nil_r. }
    set (l1 := take i l). set (l2 := take (j - i) (drop i l)). set (l3 := drop j l).
    assert (l = l1 ++ l2 ++ l3) as Hl.
    { unfold l1, l2, l3. rewrite <- (take_drop i l) at 1. f_equal. rewrite <- (take_drop (j - i) (drop i l)) at 1. f_equal.
      rewrite drop_drop. f_equal. lia. }
    assert (length l1 = i) as L1 by (unfold l1; rewrite take_length; lia).
    assert (length l2 = j - i) as L2 by (unfold l2; rewrite take_length, drop_length; lia).
    assert (length l3 = length l - j) as L3 by (unfold l3; rewrite drop_length; lia).
    unfold seq_delete. fold l1 l3. rewrite Hb, Hf. clearbody l1 l2 l3.
    assert (map Some l ++ r = map Some l1 ++ map Some l2 ++ map Some l3 ++ r) as ->.
    { rewrite Hl, !map_app. by applist. }
    rewrite (destroys_ok l2 (map Some l1)) by (rewrite ?map_length; lia). cbn [rbind].
    destruct (move_left (map Some l1) (map Some l2) (map Some l3) r i j (length l - j)) as (junk & Hj & Hm);
      [by rewrite map_length|rewrite !map_length; lia|rewrite map_length; lia|].
    rewrite Hm. cbn [rbind]. eexists. split; [done|]. split.
    - exists (junk ++ r). cbn. rewrite map_app, app_length. split; [by applist|lia].
    - cbn. rewrite map_length in Hj. rewrite !app_length, !map_length. split; [done|]. split; [lia|done].
  Qed.
  Lemma erase_range_invalid v l i j : vrep v l -> ~ (i <= j <= length l) ->
    vec_erase_range v i j = Ok (v, length l).
  Proof.
    intros (r & Hb & Hf) H. unfold vec_erase_range. rewrite Hf.
    destruct (Nat.leb_spec i (length l)); cbn [negb orb]; [|done].
    destruct (Nat.leb_spec j (length l)); cbn [negb orb]; [|done].
    destruct (Nat.ltb_spec j i); [done|lia].
  Qed.
  Lemma erase_ok v l i x : vrep v l -> l !! i = Some x ->
    exists v', vec_erase v i = Ok (v', i) /\ vrep v' (seq_delete i (S i) l) /\ gen v' = gen v /\
      length (buf v') = length (buf v) /\ dead v' = dead v ++ [x].
  Proof.
    intros Hv Hi. pose proof (lookup_lt_Some _ _ _ Hi) as Hlt.
    destruct (erase_range_ok v l i (S i) Hv) as (v' & H & Hr & Hg & Hl & Hd); [lia|].
    exists v'. split.
    - destruct Hv as (r & Hb & Hf). revert H. unfold vec_erase, vec_erase_range.
      rewrite !(proj2 (Nat.leb_le _ _)) by lia. rewrite (proj2 (Nat.ltb_ge _ _)) by lia.
      rewrite (proj2 (Nat.eqb_neq i (S i))) by lia. rewrite (proj2 (Nat.eqb_neq i (fin v))) by lia. cbn [negb orb].
      replace (S i - i) with 1 by lia. cbn [destroys].
      rewrite Hb. rewrite (get_map _ _ _ x Hi). cbn [rbind]. done.
    - split; [done|]. split; [done|]. split; [done|]. rewrite Hd. f_equal.
      replace (S i - i) with 1 by lia. rewrite (drop_S _ _ _ Hi). done.
  Qed.
  Lemma erase_invalid v l i : vrep v l -> length l <= i -> vec_erase v i = Ok (v, length l).
  Proof.
    intros (r & Hb & Hf) H. unfold vec_erase. rewrite Hf.
    destruct (Nat.leb_spec i (length l)); cbn [negb orb]; [|done].
    by rewrite (proj2 (Nat.eqb_eq _ _)) by lia.
  Qed.

  Lemma resize_ok v l n value a : vrep v l -> val_of value = Some a ->
    exists v', vec_resize_with_value dflt v n value = Ok v' /\ vrep v' (seq_resize n a l) /\
      (if n <=? length (buf v)
       then gen v' = gen v /\ dead v' = dead v ++ drop n l /\ length (buf v') = length (buf v)
       else gen v' = S (gen v) /\ dead v' = dead v ++ l /\
            length (buf v') = (length (buf v) * 2) `max` n).
  Proof.
    intros Hv Ha. pose proof (vrep_cap _ _ Hv) as Hc. unfold vec_resize_with_value, vec_size, vec_available, seq_resize.
    destruct (Nat.ltb_spec (fin v) n) as [Hlt|Hge].
    - assert (fin v = length l) as Hf0 by (destruct Hv as (? & ? & ?); done).
      rewrite (take_ge l) by lia.
      assert (forall r g d, n - length l <= length r -> exists v', (do b <- fill dflt g (n - length l) (map Some l ++ r) (length l) value;
         Ok (Vec b (length l + (n - length l)) g d)) = Ok v' /\ vrep v' (l ++ replicate (n - length l) a) /\
         gen v' = g /\ dead v' = d /\ length (buf v') = length l + length r) as Hfill.
      { intros r g d Hr. pose proof (fill_n_ok dflt g a value (n - length l) (take (n - length l) r) (map Some l)
          (drop (n - length l) r) (length l)) as Hfo.
        rewrite take_drop in Hfo. rewrite Hfo;
          [|by apply val_of_ok|by rewrite map_length|rewrite take_length; lia]. cbn [rbind].
        eexists. split; [done|]. split.
        - exists (drop (n - length l) r). cbn. rewrite map_app, map_replicate, app_length, replicate_length.
          split; [by applist|done].
        - cbn. rewrite !app_length, map_length, replicate_length, drop_length. repeat split; lia. }
      destruct (Nat.leb_spec n (length (buf v))) as [Hn|Hn].
      + rewrite (proj2 (Nat.ltb_ge _ _)) by lia. cbn [rbind]. destruct Hv as (r & Hb & Hf).
        assert (length r = length (buf v) - length l) as Hlr by (rewrite Hb, app_length, map_length; lia).
        destruct (Hfill r (gen v) (dead v)) as (v' & H & Hr & Hg & Hd & Hl); [lia|].
        exists v'. rewrite Hf. rewrite Hb at 1. split; [exact H|]. split; [done|]. split; [done|].
        rewrite drop_ge by lia. rewrite app_nil_r. split; [done|]. lia.
      + rewrite (proj2 (Nat.ltb_lt _ _)) by lia.
        destruct (realloc_ok v l (n - fin v) Hv) as (r & He & Hr). rewrite He. cbn [rbind buf fin gen dead].
        rewrite Hf0. destruct (Hfill r (S (gen v)) (dead v ++ l)) as (v' & H & Hr' & Hg & Hd & Hl); [lia|].
        exists v'. split; [exact H|]. split; [done|]. split; [done|]. split; [done|]. lia.
    - destruct Hv as (r & Hb & Hf). rewrite (proj2 (Nat.leb_le _ _)) by lia. rewrite Hf.
      pose proof (destroys_ok (drop n l) (map Some (take n l)) r n (length l - n)) as Hde.
      rewrite app_assoc, <- map_app, take_drop, <- Hb in Hde. rewrite Hde;
        [|rewrite map_length, take_length; lia|rewrite drop_length; lia]. cbn [rbind]. eexists. split; [done|].
      replace (n - length l) with 0 by lia. cbn [replicate]. rewrite app_nil_r. split; [|done].
      exists (map Some (drop n l) ++ r). cbn. rewrite take_length. split; [|lia].
      rewrite Hb. rewrite <- (take_drop n l) at 1. rewrite map_app. by applist.
  Qed.

  Lemma shrink_ok v l : vrep v l ->
    exists v', vec_shrink_to_fit v = Ok v' /\ vrep v' l /\ length (buf v') = length l /\
      dead v' = dead v ++ (if fin v =? length (buf v) then [] else l).
  Proof.
    intros (r & Hb & Hf). unfold vec_shrink_to_fit. rewrite Nat.eqb_sym.
    destruct (Nat.eqb_spec (fin v) (length (buf v))) as [E|E].
    { exists v. split; [done|]. split; [by exists r|]. split; [lia|by rewrite app_nil_r]. }
    destruct (Nat.eqb_spec (fin v) 0) as [E0|E0].
    { destruct l; [|cbn in Hf; lia]. eexists. split; [done|]. split; [by exists []|]. by rewrite app_nil_r. }
    rewrite Hb, Hf. replace (raw (length l)) with (raw (length l) ++ [] : list (option A)) by (by rewrite app_nil_r).
    rewrite (mcpy_seg0 (raw (length l)) [] (map Some l) r (length l)) by (rewrite ?raw_length, ?map_length; done).
    cbn [rbind app]. rewrite (destroys_ok0 l r (length l)) by done. cbn [rbind]. eexists. split; [done|].
    split; [by exists []|]. cbn. rewrite app_nil_r, map_length. done.
  Qed.

  (** ** histories *)
  Lemma step_ok v l o : vrep v l -> exists v', vec_step dflt v o = Ok v' /\ vrep v' (vec_spec dflt l o).
  Proof.
    intros Hv. pose proof (vrep_cap _ _ Hv) as Hc. destruct o as [a| |i a|i|i j| |n|n a|]; cbn [vec_step vec_spec].
    - destruct (push_back_ok v l a Hv) as (v' & ? & ? & _). eauto.
    - destruct (pop_back_ok v l Hv) as (v' & ? & ? & _). eauto.
    - unfold vec_insert. destruct (Nat.leb_spec i (length l)) as [H|H].
      + destruct (insert_n_ok v l i 1 a Hv H (insert_fits_one _ Hc)) as (v' & -> & Hr & _). eauto.
      + rewrite (insert_n_invalid _ _ _ _ _ Hv) by done. eauto.
    - destruct (decide (i < length l)) as [H|H].
      + destruct (lookup_lt_is_Some_2 l i H) as [x Hx].
        destruct (erase_ok v l i x Hv Hx) as (v' & -> & Hr & _). eauto.
      + rewrite (erase_invalid _ _ _ Hv) by lia. cbn. exists v. split; [done|]. unfold seq_delete.
        rewrite take_ge, drop_ge by lia. by rewrite app_nil_r.
    - destruct ((i <=? j) && (j <=? length l)) eqn:E.
      + apply andb_prop in E as [E1 E2]. apply Nat.leb_le in E1, E2.
        destruct (erase_range_ok v l i j Hv) as (v' & -> & Hr & _); [lia|]. eauto.
      + rewrite (erase_range_invalid _ _ _ _ Hv); [eauto|]. intros [H1 H2].
        apply Nat.leb_le in H1, H2. rewrite H1, H2 in E. done.
    - destruct (clear_ok v l Hv) as (v' & ? & ? & _). eauto.
    - destruct (resize_ok v l n None dflt Hv) as (v' & ? & ? & _); [done|]. eauto.
    - destruct (resize_ok v l n (Some (Val a)) a Hv) as (v' & ? & ? & _); [done|]. eauto.
    - destruct (shrink_ok v l Hv) as (v' & ? & ? & _). eauto.
  Qed.
  Lemma run_ok os : forall v l, vrep v l ->
    exists v', vec_run dflt v os = Ok v' /\ vrep v' (fold_left (vec_spec dflt) os l).
  Proof.
    induction os as [|o os IH]; intros v l Hv; [cbn; eauto|]. cbn [vec_run fold_left].
    destruct (step_ok v l o Hv) as (v1 & -> & H1). cbn [rbind]. by apply IH.
  Qed.
  Lemma create_ok : vrep vec_create ([] : list A).
  Proof. by exists []. Qed.

  (** ** copies *)
  Lemma reserve_ok v l n : vrep v l ->
    exists v', vec_reserve dflt v n = Ok v' /\
      vrep v' (if n <=? length (buf v) then l else l ++ replicate (n - length l) dflt) /\
      n <= length (buf v') /\ (if n <=? length (buf v) then v' = v else length (buf v') = (length (buf v) * 2) `max` n /\
         dead v' = dead v ++ l).
  Proof.
    intros Hv. pose proof (vrep_cap _ _ Hv) as Hc. unfold vec_reserve, vec_capacity.
    destruct (Nat.leb_spec n (length (buf v))) as [H|H].
    - exists v. split; [done|]. split; [done|]. split; [lia|done].
    - destruct (resize_ok v l n None dflt Hv) as (v' & Hr & Hrep & Hg); [done|]. exists v'. split; [exact Hr|].
      rewrite (proj2 (Nat.leb_gt _ _)) in Hg by lia. destruct Hg as (? & ? & ?).
      unfold seq_resize in Hrep. assert (fin v = length l) by (destruct Hv as (? & ? & ?); done).
      rewrite take_ge in Hrep by lia. split; [done|]. split; [lia|]. split; [done|]. done.
  Qed.

  Lemma drop_padded n k (r : list (option A)) : n <= k -> drop n (map Some (replicate k dflt) ++ r) = map Some (replicate (k - n) dflt) ++ r.
  Proof.
    intros H. replace k with (n + (k - n)) at 1 by lia. rewrite replicate_add, map_app, <- app_assoc.
    rewrite drop_app_ge by (rewrite map_length, replicate_length; lia).
    rewrite map_length, replicate_length, Nat.sub_diag. by rewrite drop_0.
  Qed.
  (** reserving in an empty vector, then copying another's elements over it *)
  Lemma reserve_then_copy v o l : vrep v [] -> vrep o l ->
    exists v', (do v2 <- vec_reserve dflt v (vec_capacity o);
      do b <- mcpy (buf v2) 0 (buf o) 0 (vec_size o);
      Ok (Vec b (fin v2) (gen v2) (dead v2))) = Ok v' /\
      vrep v' (if length (buf o) <=? length (buf v) then [] else l ++ replicate (length (buf o) - length l) dflt) /\
      dead v' = dead v.
  Proof.
    intros Hv Ho. pose proof (vrep_cap _ _ Ho) as Hc. unfold vec_size, vec_capacity.
    destruct (reserve_ok v [] (length (buf o)) Hv) as (v1 & He & Hrep & Hn & Hx).
    rewrite He. cbn [rbind]. destruct Ho as (r & Hb & Hf). rewrite Hf, Hb in *. rewrite app_length, map_length in *.
    rewrite mcpy_prefix by (rewrite ?map_length; lia). cbn [rbind]. eexists. split; [done|].
    destruct (Nat.leb_spec (length l + length r) (length (buf v))) as [H|H].
    - subst v1. destruct Hv as (r1 & Hb1 & Hf1). split; [|done]. eexists. split; [done|]. cbn. by rewrite Hf1.
    - destruct Hx as [Hx Hd]. split; [|by rewrite app_nil_r in Hd]. destruct Hrep as (r1 & Hb1 & Hf1).
      cbn [app length] in *. rewrite Nat.sub_0_r in *. rewrite Hb1, drop_padded by lia.
      exists r1. cbn. rewrite map_app. split; [by applist|]. rewrite Hf1, app_length, !replicate_length. lia.
  Qed.

  Lemma copy_ok v l : vrep v l ->
    exists v', vec_copy dflt v = Ok v' /\ vrep v' (l ++ replicate (length (buf v) - length l) dflt) /\ dead v' = [].
  Proof.
    intros Hv. pose proof (vrep_cap _ _ Hv) as Hc.
    destruct (reserve_then_copy vec_create v l create_ok Hv) as (v' & He & Hr & Hd). exists v'.
    split; [exact He|]. split; [|done]. cbn [vec_create buf length] in Hr.
    destruct (Nat.leb_spec (length (buf v)) 0) as [H|H]; [|done].
    destruct Hv as (r & Hb & Hf). destruct l; [|cbn in *; lia]. replace (length (buf v)) with 0 by lia. done.
  Qed.
  Lemma assign_ok self ls other lo : vrep self ls -> vrep other lo ->
    exists v', vec_assign dflt self other = Ok v' /\
      vrep v' (if length (buf other) <=? length (buf self) then []
               else lo ++ replicate (length (buf other) - length lo) dflt) /\
      dead v' = dead self ++ ls.
  Proof.
    intros Hs Ho. unfold vec_assign. destruct (clear_ok self ls Hs) as (v1 & -> & H1 & Hb & Hg & Hd). cbn [rbind].
    destruct (reserve_then_copy v1 other lo H1 Ho) as (v' & He & Hr & Hd'). rewrite Hb in Hr.
    exists v'. split; [exact He|]. split; [exact Hr|]. by rewrite Hd', Hd.
  Qed.
  Lemma create_from_array_ok l : l <> [] ->
    exists v, vec_create_from_array dflt l = Ok (Some v) /\ vrep v l.
  Proof.
    intros Hl. unfold vec_create_from_array. rewrite (proj2 (Nat.eqb_neq _ _)) by (destruct l; [done|cbn; lia]).
    assert (vrep (Vec (map Some l) (length l) 0 []) l) as Ho by (exists []; cbn; by rewrite app_nil_r).
    destruct (reserve_then_copy vec_create _ l create_ok Ho) as (v' & He & Hr & Hd).
    unfold vec_capacity, vec_size in He. cbn [buf fin] in He, Hr. rewrite map_length in He, Hr.
    apply rbind_Ok in He as (v2 & H2 & He). apply rbind_Ok in He as (b & Hb & He). injection He as <-.
    rewrite H2. cbn [rbind]. rewrite Hb. cbn [rbind]. eexists. split; [done|].
    cbn [vec_create buf length] in Hr. destruct l; [done|]. cbn [length Nat.leb] in Hr.
    rewrite Nat.sub_diag in Hr. cbn [replicate] in Hr. by rewrite app_nil_r in Hr.
  Qed.
  Lemma create_n_ok n a : 0 < n -> exists v, vec_create_n dflt n a = Ok (Some v) /\ vrep v (replicate n a).
  Proof.
    intros Hn. unfold vec_create_n. rewrite (proj2 (Nat.eqb_neq _ _)) by lia.
    destruct (resize_ok vec_create [] n (Some (Val a)) a create_ok) as (v & -> & Hr & _); [done|].
    eexists. split; [done|]. unfold seq_resize in Hr. rewrite take_nil, Nat.sub_0_r in Hr. done.
  Qed.

  (** ** a value argument that points into the vector itself *)
  Lemma push_back_own v l i x : vrep v l -> l !! i = Some x ->
    vec_push_back v (Own (gen v) i) =
      if fin v <? length (buf v) then vec_push_back v (Val x) else UB.
  Proof.
    intros Hv Hi. pose proof (vrep_cap _ _ Hv) as Hc. unfold vec_push_back.
    destruct (Nat.ltb_spec (fin v) (length (buf v))) as [H|H].
    - rewrite (proj2 (Nat.eqb_neq _ _)) by lia. cbn [rbind arg_get]. rewrite Nat.eqb_refl.
      destruct Hv as (r & Hb & Hf). rewrite Hb. by rewrite (get_map _ _ _ x).
    - rewrite (proj2 (Nat.eqb_eq _ _)) by lia. destruct (realloc_ok v l 1 Hv) as (r & -> & _).
      cbn [rbind arg_get gen]. by rewrite (proj2 (Nat.eqb_neq _ _)) by lia.
  Qed.
  Lemma mcpy_shift1 (p s : list (option A)) o r :
    mcpy (p ++ s ++ o :: r) (length p + 1) (p ++ s ++ o :: r) (length p) (length s)
    = Ok (p ++ take 1 (s ++ [o]) ++ s ++ r).
  Proof.
    rewrite mcpy_eq by (rewrite !app_length; cbn [length]; lia). f_equal.
    rewrite slice_app. unfold patch.
    rewrite take_app_ge by lia. replace (length p + 1 - length p) with 1 by lia.
    applist. f_equal. rewrite drop_app_ge by lia.
    replace (length p + 1 + length s - length p) with (length s + 1) by lia.
    rewrite drop_app_ge by lia. replace (length s + 1 - length s) with 1 by lia.
    cbn [drop]. f_equal. destruct s; done.
  Qed.
  Lemma insert_own v l pos i x : vrep v l -> l !! i = Some x -> pos <= length l ->
    vec_insert dflt v pos (Own (gen v) i) =
      if fin v <? length (buf v)
      then match (if i <=? pos then l !! i else l !! (i - 1)) with
           | Some y => vec_insert dflt v pos (Val y) | None => UB end
      else UB.
  Proof.
    intros Hv Hi Hp. pose proof (vrep_cap _ _ Hv) as Hc. unfold vec_insert, vec_insert_n, vec_available.
    pose proof (lookup_lt_Some _ _ _ Hi) as Hil.
    assert (fin v = length l) as Hf by (destruct Hv as (? & ? & ?); done).
    rewrite (proj2 (Nat.leb_le pos _)) by lia. cbn [negb].
    destruct (Nat.ltb_spec (fin v) (length (buf v))) as [H|H].
    - rewrite (proj2 (Nat.ltb_ge _ _)) by lia. cbn [rbind].
      destruct Hv as (r & Hb & _).
      assert (exists o r', r = o :: r') as (o & r' & ->).
      { rewrite Hb, app_length, map_length in H. destruct r as [|o r']; [cbn in H; lia|eauto]. }
      rewrite Hf, Hb.
      assert (length (take pos l) = pos) as Lt by (rewrite take_length; lia).
      (* the block after the memmove *)
      assert (mcpy (map Some l ++ o :: r') (pos + 1) (map Some l ++ o :: r') pos (length l - pos)
        = Ok (map Some (take pos l) ++ take 1 (map Some (drop pos l) ++ [o]) ++ map Some (drop pos l) ++ r')) as Hm.
      { pose proof (mcpy_shift1 (map Some (take pos l)) (map Some (drop pos l)) o r') as E.
        rewrite app_assoc, <- map_app, take_drop, !map_length, Lt, drop_length in E. done. }
      rewrite Hm. cbn [rbind fill arg_get]. rewrite Nat.eqb_refl.
      set (j := if i <=? pos then i else i - 1).
      assert (exists y, l !! j = Some y /\ get (map Some (take pos l) ++ take 1 (map Some (drop pos l) ++ [o]) ++ map Some (drop pos l) ++ r') i = Ok y) as (y & Hy & Hg).
      { subst j. destruct (Nat.leb_spec i pos) as [Hle|Hgt].
        - exists x. split; [done|]. destruct (decide (i < pos)) as [Hlt|Hge].
          + apply get_map. by rewrite lookup_take.
          + assert (i = pos) as -> by lia. rewrite (drop_S _ _ _ Hi). cbn [map app take]. apply get_at. by rewrite map_length.
        - destruct (lookup_lt_is_Some_2 l (i - 1)) as [y Hy]; [lia|]. exists y. split; [done|].
          rewrite app_assoc. apply (get_seg _ (drop pos l) r' (i - 1 - pos)).
          + rewrite app_length, map_length, take_length, take_length, app_length. cbn [length]. lia.
          + rewrite lookup_drop. rewrite <- Hy. f_equal. lia. }
      rewrite Hg. subst j. destruct (i <=? pos); rewrite Hy; done.
    - rewrite (proj2 (Nat.ltb_lt _ _)) by lia. destruct (realloc_ok v l (1 - (length (buf v) - fin v)) Hv) as (r & -> & Hr).
      cbn [rbind buf fin gen dead]. 
      destruct (move_right (map Some (take pos l)) (map Some (drop pos l)) r 1 pos (length l - pos)) as (junk & Hj & Hm);
        [rewrite map_length, take_length; lia|rewrite map_length, drop_length; lia|lia|].
      rewrite app_assoc, <- map_app, take_drop in Hm. rewrite Hm. cbn [rbind fill arg_get].
      by rewrite (proj2 (Nat.eqb_neq _ _)) by lia.
  Qed.

  (** ** which elements are destroyed *)
  Lemma seq_delete_perm i j l : i <= j -> seq_delete i j l ++ take (j - i) (drop i l) ≡ₚ l.
  Proof.
    intros H. unfold seq_delete. rewrite <- app_assoc. rewrite <- (take_drop i l) at 4. f_equiv.
    rewrite Permutation_app_comm. transitivity (take (j - i) (drop i l) ++ drop (j - i) (drop i l)); [|by rewrite take_drop].
    rewrite drop_drop. by replace (i + (j - i)) with j by lia.
  Qed.
  Lemma seq_insert_perm i x l : seq_insert i x l ≡ₚ l ++ x.
  Proof.
    unfold seq_insert. rewrite <- (take_drop i l) at 3. rewrite <- app_assoc. f_equiv. apply Permutation_app_comm.
  Qed.
  Lemma perm_mid (d l x : list A) : (d ++ l) ++ x ≡ₚ d ++ x ++ l.
  Proof. rewrite <- app_assoc. f_equiv. apply Permutation_app_comm. Qed.
  Lemma shrink_gen v l v' : vrep v l -> vec_shrink_to_fit v = Ok v' ->
    if fin v =? length (buf v) then v' = v else gen v' = S (gen v).
  Proof.
    intros Hv. unfold vec_shrink_to_fit. rewrite (Nat.eqb_sym (length _)).
    destruct (fin v =? length (buf v)); [by intros [= <-]|].
    destruct (fin v =? 0); [by intros [= <-]|].
    intros H. apply rbind_Ok in H as (b & _ & H). apply rbind_Ok in H as (ds & _ & H). by injection H as <-.
  Qed.
  (** everything added is destroyed or still there; a reallocation destroys the whole contents on top *)
  Lemma step_dead v l o v' : vrep v l -> vec_step dflt v o = Ok v' ->
    gen v <= gen v' /\
    dead v' ++ vec_spec dflt l o ≡ₚ
      dead v ++ l ++ vec_added dflt l o ++ (if gen v' =? gen v then [] else l).
  Proof.
    intros Hv Hst. pose proof (vrep_cap _ _ Hv) as Hc.
    assert (fin v = length l) as Hf by (destruct Hv as (? & ? & ?); done).
    assert (forall d : list A, d = dead v -> gen v' = gen v -> forall x y, vec_spec dflt l o ++ x ≡ₚ l ++ y ->
      vec_added dflt l o = y -> dead v' = d ++ x ->
      gen v <= gen v' /\ dead v' ++ vec_spec dflt l o ≡ₚ
      dead v ++ l ++ vec_added dflt l o ++ (if gen v' =? gen v then [] else l)) as Hsame.
    { intros d -> Hg x y Hp Ha Hd. split; [lia|]. rewrite Hg, Nat.eqb_refl, app_nil_r, Hd, Ha, <- Hp.
      rewrite <- app_assoc. f_equiv. apply Permutation_app_comm. }
    assert (gen v' = S (gen v) -> dead v' = dead v ++ l -> vec_spec dflt l o ≡ₚ l ++ vec_added dflt l o ->
      gen v <= gen v' /\ dead v' ++ vec_spec dflt l o ≡ₚ
      dead v ++ l ++ vec_added dflt l o ++ (if gen v' =? gen v then [] else l)) as Hnew.
    { intros Hg Hd Hp. split; [lia|]. rewrite Hg, (proj2 (Nat.eqb_neq _ _)) by lia. rewrite Hd, Hp.
      rewrite <- app_assoc. f_equiv. f_equiv. apply Permutation_app_comm. }
    destruct o as [a| |i a|i|i j| |n|n a|]; cbn [vec_step vec_spec vec_added] in *.
    - destruct (push_back_ok v l a Hv) as (v1 & E & _ & H). rewrite E in Hst. injection Hst as ->.
      destruct (fin v <? length (buf v)).
      + destruct H as (Hg & Hd & _). eapply (Hsame _ eq_refl Hg [] [a]); [by rewrite app_nil_r|done|by rewrite app_nil_r].
      + destruct H as (Hg & Hd). by apply Hnew.
    - destruct (pop_back_ok v l Hv) as (v1 & E & _ & _ & Hg & Hd). rewrite E in Hst. injection Hst as ->.
      eapply (Hsame _ eq_refl Hg _ []); [by rewrite take_drop, app_nil_r|done|exact Hd].
    - unfold vec_insert in Hst. destruct (Nat.leb_spec i (length l)) as [Hi|Hi].
      + destruct (insert_n_ok v l i 1 a Hv Hi (insert_fits_one v Hc)) as (v1 & E & _ & H).
        rewrite E in Hst. injection Hst as ->. destruct (1 <=? length (buf v) - fin v).
        * destruct H as (Hg & Hd & _). eapply (Hsame _ eq_refl Hg [] [a]); [|done|by rewrite app_nil_r].
          rewrite app_nil_r. apply seq_insert_perm.
        * destruct H as (Hg & Hd). apply Hnew; [done|done|]. apply seq_insert_perm.
      + rewrite (insert_n_invalid v l) in Hst by done. injection Hst as <-.
        eapply (Hsame _ eq_refl eq_refl [] []); [done|done|by rewrite app_nil_r].
    - destruct (l !! i) as [x|] eqn:Ei.
      + destruct (erase_ok v l i x Hv Ei) as (v1 & E & _ & Hg & _ & Hd). rewrite E in Hst. injection Hst as ->.
        eapply (Hsame _ eq_refl Hg [x] []); [|done|done]. rewrite app_nil_r.
        pose proof (seq_delete_perm i (S i) l ltac:(lia)) as Hp. replace (S i - i) with 1 in Hp by lia.
        rewrite (drop_S _ _ _ Ei) in Hp. cbn [take] in Hp. by rewrite take_0 in Hp.
      + apply lookup_ge_None in Ei. rewrite (erase_invalid v l) in Hst by done. injection Hst as <-.
        eapply (Hsame _ eq_refl eq_refl [] []); [|done|by rewrite app_nil_r].
        unfold seq_delete. rewrite take_ge, drop_ge by lia. by rewrite !app_nil_r.
    - destruct (decide (i <= j <= length l)) as [H|H].
      + rewrite !(proj2 (Nat.leb_le _ _)) in Hsame by lia. cbn [andb] in Hsame.
        destruct (erase_range_ok v l i j Hv H) as (v1 & E & _ & Hg & _ & Hd). rewrite E in Hst. injection Hst as ->.
        rewrite !(proj2 (Nat.leb_le _ _)) by lia. cbn [andb].
        eapply (Hsame _ eq_refl Hg _ []); [|done|exact Hd]. rewrite app_nil_r. apply seq_delete_perm. lia.
      + rewrite (erase_range_invalid v l) in Hst by done. injection Hst as <-.
        assert ((i <=? j) && (j <=? length l) = false) as E
          by (destruct (Nat.leb_spec i j), (Nat.leb_spec j (length l)); cbn; try done; lia).
        rewrite E in *. eapply (Hsame _ eq_refl eq_refl [] []); [done|done|by rewrite app_nil_r].
    - destruct (clear_ok v l Hv) as (v1 & E & _ & _ & Hg & Hd). rewrite E in Hst. injection Hst as ->.
      eapply (Hsame _ eq_refl Hg l []); [by rewrite app_nil_r|done|done].
    - destruct (resize_ok v l n None dflt Hv) as (v1 & E & _ & H); [done|]. unfold vec_resize in Hst.
      rewrite E in Hst. injection Hst as ->. destruct (Nat.leb_spec n (length (buf v))) as [Hn|Hn].
      + destruct H as (Hg & Hd & _). eapply (Hsame _ eq_refl Hg _ _); [|reflexivity|exact Hd].
        unfold seq_resize. rewrite <- app_assoc. transitivity ((take n l ++ drop n l) ++ replicate (n - length l) dflt); [|by rewrite take_drop]. rewrite <- app_assoc. f_equiv.
        apply Permutation_app_comm.
      + destruct H as (Hg & Hd & _). apply Hnew; [done|done|]. unfold seq_resize. by rewrite take_ge by lia.
    - destruct (resize_ok v l n (Some (Val a)) a Hv) as (v1 & E & _ & H); [done|].
      rewrite E in Hst. injection Hst as ->. destruct (Nat.leb_spec n (length (buf v))) as [Hn|Hn].
      + destruct H as (Hg & Hd & _). eapply (Hsame _ eq_refl Hg _ _); [|reflexivity|exact Hd].
        unfold seq_resize. rewrite <- app_assoc. transitivity ((take n l ++ drop n l) ++ replicate (n - length l) a); [|by rewrite take_drop]. rewrite <- app_assoc. f_equiv.
        apply Permutation_app_comm.
      + destruct H as (Hg & Hd & _). apply Hnew; [done|done|]. unfold seq_resize. by rewrite take_ge by lia.
    - pose proof (shrink_gen v l v' Hv Hst) as Hg. destruct (shrink_ok v l Hv) as (v1 & E & _ & _ & Hd).
      rewrite E in Hst. injection Hst as ->. destruct (fin v =? length (buf v)).
      + subst v'. eapply (Hsame _ eq_refl eq_refl [] []); [done|done|by rewrite app_nil_r].
      + apply Hnew; [done|done|]. by rewrite app_nil_r.
  Qed.
  Lemma run_dead os : forall v l v', vrep v l -> vec_run dflt v os = Ok v' ->
    gen v <= gen v' /\ (gen v' = gen v ->
    dead v' ++ fold_left (vec_spec dflt) os l ≡ₚ dead v ++ l ++ vec_all_added dflt l os).
  Proof.
    induction os as [|o os IH]; intros v l v' Hv Hr; cbn [vec_run fold_left vec_all_added] in *.
    - injection Hr as <-. rewrite app_nil_r. done.
    - apply rbind_Ok in Hr as (v1 & H1 & Hr). destruct (step_ok v l o Hv) as (v1' & H1' & Hv1).
      rewrite H1 in H1'. injection H1' as <-. destruct (step_dead v l o v1 Hv H1) as [Hg Hd].
      destruct (IH _ _ _ Hv1 Hr) as [Hg2 Hd2]. split; [lia|]. intros E.
      rewrite Hd2 by lia. rewrite app_assoc, Hd. rewrite (proj2 (Nat.eqb_eq (gen v1) (gen v))) by lia.
      rewrite app_nil_r. by rewrite <- !app_assoc.
  Qed.
End vector.
