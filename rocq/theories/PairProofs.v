(** PairProofs.v — proofs about Pair.v. *)
From Verif Require Import Base Spec SpecPair DList Pair Facts.
From stdpp Require Import list gmap fin_maps fin_map_dom.
Local Notation ptr := (option loc).

Section lexfacts.
  Context {A B : Type} (lt1 : A -> A -> bool) (lt2 : B -> B -> bool) (H1 : StrictWeakOrder lt1) (H2 : StrictWeakOrder lt2).
  Lemma lex_swo : StrictWeakOrder (lex lt1 lt2).
  Proof.
    destruct H1 as [I1 T1 N1], H2 as [I2 T2 N2]. split.
    - intros [a b]. unfold lex. cbn. by rewrite I1, I2.
    - intros [a b] [c d] [e f]. unfold lex. cbn. intros P Q.
      destruct (lt1 a c) eqn:E1; destruct (lt1 c e) eqn:E2.
      + by rewrite (T1 a c e).
      + destruct (lt1 e c) eqn:E3; [done|]. rewrite (swo_lt_le_trans lt1 H1 a c e) by done. done.
      + destruct (lt1 c a) eqn:E3; [done|]. rewrite (swo_le_lt_trans lt1 H1 a c e) by done. done.
      + destruct (lt1 c a) eqn:E3; [done|]. destruct (lt1 e c) eqn:E4; [done|].
        rewrite (N1 a c e), (N1 e c a) by done. by rewrite (T2 b d f).
    - intros [a b] [c d] [e f]. unfold lex. cbn. intros P Q R S.
      destruct (lt1 a c) eqn:E1; [done|]. destruct (lt1 c a) eqn:E2; [done|]. destruct (lt1 c e) eqn:E3; [done|]. destruct (lt1 e c) eqn:E4; [done|].
      rewrite (N1 a c e), (N1 e c a) by done. by rewrite (N2 b d f).
  Qed.
End lexfacts.

Section pair.
  Context {A : Type} (alloc : gmap loc (option A) -> option loc) (Hf : palloc_fresh alloc) (t1 t2 : tinfo A).
  Notation cells := (gmap loc (option A)).
  (** a live pair: where its components are, and their values *)
  Notation lp := ((loc * loc) * (A * A))%type.
  Implicit Types (m : cells) (L : list lp) (a : lp).
  Definition push a m : cells := <[a.1.1 := Some a.2.1]> (<[a.1.2 := Some a.2.2]> m).
  Definition acells L : list (loc * option A) := concat (map (fun a => [(a.1.1, Some a.2.1); (a.1.2, Some a.2.2)]) L).
  Definition blk a : pblock A := PBlock (Some t1) (Some t2) (Some a.1.1) (Some a.1.2).
  Definition world m L : Prop := NoDup (acells L).*1 /\ m = list_to_map (acells L).
  Definition apart a m : Prop := a.1.1 <> a.1.2 /\ m !! a.1.1 = None /\ m !! a.1.2 = None.

  Lemma acells_app L L' : acells (L ++ L') = acells L ++ acells L'.
  Proof. unfold acells. by rewrite map_app, concat_app. Qed.
  Lemma acells_perm L L' : L ≡ₚ L' -> acells L ≡ₚ acells L'.
  Proof.
    unfold acells. induction 1 as [|a L L' _ IH|a b L|L1 L2 L3 _ IH1 _ IH2]; cbn [map concat app]; [done| | |by etrans].
    - by rewrite IH.
    - solve_Permutation.
  Qed.
  Lemma world_perm m L L' : L ≡ₚ L' -> world m L -> world m L'.
  Proof.
    intros HP [HN ->]. pose proof (acells_perm _ _ HP) as HQ. split; [by rewrite <- HQ|]. by apply list_to_map_proper.
  Qed.
  Lemma world_cons m L a : world m L -> apart a m -> world (push a m) (a :: L).
  Proof.
    intros [HN ->] (Hne&H1&H2). unfold world. change (acells (a :: L)) with ((a.1.1, Some a.2.1) :: (a.1.2, Some a.2.2) :: acells L).
    apply not_elem_of_list_to_map in H1, H2. split; [|done]. cbn [fmap list_fmap fst]. apply NoDup_cons. split; [|by apply NoDup_cons].
    apply not_elem_of_cons. done.
  Qed.
  Lemma world_uncons m L a : world m (a :: L) -> exists m', m = push a m' /\ apart a m' /\ world m' L.
  Proof.
    intros [HN ->]. change (acells (a :: L)) with ((a.1.1, Some a.2.1) :: (a.1.2, Some a.2.2) :: acells L) in *.
    cbn [fmap list_fmap fst] in HN. apply NoDup_cons in HN as [N1 HN]. apply NoDup_cons in HN as [N2 HN].
    apply not_elem_of_cons in N1 as [N0 N1]. exists (list_to_map (acells L)). split; [done|]. split; [|done].
    split; [done|]. split; by apply not_elem_of_list_to_map.
  Qed.
  Lemma world_app m L a : world m L -> apart a m -> world (push a m) (L ++ [a]).
  Proof. intros HW HA. eapply world_perm; [apply Permutation_cons_append|by apply world_cons]. Qed.
  Lemma focus m L i a : world m L -> L !! i = Some a -> exists m', m = push a m' /\ apart a m' /\ world m' (delete i L) /\
    forall u v, world (push (a.1, (u, v)) m') (<[i := (a.1, (u, v))]> L).
  Proof.
    intros HW Hi. assert (L ≡ₚ a :: delete i L) as HP by by apply delete_Permutation.
    destruct (world_uncons _ _ _ (world_perm _ _ _ HP HW)) as (m'&->&HA&HW'). exists m'. split; [done|]. split; [done|]. split; [done|].
    intros u v. eapply (world_perm _ ((a.1, (u, v)) :: delete i L)); [|apply world_cons; [done|]].
    - symmetry. apply lookup_lt_Some in Hi as Hl. rewrite (delete_Permutation (<[i:=(a.1, (u, v))]> L) i (a.1, (u, v))); [|by apply list_lookup_insert].
      by rewrite !delete_take_drop, take_insert, drop_insert_gt by lia.
    - done.
  Qed.
  Lemma world_read m L i a : world m L -> L !! i = Some a -> m !! a.1.1 = Some (Some a.2.1) /\ m !! a.1.2 = Some (Some a.2.2).
  Proof.
    intros HW Hi. destruct (focus _ _ _ _ HW Hi) as (m'&->&(Hne&_)&_). unfold push. split; [apply lookup_insert|].
    rewrite lookup_insert_ne by done. apply lookup_insert.
  Qed.
  Lemma world_ne m L i j a b : world m L -> L !! i = Some a -> L !! j = Some b -> a.1.1 <> b.1.2 /\ (i <> j -> a.1.1 <> b.1.1 /\ a.1.2 <> b.1.2).
  Proof.
    intros HW Hi Hj. destruct (focus _ _ _ _ HW Hi) as (m'&->&(Hne&N1&N2)&HW'&_). destruct (decide (i = j)) as [<-|Hij].
    - rewrite Hi in Hj. injection Hj as <-. done.
    - assert (exists j', delete i L !! j' = Some b) as (j'&Hj').
      { destruct (decide (j < i)); [exists j; by rewrite lookup_delete_lt by lia|].
        exists (j - 1). rewrite lookup_delete_ge by lia. by replace (S (j - 1)) with j by lia. }
      destruct (world_read _ _ _ _ HW' Hj') as [R1 R2]. split; [|intros _; split]; intros E; rewrite <- E in *; congruence.
  Qed.

  (** the operations *)
  Lemma alloc2 m : palloc_total alloc -> exists x y, pc_allocate alloc m = (<[x := None]> m, Some x) /\
    pc_allocate alloc (<[x := None]> m) = (<[y := None]> (<[x := None]> m), Some y) /\ x <> y /\ m !! x = None /\ m !! y = None.
  Proof.
    intros Ht. unfold pc_allocate. destruct (alloc m) as [x|] eqn:E1; [|by destruct (Ht m)]. destruct (alloc (<[x:=None]> m)) as [y|] eqn:E2; [|by destruct (Ht (<[x:=None]> m))].
    exists x, y. split; [done|]. rewrite E2. split; [done|]. apply Hf in E1, E2. destruct (decide (x = y)) as [<-|Hne]; [by rewrite lookup_insert in E2|].
    rewrite lookup_insert_ne in E2 by done. done.
  Qed.
  Lemma create_ok m L : palloc_total alloc -> world m L -> exists x y, let a := ((x, y), (ti_new t1, ti_new t2)) in
    c_pair_create alloc m (PBlock (Some t1) (Some t2) None None) = Ok (push a m, blk a) /\ apart a m.
  Proof.
    intros Ht HW. destruct (alloc2 m Ht) as (x&y&E1&E2&Hne&Nx&Ny). exists x, y. cbn zeta. split; [|done].
    unfold c_pair_create. cbn [p_first p_second p_type1 p_type2 is_null assert_ rbind nonnull]. rewrite E1, E2. cbn [is_null orb].
    unfold pc_create. cbn [nonnull rbind]. rewrite lookup_insert_ne, lookup_insert by done. cbn [rbind].
    rewrite lookup_insert_ne, lookup_insert by done. cbn [rbind]. do 2 f_equal. unfold push. cbn [fst snd].
    apply map_eq. intros z.
    destruct (decide (z = x)) as [->|]; [|destruct (decide (z = y)) as [->|]]; simplify_map_eq; done.
  Qed.
  Lemma copy_ok m L i s : palloc_total alloc -> world m L -> L !! i = Some s -> exists x y, let a := ((x, y), s.2) in
    c_pair_copy alloc m zeroed (blk s) = Ok (push a m, blk a) /\ apart a m.
  Proof.
    intros Ht HW Hi. destruct (alloc2 m Ht) as (x&y&E1&E2&Hne&Nx&Ny). exists x, y. cbn zeta. split; [|done].
    destruct (world_read _ _ _ _ HW Hi) as [R1 R2]. destruct s as [[sx sy] [u v]]. cbn [fst snd] in *.
    assert (x <> sx /\ x <> sy /\ y <> sx /\ y <> sy) as (?&?&?&?) by (repeat split; intros ->; congruence).
    unfold c_pair_copy, blk, zeroed. cbn [p_first p_second p_type1 p_type2 is_null assert_ rbind nonnull fst snd]. rewrite E1, E2. cbn [is_null orb].
    unfold pc_copy, pc_read. cbn [nonnull rbind]. rewrite !(lookup_insert_ne _ _ sx) by done. rewrite R1. cbn [rbind].
    rewrite (lookup_insert_ne _ y x), lookup_insert by done. cbn [rbind].
    rewrite !(lookup_insert_ne _ _ sy) by done. rewrite R2. cbn [rbind]. rewrite lookup_insert_ne, lookup_insert by done. cbn [rbind].
    do 2 f_equal. unfold push. cbn [fst snd]. apply map_eq. intros z.
    destruct (decide (z = x)) as [->|]; [|destruct (decide (z = y)) as [->|]]; simplify_map_eq; done.
  Qed.
  Lemma destroy_ok m L i a : world m L -> L !! i = Some a -> exists m', c_pair_destroy m (blk a) = Ok (m', blk a) /\ m = push a m' /\ world m' (delete i L).
  Proof.
    intros HW Hi. destruct (focus _ _ _ _ HW Hi) as (m'&->&(Hne&N1&N2)&HW'&_). exists m'. split; [|done].
    destruct a as [[x y] [u v]]. unfold push, blk, c_pair_destroy, pc_destroy, pc_deallocate. cbn [p_first p_second p_type1 p_type2 nonnull rbind fst snd] in *.
    rewrite lookup_insert. cbn [rbind]. rewrite lookup_insert. cbn [rbind]. rewrite insert_insert, delete_insert by (by rewrite lookup_insert_ne).
    rewrite lookup_insert. cbn [rbind]. rewrite lookup_insert. cbn [rbind]. by rewrite insert_insert, delete_insert.
  Qed.
  Lemma assign_ok m L i j d s : world m L -> L !! i = Some d -> L !! j = Some s ->
    exists m', c_pair_assign m (blk d) (blk s) = Ok m' /\ world m' (<[i := (d.1, s.2)]> L).
  Proof.
    intros HW Hi Hj. destruct (world_read _ _ _ _ HW Hj) as [R1 R2]. destruct (world_read _ _ _ _ HW Hi) as [Q1 Q2].
    destruct (world_ne _ _ _ _ _ _ HW Hi Hj) as [Hn _]. destruct (world_ne _ _ _ _ _ _ HW Hi Hi) as [Hd _].
    destruct (focus _ _ _ _ HW Hi) as (m'&Em&(Hne&N1&N2)&_&Hset). exists (push (d.1, s.2) m').
    split; [|destruct s as [? [u v]]; apply Hset].
    unfold c_pair_assign, pc_assign, pc_read, blk. cbn [p_first p_second p_type1 p_type2 nonnull rbind]. rewrite R1. cbn [rbind].
    rewrite Q1. cbn [rbind]. rewrite lookup_insert_ne by done. rewrite R2. cbn [rbind]. rewrite lookup_insert_ne by done. rewrite Q2. cbn [rbind].
    f_equal. rewrite Em. unfold push. cbn [fst snd]. apply map_eq. intros z.
    destruct (decide (z = d.1.1)) as [->|]; [|destruct (decide (z = d.1.2)) as [->|]]; simplify_map_eq; done.
  Qed.

  (** the client *)
  Definition envof L : list (pblock A) := map blk L.
  Definition valsof L : list (A * A) := map snd L.
  Lemma locals_apart m v1 v2 : let x := fresh (dom m) in let y := fresh ({[x]} ∪ dom m) in
    apart ((x, y), (v1, v2)) m /\ <[y := Some v2]> (<[x := Some v1]> m) = push ((x, y), (v1, v2)) m.
  Proof.
    intros x y. pose proof (is_fresh (dom m) : x ∉ dom m) as Hx. pose proof (is_fresh ({[x]} ∪ dom m) : y ∉ {[x]} ∪ dom m) as Hy.
    apply not_elem_of_union in Hy as [Hne Hy]. apply not_elem_of_singleton in Hne. apply not_elem_of_dom in Hx, Hy.
    split; [split; [by apply not_eq_sym|done]|]. unfold push. cbn [fst snd]. by rewrite insert_commute.
  Qed.
  Lemma drop_locals m L a : world m (L ++ [a]) -> world (delete a.1.1 (delete a.1.2 m)) L.
  Proof.
    intros HW. assert (L ++ [a] ≡ₚ a :: L) as HP by (symmetry; apply Permutation_cons_append).
    destruct (world_uncons _ _ _ (world_perm _ _ _ HP HW)) as (m'&->&(Hne&N1&N2)&HW'). unfold push.
    rewrite delete_commute, delete_insert by (by rewrite lookup_insert_ne). by rewrite delete_insert.
  Qed.
  Lemma pop_ok m L o ps' : palloc_total alloc -> world m L -> pop_spec (ti_new t1) (ti_new t2) (valsof L) o = Some ps' ->
    exists m' L', pop_run alloc t1 t2 (m, envof L) o = Ok (m', envof L') /\ world m' L' /\ valsof L' = ps'.
  Proof.
    intros Ht HW Hs. assert (Hh : forall i p, valsof L !! i = Some p -> exists a, L !! i = Some a /\ p = a.2 /\ phandle (envof L) i = Ok (blk a)).
    { intros i p Hi. unfold valsof in Hi. rewrite list_lookup_fmap in Hi. destruct (L !! i) as [a|] eqn:E; [|done]. injection Hi as <-. exists a. split; [done|].
      split; [done|]. unfold phandle, envof. by rewrite list_lookup_fmap, E. }
    assert (Happ : forall L a, envof (L ++ [a]) = envof L ++ [blk a] /\ valsof (L ++ [a]) = valsof L ++ [a.2]).
    { intros L0 a. unfold envof, valsof. by rewrite !map_app. }
    assert (Hins : forall i a u v, L !! i = Some a -> envof (<[i := (a.1, (u, v))]> L) = envof L /\ valsof (<[i := (a.1, (u, v))]> L) = <[i := (u, v)]> (valsof L)).
    { intros i a u v Hi. unfold envof, valsof. change (map ?f ?l) with (f <$> l). rewrite !list_fmap_insert. split; [|done].
      apply list_insert_id. by rewrite list_lookup_fmap, Hi. }
    destruct o as [|i|v1 v2|i j|i v1 v2|i v|i v|i]; cbn [pop_spec] in Hs; cbn [pop_run].
    - injection Hs as <-. destruct (create_ok m L Ht HW) as (x&y&E&HA). rewrite E. cbn [rbind]. eexists _, (L ++ [_]). rewrite (proj1 (Happ L _)), (proj2 (Happ L _)).
      split; [reflexivity|]. split; [by apply world_app|done].
    - apply bind_Some in Hs as (p&Hi&Hs). injection Hs as <-. destruct (Hh _ _ Hi) as (a&Ea&->&->). cbn [rbind].
      destruct (copy_ok m L i a Ht HW Ea) as (x&y&E&HA). rewrite E. cbn [rbind]. eexists _, (L ++ [_]). rewrite (proj1 (Happ L _)), (proj2 (Happ L _)).
      split; [reflexivity|]. split; [by apply world_app|done].
    - injection Hs as <-. unfold with_locals. pose proof (locals_apart m v1 v2) as Hl. cbn zeta in Hl |- *. set (x := fresh (dom m)) in *. set (y := fresh ({[x]} ∪ dom m)) in *.
      destruct Hl as [HA ->]. set (s := ((x, y), (v1, v2)) : lp). fold s in HA. pose proof (world_app _ _ _ HW HA) as HW1.
      change (c_make_pair t1 t2 (Some x) (Some y)) with (blk s). destruct (copy_ok (push s m) (L ++ [s]) (length L) s Ht HW1) as (x'&y'&E&HA').
      { by rewrite lookup_app_r, Nat.sub_diag by lia. }
      rewrite E. cbn [rbind]. set (n := ((x', y'), s.2) : lp) in *. pose proof (world_app _ _ _ HW1 HA') as HW2. rewrite <- app_assoc in HW2. cbn [app] in HW2.
      exists (delete x (delete y (push n (push s m)))), (L ++ [n]). rewrite (proj1 (Happ L _)), (proj2 (Happ L _)). split; [done|]. split; [|done].
      apply (drop_locals _ (L ++ [n]) s). eapply world_perm; [|exact HW2]. rewrite <- app_assoc. cbn [app]. solve_Permutation.
    - apply bind_Some in Hs as (p&Hi&Hs). apply bind_Some in Hs as (q&Hj&Hs). injection Hs as <-.
      destruct (Hh _ _ Hi) as (a&Ea&->&->). destruct (Hh _ _ Hj) as (b&Eb&->&->). cbn [rbind].
      destruct (assign_ok m L i j a b HW Ea Eb) as (m'&->&HW'). cbn [rbind]. exists m', (<[i := (a.1, b.2)]> L). destruct b as [? [u v]]. cbn [snd] in *.
      destruct (Hins i a u v Ea) as [-> ->]. done.
    - apply bind_Some in Hs as (p&Hi&Hs). injection Hs as <-. destruct (Hh _ _ Hi) as (a&Ea&->&->). cbn [rbind].
      unfold with_locals. pose proof (locals_apart m v1 v2) as Hl. cbn zeta in Hl |- *. set (x := fresh (dom m)) in *. set (y := fresh ({[x]} ∪ dom m)) in *.
      destruct Hl as [HA ->]. set (s := ((x, y), (v1, v2)) : lp). fold s in HA. pose proof (world_app _ _ _ HW HA) as HW1.
      change (c_make_pair t1 t2 (Some x) (Some y)) with (blk s). pose proof (lookup_lt_Some _ _ _ Ea) as Hlt.
      destruct (assign_ok (push s m) (L ++ [s]) i (length L) a s HW1) as (m'&->&HW').
      { by rewrite lookup_app_l. }
      { by rewrite lookup_app_r, Nat.sub_diag by lia. }
      cbn [rbind]. rewrite insert_app_l in HW' by done. exists (delete x (delete y m')), (<[i := (a.1, (v1, v2))]> L).
      destruct (Hins i a v1 v2 Ea) as [-> ->]. split; [done|]. split; [|done]. apply (drop_locals _ _ s HW').
    - apply bind_Some in Hs as (p&Hi&Hs). injection Hs as <-. destruct (Hh _ _ Hi) as (a&Ea&->&->). cbn [rbind].
      destruct (world_read _ _ _ _ HW Ea) as [R1 R2]. unfold set_cell. cbn [blk p_first nonnull rbind]. rewrite R1. cbn [rbind].
      destruct (focus _ _ _ _ HW Ea) as (m'&->&(Hne&N1&N2)&_&Hset). exists (push (a.1, (v, a.2.2)) m'), (<[i := (a.1, (v, a.2.2))]> L).
      destruct (Hins i a v a.2.2 Ea) as [-> ->]. split; [|by split]. unfold push. by rewrite insert_insert.
    - apply bind_Some in Hs as (p&Hi&Hs). injection Hs as <-. destruct (Hh _ _ Hi) as (a&Ea&->&->). cbn [rbind].
      destruct (world_read _ _ _ _ HW Ea) as [R1 R2]. unfold set_cell. cbn [blk p_second nonnull rbind]. rewrite R2. cbn [rbind].
      destruct (focus _ _ _ _ HW Ea) as (m'&->&(Hne&N1&N2)&_&Hset). exists (push (a.1, (a.2.1, v)) m'), (<[i := (a.1, (a.2.1, v))]> L).
      destruct (Hins i a a.2.1 v Ea) as [-> ->]. split; [|by split]. unfold push. cbn [fst snd]. rewrite insert_commute, insert_insert by done. done.
    - apply bind_Some in Hs as (p&Hi&Hs). injection Hs as <-. destruct (Hh _ _ Hi) as (a&Ea&->&->). cbn [rbind].
      destruct (destroy_ok m L i a HW Ea) as (m'&->&_&HW'). cbn [rbind]. exists m', (delete i L). unfold envof, valsof.
      change (map ?f ?l) with (f <$> l). rewrite !list_fmap_delete.
      done.
  Qed.
  Lemma phist_ok os : forall m L ps', palloc_total alloc -> world m L -> phist_spec (ti_new t1) (ti_new t2) (valsof L) os = Some ps' ->
    exists m' L', phist_run alloc t1 t2 (m, envof L) os = Ok (m', envof L') /\ world m' L' /\ valsof L' = ps'.
  Proof.
    induction os as [|o os IH]; intros m L ps' Ht HW Hs; cbn [phist_spec phist_run] in *.
    - injection Hs as <-. by exists m, L.
    - apply bind_Some in Hs as (ps1&H1&Hs). destruct (pop_ok m L o ps1 Ht HW H1) as (m1&L1&->&HW1&<-). cbn [rbind]. by eapply IH.
  Qed.
  Lemma world_vals m L : world m L -> Forall2 (fun b p => pair_vals m b = Ok p) (envof L) (valsof L).
  Proof.
    intros HW. apply Forall2_same_length_lookup_2; [unfold envof, valsof; by rewrite !map_length|].
    intros i b p Hb Hp. unfold envof, valsof in *. rewrite list_lookup_fmap in Hb. change (map snd L) with (snd <$> L) in Hp. rewrite list_lookup_fmap in Hp. destruct (L !! i) as [a|] eqn:E; [|done].
    injection Hb as <-. injection Hp as <-. destruct (world_read _ _ _ _ HW E) as [R1 R2]. unfold pair_vals, pc_read. cbn [blk p_first p_second nonnull rbind].
    rewrite R1. cbn [rbind]. rewrite R2. cbn [rbind]. by destruct a as [? []].
  Qed.
  Lemma world_size m L : world m L -> size m = 2 * length L.
  Proof.
    intros [HN ->]. revert HN. induction L as [|a L IH]; [done|]. change (acells (a :: L)) with ((a.1.1, Some a.2.1) :: (a.1.2, Some a.2.2) :: acells L).
    cbn [fmap list_fmap fst list_to_map foldr uncurry]. intros HN. apply NoDup_cons in HN as [N1 HN]. apply NoDup_cons in HN as [N2 HN].
    apply not_elem_of_cons in N1 as [N0 N1]. specialize (IH HN). cbn [length].
    change (size (<[a.1.1 := Some a.2.1]> (<[a.1.2 := Some a.2.2]> (list_to_map (acells L) : cells))) = 2 * S (length L)).
    rewrite map_size_insert_None, map_size_insert_None, IH by (rewrite ?lookup_insert_ne by done; by apply not_elem_of_list_to_map). lia.
  Qed.
End pair.
