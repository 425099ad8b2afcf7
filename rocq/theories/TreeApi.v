(** TreeApi.v — insertion, erasure and lookup of c_tree.c. *)
From Verif Require Import Base Spec Facts DList Tree SpecTree TreeRep TreeInsert TreeErase TreeIter TreeUnlink.
From stdpp Require Import list gmap.

Section api.
  Context {K V : Type}.
  Notation M := (gmap loc (tnode V)).
  Notation ctx := (list (frame V)).
  Implicit Types (m : M) (h : theap V) (t : tobj K V) (k : ctx).

  (** a value argument designating a live object *)
  Definition valued m (v : vref V) (a : V) : Prop := vderef m v = Ok a.
  Lemma valued_frame m m' v a x n : valued m v a -> m !! x = None -> m' = <[x := n]> m -> valued m' v a.
  Proof.
    unfold valued. destruct v as [b|y]; [done|]. cbn [vderef]. unfold valof, get. intros H Hx ->.
    destruct (decide (y = x)) as [->|Hne]; [by rewrite Hx in H|]. by rewrite lookup_insert_ne.
  Qed.
  Lemma vkey_ok t m v a : valued m v a -> vkey t m v = Ok (kov t a).
  Proof. unfold vkey, valued. by intros ->. Qed.
  Lemma nkey_ok t m x n a : m !! x = Some n -> nval n = Some a -> nkey t m (Some x) = Ok (kov t a).
  Proof. intros H1 H2. unfold nkey. by rewrite (valof_ok _ _ _ _ H1 H2). Qed.

  Definition side_ok t (hint : ptr) (a : V) k : Prop :=
    match k with
    | [] => True
    | FL _ _ w _ :: _ => hint <> None \/ kcomp t (kov t a) (kov t w) = true
    | FR _ _ _ w :: _ => hint = None /\ kcomp t (kov t a) (kov t w) = false
    end.
  Lemma Rep_fresh m hd lm rm T x : Rep m hd lm rm T -> m !! x = None -> x ∉ hd :: locs T.
  Proof.
    intros (Hh&Hr&_) Hx [->|Hin]%elem_of_cons; [by rewrite Hx in Hh|]. destruct (rep_dom _ _ _ _ Hr Hin) as [n Hn]. by rewrite Hn in Hx.
  Qed.
  (** writing the new node into the hole *)
  Lemma plant_ok m m1 hd lm rm lm' rm' k x (a : V) :
    Rep m hd lm rm (plug k Lf) -> m !! x = None ->
    Ctx m1 hd lm' rm' k (Some x) -> m1 !! x = Some (TNode RED (Some (cpar hd k)) None None (Some a)) ->
    Rep m1 hd lm' rm' (plug k (Nd RED Lf x a Lf)).
  Proof.
    intros HR Hx HC Hx1. apply Rep_plug. cbn [root]. split; [done|]. split; [by cbn [rep root]|].
    pose proof (Rep_ND _ _ _ _ _ _ HR) as HN. cbn in HN. rewrite locs_N. cbn [app locs cells fmap list_fmap].
    pose proof (Rep_fresh _ _ _ _ _ _ HR Hx) as Hf. rewrite locs_plug in Hf. cbn in Hf. nd.
    apply NoDup_cons. split; [set_solver|]. apply NoDup_cons. done.
  Qed.
  Section ins.
  Context (alloc : gmap loc (tnode V) -> loc) (Ha : tmalloc_ok alloc).
  Lemma insert_node_ok t h hint k v a : is_tree (mem h) (hdr t) (plug k Lf) -> valued (mem h) v a -> side_ok t hint a k ->
    exists m' T', insert_node alloc t h hint (Some (cpar (hdr t) k)) v
        = Ok (THeap m' (tdead h), TObj (hdr t) (S (cnt t)) (kcomp t) (kov t), Some (alloc (mem h))) /\
      is_tree m' (hdr t) T' /\ cells T' = lcells k ++ (alloc (mem h), a) :: rcells k /\
      (forall z, z ∉ hdr t :: alloc (mem h) :: locs (plug k Lf) -> m' !! z = mem h !! z).
  Proof.
    intros [HR [n Hrb]] Hv Hside. set (hd := hdr t) in *. set (x := alloc (mem h)). pose proof (Ha (mem h)) as Hx. fold x in Hx.
    pose proof (Rep_fresh _ _ _ _ _ _ HR Hx) as Hf. pose proof (Rep_ND _ _ _ _ _ _ HR) as HN. cbn [locs cells app] in HN.
    rewrite locs_plug in Hf. cbn [locs cells fmap list_fmap app] in Hf, HN. pose proof Hf as Hf'. apply not_elem_of_cons in Hf' as [Hxh Hxk].
    destruct (rbk_of _ _ _ _ Hrb eq_refl) as (c0&n0&Hlf&Hk0). inversion Hlf; subst c0 n0.
    unfold insert_node, create_node. rewrite Hv. cbn [rbind]. fold x hd. set (m0 := <[x := TNode RED None None None (Some a)]> (mem h)).
    assert (Hv0 : valued m0 v a) by by eapply valued_frame.
    assert (HR0 : Rep m0 hd (first_loc hd (cells (plug k Lf))) (last_loc hd (cells (plug k Lf))) (plug k Lf)).
    { destruct HR as (H1&H2&H3). split; [unfold m0; by rewrite lookup_insert_ne by done|]. split; [|done].
      eapply rep_frame; [|exact H2]. intros z Hz. unfold m0. rewrite lookup_insert_ne; [done|]. intros <-.
      rewrite locs_plug in Hz. done. }
    assert (Hx0 : m0 !! x = Some (TNode RED None None None (Some a))) by apply lookup_insert.
    assert (F0 : forall z, z <> x -> m0 !! z = mem h !! z). { intros z Hz. by apply lookup_insert_ne. } clearbody m0.
    pose proof HR0 as (HC0&_&_)%Rep_plug. cbn [root] in HC0.
    assert (Hgo : (if decide (Some (cpar hd k) = Some hd) then Ok true
       else if decide (hint <> None) then Ok true
       else do ky <- vkey t m0 v; do pk <- nkey t m0 (Some (cpar hd k)); Ok (kcomp t ky pk)) =
       Ok (match k with FR _ _ _ _ :: _ => false | _ => true end)).
    { destruct k as [|[c p w r|c l p w] k]; cbn [cpar].
      - by rewrite decide_True.
      - assert (p <> hd). { rewrite clocs_FL in HN. nd. done. } rewrite decide_False by congruence.
        destruct (decide (hint <> None)) as [?|Hh]; [done|]. cbn [side_ok] in Hside. destruct Hside as [?|Hside]; [done|].
        destruct HC0 as [_ (Hp&_)]. rewrite (vkey_ok _ _ _ _ Hv0). cbn [rbind]. by rewrite (nkey_ok _ _ _ _ _ Hp eq_refl), <- Hside.
      - assert (p <> hd). { rewrite clocs_FR in HN. nd. done. } rewrite decide_False by congruence.
        destruct Hside as [-> Hside]. rewrite decide_False by (intros H'; by apply H').
        destruct HC0 as [_ (Hp&_)]. rewrite (vkey_ok _ _ _ _ Hv0). cbn [rbind]. by rewrite (nkey_ok _ _ _ _ _ Hp eq_refl), <- Hside. }
    rewrite Hgo. cbn [rbind]. clear Hgo.
    assert (Hlink : exists m2, (if (match k with FR _ _ _ _ :: _ => false | _ => true end) then
         do m <- set_left m0 (Some (cpar hd k)) (Some x);
         if decide (Some (cpar hd k) = Some hd) then do m <- set_parent m (Some hd) (Some x); set_right m (Some hd) (Some x)
         else do lm <- left m (Some hd); if decide (Some (cpar hd k) = lm) then set_left m (Some hd) (Some x) else Ok m
       else
         do m <- set_right m0 (Some (cpar hd k)) (Some x);
         do rm <- right m (Some hd); if decide (Some (cpar hd k) = rm) then set_right m (Some hd) (Some x) else Ok m) = Ok m2 /\
      Ctx m2 hd (first_loc hd (lcells k ++ (x, a) :: rcells k)) (last_loc hd (lcells k ++ (x, a) :: rcells k)) k (Some x) /\
      m2 !! x = m0 !! x /\ (forall z, z ∉ hd :: clocs k -> m2 !! z = m0 !! z)).
    { rewrite !cells_plug in HC0. cbn [cells app] in HC0. destruct k as [|[c p w r|c l p w] k].
      - cbn [cpar]. pose proof HC0 as [Hh _]. rewrite (set_left_ok _ _ _ _ Hh). cbn [rbind]. rewrite decide_True by done.
        assert (H1 : alter (wleft (Some x)) hd m0 !! hd = Some (TNode RED None (Some x) (Some hd) None)).
        { rewrite lookup_alter, Hh. done. }
        rewrite (set_parent_ok _ _ _ _ H1). cbn [rbind].
        assert (H2 : alter (wpar (Some x)) hd (alter (wleft (Some x)) hd m0) !! hd = Some (TNode RED (Some x) (Some x) (Some hd) None)).
        { by rewrite lookup_alter, H1. }
        rewrite (set_right_ok _ _ _ _ H2). eexists. split; [reflexivity|]. split; [|split].
        + split; [|done]. by rewrite lookup_alter, H2.
        + by rewrite !lookup_alter_ne by done.
        + intros z Hz. nd. by rewrite !lookup_alter_ne by done.
      - cbn [cpar]. assert (p <> hd) as Hph. { rewrite clocs_FL in HN. nd. done. }
        assert (x <> p) as Hxp. { rewrite clocs_FL in Hxk. nd. done. }
        pose proof HC0 as [_ (Hp&_)]. rewrite (set_left_ok _ _ _ _ Hp). cbn [rbind]. rewrite decide_False by congruence.
        pose proof (Ctx_set_hole _ _ _ _ _ _ (Some x) HN HC0) as HC1. cbn [set_hole] in HC1.
        set (m1 := alter (wleft (Some x)) p m0) in *.
        assert (F1 : forall z, z <> p -> m1 !! z = m0 !! z). { intros z Hz. by apply lookup_alter_ne. } clearbody m1.
        pose proof HC1 as [Hh1 _]. rewrite (left_ok _ _ _ Hh1). cbn [rbind nleft].
        assert (HNc : NoDup (hd :: (lcells k ++ (p, w) :: cells r ++ rcells k).*1)).
        { destruct HR as (_&_&HR). cbn [plug] in HR. unfold locs in HR. rewrite cells_plug in HR. exact HR. }
        replace (last_loc hd (lcells (FL c p w r :: k) ++ (x, a) :: rcells (FL c p w r :: k)))
          with (last_loc hd (lcells (FL c p w r :: k) ++ rcells (FL c p w r :: k))).
        2:{ cbn [lcells rcells]. rewrite !last_loc_app by done. by rewrite !last_loc_cons. }
        cbn [lcells rcells] in *. destruct (lcells k) as [|[q u] lk] eqn:El.
        + cbn [app] in *. rewrite first_loc_cons in *. rewrite decide_True by done. rewrite (set_left_ok _ _ _ _ Hh1). eexists. split; [reflexivity|].
          split; [|split].
          * eapply Ctx_lm; [by apply NoDup_cons in HN as [? _]|exact HC1].
          * rewrite lookup_alter_ne by done. by apply F1.
          * intros z Hz. rewrite clocs_FL in Hz. nd. rewrite lookup_alter_ne by done. by apply F1.
        + cbn [app] in *. rewrite first_loc_cons in *. rewrite decide_False.
          2:{ intros [= ->]. cbn in HNc. rewrite fmap_app in HNc. apply NoDup_cons in HNc as [_ HNc]. apply NoDup_cons in HNc as [HNc _]. set_solver. }
          exists m1. split; [done|]. split; [done|]. split; [by apply F1|]. intros z Hz. rewrite clocs_FL in Hz. nd. by apply F1.
      - cbn [cpar]. assert (p <> hd) as Hph. { rewrite clocs_FR in HN. nd. done. }
        assert (x <> p) as Hxp. { rewrite clocs_FR in Hxk. nd. done. }
        pose proof HC0 as [_ (Hp&_)]. rewrite (set_right_ok _ _ _ _ Hp). cbn [rbind].
        pose proof (Ctx_set_hole _ _ _ _ _ _ (Some x) HN HC0) as HC1. cbn [set_hole] in HC1.
        set (m1 := alter (wright (Some x)) p m0) in *.
        assert (F1 : forall z, z <> p -> m1 !! z = m0 !! z). { intros z Hz. by apply lookup_alter_ne. } clearbody m1.
        pose proof HC1 as [Hh1 _]. rewrite (right_ok _ _ _ Hh1). cbn [rbind nright].
        assert (HNc : NoDup (hd :: ((lcells k ++ cells l) ++ (p, w) :: rcells k).*1)).
        { destruct HR as (_&_&HR). cbn [plug] in HR. unfold locs in HR. rewrite cells_plug in HR. cbn [cells] in HR.
          rewrite <- app_assoc. rewrite <- app_assoc in HR. exact HR. }
        cbn [lcells rcells] in *. rewrite (app_assoc (lcells k)) in *.
        replace (first_loc hd (((lcells k ++ cells l) ++ [(p, w)]) ++ (x, a) :: rcells k))
          with (first_loc hd (((lcells k ++ cells l) ++ [(p, w)]) ++ rcells k)) by by destruct (lcells k ++ cells l).
        destruct (decide (rcells k = [])) as [El|El].
        + rewrite El in *. rewrite app_nil_r in *. rewrite last_loc_snoc in *. rewrite decide_True by done.
          rewrite last_loc_snoc. rewrite (set_right_ok _ _ _ _ Hh1). eexists. split; [reflexivity|].
          split; [|split].
          * eapply Ctx_rm; [by apply NoDup_cons in HN as [? _]|exact HC1].
          * rewrite lookup_alter_ne by done. by apply F1.
          * intros z Hz. rewrite clocs_FR in Hz. nd. rewrite lookup_alter_ne by done. by apply F1.
        + rewrite decide_False.
          2:{ intros E. symmetry in E. revert E. rewrite <- app_assoc. by apply last_loc_ne. }
          exists m1. split; [done|]. split; [|split; [by apply F1|]; intros z Hz; rewrite clocs_FR in Hz; nd; by apply F1].
          replace (last_loc hd (((lcells k ++ cells l) ++ [(p, w)]) ++ (x, a) :: rcells k)) with (last_loc hd (((lcells k ++ cells l) ++ [(p, w)]) ++ rcells k)); [done|].
          rewrite !last_loc_app by done. rewrite last_loc_cons. by apply last_loc_irrel. }
    destruct Hlink as (m2&->&HC2&Hx2&F2). cbn [rbind]. rewrite Hx0 in Hx2. rewrite (set_parent_ok _ _ _ _ Hx2). cbn [rbind].
    set (m3 := alter (wpar (Some (cpar hd k))) x m2).
    assert (Hx3 : m3 !! x = Some (TNode RED (Some (cpar hd k)) None None (Some a))). { unfold m3. by rewrite lookup_alter, Hx2. }
    assert (F3 : forall z, z <> x -> m3 !! z = m2 !! z). { intros z Hz. by apply lookup_alter_ne. } clearbody m3.
    assert (HR3 : Rep m3 hd (first_loc hd (lcells k ++ (x, a) :: rcells k)) (last_loc hd (lcells k ++ (x, a) :: rcells k)) (plug k (Nd RED Lf x a Lf))).
    { eapply plant_ok; [exact HR|done| |done]. eapply Ctx_frame; [|exact HC2]. intros z Hz. apply F3. intros ->. done. }
    destruct (rebalance_insert_ok _ _ _ _ _ _ _ _ _ _ HR3 (rbt_Lf) (rbt_Lf) Hk0) as (m4&T4&->&(HR4&HP4&HF4)&HC4&Hrb4). cbn [rbind].
    assert (Hc4 : cells T4 = lcells k ++ (x, a) :: rcells k). { rewrite HC4, cells_plug. done. }
    exists m4, T4. split; [done|]. split; [split; [by rewrite Hc4|done]|]. split; [done|].
    intros z Hz. rewrite locs_plug in Hz. cbn [locs cells fmap list_fmap app] in Hz.
    assert (z <> hd /\ z <> x /\ z ∉ clocs k) as (Hz1&Hz2&Hz3). { nd. done. }
    rewrite HF4; [|rewrite locs_plug, locs_N; cbn; clear - Hz1 Hz2 Hz3; set_solver].
    rewrite F3 by done. rewrite F2 by (clear - Hz1 Hz3; set_solver). by apply F0.
  Qed.
  End ins.

  (** ** searching *)
  Definition ksorted t (cs : list (loc * V)) : Prop := sorted (kcomp t) (kov t <$> cs.*2).
  Lemma in_keys t (cs : list (loc * V)) y : y ∈ kov t <$> cs.*2 <-> exists c, c ∈ cs /\ y = kov t c.2.
  Proof.
    rewrite elem_of_list_fmap. split.
    - intros (v&->&Hv). apply elem_of_list_fmap in Hv as (c&->&Hc). by exists c.
    - intros (c&Hc&->). exists c.2. split; [done|]. apply elem_of_list_fmap. by exists c.
  Qed.
  Lemma ksorted_app t (cs ds : list (loc * V)) : ksorted t (cs ++ ds) <->
    ksorted t cs /\ ksorted t ds /\ forall c d, c ∈ cs -> d ∈ ds -> kcomp t (kov t d.2) (kov t c.2) = false.
  Proof.
    unfold ksorted. rewrite !fmap_app, sorted_app. apply and_iff_compat_l, and_iff_compat_l. split.
    - intros H c d Hc Hd. apply H; apply in_keys; eauto.
    - intros H x y Hx Hy. apply in_keys in Hx as (c&Hc&->). apply in_keys in Hy as (d&Hd&->). by apply H.
  Qed.
  Lemma ksorted_mid t (cs ds : list (loc * V)) x w : ksorted t (cs ++ (x, w) :: ds) ->
    (forall c, c ∈ cs -> kcomp t (kov t w) (kov t c.2) = false) /\ (forall d, d ∈ ds -> kcomp t (kov t d.2) (kov t w) = false).
  Proof.
    intros (_&H1&H2)%ksorted_app. change ((x, w) :: ds) with ([(x, w)] ++ ds) in H1. apply ksorted_app in H1 as (_&_&H1). split.
    - intros c Hc. apply (H2 c (x, w) Hc). set_solver.
    - intros d Hd. apply (H1 (x, w) d); [set_solver|done].
  Qed.
  (** a key argument designating a live object *)
  Definition kvalued t m (key : kref K) (a : K) : Prop := kderef t m key = Ok a.
  (** all that precedes the position [k] satisfies [p], nothing that follows does *)
  Definition splits (p : V -> bool) k : Prop :=
    (forall c, c ∈ lcells k -> p c.2 = true) /\ (forall c, c ∈ rcells k -> p c.2 = false).
  Lemma splits_nil p : splits p [].
  Proof. split; intros c Hc; by apply elem_of_nil in Hc. Qed.
  Definition lt_key t (a : K) (w : V) : bool := kcomp t (kov t w) a.
  Definition le_key t (a : K) (w : V) : bool := negb (kcomp t a (kov t w)).
  Definition mono t (p : V -> bool) : Prop := forall v w, kcomp t (kov t w) (kov t v) = false -> p w = true -> p v = true.
  Lemma lt_key_mono t a : StrictWeakOrder (kcomp t) -> mono t (lt_key t a).
  Proof. intros HW v w H1 H2. unfold lt_key in *. by eapply (swo_le_lt_trans (kcomp t)). Qed.
  Lemma le_key_mono t a : StrictWeakOrder (kcomp t) -> mono t (le_key t a).
  Proof.
    intros HW v w H1 H2. unfold le_key in *. apply negb_true_iff in H2. apply negb_true_iff. by eapply (swo_le_trans (kcomp t)).
  Qed.
  Lemma splits_FL t p k c x w s r : mono t p -> ksorted t (cells (plug k (Nd c s x w r))) -> p w = false -> splits p k -> splits p (FL c x w r :: k).
  Proof.
    intros Hm HS Hp [H1 H2]. split; [done|]. cbn [rcells]. intros d Hd. apply elem_of_cons in Hd as [->|Hd]; [done|].
    apply elem_of_app in Hd as [Hd|Hd]; [|by apply H2]. rewrite cells_plug in HS. cbn [cells] in HS. rewrite <- !app_assoc in HS. cbn [app] in HS.
    rewrite app_assoc in HS. apply ksorted_mid in HS as [_ HS]. destruct (p d.2) eqn:E; [|done]. exfalso.
    rewrite (Hm w d.2) in Hp; [done| |done]. apply HS. apply elem_of_app. by left.
  Qed.
  Lemma splits_FR t p k c x w s l : mono t p -> ksorted t (cells (plug k (Nd c l x w s))) -> p w = true -> splits p k -> splits p (FR c l x w :: k).
  Proof.
    intros Hm HS Hp [H1 H2]. split; [|done]. cbn [lcells]. intros d Hd. apply elem_of_app in Hd as [Hd|Hd]; [by apply H1|].
    apply elem_of_app in Hd as [Hd|Hd]; [|by apply elem_of_list_singleton in Hd as ->].
    rewrite cells_plug in HS. cbn [cells] in HS. rewrite <- !app_assoc in HS. cbn [app] in HS.
    rewrite app_assoc in HS. apply ksorted_mid in HS as [HS _]. apply (Hm d.2 w); [|done]. apply HS. apply elem_of_app. by right.
  Qed.
  Definition cside k : bool := match k with FR _ _ _ _ :: _ => false | _ => true end.
  Lemma R_nkey t m hd lm rm k c l x v r : Rep m hd lm rm (plug k (Nd c l x v r)) -> nkey t m (Some x) = Ok (kov t v).
  Proof. intros HR. unfold nkey. by rewrite (R_val _ _ _ _ _ _ _ _ _ _ HR). Qed.
  Lemma descend_ok t m hd lm rm v a : StrictWeakOrder (kcomp t) -> valued m v a -> forall s k fuel,
    Rep m hd lm rm (plug k s) -> ksorted t (cells (plug k s)) -> height s < fuel -> splits (le_key t (kov t a)) k ->
    exists k', descend fuel t m (Some (cpar hd k)) (root s) (cside k) v = Ok (Some (cpar hd k'), cside k') /\
      plug k' Lf = plug k s /\ splits (le_key t (kov t a)) k'.
  Proof.
    intros HW Hv s. induction s as [|c l IHl x w r IHr]; intros k fuel HR HS Hf Hk; (destruct fuel as [|fuel]; [lia|]); cbn [descend root].
    - by exists k.
    - rewrite (vkey_ok _ _ _ _ Hv). cbn [rbind]. rewrite (R_nkey t _ _ _ _ _ _ _ _ _ _ HR). cbn [rbind]. cbn [height] in Hf.
      destruct (kcomp t (kov t a) (kov t w)) eqn:Ec.
      + rewrite (R_left _ _ _ _ _ _ _ _ _ _ HR). cbn [rbind].
        destruct (IHl (FL c x w r :: k) fuel HR HS) as (k'&E&E1&E2); [lia| |by exists k'].
        eapply splits_FL; [by apply le_key_mono|exact HS|unfold le_key; by rewrite Ec|done].
      + rewrite (R_right _ _ _ _ _ _ _ _ _ _ HR). cbn [rbind].
        destruct (IHr (FR c l x w :: k) fuel HR HS) as (k'&E&E1&E2); [lia| |by exists k'].
        eapply splits_FR; [by apply le_key_mono|exact HS|unfold le_key; by rewrite Ec|done].
  Qed.
  Lemma lower_loop_ok t m hd lm rm key a : StrictWeakOrder (kcomp t) -> kvalued t m key a -> forall s k fuel,
    Rep m hd lm rm (plug k s) -> ksorted t (cells (plug k s)) -> height s < fuel -> splits (lt_key t a) k ->
    exists k', lower_loop fuel t m (first_loc hd (rcells k)) (root s) key = Ok (first_loc hd (rcells k')) /\
      plug k' Lf = plug k s /\ splits (lt_key t a) k'.
  Proof.
    intros HW Hv s. induction s as [|c l IHl x w r IHr]; intros k fuel HR HS Hf Hk; (destruct fuel as [|fuel]; [lia|]); cbn [lower_loop root].
    - by exists k.
    - rewrite (R_nkey t _ _ _ _ _ _ _ _ _ _ HR). cbn [rbind]. unfold kvalued in Hv. rewrite Hv. cbn [rbind]. cbn [height] in Hf.
      destruct (kcomp t (kov t w) a) eqn:Ec; cbn [negb].
      + rewrite (R_right _ _ _ _ _ _ _ _ _ _ HR). cbn [rbind].
        destruct (IHr (FR c l x w :: k) fuel HR HS) as (k'&E&E1&E2); [lia| |by exists k'].
        eapply splits_FR; [by apply lt_key_mono|exact HS|unfold lt_key; by rewrite Ec|done].
      + rewrite (R_left _ _ _ _ _ _ _ _ _ _ HR). cbn [rbind].
        destruct (IHl (FL c x w r :: k) fuel HR HS) as (k'&E&E1&E2); [lia| |by exists k'].
        eapply splits_FL; [by apply lt_key_mono|exact HS|unfold lt_key; by rewrite Ec|done].
  Qed.
  Lemma upper_loop_ok t m hd lm rm key a : StrictWeakOrder (kcomp t) -> kvalued t m key a -> forall s k fuel,
    Rep m hd lm rm (plug k s) -> ksorted t (cells (plug k s)) -> height s < fuel -> splits (le_key t a) k ->
    exists k', upper_loop fuel t m (first_loc hd (rcells k)) (root s) key = Ok (first_loc hd (rcells k')) /\
      plug k' Lf = plug k s /\ splits (le_key t a) k'.
  Proof.
    intros HW Hv s. induction s as [|c l IHl x w r IHr]; intros k fuel HR HS Hf Hk; (destruct fuel as [|fuel]; [lia|]); cbn [upper_loop root].
    - by exists k.
    - unfold kvalued in Hv. rewrite Hv. cbn [rbind]. rewrite (R_nkey t _ _ _ _ _ _ _ _ _ _ HR). cbn [rbind]. cbn [height] in Hf.
      destruct (kcomp t a (kov t w)) eqn:Ec; cbn [negb].
      + rewrite (R_left _ _ _ _ _ _ _ _ _ _ HR). cbn [rbind].
        destruct (IHl (FL c x w r :: k) fuel HR HS) as (k'&E&E1&E2); [lia| |by exists k'].
        eapply splits_FL; [by apply le_key_mono|exact HS|unfold le_key; by rewrite Ec|done].
      + rewrite (R_right _ _ _ _ _ _ _ _ _ _ HR). cbn [rbind].
        destruct (IHr (FR c l x w :: k) fuel HR HS) as (k'&E&E1&E2); [lia| |by exists k'].
        eapply splits_FR; [by apply le_key_mono|exact HS|unfold le_key; by rewrite Ec|done].
  Qed.
  Definition eq_key t (a : K) (w : V) : bool := equivb (kcomp t) a (kov t w).
  Lemma find_loop_ok t m lm rm key a : StrictWeakOrder (kcomp t) -> kvalued t m key a -> forall s k fuel,
    Rep m (hdr t) lm rm (plug k s) -> ksorted t (cells (plug k s)) -> height s < fuel ->
    (exists x w, find_loop fuel t m (root s) key = Ok (Some x) /\ (x, w) ∈ cells s /\ eq_key t a w = true) \/
    (find_loop fuel t m (root s) key = Ok (Some (hdr t)) /\ forall c, c ∈ cells s -> eq_key t a c.2 = false).
  Proof.
    intros HW Hv s. induction s as [|c l IHl x w r IHr]; intros k fuel HR HS Hf; (destruct fuel as [|fuel]; [lia|]); cbn [find_loop root].
    - right. split; [done|]. intros c Hc. by apply elem_of_nil in Hc.
    - unfold kvalued in Hv. rewrite Hv. cbn [rbind]. rewrite (R_nkey t _ _ _ _ _ _ _ _ _ _ HR). cbn [rbind]. cbn [height] in Hf.
      pose proof HS as HS'. rewrite cells_plug in HS'. cbn [cells] in HS'. rewrite <- !app_assoc in HS'. cbn [app] in HS'.
      rewrite app_assoc in HS'. apply ksorted_mid in HS' as [HSl HSr].
      destruct (kcomp t a (kov t w)) eqn:Ec; cbn [negb].
      + rewrite (R_left _ _ _ _ _ _ _ _ _ _ HR). cbn [rbind].
        destruct (IHl (FL c x w r :: k) fuel HR HS) as [(y&u&E&Hy&Hu)|[E Hn]]; [lia| |].
        * left. exists y, u. split; [done|]. split; [|done]. cbn [cells]. apply elem_of_app. by left.
        * right. split; [done|]. cbn [cells]. intros d Hd. apply elem_of_app in Hd as [Hd|Hd]; [by apply Hn|].
          assert (kcomp t a (kov t d.2) = true) as Ed.
          { apply elem_of_cons in Hd as [->|Hd]; [done|]. eapply (swo_lt_le_trans (kcomp t) HW); [exact Ec|]. apply HSr. apply elem_of_app. by left. }
          unfold eq_key, equivb. by rewrite Ed.
      + destruct (kcomp t (kov t w) a) eqn:Ec'; cbn [negb].
        * rewrite (R_right _ _ _ _ _ _ _ _ _ _ HR). cbn [rbind].
          destruct (IHr (FR c l x w :: k) fuel HR HS) as [(y&u&E&Hy&Hu)|[E Hn]]; [lia| |].
          -- left. exists y, u. split; [done|]. split; [|done]. cbn [cells]. apply elem_of_app. right. apply elem_of_cons. by right.
          -- right. split; [done|]. cbn [cells]. intros d Hd. apply elem_of_app in Hd as [Hd|Hd].
             { assert (kcomp t (kov t d.2) a = true) as Ed.
               { eapply (swo_le_lt_trans (kcomp t) HW); [|exact Ec']. apply HSl. apply elem_of_app. by right. }
               unfold eq_key, equivb. rewrite Ed. by rewrite andb_false_r. }
             apply elem_of_cons in Hd as [->|Hd]; [|by apply Hn]. cbn [snd]. unfold eq_key, equivb. rewrite Ec'. by rewrite andb_false_r.
        * left. exists x, w. split; [done|]. split; [cbn [cells]; set_solver|]. unfold eq_key, equivb. by rewrite Ec, Ec'.
  Qed.
  Definition occurrences t (a : K) (cs : list (loc * V)) : nat := length (List.filter (fun c => eq_key t a c.2) cs).
  Lemma occurrences_app t a cs ds : occurrences t a (cs ++ ds) = occurrences t a cs + occurrences t a ds.
  Proof. unfold occurrences. by rewrite List.filter_app, app_length. Qed.
  Lemma occurrences_none t a cs : (forall c, c ∈ cs -> eq_key t a c.2 = false) -> occurrences t a cs = 0.
  Proof.
    unfold occurrences. induction cs as [|c cs IH]; intros H; [done|]. cbn [List.filter]. rewrite (H c) by set_solver. apply IH. intros; apply H; set_solver.
  Qed.
  Lemma count_loop_ok t m hd lm rm key a : StrictWeakOrder (kcomp t) -> kvalued t m key a -> forall s k fuel,
    Rep m hd lm rm (plug k s) -> ksorted t (cells (plug k s)) -> height s < fuel ->
    count_loop fuel t m (root s) key = Ok (occurrences t a (cells s)).
  Proof.
    intros HW Hv s. induction s as [|c l IHl x w r IHr]; intros k fuel HR HS Hf; (destruct fuel as [|fuel]; [lia|]); cbn [count_loop root].
    - done.
    - unfold kvalued in Hv. rewrite Hv. cbn [rbind]. rewrite (R_nkey t _ _ _ _ _ _ _ _ _ _ HR). cbn [rbind]. cbn [height] in Hf.
      pose proof HS as HS'. rewrite cells_plug in HS'. cbn [cells] in HS'. rewrite <- !app_assoc in HS'. cbn [app] in HS'.
      rewrite app_assoc in HS'. apply ksorted_mid in HS' as [HSl HSr].
      cbn [cells]. change ((x, w) :: cells r) with ([(x, w)] ++ cells r). rewrite !occurrences_app.
      destruct (kcomp t a (kov t w)) eqn:Ec; cbn [negb].
      + rewrite (R_left _ _ _ _ _ _ _ _ _ _ HR). cbn [rbind].
        rewrite (IHl (FL c x w r :: k) fuel HR HS) by lia.
        rewrite (occurrences_none _ _ [(x, w)]), (occurrences_none _ _ (cells r)); [by rewrite Nat.add_0_r| |].
        * intros d Hd. assert (kcomp t a (kov t d.2) = true) as Ed.
          { eapply (swo_lt_le_trans (kcomp t) HW); [exact Ec|]. apply HSr. apply elem_of_app. by left. }
          unfold eq_key, equivb. by rewrite Ed.
        * intros d ->%elem_of_list_singleton. unfold eq_key, equivb. cbn [snd]. by rewrite Ec.
      + destruct (kcomp t (kov t w) a) eqn:Ec'; cbn [negb].
        * rewrite (R_right _ _ _ _ _ _ _ _ _ _ HR). cbn [rbind].
          rewrite (IHr (FR c l x w :: k) fuel HR HS) by lia.
          rewrite (occurrences_none _ _ [(x, w)]), (occurrences_none _ _ (cells l)); [done| |].
          -- intros d Hd. assert (kcomp t (kov t d.2) a = true) as Ed.
             { eapply (swo_le_lt_trans (kcomp t) HW); [|exact Ec']. apply HSl. apply elem_of_app. by right. }
             unfold eq_key, equivb. rewrite Ed. by rewrite andb_false_r.
          -- intros d ->%elem_of_list_singleton. unfold eq_key, equivb. cbn [snd]. rewrite Ec'. by rewrite andb_false_r.
        * rewrite (R_left _ _ _ _ _ _ _ _ _ _ HR). cbn [rbind]. rewrite (IHl (FL c x w r :: k) fuel HR HS) by lia. cbn [rbind].
          rewrite (R_right _ _ _ _ _ _ _ _ _ _ HR). cbn [rbind]. rewrite (IHr (FR c l x w :: k) fuel HR HS) by lia. cbn [rbind].
          f_equal. replace (occurrences t a [(x, w)]) with 1; [lia|]. unfold occurrences. cbn [List.filter snd]. unfold eq_key, equivb.
          by rewrite Ec, Ec'.
  Qed.
End api.
