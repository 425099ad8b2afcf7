(** TreeUnlink.v — the first half of __rebalance_erase: taking a node out of the tree. *)
From Verif Require Import Base DList Tree SpecTree TreeRep TreeInsert TreeErase TreeIter.
From stdpp Require Import list gmap.

Section unlink.
  Context {V : Type}.
  Notation M := (gmap loc (tnode V)).
  Notation ctx := (list (frame V)).
  Implicit Types (m : M) (t : tree V) (k : ctx).

  Lemma cpar_first hd k : lcells k = [] -> first_loc hd (rcells k) = Some (cpar hd k).
  Proof. destruct k as [|[c y w r|c l y w] k]; [done|done|]. cbn [lcells]. intros H. by destruct (lcells k), (cells l). Qed.
  Lemma cpar_last hd k : rcells k = [] -> last_loc hd (lcells k) = Some (cpar hd k).
  Proof. destruct k as [|[c y w r|c l y w] k]; [done|done|]. cbn [lcells rcells cpar]. intros H. by rewrite app_assoc, last_loc_snoc. Qed.
  Lemma Ctx_lm m hd lm rm k q lm' : hd ∉ clocs k -> Ctx m hd lm rm k q -> Ctx (alter (wleft lm') hd m) hd lm' rm k q.
  Proof.
    intros Hk [Hh Hc]. split; [by rewrite lookup_alter, Hh|]. eapply repc_frame; [|done].
    intros z Hz. apply lookup_alter_ne. intros ->. done.
  Qed.
  Lemma Ctx_rm m hd lm rm k q rm' : hd ∉ clocs k -> Ctx m hd lm rm k q -> Ctx (alter (wright rm') hd m) hd lm rm' k q.
  Proof.
    intros Hk [Hh Hc]. split; [by rewrite lookup_alter, Hh|]. eapply repc_frame; [|done].
    intros z Hz. apply lookup_alter_ne. intros ->. done.
  Qed.
  Lemma first_loc_ne hd (cs ds : list (loc * V)) x v : NoDup (hd :: (cs ++ (x, v) :: ds).*1) -> cs <> [] -> first_loc hd (cs ++ (x, v) :: ds) <> Some x.
  Proof.
    intros HN Hne. destruct cs as [|[y w] cs]; [done|]. cbn [app]. rewrite first_loc_cons. intros [= ->].
    cbn in HN. rewrite fmap_app in HN. apply NoDup_cons in HN as [_ HN]. apply NoDup_cons in HN as [HN _]. set_solver.
  Qed.
  Lemma last_loc_ne hd (cs ds : list (loc * V)) x v : NoDup (hd :: (cs ++ (x, v) :: ds).*1) -> ds <> [] -> last_loc hd (cs ++ (x, v) :: ds) <> Some x.
  Proof.
    intros HN Hne. destruct (exists_last Hne) as (ds'&[y w]&->).
    replace (cs ++ (x, v) :: ds' ++ [(y, w)]) with ((cs ++ (x, v) :: ds') ++ [(y, w)]) in * by by rewrite <- app_assoc.
    rewrite last_loc_snoc. intros [= ->]. rewrite fmap_app in HN. apply NoDup_cons in HN as [_ HN].
    apply NoDup_app in HN as (_&HN&_). apply (HN x); [rewrite fmap_app; cbn; set_solver|cbn; set_solver].
  Qed.

  Lemma unlink_one_ok m hd k c l x v r t :
    Rep m hd (first_loc hd (cells (plug k (Nd c l x v r)))) (last_loc hd (cells (plug k (Nd c l x v r)))) (plug k (Nd c l x v r)) ->
    (l = Lf /\ t = r \/ r = Lf /\ t = l) ->
    exists m', unlink_one m hd (Some x) (root t) = Ok (m', Some (cpar hd k)) /\
      Rep m' hd (first_loc hd (cells (plug k t))) (last_loc hd (cells (plug k t))) (plug k t) /\
      m' !! x = m !! x /\ (forall z, z ∉ hd :: locs (plug k (Nd c l x v r)) -> m' !! z = m !! z).
  Proof.
    intros HR Ht. pose proof HR as (HC&(Hx&Hl&Hr)&HN)%Rep_plug. cbn [root] in *.
    assert (Htr : rep m x t) by (destruct Ht as [[_ ->]|[_ ->]]; done).
    assert (Htc : cells l ++ cells r = cells t). { destruct Ht as [[-> ->]|[-> ->]]; cbn; by rewrite ?app_nil_r. }
    assert (HS : NoDup (concat [[x]; [hd]; locs t; clocs k])).
    { eapply NoDup_perm; [exact HN|]. rewrite locs_N. cbn. rewrite app_nil_r.
      assert (locs t = locs l ++ locs r) as -> by (unfold locs; by rewrite <- Htc, fmap_app). solve_Permutation. }
    assert (HNk : NoDup (hd :: clocs k)).
    { eapply (NoDup_perm _ ((hd :: clocs k) ++ x :: locs t)) in HS;
        [by apply NoDup_app in HS as (?&_)|cbn; rewrite app_nil_r; solve_Permutation]. }
    assert (HNt : NoDup (locs t)).
    { eapply (NoDup_perm _ (locs t ++ x :: hd :: clocs k)) in HS;
        [by apply NoDup_app in HS as (?&_)|cbn; rewrite app_nil_r; solve_Permutation]. }
    assert (Hhk : hd ∉ clocs k) by by apply NoDup_cons in HNk as [? _].
    assert (Hxh : x <> hd) by (intros ->; sp HS 0 1).
    assert (Hxk : x ∉ clocs k) by (intros ?; sp HS 0 3).
    assert (Hxt : x ∉ locs t) by (intros ?; sp HS 0 2).
    assert (Hht : hd ∉ locs t) by (intros ?; sp HS 1 2).
    assert (Hcx : x <> cpar hd k). { destruct (cpar_in hd k) as [->|Hin]; [done|]. intros ->. done. }
    assert (Hct : cpar hd k ∉ locs t). { destruct (cpar_in hd k) as [->|Hin]; [done|]. intros ?. sp HS 2 3. }
    unfold unlink_one. rewrite (relink_ok m hd _ _ k x (root t) _ HC Hxh Hxk Hx eq_refl). cbn [rbind].
    set (m1 := set_hole m hd k (root t)). pose proof (Ctx_set_hole _ _ _ _ _ _ (root t) HNk HC) as HC1. fold m1 in HC1.
    assert (Hx1 : m1 !! x = m !! x) by by apply set_hole_ne.
    assert (Ht1 : rep m1 x t). { eapply rep_frame; [|exact Htr]. intros z Hz. apply set_hole_ne. intros ->. done. }
    assert (F1 : forall z, z <> hd -> z ∉ clocs k -> m1 !! z = m !! z).
    { intros z Hz Hzk. apply set_hole_ne. destruct (cpar_in hd k) as [->|Hin]; [done|]. intros ->. done. }
    assert (Hd1 : dom m1 = dom m). { unfold m1. destruct k as [|[? ? ? ?|? ? ? ?] ?]; cbn [set_hole]; apply dom_alter_L. }
    clearbody m1. rewrite Hx in Hx1. pose proof HC1 as [Hh1 _]. rewrite (left_ok _ _ _ Hh1). cbn [rbind nleft].
    assert (Hlen : forall m' : M, dom m' = dom m -> length (cells t) <= tfuel m').
    { intros m' Hd. pose proof (Rep_size _ _ _ _ _ HR) as Hsz. rewrite cells_plug, !app_length in Hsz. cbn [cells] in Hsz.
      rewrite app_length in Hsz. cbn [length] in Hsz. rewrite <- Htc, app_length. unfold tfuel.
      rewrite <- (size_dom m'), Hd, size_dom. lia. }
    assert (Ec : cells (plug k (Nd c l x v r)) = (lcells k ++ cells l) ++ (x, v) :: cells r ++ rcells k).
    { rewrite cells_plug. cbn [cells]. by applist. }
    assert (Ec' : cells (plug k t) = (lcells k ++ cells l) ++ cells r ++ rcells k).
    { rewrite cells_plug, <- Htc. by applist. }
    assert (HNc : NoDup (hd :: ((lcells k ++ cells l) ++ (x, v) :: cells r ++ rcells k).*1)).
    { rewrite <- Ec. apply HR. }
    (* the leftmost link *)
    assert (exists m2, (if decide (first_loc hd (cells (plug k (Nd c l x v r))) = Some x)
               then do q <- match root t with Some _ => minimum m1 (root t) | None => parent m1 (Some x) end; set_left m1 (Some hd) q
               else Ok m1) = Ok m2 /\ Ctx m2 hd (first_loc hd (cells (plug k t))) (last_loc hd (cells (plug k (Nd c l x v r)))) k (root t) /\
              dom m2 = dom m /\ forall z, z <> hd -> m2 !! z = m1 !! z) as (m2&->&HC2&Hd2&F2).
    { destruct (decide _) as [E|E].
      - assert (lcells k ++ cells l = []) as Hnil.
        { destruct (lcells k ++ cells l) eqn:E0; [done|]. exfalso. rewrite Ec in E. by apply first_loc_ne in E. }
        assert ((match root t with Some _ => minimum m1 (root t) | None => parent m1 (Some x) end) = Ok (first_loc hd (cells (plug k t)))) as ->.
        { rewrite Ec', Hnil. cbn [app]. apply app_eq_nil in Hnil as [Hk0 Hl0]. rewrite Hl0 in Htc. cbn [app] in Htc. rewrite Htc.
          destruct (root t) eqn:Et.
          - rewrite <- Et. rewrite (minimum_ok hd t m1 x Ht1); [|by destruct t|by apply Hlen].
            rewrite first_loc_app; [done|]. intros H0%root_cells. congruence.
          - rewrite (parent_ok _ _ _ Hx1). cbn [npar]. apply root_cells in Et. rewrite Et. cbn [app]. by rewrite cpar_first. }
        cbn [rbind]. rewrite (set_left_ok _ _ _ _ Hh1). eexists. split; [reflexivity|]. split; [by eapply Ctx_lm|].
        split; [by rewrite dom_alter_L|]. intros z Hz. by apply lookup_alter_ne.
      - exists m1. split; [done|]. split; [|done]. replace (first_loc hd (cells (plug k t))) with (first_loc hd (cells (plug k (Nd c l x v r)))); [done|].
        rewrite Ec, Ec'. destruct (lcells k ++ cells l) as [|[? ?] ?] eqn:E0; [|done]. rewrite Ec in E. by destruct E. }
    cbn [rbind]. pose proof HC2 as [Hh2 _]. rewrite (right_ok _ _ _ Hh2). cbn [rbind nright].
    assert (Ht2 : rep m2 x t). { eapply rep_frame; [|exact Ht1]. intros z Hz. apply F2. intros ->. done. }
    assert (Hx2 : m2 !! x = m1 !! x) by by apply F2. rewrite Hx1 in Hx2.
    (* the rightmost link *)
    assert (exists m3, (if decide (last_loc hd (cells (plug k (Nd c l x v r))) = Some x)
               then do q <- match root t with Some _ => maximum m2 (root t) | None => parent m2 (Some x) end; set_right m2 (Some hd) q
               else Ok m2) = Ok m3 /\ Ctx m3 hd (first_loc hd (cells (plug k t))) (last_loc hd (cells (plug k t))) k (root t) /\
              forall z, z <> hd -> m3 !! z = m2 !! z) as (m3&->&HC3&F3).
    { destruct (decide _) as [E|E].
      - assert (cells r ++ rcells k = []) as Hnil.
        { destruct (cells r ++ rcells k) eqn:E0; [done|]. exfalso. rewrite Ec in E. by apply last_loc_ne in E. }
        assert ((match root t with Some _ => maximum m2 (root t) | None => parent m2 (Some x) end) = Ok (last_loc hd (cells (plug k t)))) as ->.
        { rewrite Ec', Hnil, app_nil_r. apply app_eq_nil in Hnil as [Hr0 Hk0]. rewrite Hr0, app_nil_r in Htc. rewrite Htc.
          destruct (root t) eqn:Et.
          - rewrite <- Et. rewrite (maximum_ok hd t m2 x Ht2); [|by destruct t|by apply Hlen].
            rewrite last_loc_app; [done|]. intros H0%root_cells. congruence.
          - rewrite (parent_ok _ _ _ Hx2). cbn [npar]. apply root_cells in Et. rewrite Et, app_nil_r. by rewrite cpar_last. }
        cbn [rbind]. rewrite (set_right_ok _ _ _ _ Hh2). eexists. split; [reflexivity|]. split; [by eapply Ctx_rm|].
        intros z Hz. by apply lookup_alter_ne.
      - exists m2. split; [done|]. split; [|done]. replace (last_loc hd (cells (plug k t))) with (last_loc hd (cells (plug k (Nd c l x v r)))); [done|].
        rewrite Ec, Ec'. destruct (cells r ++ rcells k) as [|[y w] ?] eqn:E0; [rewrite Ec in E; by rewrite last_loc_snoc in E|].
        rewrite !last_loc_app by done. rewrite last_loc_cons. by apply last_loc_irrel. }
    cbn [rbind].
    assert (Ht3 : rep m3 x t). { eapply rep_frame; [|exact Ht2]. intros z Hz. apply F3. intros ->. done. }
    assert (Hx3 : m3 !! x = m2 !! x) by by apply F3. rewrite Hx2 in Hx3.
    assert (match root t with Some _ => do p <- parent m3 (Some x); set_parent m3 (root t) p | None => Ok m3 end
            = Ok (reparent m3 (root t) (Some (cpar hd k)))) as ->.
    { destruct t as [|ct tl y w tr]; [done|]. cbn [root reparent]. rewrite (parent_ok _ _ _ Hx3). cbn [rbind npar].
      destruct Ht3 as (Hy&_). by rewrite (set_parent_ok _ _ _ _ Hy). }
    cbn [rbind]. assert (Hx4 : reparent m3 (root t) (Some (cpar hd k)) !! x = m3 !! x) by (apply reparent_ne; by apply root_notin).
    rewrite Hx3 in Hx4. rewrite (parent_ok _ _ _ Hx4). cbn [rbind npar]. eexists. split; [reflexivity|]. split; [|split].
    - apply Rep_plug. split; [|split].
      + eapply Ctx_frame; [|exact HC3]. intros z Hz. apply reparent_ne, root_notin. intros Hz'. apply elem_of_cons in Hz as [->|Hz]; [done|sp HS 2 3].
      + by eapply rep_reparent.
      + eapply (NoDup_perm _ (x :: (hd :: locs t ++ clocs k))) in HS; [by apply NoDup_cons in HS as [_ ?]|]. cbn. rewrite app_nil_r. solve_Permutation.
    - by rewrite Hx4, Hx.
    - intros z Hz. rewrite locs_plug, locs_N in Hz.
      assert (locs t = locs l ++ locs r) as Hlt by (unfold locs; by rewrite <- Htc, fmap_app).
      clear - Hz Hlt F1 F2 F3. nd. rewrite reparent_ne; [|apply root_notin; rewrite Hlt; apply not_elem_of_app; done].
      rewrite F3, F2, F1 by done. done.
  Qed.

  Lemma cpar_app hd kk k : cpar hd (kk ++ k) = cpar (cpar hd k) kk.
  Proof. by destruct kk as [|[? ? ? ?|? ? ? ?] kk]. Qed.
  Lemma repc_app m hd q kk k : repc m hd q (kk ++ k) <-> repc m (cpar hd k) q kk /\ repc m hd (crt kk q) k.
  Proof.
    revert q. induction kk as [|[c y w r|c l y w] kk IH]; intros q; cbn [app repc crt]; [tauto| |]; rewrite IH, cpar_app; tauto.
  Qed.
  Lemma crt_app kk k q : crt (kk ++ k) q = crt k (crt kk q).
  Proof. revert q. induction kk as [|[? ? ? ?|? ? ? ?] kk IH]; intros q; cbn [app crt]; [done|apply IH|apply IH]. Qed.
  Lemma crt_irrel k q q' : k <> [] -> crt k q = crt k q'.
  Proof. by destruct k as [|[? ? ? ?|? ? ? ?] k]. Qed.
  Lemma crt_some k q : k <> [] -> exists top, crt k q = Some top /\ top ∈ clocs k.
  Proof.
    intros Hk. destruct (crt k q) as [top|] eqn:E.
    - exists top. split; [done|]. by destruct (crt_in _ _ _ E) as [[? _]|?].
    - exfalso. destruct k as [|f k]; [done|]. by apply crt_not_none in E.
  Qed.
  Lemma clocs_app kk k : clocs (kk ++ k) ≡ₚ clocs kk ++ clocs k.
  Proof.
    induction kk as [|[c y w r|c l y w] kk IH]; cbn [app]; [done| |].
    - rewrite !clocs_FL, IH. by rewrite app_assoc, <- app_comm_cons.
    - rewrite !clocs_FR, IH. by rewrite app_assoc, <- app_comm_cons.
  Qed.
  Lemma lcells_app kk k : lcells (kk ++ k) = lcells k ++ lcells kk.
  Proof. induction kk as [|[c y w r|c l y w] kk IH]; cbn [app lcells]; rewrite ?IH; by rewrite ?app_nil_r, <- ?app_assoc. Qed.
  Lemma rcells_app kk k : rcells (kk ++ k) = rcells kk ++ rcells k.
  Proof. induction kk as [|[c y w r|c l y w] kk IH]; cbn [app rcells]; rewrite ?IH; by rewrite <- ?app_assoc. Qed.
  Lemma left_spine t : t <> Lf -> exists kk c s vs rs, t = plug kk (Nd c Lf s vs rs) /\ lcells kk = [].
  Proof.
    induction t as [|c l IHl x v r _]; [done|]. intros _. destruct l as [|c' l' x' v' r'] eqn:E.
    - by exists [], c, x, v, r.
    - rewrite <- E in *. destruct IHl as (kk&c0&s&vs&rs&->&Hkk); [by rewrite E|].
      exists (kk ++ [FL c x v r]), c0, s, vs, rs. rewrite plug_app, lcells_app. by rewrite Hkk.
  Qed.
  Lemma repc_retop m p q kk p' top : repc m p q kk -> NoDup (clocs kk) -> kk <> [] -> crt kk q = Some top ->
    repc (alter (wpar (Some p')) top m) p' q kk.
  Proof.
    revert q. induction kk as [|f kk IH]; intros q Hc HN Hne Ht; [done|].
    destruct f as [c y w r|c l y w]; cbn [repc crt] in *; [rewrite clocs_FL in HN|rewrite clocs_FR in HN];
      apply NoDup_cons in HN as [Hy HN]; apply NoDup_app in HN as (HN1&HN2&HN3); destruct Hc as (Hyl&Hr&Hk).
    - destruct kk as [|g kk].
      + cbn [crt cpar repc] in *. injection Ht as <-. split; [by rewrite lookup_alter, Hyl|]. split; [|done].
        eapply rep_frame; [|exact Hr]. intros z Hz. apply lookup_alter_ne. intros ->. set_solver.
      + destruct (crt_some (g :: kk) (Some y)) as (top'&Ht'&Hin); [done|]. rewrite Ht in Ht'. injection Ht' as <-.
        split; [rewrite lookup_alter_ne; [by rewrite Hyl; destruct g|intros ->; set_solver]|]. split; [|by apply IH].
        eapply rep_frame; [|exact Hr]. intros z Hz. apply lookup_alter_ne. intros ->. by apply (HN2 _ Hz).
    - destruct kk as [|g kk].
      + cbn [crt cpar repc] in *. injection Ht as <-. split; [by rewrite lookup_alter, Hyl|]. split; [|done].
        eapply rep_frame; [|exact Hr]. intros z Hz. apply lookup_alter_ne. intros ->. set_solver.
      + destruct (crt_some (g :: kk) (Some y)) as (top'&Ht'&Hin); [done|]. rewrite Ht in Ht'. injection Ht' as <-.
        split; [rewrite lookup_alter_ne; [by rewrite Hyl; destruct g|intros ->; set_solver]|]. split; [|by apply IH].
        eapply rep_frame; [|exact Hr]. intros z Hz. apply lookup_alter_ne. intros ->. by apply (HN2 _ Hz).
  Qed.
  Lemma repc_hole m p q kk q' : repc m p q kk -> NoDup (clocs kk) -> kk <> [] -> lcells kk = [] ->
    repc (alter (wleft q') (cpar p kk) m) p q' kk.
  Proof.
    intros Hc HN Hne Hl. destruct kk as [|[c y w r|c l y w] kk]; [done| |]; cbn [lcells] in Hl.
    - cbn [repc cpar] in *. destruct Hc as (Hy&Hr&Hk). rewrite clocs_FL in HN. nd. split; [by rewrite lookup_alter, Hy|]. split.
      + eapply rep_frame; [|done]. intros z Hz. apply lookup_alter_ne. intros ->. done.
      + eapply repc_frame; [|done]. intros z Hz. apply lookup_alter_ne. intros ->. done.
    - by destruct (lcells kk), (cells l).
  Qed.
  Lemma cpar_in2 p (kk : ctx) : kk <> [] -> cpar p kk ∈ clocs kk.
  Proof.
    destruct kk as [|[c y w r|c l y w] kk]; [done| |]; intros _; cbn [cpar]; rewrite ?clocs_FL, ?clocs_FR; apply elem_of_list_here.
  Qed.
  Lemma cpar_irrel p p' (kk : ctx) : kk <> [] -> cpar p kk = cpar p' kk.
  Proof. by destruct kk as [|[? ? ? ?|? ? ? ?] ?]. Qed.
  Lemma repc_dom m p q kk z : repc m p q kk -> z ∈ clocs kk -> is_Some (m !! z).
  Proof.
    revert q. induction kk as [|[c y w r|c l y w] kk IH]; intros q Hc Hz.
    - by apply elem_of_nil in Hz.
    - destruct Hc as (Hy&Hr&Hk). rewrite clocs_FL in Hz. apply elem_of_cons in Hz as [->|Hz]; [by eexists|].
      apply elem_of_app in Hz as [Hz|Hz]; [by eapply rep_dom|by eapply IH].
    - destruct Hc as (Hy&Hr&Hk). rewrite clocs_FR in Hz. apply elem_of_cons in Hz as [->|Hz]; [by eexists|].
      apply elem_of_app in Hz as [Hz|Hz]; [by eapply rep_dom|by eapply IH].
  Qed.

  Lemma unlink_two_ok m hd lm rm k c l x v kk cs s vs rs :
    Rep m hd lm rm (plug k (Nd c l x v (plug kk (Nd cs Lf s vs rs)))) -> l <> Lf -> lcells kk = [] ->
    exists m', unlink_two m hd (Some x) (Some s) (root rs) = Ok (m', Some (cpar hd (kk ++ FR c l s vs :: k))) /\
      Rep m' hd lm rm (plug (kk ++ FR c l s vs :: k) rs) /\
      (exists n, m' !! x = Some n /\ ncol n = cs /\ nval n = Some v) /\
      (forall z, z ∉ hd :: locs (plug k (Nd c l x v (plug kk (Nd cs Lf s vs rs)))) -> m' !! z = m !! z).
  Proof.
    intros HR Hl Hkk. pose proof HR as (HC&(Hx&Hrl&Hr)&HN)%Rep_plug. apply rep_plug in Hr as [(Hs&_&Hrs) Hc]. cbn [root] in *.
    assert (HS : NoDup (concat [[x]; [hd]; locs l; [s]; clocs kk; locs rs; clocs k])).
    { eapply NoDup_perm; [exact HN|]. rewrite locs_N, locs_plug, locs_N. cbn. rewrite app_nil_r. solve_Permutation. }
    assert (HNk : NoDup (hd :: clocs k)).
    { eapply (NoDup_perm _ ((hd :: clocs k) ++ x :: locs l ++ s :: clocs kk ++ locs rs)) in HS;
        [by apply NoDup_app in HS as (?&_)|cbn; rewrite app_nil_r; solve_Permutation]. }
    assert (HNl : NoDup (locs l)).
    { eapply (NoDup_perm _ (locs l ++ hd :: clocs k ++ x :: s :: clocs kk ++ locs rs)) in HS;
        [by apply NoDup_app in HS as (?&_)|cbn; rewrite app_nil_r; solve_Permutation]. }
    assert (HNkk : NoDup (clocs kk)).
    { eapply (NoDup_perm _ (clocs kk ++ hd :: clocs k ++ x :: s :: locs l ++ locs rs)) in HS;
        [by apply NoDup_app in HS as (?&_)|cbn; rewrite app_nil_r; solve_Permutation]. }
    assert (HNrs : NoDup (locs rs)).
    { eapply (NoDup_perm _ (locs rs ++ hd :: clocs k ++ x :: s :: locs l ++ clocs kk)) in HS;
        [by apply NoDup_app in HS as (?&_)|cbn; rewrite app_nil_r; solve_Permutation]. }
    assert (Hxh : x <> hd) by (intros ->; sp HS 0 1). assert (Hxs : x <> s) by (intros ->; sp HS 0 3).
    assert (Hsh : s <> hd) by (intros ->; sp HS 1 3). assert (Hxk : x ∉ clocs k) by (intros ?; sp HS 0 6).
    assert (Hxl : x ∉ locs l) by (intros ?; sp HS 0 2). assert (Hsl : s ∉ locs l) by (intros ?; sp HS 2 3).
    assert (Hsk : s ∉ clocs k) by (intros ?; sp HS 3 6). assert (Hskk : s ∉ clocs kk) by (intros ?; sp HS 3 4).
    assert (Hxkk : x ∉ clocs kk) by (intros ?; sp HS 0 4). assert (Hsrs : s ∉ locs rs) by (intros ?; sp HS 3 5).
    assert (Hxrs : x ∉ locs rs) by (intros ?; sp HS 0 5).
    unfold unlink_two. rewrite (relink_ok m hd _ _ k x (Some s) _ HC Hxh Hxk Hx eq_refl). cbn [rbind].
    set (m1 := set_hole m hd k (Some s)). pose proof (Ctx_set_hole _ _ _ _ _ _ (Some s) HNk HC) as HC1. fold m1 in HC1.
    assert (F1 : forall z, z <> hd -> z ∉ clocs k -> m1 !! z = m !! z).
    { intros z Hz Hzk. apply set_hole_ne. destruct (cpar_in hd k) as [->|Hin]; [done|]. intros ->. done. }
    clearbody m1.
    assert (Hx1 : m1 !! x = m !! x) by by apply F1. rewrite Hx in Hx1.
    assert (Hs1 : m1 !! s = m !! s) by by apply F1. rewrite Hs in Hs1.
    rewrite (left_ok _ _ _ Hx1). cbn [rbind nleft]. rewrite (set_left_ok _ _ _ _ Hs1). cbn [rbind].
    set (m2 := alter (wleft (root l)) s m1).
    assert (Hs2 : m2 !! s = Some (TNode cs (Some (cpar x kk)) (root l) (root rs) (Some vs))).
    { unfold m2. by rewrite lookup_alter, Hs1. }
    assert (F2 : forall z, z <> s -> m2 !! z = m1 !! z). { intros z Hz. by apply lookup_alter_ne. }
    clearbody m2. assert (Hx2 : m2 !! x = m1 !! x) by by apply F2. rewrite Hx1 in Hx2.
    rewrite (left_ok _ _ _ Hx2). cbn [rbind nleft].
    assert (Hrl2 : rep m2 x l).
    { eapply rep_frame; [|exact Hrl]. intros z Hz. rewrite F2, F1; [done|..]; intros ?; subst; [sp HS 1 2|sp HS 2 6|done]. }
    assert (set_parent m2 (root l) (Some s) = Ok (reparent m2 (root l) (Some s))) as ->.
    { destruct l as [|cl ll y w lr]; [done|]. destruct Hrl2 as (Hy&_). cbn [root reparent]. by rewrite (set_parent_ok _ _ _ _ Hy). }
    cbn [rbind]. set (m3 := reparent m2 (root l) (Some s)).
    assert (Hrl3 : rep m3 s l) by by eapply rep_reparent.
    assert (F3 : forall z, z ∉ locs l -> m3 !! z = m2 !! z). { intros z Hz. by apply reparent_ne, root_notin. }
    clearbody m3. assert (Hx3 : m3 !! x = m2 !! x) by by apply F3. rewrite Hx2 in Hx3.
    assert (Hs3 : m3 !! s = m2 !! s) by by apply F3. rewrite Hs2 in Hs3.
    rewrite (right_ok _ _ _ Hx3). cbn [rbind nright].
    assert (exists m7, (if decide (Some s <> root (plug kk (Nd cs Lf s vs rs))) then
         do m4 <- set_right m3 (Some s) (root (plug kk (Nd cs Lf s vs rs)));
         do r0 <- right m4 (Some x); do m5 <- set_parent m4 r0 (Some s);
         do p <- parent m5 (Some s); do m6 <- set_left m5 p (root rs);
         do m7 <- match root rs with Some _ => do p <- parent m6 (Some s); set_parent m6 (root rs) p | None => Ok m6 end;
         do rp <- parent m7 (Some s); Ok (m7, rp)
       else Ok (m3, Some s)) = Ok (m7, Some (cpar s kk)) /\
       m7 !! s = Some (TNode cs (Some (cpar x kk)) (root l) (crt kk (root rs)) (Some vs)) /\
       repc m7 s (root rs) kk /\ rep m7 (cpar s kk) rs /\
       forall z, z <> s -> z ∉ clocs kk -> z ∉ locs rs -> m7 !! z = m3 !! z) as (m7&E7&Hs7&Hc7&Hrs7&F7).
    { assert (Hc3 : repc m3 x (Some s) kk).
      { eapply repc_frame; [|exact Hc]. intros z Hz. rewrite F3, F2, F1; [done|..]; intros ?; subst; [sp HS 1 4|sp HS 4 6|done|sp HS 2 4]. }
      assert (Hrs3 : rep m3 s rs).
      { eapply rep_frame; [|exact Hrs]. intros z Hz. rewrite F3, F2, F1; [done|..]; intros ?; subst; [sp HS 1 5|sp HS 5 6|done|sp HS 2 5]. }
      destruct (decide (kk = [])) as [->|Hkne].
      - cbn [plug root]. rewrite decide_False by (intros H; by apply H). exists m3. split; [done|]. cbn [cpar crt repc] in *. done.
      - destruct (crt_some kk (Some s) Hkne) as (top&Htop&Htin).
        rewrite root_plug. cbn [root]. rewrite Htop. rewrite decide_True by (intros [= ->]; done).
        rewrite root_plug in Hx3. cbn [root] in Hx3. rewrite Htop in Hx3. rewrite (set_right_ok _ _ _ _ Hs3). cbn [rbind].
        set (m4 := alter (wright (Some top)) s m3).
        assert (Hs4 : m4 !! s = Some (TNode cs (Some (cpar x kk)) (root l) (Some top) (Some vs))).
        { unfold m4. by rewrite lookup_alter, Hs3. }
        assert (F4 : forall z, z <> s -> m4 !! z = m3 !! z). { intros z Hz. by apply lookup_alter_ne. }
        clearbody m4. assert (Hx4 : m4 !! x = m3 !! x) by by apply F4. rewrite Hx3 in Hx4.
        rewrite (right_ok _ _ _ Hx4). cbn [rbind nright].
        assert (Hc4 : repc m4 x (Some s) kk). { eapply repc_frame; [|exact Hc3]. intros z Hz. apply F4. intros ->. done. }
        destruct (repc_dom _ _ _ _ _ Hc4 Htin) as [nt Hnt]. rewrite (set_parent_ok _ _ _ _ Hnt). cbn [rbind].
        pose proof (repc_retop _ _ _ _ s _ Hc4 HNkk Hkne Htop) as Hc5. set (m5 := alter (wpar (Some s)) top m4) in *.
        assert (F5 : forall z, z ∉ clocs kk -> m5 !! z = m4 !! z). { intros z Hz. apply lookup_alter_ne. intros ->. done. }
        clearbody m5. assert (Hs5 : m5 !! s = m4 !! s) by by apply F5. rewrite Hs4 in Hs5.
        rewrite (parent_ok _ _ _ Hs5). cbn [rbind npar].
        pose proof (cpar_in2 x kk Hkne) as Hpin. destruct (repc_dom _ _ _ _ _ Hc5 Hpin) as [np Hnp].
        rewrite (set_left_ok _ _ _ _ Hnp). cbn [rbind].
        pose proof (repc_hole _ _ _ _ (root rs) Hc5 HNkk Hkne Hkk) as Hc6. rewrite (cpar_irrel s x kk Hkne) in Hc6.
        set (m6 := alter (wleft (root rs)) (cpar x kk) m5) in *.
        assert (F6 : forall z, z ∉ clocs kk -> m6 !! z = m5 !! z). { intros z Hz. apply lookup_alter_ne. intros Hzz. by rewrite <- Hzz in Hz. }
        clearbody m6. assert (Hs6 : m6 !! s = m5 !! s) by by apply F6. rewrite Hs5 in Hs6.
        assert (Hrs6 : rep m6 s rs).
        { eapply rep_frame; [|exact Hrs3]. intros z Hz. rewrite F6, F5, F4; [done|..]; intros ?; subst; [done|sp HS 4 5|sp HS 4 5]. }
        assert (match root rs with Some _ => do p <- parent m6 (Some s); set_parent m6 (root rs) p | None => Ok m6 end
            = Ok (reparent m6 (root rs) (Some (cpar x kk)))) as ->.
        { destruct rs as [|ct tl y w tr]; [done|]. cbn [root reparent]. rewrite (parent_ok _ _ _ Hs6). cbn [rbind npar].
          destruct Hrs6 as (Hy&_). by rewrite (set_parent_ok _ _ _ _ Hy). }
        cbn [rbind]. set (m7 := reparent m6 (root rs) (Some (cpar x kk))).
        assert (F7 : forall z, z ∉ locs rs -> m7 !! z = m6 !! z). { intros z Hz. by apply reparent_ne, root_notin. }
        assert (Hrs7 : rep m7 (cpar x kk) rs) by by eapply rep_reparent.
        clearbody m7. assert (Hs7 : m7 !! s = m6 !! s) by by apply F7. rewrite Hs6 in Hs7.
        rewrite (parent_ok _ _ _ Hs7). cbn [rbind npar]. exists m7. rewrite (cpar_irrel s x kk Hkne). split; [done|].
        split; [by rewrite Hs7, (crt_irrel kk (root rs) (Some s) Hkne), Htop|].
        split; [eapply repc_frame; [|exact Hc6]; intros z Hz; apply F7; intros ?; sp HS 4 5|]. split; [done|].
        intros z Hz1 Hz2 Hz3. by rewrite F7, F6, F5, F4 by done. }
    rewrite E7. cbn [rbind]. clear E7.
    assert (Hx7 : m7 !! x = m3 !! x) by by apply F7. rewrite Hx3 in Hx7.
    rewrite (color_ok _ _ _ Hs7), (color_ok _ _ _ Hx7). cbn [rbind ncol]. rewrite (set_color_ok _ _ _ _ Hs7). cbn [rbind].
    set (m8 := alter (wcol c) s m7).
    assert (Hx8 : m8 !! x = m7 !! x) by by apply lookup_alter_ne. rewrite Hx7 in Hx8.
    assert (Hs8 : m8 !! s = Some (TNode c (Some (cpar x kk)) (root l) (crt kk (root rs)) (Some vs))).
    { unfold m8. by rewrite lookup_alter, Hs7. }
    assert (F8 : forall z, z <> s -> m8 !! z = m7 !! z). { intros z Hz. by apply lookup_alter_ne. } clearbody m8.
    rewrite (set_color_ok _ _ _ _ Hx8). cbn [rbind]. set (m9 := alter (wcol cs) x m8).
    assert (Hx9 : m9 !! x = Some (TNode cs (Some (cpar hd k)) (root l) (root (plug kk (Nd cs Lf s vs rs))) (Some v))).
    { unfold m9. by rewrite lookup_alter, Hx8. }
    assert (Hs9 : m9 !! s = m8 !! s) by by apply lookup_alter_ne. rewrite Hs8 in Hs9.
    assert (F9 : forall z, z <> x -> m9 !! z = m8 !! z). { intros z Hz. by apply lookup_alter_ne. } clearbody m9.
    rewrite (parent_ok _ _ _ Hx9). cbn [rbind npar]. rewrite (set_parent_ok _ _ _ _ Hs9). cbn [rbind].
    set (m10 := alter (wpar (Some (cpar hd k))) s m9).
    assert (Hs10 : m10 !! s = Some (TNode c (Some (cpar hd k)) (root l) (crt kk (root rs)) (Some vs))).
    { unfold m10. by rewrite lookup_alter, Hs9. }
    assert (F10 : forall z, z <> s -> m10 !! z = m9 !! z). { intros z Hz. by apply lookup_alter_ne. } clearbody m10.
    assert (F107 : forall z, z <> s -> z <> x -> m10 !! z = m7 !! z). { intros z Hz Hz'. by rewrite F10, F9, F8 by done. }
    exists m10. split; [f_equal; f_equal; f_equal; by rewrite cpar_app|]. split; [|split].
    - apply Rep_plug. split; [|split].
      + split.
        * rewrite crt_app. cbn [crt]. destruct HC1 as [Hh1 _]. rewrite F107 by done. rewrite F7; [|done|intros ?; sp HS 1 4|intros ?; sp HS 1 5].
          rewrite F3 by (intros ?; sp HS 1 2). by rewrite F2 by done.
        * rewrite repc_app. cbn [repc cpar]. split; [|split; [done|split]].
          -- eapply repc_frame; [|exact Hc7]. intros z Hz. apply F107; intros ->; done.
          -- eapply rep_frame; [|exact Hrl3]. intros z Hz. rewrite F107, F7; [done|..]; intros ?; subst; [done|sp HS 2 4|sp HS 2 5|done|done].
          -- destruct HC1 as [_ Hk1]. eapply repc_frame; [|exact Hk1]. intros z Hz.
             rewrite F107, F7, F3, F2; [done|..]; intros ?; subst; [done|sp HS 2 6|done|sp HS 4 6|sp HS 5 6|done|done].
      + rewrite cpar_app. cbn [cpar]. eapply rep_frame; [|exact Hrs7]. intros z Hz. apply F107; intros ->; done.
      + rewrite clocs_app, clocs_FR. eapply (NoDup_perm _ (x :: (hd :: locs rs ++ clocs kk ++ s :: locs l ++ clocs k))) in HS;
          [by apply NoDup_cons in HS as [_ ?]|]. cbn. rewrite app_nil_r. solve_Permutation.
    - rewrite F10, Hx9 by done. by eexists.
    - intros z Hz. rewrite locs_plug, locs_N, locs_plug, locs_N in Hz. clear - Hz F107 F7 F3 F2 F1. nd.
      by rewrite F107, F7, F3, F2, F1 by done.
  Qed.

  Lemma rbk_relabel c0 n kk c l x v y w k : rbk c0 n (kk ++ FR c l x v :: k) -> rbk c0 n (kk ++ FR c l y w :: k).
  Proof.
    revert c0 n. induction kk as [|f kk IH]; intros c0 n H; cbn [app] in *; inversion H; subst; econstructor; eauto.
  Qed.
  Lemma rbt_0 c (t : tree V) : rbt c 0 t -> deficient 0 t.
  Proof.
    intros H. destruct c; [by left|]. right. inversion H; subst. eexists _, _, _, _, _, _. done.
  Qed.
  (** the red-black state after a node with at most one child has been taken out *)
  Lemma unlinked_rb c n k t1 t2 x v t : rbt c n (Nd c t1 x v t2) -> rbk c n k -> (t1 = Lf /\ t = t2 \/ t2 = Lf /\ t = t1) ->
    (c = RED -> exists n', rbt BLACK n' (plug k t)) /\ (c = BLACK -> exists n', deficient n' t /\ rbk BLACK (S n') k).
  Proof.
    intros Hr Hk Ht. inversion Hr; subst.
    - split; [|done]. intros _. apply rbk_weaken in Hk. destruct Ht as [[-> ->]|[-> ->]].
      + match goal with H : rbt _ _ Lf |- _ => inversion H; subst end. by eapply rbk_plug.
      + match goal with H : rbt _ _ Lf |- _ => inversion H; subst end. by eapply rbk_plug.
    - split; [done|]. intros _. destruct Ht as [[-> ->]|[-> ->]].
      + match goal with H : rbt _ _ Lf |- _ => inversion H; subst end. exists 0. split; [by eapply rbt_0|done].
      + match goal with H : rbt _ _ Lf |- _ => inversion H; subst end. exists 0. split; [by eapply rbt_0|done].
  Qed.
  Lemma Lf_dec t : t = Lf \/ t <> Lf.
  Proof. destruct t; [by left|by right]. Qed.
  Lemma cells_N c l x (v : V) r : cells (Nd c l x v r) = cells l ++ (x, v) :: cells r.
  Proof. done. Qed.

  Lemma rebalance_erase_ok m hd k c l x v r : is_tree m hd (plug k (Nd c l x v r)) ->
    exists m' T', rebalance_erase m hd (Some x) = Ok (m', Some x) /\ is_tree m' hd T' /\
      cells T' = (lcells k ++ cells l) ++ cells r ++ rcells k /\ (exists n, m' !! x = Some n /\ nval n = Some v) /\
      (forall z, z ∉ hd :: locs (plug k (Nd c l x v r)) -> m' !! z = m !! z).
  Proof.
    intros [HR [n Hrb]].
    assert (Hx : x <> hd). { pose proof (Rep_ND _ _ _ _ _ _ HR) as HN. intros ->. rewrite locs_N in HN. nd. done. }
    (* the common end: rebalancing after the unlinking of a node coloured [c0] *)
    assert (forall m1 k1 t1 c0 nx, Rep m1 hd (first_loc hd (cells (plug k1 t1))) (last_loc hd (cells (plug k1 t1))) (plug k1 t1) ->
      cells (plug k1 t1) = (lcells k ++ cells l) ++ cells r ++ rcells k ->
      (forall z, z ∈ locs (plug k1 t1) -> z ∈ locs (plug k (Nd c l x v r)) /\ z <> x) ->
      m1 !! x = Some nx -> ncol nx = c0 -> nval nx = Some v ->
      (forall z, z ∉ hd :: locs (plug k (Nd c l x v r)) -> m1 !! z = m !! z) ->
      (c0 = RED -> exists n', rbt BLACK n' (plug k1 t1)) -> (c0 = BLACK -> exists n', deficient n' t1 /\ rbk BLACK (S n') k1) ->
      exists m' T', (do b <- is_black m1 (Some x);
          if b then do (m, rn) <- erase_loop (tfuel m1) m1 hd (root t1) (Some (cpar hd k1));
                    do m <- match rn with Some _ => set_color m rn BLACK | None => Ok m end; Ok (m, Some x)
          else Ok (m1, Some x)) = Ok (m', Some x) /\ is_tree m' hd T' /\
      cells T' = (lcells k ++ cells l) ++ cells r ++ rcells k /\ (exists n, m' !! x = Some n /\ nval n = Some v) /\
      (forall z, z ∉ hd :: locs (plug k (Nd c l x v r)) -> m' !! z = m !! z)) as Hend.
    { intros m1 k1 t1 c0 nx HR1 Hc1 Hl1 Hx1 Hcx Hvx HF1 HRed HBlack. cbn [is_black]. rewrite (color_ok _ _ _ Hx1). cbn [rbind]. rewrite Hcx.
      destruct c0.
      - destruct (HBlack eq_refl) as (n1&Hd1&Hk1). destruct (erase_fix_ok _ _ _ _ _ _ _ HR1 Hd1 Hk1) as (m2&T2&E&HU&Hc2&Hn2).
        exists m2, T2. split.
        {
          destruct (erase_loop (tfuel m1) m1 hd (root t1) (Some (cpar hd k1))) as [[m3 rn]| |] eqn:E3; cbn [rbind] in *; [|done|done].
          rewrite E. done. }
        destruct HU as (HR2&HP2&HF2). split; [|split; [|split]].
        + split; [|done]. by rewrite Hc2.
        + by rewrite Hc2.
        + exists nx. split; [|done]. rewrite HF2; [done|]. intros [->|Hin]%elem_of_cons; [done|]. by destruct (Hl1 _ Hin).
        + intros z Hz. rewrite HF2; [by apply HF1|]. apply not_elem_of_cons in Hz as [Hz1 Hz2]. apply not_elem_of_cons. split; [done|].
          intros Hin. by destruct (Hl1 _ Hin).
      - destruct (HRed eq_refl) as (n1&Hn1). exists m1, (plug k1 t1). split; [done|]. split; [by split; [|eexists]|]. split; [done|].
        split; [by eexists|done]. }
    assert (Hsub : forall T1 : tree V, cells T1 = (lcells k ++ cells l) ++ cells r ++ rcells k ->
      forall z, z ∈ locs T1 -> z ∈ locs (plug k (Nd c l x v r)) /\ z <> x).
    { intros T1 HT1 z Hz. pose proof (Rep_ND _ _ _ _ _ _ HR) as HN. unfold locs in Hz. rewrite HT1, !fmap_app in Hz.
      assert (NoDup (x :: (lcells k).*1 ++ locs l ++ locs r ++ (rcells k).*1)) as HN'.
      { rewrite locs_N in HN. apply NoDup_cons in HN as [_ HN]. eapply NoDup_perm; [exact HN|]. unfold clocs. solve_Permutation. }
      apply NoDup_cons in HN' as [HN' _]. split; [|intros ->; apply HN'; unfold locs; set_solver].
      unfold locs. rewrite cells_plug, !fmap_app. cbn [cells]. rewrite fmap_app. cbn. set_solver. }
    destruct (rbk_of _ _ _ _ Hrb eq_refl) as (c'&n'&Hxr&Hxk).
    assert (c' = c) as -> by (symmetry; exact (rbt_col _ _ _ Hxr)).
    unfold rebalance_erase, has_left, has_right. rewrite !(R_left _ _ _ _ _ _ _ _ _ _ HR), !(R_right _ _ _ _ _ _ _ _ _ _ HR). cbn [rbind].
    assert (Hone : forall t1, (l = Lf /\ t1 = r \/ r = Lf /\ t1 = l) -> exists m' T',
       (do (en, rn) <- Ok (Some x, root t1);
        do (m0, rp) <- (if decide (en = Some x) then unlink_one m hd (Some x) rn else unlink_two m hd (Some x) en rn);
        do b <- is_black m0 (Some x);
        if b then do (m, rn) <- erase_loop (tfuel m0) m0 hd rn rp;
                    do m <- match rn with Some _ => set_color m rn BLACK | None => Ok m end; Ok (m, Some x)
          else Ok (m0, Some x)) = Ok (m', Some x) /\ is_tree m' hd T' /\
      cells T' = (lcells k ++ cells l) ++ cells r ++ rcells k /\ (exists n, m' !! x = Some n /\ nval n = Some v) /\
      (forall z, z ∉ hd :: locs (plug k (Nd c l x v r)) -> m' !! z = m !! z)).
    { intros t1 Ht1. cbn [rbind]. rewrite decide_True by done.
      destruct (unlink_one_ok m hd k c l x v r t1 HR Ht1) as (m1&->&HR1&Hx1&HF1). cbn [rbind].
      destruct (unlinked_rb _ _ _ _ _ _ _ _ Hxr Hxk Ht1) as [Hred Hblack].
      assert (cells (plug k t1) = (lcells k ++ cells l) ++ cells r ++ rcells k) as Hc1.
      { rewrite cells_plug. destruct Ht1 as [[-> ->]|[-> ->]]; cbn [cells app]; by rewrite ?app_nil_r, <- ?app_assoc. }
      rewrite (Rep_node _ _ _ _ _ _ _ _ _ _ HR) in Hx1.
      eapply (Hend m1 k t1 c _ HR1 Hc1); [by apply Hsub|exact Hx1|done|done|done|done|done]. }
    destruct (Lf_dec l) as [->|Hl].
    - cbn [root]. rewrite bool_decide_false by (intros H; by apply H). cbn [negb rbind]. apply (Hone r). by left.
    - rewrite bool_decide_true by (by destruct l). cbn [negb].
      destruct (Lf_dec r) as [->|Hr].
      + cbn [root]. rewrite bool_decide_false by (intros H; by apply H). cbn [negb rbind]. apply (Hone l). by right.
      + rewrite bool_decide_true by (by destruct r). cbn [negb].
        destruct (left_spine r Hr) as (kk&cs&s&vs&rs&Er&Hkk).
        assert (Hrr : rep m x r). { pose proof HR as (_&(_&_&H)&_)%Rep_plug. done. }
        rewrite (minimum_ok hd r m x Hrr Hr).
        2:{ pose proof (Rep_size _ _ _ _ _ HR) as Hsz. rewrite cells_plug, !app_length in Hsz. rewrite cells_N, app_length in Hsz. cbn [length] in Hsz.
            unfold tfuel. lia. }
        assert (Hrc : cells r = (s, vs) :: cells rs ++ rcells kk). { rewrite Er, cells_plug, Hkk. done. }
        rewrite Hrc, first_loc_cons. cbn [rbind].
        assert (HT : plug k (Nd c l x v r) = plug (kk ++ FR c l x v :: k) (Nd cs Lf s vs rs)) by by rewrite plug_app, Er.
        rewrite HT in HR. rewrite (R_right _ _ _ _ _ _ _ _ _ _ HR). rewrite <- HT in HR. cbn [rbind].
        assert (Hsx : s <> x).
        { intros ->. pose proof (Rep_ND _ _ _ _ _ _ HR) as HN. rewrite locs_N in HN. unfold locs in HN at 2. rewrite Hrc in HN.
          rewrite <- app_assoc in HN. apply NoDup_cons in HN as [_ HN]. apply NoDup_app in HN as (_&_&HN). cbn in HN.
          apply NoDup_cons in HN as [HN _]. set_solver. }
        rewrite decide_False by congruence. pose proof HR as HR'. rewrite Er in HR'.
        destruct (unlink_two_ok m hd _ _ k c l x v kk cs s vs rs HR' Hl Hkk) as (m1&->&HR1&(nx&Hx1&Hx2&Hx3)&HF1). cbn [rbind].
        rewrite <- Er in HF1, HR1.
        assert (Hcl : cells l <> []) by (intros H0%root_cells; by destruct l).
        assert (Hc1 : cells (plug (kk ++ FR c l s vs :: k) rs) = (lcells k ++ cells l) ++ cells r ++ rcells k).
        { rewrite cells_plug, lcells_app, rcells_app, Hkk, Hrc. cbn [lcells rcells]. by applist. }
        assert (first_loc hd (cells (plug k (Nd c l x v r))) = first_loc hd (cells (plug (kk ++ FR c l s vs :: k) rs))) as E1.
        { rewrite Hc1, cells_plug, cells_N. rewrite <- !app_assoc.
          destruct (lcells k); [|done]. cbn [app]. by destruct (cells l). }
        assert (last_loc hd (cells (plug k (Nd c l x v r))) = last_loc hd (cells (plug (kk ++ FR c l s vs :: k) rs))) as E2.
        { rewrite Hc1, cells_plug, cells_N, Hrc.
          rewrite <- !app_assoc. cbn [app]. rewrite !last_loc_app by by destruct (cells l).
          by rewrite !last_loc_cons. }
        rewrite E1, E2 in HR1.
        assert (Hrb' : rbt BLACK n (plug (kk ++ FR c l x v :: k) (Nd cs Lf s vs rs))) by by rewrite <- HT.
        destruct (rbk_of _ _ _ _ Hrb' eq_refl) as (c1&n1&Hsr&Hsk). pose proof (rbt_col _ _ _ Hsr) as Hcs. cbn [col] in Hcs. subst c1.
        apply (rbk_relabel _ _ _ _ _ _ _ s vs) in Hsk.
        destruct (unlinked_rb cs n1 (kk ++ FR c l s vs :: k) Lf rs s vs rs Hsr Hsk) as [Hred Hblack]; [by left|].
        rewrite <- Hrc. eapply (Hend m1 (kk ++ FR c l s vs :: k) rs cs nx HR1 Hc1); [by apply Hsub|done..].
  Qed.
End unlink.
