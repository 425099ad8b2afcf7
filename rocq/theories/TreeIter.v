(** TreeIter.v — minimum, maximum, ++ and -- on a tree in memory. *)
From Verif Require Import Base DList Tree SpecTree TreeRep TreeInsert.
From stdpp Require Import list gmap.

Section iter.
  Context {V : Type}.
  Notation M := (gmap loc (tnode V)).
  Notation ctx := (list (frame V)).
  Implicit Types (m : M) (t : tree V) (k : ctx).

  Lemma first_loc_cons hd x (v : V) cs : first_loc hd ((x, v) :: cs) = Some x.
  Proof. done. Qed.
  Lemma first_loc_app hd (cs ds : list (loc * V)) : cs <> [] -> first_loc hd (cs ++ ds) = first_loc hd cs.
  Proof. by destruct cs. Qed.
  Lemma last_loc_snoc hd x (v : V) cs : last_loc hd (cs ++ [(x, v)]) = Some x.
  Proof. unfold last_loc. by rewrite last_snoc. Qed.
  Lemma last_loc_app hd (cs ds : list (loc * V)) : ds <> [] -> last_loc hd (cs ++ ds) = last_loc hd ds.
  Proof.
    intros H. destruct (exists_last H) as (l&[x v]&->). rewrite app_assoc. by rewrite !last_loc_snoc.
  Qed.
  Lemma last_loc_cons hd x (v : V) cs : last_loc hd ((x, v) :: cs) = last_loc x cs.
  Proof.
    unfold last_loc. destruct cs as [|c cs]; [done|]. cbn [last]. destruct (last (c :: cs)) eqn:E; [|by apply last_None in E].
    done.
  Qed.
  Lemma first_loc_irrel hd hd' (cs : list (loc * V)) : cs <> [] -> first_loc hd cs = first_loc hd' cs.
  Proof. by destruct cs. Qed.
  Lemma last_loc_irrel hd hd' (cs : list (loc * V)) : cs <> [] -> last_loc hd cs = last_loc hd' cs.
  Proof. intros H. destruct (exists_last H) as (l&[x v]&->). by rewrite !last_loc_snoc. Qed.
  Lemma last_loc_in hd (cs : list (loc * V)) : cs <> [] -> exists x v, last_loc hd cs = Some x /\ (x, v) ∈ cs.
  Proof. intros H. destruct (exists_last H) as (l&[x v]&->). exists x, v. rewrite last_loc_snoc. set_solver. Qed.
  Lemma cells_Nd_ne c l x (v : V) r : cells (Nd c l x v r) <> [].
  Proof. cbn [cells]. by destruct (cells l). Qed.
  Lemma root_cells t : root t = None <-> cells t = [].
  Proof. destruct t; [done|]. split; [done|]. intros H. by apply cells_Nd_ne in H. Qed.

  Lemma height_le t : height t <= length (cells t).
  Proof. induction t as [|c l IHl x v r IHr]; [done|]. cbn [height cells]. rewrite app_length. cbn [length]. lia. Qed.
  Lemma min_loop_ok hd t : forall m p fuel, rep m p t -> t <> Lf -> height t <= fuel ->
    min_loop fuel m (root t) = Ok (first_loc hd (cells t)).
  Proof.
    induction t as [|c l IHl x v r IHr]; intros m p fuel Hr Hne Hf; [done|].
    destruct fuel as [|fuel]; [cbn [height] in Hf; lia|]. cbn [rep root] in *. destruct Hr as (Hx&Hl&Hr).
    cbn [min_loop]. rewrite (left_ok _ _ _ Hx). cbn [rbind nleft]. destruct l as [|c' l' x' v' r'] eqn:E; [done|]. rewrite <- E in *.
    replace (root l) with (Some x') by by rewrite E. replace (Some x') with (root l) by by rewrite E.
    rewrite (IHl m x fuel); [|done|by rewrite E|cbn [height] in Hf; lia].
    cbn [cells]. rewrite first_loc_app; [done|]. rewrite E. apply cells_Nd_ne.
  Qed.
  Lemma max_loop_ok hd t : forall m p fuel, rep m p t -> t <> Lf -> height t <= fuel ->
    max_loop fuel m (root t) = Ok (last_loc hd (cells t)).
  Proof.
    induction t as [|c l IHl x v r IHr]; intros m p fuel Hr Hne Hf; [done|].
    destruct fuel as [|fuel]; [cbn [height] in Hf; lia|]. cbn [rep root] in *. destruct Hr as (Hx&Hl&Hr).
    cbn [max_loop]. rewrite (right_ok _ _ _ Hx). cbn [rbind nright]. destruct r as [|c' l' x' v' r'] eqn:E.
    - cbn [root cells]. by rewrite last_loc_snoc.
    - rewrite <- E in *. assert (r <> Lf) by by rewrite E.
      replace (root r) with (Some x') by by rewrite E. replace (Some x') with (root r) by by rewrite E.
      rewrite (IHr m x fuel); [|done|done|cbn [height] in Hf; lia].
      cbn [cells]. rewrite last_loc_app by done. rewrite last_loc_cons. f_equal.
      apply last_loc_irrel. rewrite E. apply cells_Nd_ne.
  Qed.
  Lemma minimum_ok hd t m p : rep m p t -> t <> Lf -> length (cells t) <= tfuel m ->
    minimum m (root t) = Ok (first_loc hd (cells t)).
  Proof.
    intros Hr Hne Hf. unfold minimum. destruct (root t) eqn:E; [|by destruct t]. rewrite <- E.
    eapply min_loop_ok; [done|done|]. pose proof (height_le t). lia.
  Qed.
  Lemma maximum_ok hd t m p : rep m p t -> t <> Lf -> length (cells t) <= tfuel m ->
    maximum m (root t) = Ok (last_loc hd (cells t)).
  Proof.
    intros Hr Hne Hf. unfold maximum. destruct (root t) eqn:E; [|by destruct t]. rewrite <- E.
    eapply max_loop_ok; [done|done|]. pose proof (height_le t). lia.
  Qed.
  Lemma Rep_fuel m hd lm rm k t : Rep m hd lm rm (plug k t) -> length (cells t) + length k < size m.
  Proof.
    intros HR. pose proof (Rep_size _ _ _ _ _ HR). rewrite cells_plug, !app_length in H.
    enough (length k <= length (lcells k) + length (rcells k)) by lia.
    clear. induction k as [|[c x v r|c l x v] k IH]; cbn [lcells rcells length]; rewrite ?app_length; cbn [length]; lia.
  Qed.

  (** ++ *)
  Lemma climb_right_ok hd rm : forall k m lm t fuel x, root t = Some x -> Rep m hd lm rm (plug k t) -> length k + 2 <= fuel ->
    exists x' p', climb_right fuel m (Some x) (Some (cpar hd k)) = Ok (x', p') /\
      exists r, right m x' = Ok r /\ (if decide (p' <> r) then p' else x') = first_loc hd (rcells k).
  Proof.
    induction k as [|[c y w r|c l y w] k IH]; intros m lm t fuel x Ht HR Hf.
    - destruct fuel as [|[|fuel]]; [cbn in Hf; lia..|]. cbn [plug] in *.
      destruct HR as (Hhd&Hrep&HND). destruct t as [|ct lt x0 vt rt]; [done|]. cbn [root] in Ht. injection Ht as ->.
      cbn [rep] in Hrep. destruct Hrep as (Hx&Hl&Hr). cbn [cpar rcells].
      assert (Hxh : x <> hd). { rewrite locs_N in HND. intros ->. nd. done. }
      cbn [climb_right]. rewrite (right_ok _ _ _ Hhd). cbn [rbind nright].
      destruct (decide (rm = Some x)) as [->|Hne].
      + rewrite (parent_ok _ _ _ Hhd). cbn [rbind npar root]. rewrite (right_ok _ _ _ Hx). cbn [rbind nright].
        rewrite decide_False. 2:{ intros E. apply root_in in E. rewrite locs_N in HND. nd. done. }
        exists (Some hd), (Some x). split; [done|]. exists (Some x). rewrite (right_ok _ _ _ Hhd). cbn. split; [done|].
        rewrite decide_False; [done|]. intros H. by apply H.
      + exists (Some x), (Some hd). split; [done|]. exists (root rt). rewrite (right_ok _ _ _ Hx). cbn. split; [done|].
        rewrite decide_True; [done|]. intros E. symmetry in E. apply root_in in E. rewrite locs_N in HND. nd. done.
    - destruct fuel as [|fuel]; [cbn in Hf; lia|]. pose proof HR as HR0. cbn [plug] in HR0.
      pose proof (Rep_node _ _ _ _ _ _ _ _ _ _ HR0) as Hy. cbn [cpar climb_right]. rewrite (right_ok _ _ _ Hy). cbn [rbind nright].
      assert (Hr : root r <> Some x).
      { intros E. refine (R_ne _ _ _ _ _ _ _ _ _ _ x HR0 _ E). done. }
      rewrite decide_False by done. exists (Some x), (Some y). split; [done|]. cbn [rcells]. rewrite first_loc_cons.
      destruct t as [|ct lt x0 vt rt]; [done|]. cbn [root] in Ht. injection Ht as ->.
      exists (root rt). split; [by apply (R_right _ _ _ _ _ _ _ _ _ _ HR)|].
      rewrite decide_True; [done|]. intros E. symmetry in E. apply root_in in E.
      apply Rep_ND in HR0. rewrite locs_N, locs_N in HR0. rewrite <- app_assoc in HR0. cbn in HR0.
      apply NoDup_cons in HR0 as [_ HR0]. apply NoDup_app in HR0 as (_&HR0&_). apply (HR0 y); set_solver.
    - destruct fuel as [|fuel]; [cbn in Hf; lia|]. pose proof HR as HR0. cbn [plug] in HR0.
      pose proof (Rep_node _ _ _ _ _ _ _ _ _ _ HR0) as Hy. cbn [cpar climb_right]. rewrite (right_ok _ _ _ Hy). cbn [rbind nright].
      rewrite decide_True by done. rewrite (parent_ok _ _ _ Hy). cbn [rbind npar].
      destruct (IH m lm (Nd c l y w t) fuel y eq_refl HR0) as (x'&p'&E&r&E1&E2).
      { cbn in Hf; lia. }
      exists x', p'. split; [done|]. exists r. split; [done|]. done.
  Qed.
  Lemma increment_ok m hd lm rm k c l x v r : Rep m hd lm rm (plug k (Nd c l x v r)) ->
    increment m (Some x) = Ok (first_loc hd (cells r ++ rcells k)).
  Proof.
    intros HR. unfold increment. rewrite (R_right _ _ _ _ _ _ _ _ _ _ HR). cbn [rbind].
    pose proof (Rep_fuel _ _ _ _ _ _ HR) as Hf. destruct (root r) eqn:E.
    - rewrite <- E. assert (r <> Lf) by by destruct r. pose proof HR as HR0.
      change (plug k (Nd c l x v r)) with (plug (FR c l x v :: k) r) in HR0. apply Rep_plug in HR0 as (_&Hr&_). cbn [cpar] in Hr.
      cbn [cells] in Hf. rewrite app_length in Hf. cbn [length] in Hf.
      rewrite (minimum_ok hd r m x Hr) by (done || (unfold tfuel; lia)).
      f_equal. symmetry. apply first_loc_app. intros H0%root_cells. congruence.
    - rewrite (R_parent _ _ _ _ _ _ _ _ _ _ HR). cbn [rbind].
      destruct (climb_right_ok hd rm k m lm (Nd c l x v r) (tfuel m) x eq_refl HR) as (x'&p'&E1&q&E2&E3); [unfold tfuel; lia|].
      rewrite E1. cbn [rbind]. rewrite E2. cbn [rbind]. apply root_cells in E. rewrite E. cbn [app]. rewrite <- E3. by destruct (decide _).
  Qed.

  (** -- *)
  Lemma climb_left_ok hd rm : forall k m lm t fuel x, root t = Some x -> Rep m hd lm rm (plug k t) -> length k + 2 <= fuel ->
    lcells k <> [] ->
    exists x', climb_left fuel m (Some x) (Some (cpar hd k)) = Ok (x', last_loc hd (lcells k)).
  Proof.
    induction k as [|[c y w r|c l y w] k IH]; intros m lm t fuel x Ht HR Hf Hne; [done| |].
    - destruct fuel as [|fuel]; [cbn in Hf; lia|]. pose proof HR as HR0. cbn [plug] in HR0.
      pose proof (Rep_node _ _ _ _ _ _ _ _ _ _ HR0) as Hy. cbn [cpar climb_left]. rewrite (left_ok _ _ _ Hy). cbn [rbind nleft].
      rewrite decide_True by done. rewrite (parent_ok _ _ _ Hy). cbn [rbind npar].
      destruct (IH m lm (Nd c t y w r) fuel y eq_refl HR0) as (x'&E); [cbn in Hf; lia|done|].
      exists x'. done.
    - destruct fuel as [|fuel]; [cbn in Hf; lia|]. pose proof HR as HR0. cbn [plug] in HR0.
      pose proof (Rep_node _ _ _ _ _ _ _ _ _ _ HR0) as Hy. cbn [cpar climb_left]. rewrite (left_ok _ _ _ Hy). cbn [rbind nleft].
      assert (Hr : root l <> Some x).
      { intros E. by apply (R_ne _ _ _ _ _ _ _ _ _ _ x HR0 E). }
      rewrite decide_False by done. exists (Some x). cbn [lcells]. by rewrite app_assoc, last_loc_snoc.
  Qed.
  Lemma is_header_node m hd lm rm k c l x v r : Rep m hd lm rm (plug k (Nd c l x v r)) -> (k = [] -> c = BLACK) ->
    is_header m (Some x) = Ok false.
  Proof.
    intros HR Hc. unfold is_header. rewrite (R_parent _ _ _ _ _ _ _ _ _ _ HR). cbn [rbind].
    destruct k as [|f k].
    - cbn [cpar]. pose proof (Rep_root _ _ _ _ _ HR) as E. unfold root_of in E. rewrite E. cbn [rbind plug root].
      rewrite decide_True by done. rewrite (R_color _ _ _ _ _ _ _ _ _ _ HR). cbn [rbind]. by rewrite Hc.
    - pose proof (R_fcolor _ _ _ _ _ _ _ HR) as _.
      assert (exists q, parent m (Some (cpar hd (f :: k))) = Ok (Some q) /\ q <> x) as (q&->&Hq).
      { pose proof (Rep_ND _ _ _ _ _ _ HR) as HN. rewrite locs_N in HN.
        destruct f as [c' y w r'|c' l' y w]; cbn [plug] in HR; pose proof (R_parent _ _ _ _ _ _ _ _ _ _ HR) as E; cbn [cpar].
        - exists (cpar hd k). split; [done|]. intros Hq. rewrite <- Hq in HN. rewrite clocs_FL in HN. destruct (cpar_in hd k) as [Hp|Hp].
          + rewrite Hp in HN. nd. done.
          + rewrite <- app_assoc in HN. apply NoDup_cons in HN as [_ HN]. apply NoDup_app in HN as (_&_&HN). cbn in HN.
            apply NoDup_cons in HN as [HN _]. set_solver.
        - exists (cpar hd k). split; [done|]. intros Hq. rewrite <- Hq in HN. rewrite clocs_FR in HN. destruct (cpar_in hd k) as [Hp|Hp].
          + rewrite Hp in HN. nd. done.
          + rewrite <- app_assoc in HN. apply NoDup_cons in HN as [_ HN]. apply NoDup_app in HN as (_&_&HN). cbn in HN.
            apply NoDup_cons in HN as [HN _]. set_solver. }
      cbn [rbind]. rewrite decide_False; [done|congruence].
  Qed.
  Lemma decrement_ok m hd lm rm k c l x v r : Rep m hd lm rm (plug k (Nd c l x v r)) -> (k = [] -> c = BLACK) ->
    lcells k ++ cells l <> [] ->
    decrement m (Some x) = Ok (last_loc hd (lcells k ++ cells l)).
  Proof.
    intros HR Hc Hne. unfold decrement. rewrite (is_header_node _ _ _ _ _ _ _ _ _ _ HR Hc). cbn [rbind].
    rewrite (R_left _ _ _ _ _ _ _ _ _ _ HR). cbn [rbind].
    pose proof (Rep_fuel _ _ _ _ _ _ HR) as Hf. destruct (root l) eqn:E.
    - rewrite <- E. assert (l <> Lf) by by destruct l. pose proof HR as HR0.
      change (plug k (Nd c l x v r)) with (plug (FL c x v r :: k) l) in HR0. apply Rep_plug in HR0 as (_&Hr&_). cbn [cpar] in Hr.
      cbn [cells] in Hf. rewrite app_length in Hf. cbn [length] in Hf.
      rewrite (maximum_ok hd l m x Hr) by (done || (unfold tfuel; lia)).
      f_equal. symmetry. apply last_loc_app. intros H0%root_cells. congruence.
    - rewrite (R_parent _ _ _ _ _ _ _ _ _ _ HR). cbn [rbind]. apply root_cells in E. rewrite E, app_nil_r in *.
      destruct (climb_left_ok hd rm k m lm (Nd c l x v r) (tfuel m) x eq_refl HR) as (x'&E1); [unfold tfuel; lia|done|].
      rewrite E1. done.
  Qed.
  Lemma decrement_hd m hd lm rm T : Rep m hd lm rm T -> T <> Lf -> decrement m (Some hd) = Ok rm.
  Proof.
    intros (Hhd&Hrep&HN) Hne. unfold decrement, is_header. rewrite (parent_ok _ _ _ Hhd). cbn [rbind npar].
    destruct T as [|c l x v r]; [done|]. cbn [root]. cbn [rep] in Hrep. destruct Hrep as (Hx&_). rewrite (parent_ok _ _ _ Hx). cbn [rbind npar].
    rewrite decide_True by done. rewrite (color_ok _ _ _ Hhd). cbn [rbind ncol negb]. by rewrite (right_ok _ _ _ Hhd).
  Qed.
  (** -- applied to end() of an empty tree follows a null pointer *)
  Lemma decrement_empty m hd lm rm : Rep m hd lm rm Lf -> decrement m (Some hd) = UB.
  Proof. intros (Hhd&_). unfold decrement, is_header. by rewrite (parent_ok _ _ _ Hhd). Qed.

  (** in terms of the sequence of cells *)
  Lemma plug_app k k' t : plug (k ++ k') t = plug k' (plug k t).
  Proof. revert t. induction k as [|[c y w r|c l y w] k IH]; intros; cbn [app plug]; [done|apply IH|apply IH]. Qed.
  Lemma find_at : forall T x v, (x, v) ∈ cells T -> exists k c l r, T = plug k (Nd c l x v r).
  Proof.
    induction T as [|c l IHl y w r IHr]; intros x v Hin; [by apply elem_of_nil in Hin|]. cbn [cells] in Hin.
    apply elem_of_app in Hin as [Hin|Hin]; [|apply elem_of_cons in Hin as [[= -> ->]|Hin]].
    - destruct (IHl _ _ Hin) as (k&c0&l0&r0&->). exists (k ++ [FL c y w r]), c0, l0, r0. by rewrite plug_app.
    - by exists [], c, l, r.
    - destruct (IHr _ _ Hin) as (k&c0&l0&r0&->). exists (k ++ [FR c l y w]), c0, l0, r0. by rewrite plug_app.
  Qed.
  Lemma split_unique (cs cs' ds ds' : list (loc * V)) x v v' : cs ++ (x, v) :: ds = cs' ++ (x, v') :: ds' ->
    NoDup (cs ++ (x, v) :: ds).*1 -> cs = cs' /\ v = v' /\ ds = ds'.
  Proof.
    revert cs'. induction cs as [|a cs IH]; intros cs' E HN.
    - destruct cs' as [|b cs']; cbn [app] in E; [by injection E|]. injection E as <- ->. cbn in HN.
      rewrite fmap_app in HN. apply NoDup_cons in HN as [HN _]. set_solver.
    - destruct cs' as [|b cs']; cbn [app] in E.
      + injection E as -> <-. cbn in HN. rewrite fmap_app in HN. apply NoDup_cons in HN as [HN _]. set_solver.
      + injection E as <- E. cbn in HN. apply NoDup_cons in HN as [_ HN]. by destruct (IH _ E HN) as (->&->&->).
  Qed.
  Lemma split_at T cs x v ds : cells T = cs ++ (x, v) :: ds -> NoDup (locs T) ->
    exists k c l r, T = plug k (Nd c l x v r) /\ cs = lcells k ++ cells l /\ ds = cells r ++ rcells k.
  Proof.
    intros E HN. destruct (find_at T x v) as (k&c&l&r&->); [rewrite E; set_solver|]. exists k, c, l, r. split; [done|].
    unfold locs in HN. rewrite cells_plug in *. cbn [cells] in *. rewrite <- app_assoc in *. cbn [app] in *. rewrite (app_assoc (lcells k)) in *.
    by destruct (split_unique _ _ _ _ _ _ _ E HN) as (->&_&->).
  Qed.
  Lemma is_tree_ND m hd (T : tree V) : is_tree m hd T -> NoDup (hd :: locs T).
  Proof. intros ((_&_&H)&_). done. Qed.
  Lemma root_black n (T : tree V) k c l x v r : rbt BLACK n T -> T = plug k (Nd c l x v r) -> k = [] -> c = BLACK.
  Proof. intros H E ->. cbn [plug] in E. subst T. apply rbt_col in H. done. Qed.
  Lemma next_ok m hd T cs x v ds : is_tree m hd T -> cells T = cs ++ (x, v) :: ds ->
    increment m (Some x) = Ok (first_loc hd ds).
  Proof.
    intros HT E. pose proof (is_tree_ND _ _ _ HT) as HN. apply NoDup_cons in HN as [_ HN].
    destruct (split_at _ _ _ _ _ E HN) as (k&c&l&r&->&->&->). destruct HT as [HR _]. by eapply increment_ok.
  Qed.
  Lemma prev_ok m hd T cs x v ds : is_tree m hd T -> cells T = cs ++ (x, v) :: ds -> cs <> [] ->
    decrement m (Some x) = Ok (last_loc hd cs).
  Proof.
    intros HT E Hne. pose proof (is_tree_ND _ _ _ HT) as HN. apply NoDup_cons in HN as [_ HN].
    destruct (split_at _ _ _ _ _ E HN) as (k&c&l&r&E'&->&->). destruct HT as [HR [n Hn]]. rewrite E' in HR.
    eapply decrement_ok; [done|by eapply root_black|done].
  Qed.
  Lemma prev_end m hd T : is_tree m hd T -> cells T <> [] -> decrement m (Some hd) = Ok (last_loc hd (cells T)).
  Proof. intros [HR _] Hne. eapply decrement_hd; [done|]. by intros ->. Qed.
  Lemma val_ok m hd T x v : is_tree m hd T -> (x, v) ∈ cells T -> valof m (Some x) = Ok v.
  Proof. intros [HR _] H. destruct (find_at _ _ _ H) as (k&c&l&r&->). by eapply R_val. Qed.
  Lemma is_tree_size m hd T : is_tree m hd T -> length (cells T) < size m.
  Proof. intros [HR _]. by eapply Rep_size. Qed.
  Lemma cell_ne m hd T x v : is_tree m hd T -> (x, v) ∈ cells T -> x <> hd.
  Proof. intros HT H ->. apply is_tree_ND, NoDup_cons in HT as [HT _]. apply HT. unfold locs. apply elem_of_list_fmap. by exists (hd, v). Qed.

  (** walking from the element at some position to a later one *)
  Lemma walk_ok m hd T cs es ds fuel : is_tree m hd T -> cells T = cs ++ es ++ ds -> length es < fuel ->
    walk_loop fuel m (first_loc hd (es ++ ds)) (first_loc hd ds) = Ok (prod_map Some id <$> es).
  Proof.
    intros HT. revert cs fuel. induction es as [|[x v] es IH]; intros cs fuel E Hf; (destruct fuel as [|fuel]; [lia|]); cbn [walk_loop].
    - cbn [app]. by rewrite decide_True.
    - cbn [app]. rewrite first_loc_cons.
      assert (Hx : (x, v) ∈ cells T) by (rewrite E; set_solver).
      rewrite decide_False.
      2:{ intros Heq. pose proof (is_tree_ND _ _ _ HT) as HN. unfold locs in HN. rewrite E in HN.
          destruct ds as [|[y w] ds]; [injection Heq as ->; by eapply cell_ne|]. rewrite first_loc_cons in Heq. injection Heq as ->.
          apply NoDup_cons in HN as [_ HN]. rewrite fmap_app in HN. apply NoDup_app in HN as (_&_&HN).
          cbn in HN. rewrite fmap_app in HN. apply NoDup_cons in HN as [HN _]. set_solver. }
      rewrite (val_ok _ _ _ _ _ HT Hx). cbn [rbind].
      rewrite (next_ok _ _ _ cs x v (es ++ ds) HT E). cbn [rbind].
      rewrite (IH (cs ++ [(x, v)]) fuel); [done|by rewrite E, <- app_assoc|cbn in Hf; lia].
  Qed.
  Lemma distance_ok m hd T cs es ds fuel : is_tree m hd T -> cells T = cs ++ es ++ ds -> length es < fuel ->
    distance_loop fuel m (first_loc hd (es ++ ds)) (first_loc hd ds) = Ok (length es).
  Proof.
    intros HT. revert cs fuel. induction es as [|[x v] es IH]; intros cs fuel E Hf; (destruct fuel as [|fuel]; [lia|]); cbn [distance_loop].
    - cbn [app]. by rewrite decide_True.
    - cbn [app]. rewrite first_loc_cons.
      assert (Hx : (x, v) ∈ cells T) by (rewrite E; set_solver).
      rewrite decide_False.
      2:{ intros Heq. pose proof (is_tree_ND _ _ _ HT) as HN. unfold locs in HN. rewrite E in HN.
          destruct ds as [|[y w] ds]; [injection Heq as ->; by eapply cell_ne|]. rewrite first_loc_cons in Heq. injection Heq as ->.
          apply NoDup_cons in HN as [_ HN]. rewrite fmap_app in HN. apply NoDup_app in HN as (_&_&HN).
          cbn in HN. rewrite fmap_app in HN. apply NoDup_cons in HN as [HN _]. set_solver. }
      rewrite (next_ok _ _ _ cs x v (es ++ ds) HT E). cbn [rbind].
      rewrite (IH (cs ++ [(x, v)]) fuel); [done|by rewrite E, <- app_assoc|cbn in Hf; lia].
  Qed.
  (** the reverse iterator based on the position after [es] designates the last element of [es] *)
  Lemma prev_at m hd T cs x v ds : is_tree m hd T -> cells T = cs ++ (x, v) :: ds ->
    decrement m (first_loc hd ds) = Ok (Some x).
  Proof.
    intros HT E. destruct ds as [|[y w] ds].
    - change (first_loc hd []) with (Some hd). rewrite (prev_end _ _ _ HT); [|rewrite E; by destruct cs]. by rewrite E, last_loc_snoc.
    - rewrite first_loc_cons. rewrite (prev_ok _ _ _ (cs ++ [(x, v)]) y w ds HT).
      + by rewrite last_loc_snoc.
      + by rewrite E, <- app_assoc.
      + by destruct cs.
  Qed.
  Lemma rwalk_ok m hd T cs es ds fuel : is_tree m hd T -> cells T = cs ++ es ++ ds -> length es < fuel ->
    rwalk_loop fuel m (first_loc hd ds) (first_loc hd (es ++ ds)) = Ok (rev es.*2).
  Proof.
    intros HT. revert ds fuel. induction es as [|[x v] es IH] using rev_ind; intros ds fuel E Hf; (destruct fuel as [|fuel]; [lia|]); cbn [rwalk_loop].
    - cbn [app]. by rewrite decide_True.
    - rewrite decide_False.
      2:{ intros Heq. pose proof (is_tree_ND _ _ _ HT) as HN. unfold locs in HN. rewrite E in HN.
          rewrite <- app_assoc in *. cbn [app] in *.
          destruct ds as [|[y w] ds].
          { destruct (es ++ (x, v) :: []) as [|[z u] l'] eqn:E1; [by destruct es|]. injection Heq as <-.
            apply NoDup_cons in HN as [HN _]. apply HN. rewrite fmap_app. cbn. set_solver. }
          apply NoDup_cons in HN as [_ HN].
          destruct es as [|[z u] es].
          - injection Heq as ->. rewrite fmap_app in HN. apply NoDup_app in HN as (_&_&HN). cbn in HN. apply NoDup_cons in HN as [HN _]. set_solver.
          - injection Heq as ->. rewrite fmap_app in HN. apply NoDup_app in HN as (_&_&HN). cbn in HN. apply NoDup_cons in HN as [HN _]. apply HN. rewrite fmap_app. cbn. set_solver. }
      rewrite <- app_assoc in E. cbn [app] in E. rewrite app_assoc in E.
      unfold tree_reverse_deref. rewrite (prev_at _ _ _ _ _ _ _ HT E). cbn [rbind].
      rewrite (val_ok _ _ _ x v HT) by (rewrite E; set_solver). cbn [rbind].
      rewrite <- app_assoc in E. rewrite app_length in Hf. cbn [length] in Hf.
      pose proof (IH ((x, v) :: ds) fuel E ltac:(lia)) as IH'. rewrite first_loc_cons in IH'.
      rewrite <- app_assoc. cbn [app]. rewrite IH'. cbn [rbind].
      rewrite fmap_app, rev_app_distr. done.
  Qed.
End iter.
