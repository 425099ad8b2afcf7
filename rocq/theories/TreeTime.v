(** TreeTime.v — how often the loops of the tree operations go round, for C153 (/repo/container/c_tree.c).
    The functions ending in [_within f] are those of Tree.v, except that each loop fails ([NoFuel]) when it is about to go round
    more than [f] times; straight-line code is copied unchanged. *)
From Verif Require Import Base Spec SpecSeq SpecListOps SpecTreeOps Facts DList Tree SpecTree TreeRep TreeInsert TreeErase TreeIter
  TreeUnlink TreeApi TreeOps TreeCheck.
From stdpp Require Import list gmap.

Section within.
  Context {V : Type}.
  Notation M := (gmap loc (tnode V)).
  Implicit Types (m : M).
  (** c_tree.c 177-186 and 188-197 *)
  Definition minimum_within (f : nat) m (p : ptr) : res ptr := match p with None => Ok None | Some _ => min_loop f m p end.
  Definition maximum_within (f : nat) m (p : ptr) : res ptr := match p with None => Ok None | Some _ => max_loop f m p end.

  (** c_tree.c 651-671 *)
  Definition increment_within (f : nat) m (node : ptr) : res ptr :=
    do r <- right m node;
    match r with
    | Some _ => minimum_within f m r
    | None =>
      do p <- parent m node;
      do (x, p) <- climb_right f m node p;
      do r <- right m x;
      if decide (p <> r) then Ok p else Ok x
    end.

  (** c_tree.c 673-694 *)
  Definition decrement_within (f : nat) m (node : ptr) : res ptr :=
    do ih <- is_header m node;
    if ih then right m node
    else
      do l <- left m node;
      match l with
      | Some _ => maximum_within f m l
      | None =>
        do p <- parent m node;
        do (x, p) <- climb_left f m node p;
        Ok p
      end.

  (** c_tree.c 329-373 *)
  Definition rebalance_insert_within (f : nat) m (h : loc) (node : ptr) : res M :=
    do m <- insert_loop f m h node;
    do r <- root_of m h; set_color m r BLACK.

  (** the loop of c_tree.c 468-552; [rn] is replace_node, [rp] replace_parent, [rs] replace_sibling; a failing
      assertion (469-472) is [UB] *)
  (** c_tree.c 486-487, 528-529: !__has_left(rs) || __is_black(__left(rs)) and its mirror image *)
  Definition left_black m (rs : ptr) : res bool :=
    do hl <- has_left m rs; if negb hl then Ok true else do l <- left m rs; is_black m l.

  (** c_tree.c 400-426 *)
  Definition unlink_one_within (f : nat) m (h : loc) (node rn : ptr) : res (M * ptr) :=
    do m <- relink m h node rn;
    do lm <- left m (Some h);
    do m <- (if decide (lm = node) then
               do q <- match rn with Some _ => minimum_within f m rn | None => parent m node end; set_left m (Some h) q
             else Ok m);
    do rm <- right m (Some h);
    do m <- (if decide (rm = node) then
               do q <- match rn with Some _ => maximum_within f m rn | None => parent m node end; set_right m (Some h) q
             else Ok m);
    do m <- match rn with Some _ => do p <- parent m node; set_parent m rn p | None => Ok m end;
    do rp <- parent m node;
    Ok (m, rp).

  (** c_tree.c 375-560 *)
  Definition rebalance_erase_within (f : nat) m (h : loc) (node : ptr) : res (M * ptr) :=
    do hl <- has_left m node;
    do (en, rn) <-
      (if negb hl then do rn <- right m node; Ok (node, rn)
       else
         do hr <- has_right m node;
         if negb hr then do rn <- left m node; Ok (node, rn)
         else do r <- right m node; do en <- minimum_within f m r; do rn <- right m en; Ok (en, rn));
    do (m, rp) <- (if decide (en = node) then unlink_one_within f m h node rn else unlink_two m h node en rn);
    do b <- is_black m node;
    if b then
      do (m, rn) <- erase_loop f m h rn rp;
      do m <- match rn with Some _ => set_color m rn BLACK | None => Ok m end;
      Ok (m, node)
    else Ok (m, node).

  (** ** iterators.  c_tree.c 651-671: ++ *)
  Fixpoint climb_right (fuel : nat) m (node par : ptr) : res (ptr * ptr) :=
    match fuel with
    | 0 => NoFuel
    | S f => do r <- right m par;
        if decide (r = node) then do g <- parent m par; climb_right f m par g else Ok (node, par)
    end.

End within.
Section within_api.
  Context {K V : Type} (alloc : gmap loc (tnode V) -> loc).
  Notation M := (gmap loc (tnode V)).
  Implicit Types (m : M) (h : theap V) (t : tobj K V).

  (** c_tree.c 562-601 *)
  Definition insert_node_within (f : nat) t h (hint par : ptr) (v : vref V) : res (theap V * tobj K V * ptr) :=
    do (m, x) <- create_node alloc (mem h) v;
    let hd := Some (hdr t) in
    do go_left <-
      (if decide (par = hd) then Ok true
       else if decide (hint <> None) then Ok true
       else do k <- vkey t m v; do pk <- nkey t m par; Ok (kcomp t k pk));
    do m <-
      (if go_left : bool then
         do m <- set_left m par (Some x);
         if decide (par = hd) then do m <- set_parent m hd (Some x); set_right m hd (Some x)
         else do lm <- left m hd; if decide (par = lm) then set_left m hd (Some x) else Ok m
       else
         do m <- set_right m par (Some x);
         do rm <- right m hd; if decide (par = rm) then set_right m hd (Some x) else Ok m);
    do m <- set_parent m (Some x) par;
    do m <- rebalance_insert_within f m (hdr t) (Some x);
    Ok (THeap m (tdead h), TObj (hdr t) (S (cnt t)) (kcomp t) (kov t), Some x).

  (** c_tree.c 1001-1023: begin/rend and end/rbegin *)
  Definition c_tree_begin t h : res ptr := left (mem h) (Some (hdr t)).

  (** c_tree.c 1052-1083 *)
  Definition c_tree_insert_unique_value_within (f : nat) t h (v : vref V) : res (theap V * tobj K V * ptr) :=
    let m := mem h in
    do r <- root_of m (hdr t);
    do (y, comp) <- descend f t m (Some (hdr t)) r true v;
    do lm <- left m (Some (hdr t));
    if andb comp (bool_decide (y = lm)) then insert_node_within f t h None y v
    else
      do z <- (if comp then decrement_within f m y else Ok y);
      do zk <- nkey t m z; do k <- vkey t m v;
      if kcomp t zk k then insert_node_within f t h None y v else Ok (h, t, z).

  (** c_tree.c 1153-1169 *)
  Definition c_tree_insert_equal_value_within (f : nat) t h (v : vref V) : res (theap V * tobj K V * ptr) :=
    let m := mem h in
    do r <- root_of m (hdr t);
    do (y, _) <- descend f t m (Some (hdr t)) r true v;
    insert_node_within f t h None y v.

  (** c_tree.c 1239-1252 *)
  Definition c_tree_erase_within (f : nat) t h (pos : ptr) : res (theap V * tobj K V * ptr) :=
    do next <- increment_within f (mem h) pos;
    do (m, en) <- rebalance_erase_within f (mem h) (hdr t) pos;
    do h <- destroy_node (THeap m (tdead h)) en;
    Ok (h, TObj (hdr t) (cnt t - 1) (kcomp t) (kov t), next).

End within_api.

Section proofs.
  Context {V : Type}.
  Notation M := (gmap loc (tnode V)).
  Notation ctx := (list (frame V)).
  Implicit Types (m : M) (t : tree V) (k : ctx).
  Lemma height_plug k t : length k + height t <= height (plug k t).
  Proof. revert t. induction k as [|[c x v r|c l x v] k IH]; intros t; cbn [plug length]; [lia| |]; (etrans; [|apply IH]); cbn [height]; lia. Qed.
  Lemma minimum_within_ok hd f t m p : rep m p t -> t <> Lf -> height t <= f -> minimum_within f m (root t) = Ok (first_loc hd (cells t)).
  Proof. intros Hr Hne Hf. unfold minimum_within. destruct (root t) eqn:E; [|by destruct t]. rewrite <- E. by eapply min_loop_ok. Qed.
  Lemma maximum_within_ok hd f t m p : rep m p t -> t <> Lf -> height t <= f -> maximum_within f m (root t) = Ok (last_loc hd (cells t)).
  Proof. intros Hr Hne Hf. unfold maximum_within. destruct (root t) eqn:E; [|by destruct t]. rewrite <- E. by eapply max_loop_ok. Qed.

  Lemma increment_within_ok f m hd lm rm k c l x v r : Rep m hd lm rm (plug k (Nd c l x v r)) -> height (plug k (Nd c l x v r)) < f ->
    increment_within f m (Some x) = Ok (first_loc hd (cells r ++ rcells k)).
  Proof.
    intros HR Hh. pose proof (height_plug k (Nd c l x v r)) as Hp. cbn [height] in Hp. unfold increment_within. rewrite (R_right _ _ _ _ _ _ _ _ _ _ HR). cbn [rbind].
    pose proof (Rep_fuel _ _ _ _ _ _ HR) as Hf. destruct (root r) eqn:E.
    - rewrite <- E. assert (r <> Lf) by by destruct r. pose proof HR as HR0.
      change (plug k (Nd c l x v r)) with (plug (FR c l x v :: k) r) in HR0. apply Rep_plug in HR0 as (_&Hr&_). cbn [cpar] in Hr.
      cbn [cells] in Hf. rewrite app_length in Hf. cbn [length] in Hf.
      rewrite (minimum_within_ok hd f r m x Hr) by (done || (lia)).
      f_equal. symmetry. apply first_loc_app. intros H0%root_cells. congruence.
    - rewrite (R_parent _ _ _ _ _ _ _ _ _ _ HR). cbn [rbind].
      destruct (climb_right_ok hd rm k m lm (Nd c l x v r) f x eq_refl HR) as (x'&p'&E1&q&E2&E3); [lia|].
      rewrite E1. cbn [rbind]. rewrite E2. cbn [rbind]. apply root_cells in E. rewrite E. cbn [app]. rewrite <- E3. by destruct (decide _).
  Qed.

  Lemma decrement_within_ok f m hd lm rm k c l x v r : Rep m hd lm rm (plug k (Nd c l x v r)) -> (k = [] -> c = BLACK) ->
    lcells k ++ cells l <> [] -> height (plug k (Nd c l x v r)) < f ->
    decrement_within f m (Some x) = Ok (last_loc hd (lcells k ++ cells l)).
  Proof.
    intros HR Hc Hne Hh. pose proof (height_plug k (Nd c l x v r)) as Hp. cbn [height] in Hp. unfold decrement_within. rewrite (is_header_node _ _ _ _ _ _ _ _ _ _ HR Hc). cbn [rbind].
    rewrite (R_left _ _ _ _ _ _ _ _ _ _ HR). cbn [rbind].
    pose proof (Rep_fuel _ _ _ _ _ _ HR) as Hf. destruct (root l) eqn:E.
    - rewrite <- E. assert (l <> Lf) by by destruct l. pose proof HR as HR0.
      change (plug k (Nd c l x v r)) with (plug (FL c x v r :: k) l) in HR0. apply Rep_plug in HR0 as (_&Hr&_). cbn [cpar] in Hr.
      cbn [cells] in Hf. rewrite app_length in Hf. cbn [length] in Hf.
      rewrite (maximum_within_ok hd f l m x Hr) by (done || (lia)).
      f_equal. symmetry. apply last_loc_app. intros H0%root_cells. congruence.
    - rewrite (R_parent _ _ _ _ _ _ _ _ _ _ HR). cbn [rbind]. apply root_cells in E. rewrite E, app_nil_r in *.
      destruct (climb_left_ok hd rm k m lm (Nd c l x v r) f x eq_refl HR) as (x'&E1); [lia|done|].
      rewrite E1. done.
  Qed.

  Lemma rebalance_insert_within_ok f m hd lm rm k l x v r n :
    Rep m hd lm rm (plug k (Nd RED l x v r)) -> rbt BLACK n l -> rbt BLACK n r -> rbk BLACK n k -> length k < f ->
    exists m' T', rebalance_insert_within f m hd (Some x) = Ok m' /\ Upd m m' hd lm rm (plug k (Nd RED l x v r)) T' /\
      cells T' = cells (plug k (Nd RED l x v r)) /\ exists n', rbt BLACK n' T'.
  Proof.
    intros HR Hl Hr Hk Hf. pose proof (Rep_size _ _ _ _ _ HR) as Hsz. pose proof (length_ctx k (Nd RED l x v r)) as Hlk.
    destruct (insert_loop_ok k m hd lm rm l x v r n f HR Hl Hr Hk) as (m1&T1&E1&HU1&Hc1&n'&Hn'); [done|].
    unfold rebalance_insert_within. rewrite E1. cbn [rbind]. rewrite (Rep_root _ _ _ _ _ (proj1 HU1)). cbn [rbind].
    destruct T1 as [|c1 l1 x1 v1 r1].
    { rewrite cells_plug in Hc1. cbn [cells] in Hc1. destruct (lcells k); [|done]. cbn in Hc1. by destruct (cells l). }
    destruct (recolor_ok _ _ _ _ [] _ BLACK _ _ _ _ (proj1 HU1)) as (m2&E2&HU2). cbn [root]. exists m2, (Nd BLACK l1 x1 v1 r1).
    split; [done|]. split; [by eapply Upd_trans|]. split; [by rewrite <- Hc1|]. by exists n'.
  Qed.

  Lemma erase_fix_within_ok f m hd lm rm k t n : Rep m hd lm rm (plug k t) -> deficient n t -> rbk BLACK (S n) k -> length k < f ->
    exists m' T', (do (m, rn) <- erase_loop f m hd (root t) (Some (cpar hd k));
                   match rn with Some _ => set_color m rn BLACK | None => Ok m end) = Ok m' /\
      Upd m m' hd lm rm (plug k t) T' /\ cells T' = cells (plug k t) /\ exists n', rbt BLACK n' T'.
  Proof.
    intros HR Hd Hk Hf. pose proof (Rep_size _ _ _ _ _ HR). pose proof (length_ctx k t).
    destruct (erase_loop_ok k m hd lm rm t n f HR Hd Hk Hf) as (m1&q&E&k1&t1&->&HU&Hc&n'&Hn'). rewrite E. cbn [rbind].
    destruct t1 as [|c1 l1 x1 v1 r1]; cbn [root blacken] in *.
    - exists m1, (plug k1 Lf). split; [done|]. split; [done|]. split; [done|]. by exists n'.
    - destruct (recolor_ok _ _ _ _ _ _ BLACK _ _ _ _ (proj1 HU)) as (m2&E2&HU2). exists m2, (plug k1 (Nd BLACK l1 x1 v1 r1)).
      split; [done|]. split; [by eapply Upd_trans|]. split; [|by exists n']. rewrite <- Hc, !cells_plug. done.
  Qed.

  Lemma unlink_one_within_ok f m hd k c l x v r t :
    Rep m hd (first_loc hd (cells (plug k (Nd c l x v r)))) (last_loc hd (cells (plug k (Nd c l x v r)))) (plug k (Nd c l x v r)) ->
    (l = Lf /\ t = r \/ r = Lf /\ t = l) -> height t <= f ->
    exists m', unlink_one_within f m hd (Some x) (root t) = Ok (m', Some (cpar hd k)) /\
      Rep m' hd (first_loc hd (cells (plug k t))) (last_loc hd (cells (plug k t))) (plug k t) /\
      m' !! x = m !! x /\ (forall z, z ∉ hd :: locs (plug k (Nd c l x v r)) -> m' !! z = m !! z).
  Proof.
    intros HR Ht Hft. pose proof HR as (HC&(Hx&Hl&Hr)&HN)%Rep_plug. cbn [root] in *.
    assert (Htr : rep m x t) by (destruct Ht as [[_ ->]|[_ ->]]; done).
    assert (Htc : cells l ++ cells r = cells t). { destruct Ht as [[-> ->]|[-> ->]]; cbn; by rewrite ?app_nil_r. }
    assert (HS : NoDup (concat [[x]; [hd]; locs t; clocs k])).
    { eapply NoDup_perm; [exact HN|]. rewrite locs_N. cbn. rewrite app_nil_r.
      assert (locs t = locs l ++ locs r) as -> by (unfold locs; by rewrite <- Htc, fmap_app). solve_Permutation. }
    assert (HNk : NoDup (hd :: clocs k)).
    { eapply (NoDup_perm _ ((hd :: clocs k) ++ x :: locs t)) in HS;
        [by apply NoDup_app in HS as (?&_)|cbn; rewrite app_nil_r; solve_Permutation]. }
    assert (HNt : NoDup (locs t)).
    { eapply (NoDup_perm _ (locs t ++ x :: hd :: clocs k)) in HS;
        [by apply NoDup_app in HS as (?&_)|cbn; rewrite app_nil_r; solve_Permutation]. }
    assert (Hhk : hd ∉ clocs k) by by apply NoDup_cons in HNk as [? _].
    assert (Hxh : x <> hd) by (intros ->; sp HS 0 1).
    assert (Hxk : x ∉ clocs k) by (intros ?; sp HS 0 3).
    assert (Hxt : x ∉ locs t) by (intros ?; sp HS 0 2).
    assert (Hht : hd ∉ locs t) by (intros ?; sp HS 1 2).
    assert (Hcx : x <> cpar hd k). { destruct (cpar_in hd k) as [->|Hin]; [done|]. intros ->. done. }
    assert (Hct : cpar hd k ∉ locs t). { destruct (cpar_in hd k) as [->|Hin]; [done|]. intros ?. sp HS 2 3. }
    unfold unlink_one_within. rewrite (relink_ok m hd _ _ k x (root t) _ HC Hxh Hxk Hx eq_refl). cbn [rbind].
    set (m1 := set_hole m hd k (root t)). pose proof (Ctx_set_hole _ _ _ _ _ _ (root t) HNk HC) as HC1. fold m1 in HC1.
    assert (Hx1 : m1 !! x = m !! x) by by apply set_hole_ne.
    assert (Ht1 : rep m1 x t). { eapply rep_frame; [|exact Htr]. intros z Hz. apply set_hole_ne. intros ->. done. }
    assert (F1 : forall z, z <> hd -> z ∉ clocs k -> m1 !! z = m !! z).
    { intros z Hz Hzk. apply set_hole_ne. destruct (cpar_in hd k) as [->|Hin]; [done|]. intros ->. done. }
    assert (Hd1 : dom m1 = dom m). { unfold m1. destruct k as [|[? ? ? ?|? ? ? ?] ?]; cbn [set_hole]; apply dom_alter_L. }
    clearbody m1. rewrite Hx in Hx1. pose proof HC1 as [Hh1 _]. rewrite (left_ok _ _ _ Hh1). cbn [rbind nleft].
    assert (Hlen : forall m' : M, dom m' = dom m -> length (cells t) <= tfuel m').
    { intros m' Hd. pose proof (Rep_size _ _ _ _ _ HR) as Hsz. rewrite cells_plug, !app_length in Hsz. cbn [cells] in Hsz.
      rewrite app_length in Hsz. cbn [length] in Hsz. rewrite <- Htc, app_length. unfold tfuel.
      rewrite <- (size_dom m'), Hd, size_dom. lia. }
    assert (Ec : cells (plug k (Nd c l x v r)) = (lcells k ++ cells l) ++ (x, v) :: cells r ++ rcells k).
    { rewrite cells_plug. cbn [cells]. by applist. }
    assert (Ec' : cells (plug k t) = (lcells k ++ cells l) ++ cells r ++ rcells k).
    { rewrite cells_plug, <- Htc. by applist. }
    assert (HNc : NoDup (hd :: ((lcells k ++ cells l) ++ (x, v) :: cells r ++ rcells k).*1)).
    { rewrite <- Ec. apply HR. }
    (* the leftmost link *)
    assert (exists m2, (if decide (first_loc hd (cells (plug k (Nd c l x v r))) = Some x)
               then do q <- match root t with Some _ => minimum_within f m1 (root t) | None => parent m1 (Some x) end; set_left m1 (Some hd) q
               else Ok m1) = Ok m2 /\ Ctx m2 hd (first_loc hd (cells (plug k t))) (last_loc hd (cells (plug k (Nd c l x v r)))) k (root t) /\
              dom m2 = dom m /\ forall z, z <> hd -> m2 !! z = m1 !! z) as (m2&->&HC2&Hd2&F2).
    { destruct (decide _) as [E|E].
      - assert (lcells k ++ cells l = []) as Hnil.
        { destruct (lcells k ++ cells l) eqn:E0; [done|]. exfalso. rewrite Ec in E. by apply first_loc_ne in E. }
        assert ((match root t with Some _ => minimum_within f m1 (root t) | None => parent m1 (Some x) end) = Ok (first_loc hd (cells (plug k t)))) as ->.
        { rewrite Ec', Hnil. cbn [app]. apply app_eq_nil in Hnil as [Hk0 Hl0]. rewrite Hl0 in Htc. cbn [app] in Htc. rewrite Htc.
          destruct (root t) eqn:Et.
          - rewrite <- Et. rewrite (minimum_within_ok hd f t m1 x Ht1); [|by destruct t|exact Hft].
            rewrite first_loc_app; [done|]. intros H0%root_cells. congruence.
          - rewrite (parent_ok _ _ _ Hx1). cbn [npar]. apply root_cells in Et. rewrite Et. cbn [app]. by rewrite cpar_first. }
        cbn [rbind]. rewrite (set_left_ok _ _ _ _ Hh1). eexists. split; [reflexivity|]. split; [by eapply Ctx_lm|].
        split; [by rewrite dom_alter_L|]. intros z Hz. by apply lookup_alter_ne.
      - exists m1. split; [done|]. split; [|done]. replace (first_loc hd (cells (plug k t))) with (first_loc hd (cells (plug k (Nd c l x v r)))); [done|].
        rewrite Ec, Ec'. destruct (lcells k ++ cells l) as [|[? ?] ?] eqn:E0; [|done]. rewrite Ec in E. by destruct E. }
    cbn [rbind]. pose proof HC2 as [Hh2 _]. rewrite (right_ok _ _ _ Hh2). cbn [rbind nright].
    assert (Ht2 : rep m2 x t). { eapply rep_frame; [|exact Ht1]. intros z Hz. apply F2. intros ->. done. }
    assert (Hx2 : m2 !! x = m1 !! x) by by apply F2. rewrite Hx1 in Hx2.
    (* the rightmost link *)
    assert (exists m3, (if decide (last_loc hd (cells (plug k (Nd c l x v r))) = Some x)
               then do q <- match root t with Some _ => maximum_within f m2 (root t) | None => parent m2 (Some x) end; set_right m2 (Some hd) q
               else Ok m2) = Ok m3 /\ Ctx m3 hd (first_loc hd (cells (plug k t))) (last_loc hd (cells (plug k t))) k (root t) /\
              forall z, z <> hd -> m3 !! z = m2 !! z) as (m3&->&HC3&F3).
    { destruct (decide _) as [E|E].
      - assert (cells r ++ rcells k = []) as Hnil.
        { destruct (cells r ++ rcells k) eqn:E0; [done|]. exfalso. rewrite Ec in E. by apply last_loc_ne in E. }
        assert ((match root t with Some _ => maximum_within f m2 (root t) | None => parent m2 (Some x) end) = Ok (last_loc hd (cells (plug k t)))) as ->.
        { rewrite Ec', Hnil, app_nil_r. apply app_eq_nil in Hnil as [Hr0 Hk0]. rewrite Hr0, app_nil_r in Htc. rewrite Htc.
          destruct (root t) eqn:Et.
          - rewrite <- Et. rewrite (maximum_within_ok hd f t m2 x Ht2); [|by destruct t|exact Hft].
            rewrite last_loc_app; [done|]. intros H0%root_cells. congruence.
          - rewrite (parent_ok _ _ _ Hx2). cbn [npar]. apply root_cells in Et. rewrite Et, app_nil_r. by rewrite cpar_last. }
        cbn [rbind]. rewrite (set_right_ok _ _ _ _ Hh2). eexists. split; [reflexivity|]. split; [by eapply Ctx_rm|].
        intros z Hz. by apply lookup_alter_ne.
      - exists m2. split; [done|]. split; [|done]. replace (last_loc hd (cells (plug k t))) with (last_loc hd (cells (plug k (Nd c l x v r)))); [done|].
        rewrite Ec, Ec'. destruct (cells r ++ rcells k) as [|[y w] ?] eqn:E0; [rewrite Ec in E; by rewrite last_loc_snoc in E|].
        rewrite !last_loc_app by done. rewrite last_loc_cons. by apply last_loc_irrel. }
    cbn [rbind].
    assert (Ht3 : rep m3 x t). { eapply rep_frame; [|exact Ht2]. intros z Hz. apply F3. intros ->. done. }
    assert (Hx3 : m3 !! x = m2 !! x) by by apply F3. rewrite Hx2 in Hx3.
    assert (match root t with Some _ => do p <- parent m3 (Some x); set_parent m3 (root t) p | None => Ok m3 end
            = Ok (reparent m3 (root t) (Some (cpar hd k)))) as ->.
    { destruct t as [|ct tl y w tr]; [done|]. cbn [root reparent]. rewrite (parent_ok _ _ _ Hx3). cbn [rbind npar].
      destruct Ht3 as (Hy&_). by rewrite (set_parent_ok _ _ _ _ Hy). }
    cbn [rbind]. assert (Hx4 : reparent m3 (root t) (Some (cpar hd k)) !! x = m3 !! x) by (apply reparent_ne; by apply root_notin).
    rewrite Hx3 in Hx4. rewrite (parent_ok _ _ _ Hx4). cbn [rbind npar]. eexists. split; [reflexivity|]. split; [|split].
    - apply Rep_plug. split; [|split].
      + eapply Ctx_frame; [|exact HC3]. intros z Hz. apply reparent_ne, root_notin. intros Hz'. apply elem_of_cons in Hz as [->|Hz]; [done|sp HS 2 3].
      + by eapply rep_reparent.
      + eapply (NoDup_perm _ (x :: (hd :: locs t ++ clocs k))) in HS; [by apply NoDup_cons in HS as [_ ?]|]. cbn. rewrite app_nil_r. solve_Permutation.
    - by rewrite Hx4, Hx.
    - intros z Hz. rewrite locs_plug, locs_N in Hz.
      assert (locs t = locs l ++ locs r) as Hlt by (unfold locs; by rewrite <- Htc, fmap_app).
      clear - Hz Hlt F1 F2 F3. nd. rewrite reparent_ne; [|apply root_notin; rewrite Hlt; apply not_elem_of_app; done].
      rewrite F3, F2, F1 by done. done.
  Qed.

  Lemma rebalance_erase_within_ok f m hd k c l x v r : is_tree m hd (plug k (Nd c l x v r)) -> height (plug k (Nd c l x v r)) < f ->
    exists m' T', rebalance_erase_within f m hd (Some x) = Ok (m', Some x) /\ is_tree m' hd T' /\
      cells T' = (lcells k ++ cells l) ++ cells r ++ rcells k /\ (exists n, m' !! x = Some n /\ nval n = Some v) /\
      (forall z, z ∉ hd :: locs (plug k (Nd c l x v r)) -> m' !! z = m !! z).
  Proof.
    intros [HR [n Hrb]] Hh. pose proof (height_plug k (Nd c l x v r)) as Hp. cbn [height] in Hp.
    assert (Hx : x <> hd). { pose proof (Rep_ND _ _ _ _ _ _ HR) as HN. intros ->. rewrite locs_N in HN. nd. done. }
    (* the common end: rebalancing after the unlinking of a node coloured [c0] *)
    assert (forall m1 k1 t1 c0 nx, Rep m1 hd (first_loc hd (cells (plug k1 t1))) (last_loc hd (cells (plug k1 t1))) (plug k1 t1) ->
      cells (plug k1 t1) = (lcells k ++ cells l) ++ cells r ++ rcells k ->
      (forall z, z ∈ locs (plug k1 t1) -> z ∈ locs (plug k (Nd c l x v r)) /\ z <> x) ->
      m1 !! x = Some nx -> ncol nx = c0 -> nval nx = Some v ->
      (forall z, z ∉ hd :: locs (plug k (Nd c l x v r)) -> m1 !! z = m !! z) ->
      (c0 = RED -> exists n', rbt BLACK n' (plug k1 t1)) -> (c0 = BLACK -> exists n', deficient n' t1 /\ rbk BLACK (S n') k1) -> length k1 < f ->
      exists m' T', (do b <- is_black m1 (Some x);
          if b then do (m, rn) <- erase_loop f m1 hd (root t1) (Some (cpar hd k1));
                    do m <- match rn with Some _ => set_color m rn BLACK | None => Ok m end; Ok (m, Some x)
          else Ok (m1, Some x)) = Ok (m', Some x) /\ is_tree m' hd T' /\
      cells T' = (lcells k ++ cells l) ++ cells r ++ rcells k /\ (exists n, m' !! x = Some n /\ nval n = Some v) /\
      (forall z, z ∉ hd :: locs (plug k (Nd c l x v r)) -> m' !! z = m !! z)) as Hend.
    { intros m1 k1 t1 c0 nx HR1 Hc1 Hl1 Hx1 Hcx Hvx HF1 HRed HBlack Hk1f. cbn [is_black]. rewrite (color_ok _ _ _ Hx1). cbn [rbind]. rewrite Hcx.
      destruct c0.
      - destruct (HBlack eq_refl) as (n1&Hd1&Hk1). destruct (erase_fix_within_ok f _ _ _ _ _ _ _ HR1 Hd1 Hk1 Hk1f) as (m2&T2&E&HU&Hc2&Hn2).
        exists m2, T2. split.
        {
          destruct (erase_loop f m1 hd (root t1) (Some (cpar hd k1))) as [[m3 rn]| |] eqn:E3; cbn [rbind] in *; [|done|done].
          rewrite E. done. }
        destruct HU as (HR2&HP2&HF2). split; [|split; [|split]].
        + split; [|done]. by rewrite Hc2.
        + by rewrite Hc2.
        + exists nx. split; [|done]. rewrite HF2; [done|]. intros [->|Hin]%elem_of_cons; [done|]. by destruct (Hl1 _ Hin).
        + intros z Hz. rewrite HF2; [by apply HF1|]. apply not_elem_of_cons in Hz as [Hz1 Hz2]. apply not_elem_of_cons. split; [done|].
          intros Hin. by destruct (Hl1 _ Hin).
      - destruct (HRed eq_refl) as (n1&Hn1). exists m1, (plug k1 t1). split; [done|]. split; [by split; [|eexists]|]. split; [done|].
        split; [by eexists|done]. }
    assert (Hsub : forall T1 : tree V, cells T1 = (lcells k ++ cells l) ++ cells r ++ rcells k ->
      forall z, z ∈ locs T1 -> z ∈ locs (plug k (Nd c l x v r)) /\ z <> x).
    { intros T1 HT1 z Hz. pose proof (Rep_ND _ _ _ _ _ _ HR) as HN. unfold locs in Hz. rewrite HT1, !fmap_app in Hz.
      assert (NoDup (x :: (lcells k).*1 ++ locs l ++ locs r ++ (rcells k).*1)) as HN'.
      { rewrite locs_N in HN. apply NoDup_cons in HN as [_ HN]. eapply NoDup_perm; [exact HN|]. unfold clocs. solve_Permutation. }
      apply NoDup_cons in HN' as [HN' _]. split; [|intros ->; apply HN'; unfold locs; set_solver].
      unfold locs. rewrite cells_plug, !fmap_app. cbn [cells]. rewrite fmap_app. cbn. set_solver. }
    destruct (rbk_of _ _ _ _ Hrb eq_refl) as (c'&n'&Hxr&Hxk).
    assert (c' = c) as -> by (symmetry; exact (rbt_col _ _ _ Hxr)).
    unfold rebalance_erase_within, has_left, has_right. rewrite !(R_left _ _ _ _ _ _ _ _ _ _ HR), !(R_right _ _ _ _ _ _ _ _ _ _ HR). cbn [rbind].
    assert (Hone : forall t1, (l = Lf /\ t1 = r \/ r = Lf /\ t1 = l) -> exists m' T',
       (do (en, rn) <- Ok (Some x, root t1);
        do (m0, rp) <- (if decide (en = Some x) then unlink_one_within f m hd (Some x) rn else unlink_two m hd (Some x) en rn);
        do b <- is_black m0 (Some x);
        if b then do (m, rn) <- erase_loop f m0 hd rn rp;
                    do m <- match rn with Some _ => set_color m rn BLACK | None => Ok m end; Ok (m, Some x)
          else Ok (m0, Some x)) = Ok (m', Some x) /\ is_tree m' hd T' /\
      cells T' = (lcells k ++ cells l) ++ cells r ++ rcells k /\ (exists n, m' !! x = Some n /\ nval n = Some v) /\
      (forall z, z ∉ hd :: locs (plug k (Nd c l x v r)) -> m' !! z = m !! z)).
    { intros t1 Ht1. assert (Hft1 : height t1 <= f) by (destruct Ht1 as [[_ ->]|[_ ->]]; lia). cbn [rbind]. rewrite decide_True by done.
      destruct (unlink_one_within_ok f m hd k c l x v r t1 HR Ht1 Hft1) as (m1&->&HR1&Hx1&HF1). cbn [rbind].
      destruct (unlinked_rb _ _ _ _ _ _ _ _ Hxr Hxk Ht1) as [Hred Hblack].
      assert (cells (plug k t1) = (lcells k ++ cells l) ++ cells r ++ rcells k) as Hc1.
      { rewrite cells_plug. destruct Ht1 as [[-> ->]|[-> ->]]; cbn [cells app]; by rewrite ?app_nil_r, <- ?app_assoc. }
      rewrite (Rep_node _ _ _ _ _ _ _ _ _ _ HR) in Hx1.
      eapply (Hend m1 k t1 c _ HR1 Hc1); [by apply Hsub|exact Hx1|done|done|done|done|done|lia]. }
    destruct (Lf_dec l) as [->|Hl].
    - cbn [root]. rewrite bool_decide_false by (intros H; by apply H). cbn [negb rbind]. apply (Hone r). by left.
    - rewrite bool_decide_true by (by destruct l). cbn [negb].
      destruct (Lf_dec r) as [->|Hr].
      + cbn [root]. rewrite bool_decide_false by (intros H; by apply H). cbn [negb rbind]. apply (Hone l). by right.
      + rewrite bool_decide_true by (by destruct r). cbn [negb].
        destruct (left_spine r Hr) as (kk&cs&s&vs&rs&Er&Hkk).
        assert (Hrr : rep m x r). { pose proof HR as (_&(_&_&H)&_)%Rep_plug. done. }
        rewrite (minimum_within_ok hd f r m x Hrr Hr).
        2:{ lia. }
        assert (Hrc : cells r = (s, vs) :: cells rs ++ rcells kk). { rewrite Er, cells_plug, Hkk. done. }
        rewrite Hrc, first_loc_cons. cbn [rbind].
        assert (HT : plug k (Nd c l x v r) = plug (kk ++ FR c l x v :: k) (Nd cs Lf s vs rs)) by by rewrite plug_app, Er.
        assert (Hkk2 : length (kk ++ FR c l s vs :: k) < f).
        { rewrite HT in Hh. pose proof (height_plug (kk ++ FR c l x v :: k) (Nd cs Lf s vs rs)) as H. rewrite app_length in H |- *. cbn [length] in H |- *. lia. }
        rewrite HT in HR. rewrite (R_right _ _ _ _ _ _ _ _ _ _ HR). rewrite <- HT in HR. cbn [rbind].
        assert (Hsx : s <> x).
        { intros ->. pose proof (Rep_ND _ _ _ _ _ _ HR) as HN. rewrite locs_N in HN. unfold locs in HN at 2. rewrite Hrc in HN.
          rewrite <- app_assoc in HN. apply NoDup_cons in HN as [_ HN]. apply NoDup_app in HN as (_&_&HN). cbn in HN.
          apply NoDup_cons in HN as [HN _]. set_solver. }
        rewrite decide_False by congruence. pose proof HR as HR'. rewrite Er in HR'.
        destruct (unlink_two_ok m hd _ _ k c l x v kk cs s vs rs HR' Hl Hkk) as (m1&->&HR1&(nx&Hx1&Hx2&Hx3)&HF1). cbn [rbind].
        rewrite <- Er in HF1, HR1.
        assert (Hcl : cells l <> []) by (intros H0%root_cells; by destruct l).
        assert (Hc1 : cells (plug (kk ++ FR c l s vs :: k) rs) = (lcells k ++ cells l) ++ cells r ++ rcells k).
        { rewrite cells_plug, lcells_app, rcells_app, Hkk, Hrc. cbn [lcells rcells]. by applist. }
        assert (first_loc hd (cells (plug k (Nd c l x v r))) = first_loc hd (cells (plug (kk ++ FR c l s vs :: k) rs))) as E1.
        { rewrite Hc1, cells_plug, cells_N. rewrite <- !app_assoc.
          destruct (lcells k); [|done]. cbn [app]. by destruct (cells l). }
        assert (last_loc hd (cells (plug k (Nd c l x v r))) = last_loc hd (cells (plug (kk ++ FR c l s vs :: k) rs))) as E2.
        { rewrite Hc1, cells_plug, cells_N, Hrc.
          rewrite <- !app_assoc. cbn [app]. rewrite !last_loc_app by by destruct (cells l).
          by rewrite !last_loc_cons. }
        rewrite E1, E2 in HR1.
        assert (Hrb' : rbt BLACK n (plug (kk ++ FR c l x v :: k) (Nd cs Lf s vs rs))) by by rewrite <- HT.
        destruct (rbk_of _ _ _ _ Hrb' eq_refl) as (c1&n1&Hsr&Hsk). pose proof (rbt_col _ _ _ Hsr) as Hcs. cbn [col] in Hcs. subst c1.
        apply (rbk_relabel _ _ _ _ _ _ _ s vs) in Hsk.
        destruct (unlinked_rb cs n1 (kk ++ FR c l s vs :: k) Lf rs s vs rs Hsr Hsk) as [Hred Hblack]; [by left|].
        rewrite <- Hrc. eapply (Hend m1 (kk ++ FR c l s vs :: k) rs cs nx HR1 Hc1); [by apply Hsub|done|done|done|done|done|done|exact Hkk2].
  Qed.

End proofs.

Section apiproofs.
  Context {K V : Type} (alloc : gmap loc (tnode V) -> loc) (Ha : tmalloc_ok alloc).
  Notation M := (gmap loc (tnode V)).
  Notation ctx := (list (frame V)).
  Implicit Types (m : M) (h : theap V) (t : tobj K V) (k : ctx).

  Lemma insert_node_within_ok f t h hint k v a : is_tree (mem h) (hdr t) (plug k Lf) -> valued (mem h) v a -> side_ok t hint a k -> length k < f ->
    exists m' T', insert_node_within alloc f t h hint (Some (cpar (hdr t) k)) v
        = Ok (THeap m' (tdead h), TObj (hdr t) (S (cnt t)) (kcomp t) (kov t), Some (alloc (mem h))) /\
      is_tree m' (hdr t) T' /\ cells T' = lcells k ++ (alloc (mem h), a) :: rcells k /\
      (forall z, z ∉ hdr t :: alloc (mem h) :: locs (plug k Lf) -> m' !! z = mem h !! z).
  Proof.
    intros [HR [n Hrb]] Hv Hside Hkf. set (hd := hdr t) in *. set (x := alloc (mem h)). pose proof (Ha (mem h)) as Hx. fold x in Hx.
    pose proof (Rep_fresh _ _ _ _ _ _ HR Hx) as Hf. pose proof (Rep_ND _ _ _ _ _ _ HR) as HN. cbn [locs cells app] in HN.
    rewrite locs_plug in Hf. cbn [locs cells fmap list_fmap app] in Hf, HN. pose proof Hf as Hf'. apply not_elem_of_cons in Hf' as [Hxh Hxk].
    destruct (rbk_of _ _ _ _ Hrb eq_refl) as (c0&n0&Hlf&Hk0). inversion Hlf; subst c0 n0.
    unfold insert_node_within, create_node. rewrite Hv. cbn [rbind]. fold x hd. set (m0 := <[x := TNode RED None None None (Some a)]> (mem h)).
    assert (Hv0 : valued m0 v a) by by eapply valued_frame.
    assert (HR0 : Rep m0 hd (first_loc hd (cells (plug k Lf))) (last_loc hd (cells (plug k Lf))) (plug k Lf)).
    { destruct HR as (H1&H2&H3). split; [unfold m0; by rewrite lookup_insert_ne by done|]. split; [|done].
      eapply rep_frame; [|exact H2]. intros z Hz. unfold m0. rewrite lookup_insert_ne; [done|]. intros <-.
      rewrite locs_plug in Hz. done. }
    assert (Hx0 : m0 !! x = Some (TNode RED None None None (Some a))) by apply lookup_insert.
    assert (F0 : forall z, z <> x -> m0 !! z = mem h !! z). { intros z Hz. by apply lookup_insert_ne. } clearbody m0.
    pose proof HR0 as (HC0&_&_)%Rep_plug. cbn [root] in HC0.
    assert (Hgo : (if decide (Some (cpar hd k) = Some hd) then Ok true
       else if decide (hint <> None) then Ok true
       else do ky <- vkey t m0 v; do pk <- nkey t m0 (Some (cpar hd k)); Ok (kcomp t ky pk)) =
       Ok (match k with FR _ _ _ _ :: _ => false | _ => true end)).
    { destruct k as [|[c p w r|c l p w] k]; cbn [cpar].
      - by rewrite decide_True.
      - assert (p <> hd). { rewrite clocs_FL in HN. nd. done. } rewrite decide_False by congruence.
        destruct (decide (hint <> None)) as [?|Hh]; [done|]. cbn [side_ok] in Hside. destruct Hside as [?|Hside]; [done|].
        destruct HC0 as [_ (Hp&_)]. rewrite (vkey_ok _ _ _ _ Hv0). cbn [rbind]. by rewrite (nkey_ok _ _ _ _ _ Hp eq_refl), <- Hside.
      - assert (p <> hd). { rewrite clocs_FR in HN. nd. done. } rewrite decide_False by congruence.
        destruct Hside as [-> Hside]. rewrite decide_False by (intros H'; by apply H').
        destruct HC0 as [_ (Hp&_)]. rewrite (vkey_ok _ _ _ _ Hv0). cbn [rbind]. by rewrite (nkey_ok _ _ _ _ _ Hp eq_refl), <- Hside. }
    rewrite Hgo. cbn [rbind]. clear Hgo.
    assert (Hlink : exists m2, (if (match k with FR _ _ _ _ :: _ => false | _ => true end) then
         do m <- set_left m0 (Some (cpar hd k)) (Some x);
         if decide (Some (cpar hd k) = Some hd) then do m <- set_parent m (Some hd) (Some x); set_right m (Some hd) (Some x)
         else do lm <- left m (Some hd); if decide (Some (cpar hd k) = lm) then set_left m (Some hd) (Some x) else Ok m
       else
         do m <- set_right m0 (Some (cpar hd k)) (Some x);
         do rm <- right m (Some hd); if decide (Some (cpar hd k) = rm) then set_right m (Some hd) (Some x) else Ok m) = Ok m2 /\
      Ctx m2 hd (first_loc hd (lcells k ++ (x, a) :: rcells k)) (last_loc hd (lcells k ++ (x, a) :: rcells k)) k (Some x) /\
      m2 !! x = m0 !! x /\ (forall z, z ∉ hd :: clocs k -> m2 !! z = m0 !! z)).
    { rewrite !cells_plug in HC0. cbn [cells app] in HC0. destruct k as [|[c p w r|c l p w] k].
      - cbn [cpar]. pose proof HC0 as [Hh _]. rewrite (set_left_ok _ _ _ _ Hh). cbn [rbind]. rewrite decide_True by done.
        assert (H1 : alter (wleft (Some x)) hd m0 !! hd = Some (TNode RED None (Some x) (Some hd) None)).
        { rewrite lookup_alter, Hh. done. }
        rewrite (set_parent_ok _ _ _ _ H1). cbn [rbind].
        assert (H2 : alter (wpar (Some x)) hd (alter (wleft (Some x)) hd m0) !! hd = Some (TNode RED (Some x) (Some x) (Some hd) None)).
        { by rewrite lookup_alter, H1. }
        rewrite (set_right_ok _ _ _ _ H2). eexists. split; [reflexivity|]. split; [|split].
        + split; [|done]. by rewrite lookup_alter, H2.
        + by rewrite !lookup_alter_ne by done.
        + intros z Hz. nd. by rewrite !lookup_alter_ne by done.
      - cbn [cpar]. assert (p <> hd) as Hph. { rewrite clocs_FL in HN. nd. done. }
        assert (x <> p) as Hxp. { rewrite clocs_FL in Hxk. nd. done. }
        pose proof HC0 as [_ (Hp&_)]. rewrite (set_left_ok _ _ _ _ Hp). cbn [rbind]. rewrite decide_False by congruence.
        pose proof (Ctx_set_hole _ _ _ _ _ _ (Some x) HN HC0) as HC1. cbn [set_hole] in HC1.
        set (m1 := alter (wleft (Some x)) p m0) in *.
        assert (F1 : forall z, z <> p -> m1 !! z = m0 !! z). { intros z Hz. by apply lookup_alter_ne. } clearbody m1.
        pose proof HC1 as [Hh1 _]. rewrite (left_ok _ _ _ Hh1). cbn [rbind nleft].
        assert (HNc : NoDup (hd :: (lcells k ++ (p, w) :: cells r ++ rcells k).*1)).
        { destruct HR as (_&_&HR). cbn [plug] in HR. unfold locs in HR. rewrite cells_plug in HR. exact HR. }
        replace (last_loc hd (lcells (FL c p w r :: k) ++ (x, a) :: rcells (FL c p w r :: k)))
          with (last_loc hd (lcells (FL c p w r :: k) ++ rcells (FL c p w r :: k))).
        2:{ cbn [lcells rcells]. rewrite !last_loc_app by done. by rewrite !last_loc_cons. }
        cbn [lcells rcells] in *. destruct (lcells k) as [|[q u] lk] eqn:El.
        + cbn [app] in *. rewrite first_loc_cons in *. rewrite decide_True by done. rewrite (set_left_ok _ _ _ _ Hh1). eexists. split; [reflexivity|].
          split; [|split].
          * eapply Ctx_lm; [by apply NoDup_cons in HN as [? _]|exact HC1].
          * rewrite lookup_alter_ne by done. by apply F1.
          * intros z Hz. rewrite clocs_FL in Hz. nd. rewrite lookup_alter_ne by done. by apply F1.
        + cbn [app] in *. rewrite first_loc_cons in *. rewrite decide_False.
          2:{ intros [= ->]. cbn in HNc. rewrite fmap_app in HNc. apply NoDup_cons in HNc as [_ HNc]. apply NoDup_cons in HNc as [HNc _]. set_solver. }
          exists m1. split; [done|]. split; [done|]. split; [by apply F1|]. intros z Hz. rewrite clocs_FL in Hz. nd. by apply F1.
      - cbn [cpar]. assert (p <> hd) as Hph. { rewrite clocs_FR in HN. nd. done. }
        assert (x <> p) as Hxp. { rewrite clocs_FR in Hxk. nd. done. }
        pose proof HC0 as [_ (Hp&_)]. rewrite (set_right_ok _ _ _ _ Hp). cbn [rbind].
        pose proof (Ctx_set_hole _ _ _ _ _ _ (Some x) HN HC0) as HC1. cbn [set_hole] in HC1.
        set (m1 := alter (wright (Some x)) p m0) in *.
        assert (F1 : forall z, z <> p -> m1 !! z = m0 !! z). { intros z Hz. by apply lookup_alter_ne. } clearbody m1.
        pose proof HC1 as [Hh1 _]. rewrite (right_ok _ _ _ Hh1). cbn [rbind nright].
        assert (HNc : NoDup (hd :: ((lcells k ++ cells l) ++ (p, w) :: rcells k).*1)).
        { destruct HR as (_&_&HR). cbn [plug] in HR. unfold locs in HR. rewrite cells_plug in HR. cbn [cells] in HR.
          rewrite <- app_assoc. rewrite <- app_assoc in HR. exact HR. }
        cbn [lcells rcells] in *. rewrite (app_assoc (lcells k)) in *.
        replace (first_loc hd (((lcells k ++ cells l) ++ [(p, w)]) ++ (x, a) :: rcells k))
          with (first_loc hd (((lcells k ++ cells l) ++ [(p, w)]) ++ rcells k)) by by destruct (lcells k ++ cells l).
        destruct (decide (rcells k = [])) as [El|El].
        + rewrite El in *. rewrite app_nil_r in *. rewrite last_loc_snoc in *. rewrite decide_True by done.
          rewrite last_loc_snoc. rewrite (set_right_ok _ _ _ _ Hh1). eexists. split; [reflexivity|].
          split; [|split].
          * eapply Ctx_rm; [by apply NoDup_cons in HN as [? _]|exact HC1].
          * rewrite lookup_alter_ne by done. by apply F1.
          * intros z Hz. rewrite clocs_FR in Hz. nd. rewrite lookup_alter_ne by done. by apply F1.
        + rewrite decide_False.
          2:{ intros E. symmetry in E. revert E. rewrite <- app_assoc. by apply last_loc_ne. }
          exists m1. split; [done|]. split; [|split; [by apply F1|]; intros z Hz; rewrite clocs_FR in Hz; nd; by apply F1].
          replace (last_loc hd (((lcells k ++ cells l) ++ [(p, w)]) ++ (x, a) :: rcells k)) with (last_loc hd (((lcells k ++ cells l) ++ [(p, w)]) ++ rcells k)); [done|].
          rewrite !last_loc_app by done. rewrite last_loc_cons. by apply last_loc_irrel. }
    destruct Hlink as (m2&->&HC2&Hx2&F2). cbn [rbind]. rewrite Hx0 in Hx2. rewrite (set_parent_ok _ _ _ _ Hx2). cbn [rbind].
    set (m3 := alter (wpar (Some (cpar hd k))) x m2).
    assert (Hx3 : m3 !! x = Some (TNode RED (Some (cpar hd k)) None None (Some a))). { unfold m3. by rewrite lookup_alter, Hx2. }
    assert (F3 : forall z, z <> x -> m3 !! z = m2 !! z). { intros z Hz. by apply lookup_alter_ne. } clearbody m3.
    assert (HR3 : Rep m3 hd (first_loc hd (lcells k ++ (x, a) :: rcells k)) (last_loc hd (lcells k ++ (x, a) :: rcells k)) (plug k (Nd RED Lf x a Lf))).
    { eapply plant_ok; [exact HR|done| |done]. eapply Ctx_frame; [|exact HC2]. intros z Hz. apply F3. intros ->. done. }
    destruct (rebalance_insert_within_ok f _ _ _ _ _ _ _ _ _ _ HR3 (rbt_Lf) (rbt_Lf) Hk0 Hkf) as (m4&T4&->&(HR4&HP4&HF4)&HC4&Hrb4). cbn [rbind].
    assert (Hc4 : cells T4 = lcells k ++ (x, a) :: rcells k). { rewrite HC4, cells_plug. done. }
    exists m4, T4. split; [done|]. split; [split; [by rewrite Hc4|done]|]. split; [done|].
    intros z Hz. rewrite locs_plug in Hz. cbn [locs cells fmap list_fmap app] in Hz.
    assert (z <> hd /\ z <> x /\ z ∉ clocs k) as (Hz1&Hz2&Hz3). { nd. done. }
    rewrite HF4; [|rewrite locs_plug, locs_N; cbn; clear - Hz1 Hz2 Hz3; set_solver].
    rewrite F3 by done. rewrite F2 by (clear - Hz1 Hz3; set_solver). by apply F0.
  Qed.

End apiproofs.
