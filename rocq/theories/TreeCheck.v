(** TreeCheck.v — creation, destruction, the self-check, the height bound and erase_from. *)
From Verif Require Import Base Spec SpecSeq SpecListOps SpecTreeOps Facts DList Tree SpecTree TreeRep TreeInsert TreeErase TreeIter TreeUnlink TreeApi TreeOps TreeLookup TreeMod.
From stdpp Require Import list gmap.

Section check.
  Context {K V : Type}.
  Notation M := (gmap loc (tnode V)).
  Notation ctx := (list (frame V)).
  Notation cell := (loc * V)%type.
  Implicit Types (m : M) (h : theap V) (t : tobj K V) (k : ctx) (cs L R : list cell).

  (** ** height *)
  Lemma rbt_size c n (T : tree V) : rbt c n T -> 2 ^ n <= S (length (cells T)) /\ height T <= 2 * n + (if c then 0 else 1).
  Proof.
    induction 1 as [|n l x v r Hl [IHl1 IHl2] Hr [IHr1 IHr2]|n c1 c2 l x v r Hl [IHl1 IHl2] Hr [IHr1 IHr2]]; [cbn; lia| |];
      cbn [cells height]; rewrite app_length; cbn [length].
    - split; lia.
    - split; [rewrite Nat.pow_succ_r'; lia|]. destruct c1, c2; lia.
  Qed.
  Lemma height_log m hd T : is_tree m hd T -> height T <= 2 * Nat.log2 (length (cells T) + 1).
  Proof.
    intros [_ [n Hn]]. destruct (rbt_size _ _ _ Hn) as [H1 H2]. assert (n <= Nat.log2 (length (cells T) + 1)); [|lia].
    rewrite <- (Nat.log2_pow2 n) by lia. apply Nat.log2_le_mono. lia.
  Qed.

  (** ** the self-check *)
  Fixpoint blacks k : nat := match k with [] => 0 | FL c _ _ _ :: k | FR c _ _ _ :: k => (if c then 1 else 0) + blacks k end.
  Lemma rbt_blacks c n k (s : tree V) : rbt c n (plug k s) -> exists c' n', rbt c' n' s /\ n = n' + blacks k.
  Proof.
    revert c n s. induction k as [|[b x v r|b l x v] k IH]; intros c n s H; cbn [plug blacks] in *.
    - exists c, n. split; [done|lia].
    - apply IH in H as (c'&n'&H&->). inversion H; subst; [exists BLACK, n'; split; [done|lia]|]. eexists _, _. split; [eassumption|lia].
    - apply IH in H as (c'&n'&H&->). inversion H; subst; [exists BLACK, n'; split; [done|lia]|]. eexists _, _. split; [eassumption|lia].
  Qed.
  Lemma black_count_loop_ok hd lm rm m : forall k c l x v r n fuel, Rep m hd lm rm (plug k (Nd c l x v r)) -> length k < fuel ->
    black_count_loop fuel m n (Some x) (root (plug k (Nd c l x v r))) = Ok (n + (if c then 1 else 0) + blacks k).
  Proof.
    induction k as [|f k IH]; intros c l x v r n fuel HR Hf; (destruct fuel as [|fuel]; [cbn in Hf; lia|]); cbn [black_count_loop].
    - unfold is_black. rewrite (R_color _ _ _ _ _ _ _ _ _ _ HR). cbn [rbind plug root blacks]. rewrite decide_True by done.
      f_equal. destruct c; lia.
    - unfold is_black. rewrite (R_color _ _ _ _ _ _ _ _ _ _ HR). cbn [rbind]. rewrite (R_parent _ _ _ _ _ _ _ _ _ _ HR). cbn [rbind].
      rewrite decide_False.
      2:{ pose proof (Rep_ND _ _ _ _ _ _ HR) as HN. intros E. destruct (crt_some (f :: k) (Some x)) as (top&E1&E2); [done|].
          rewrite root_plug in E. cbn [root] in E. rewrite E1 in E. injection E as ->. apply NoDup_cons in HN as [_ HN].
          apply NoDup_app in HN as (_&HN&_). apply (HN top); [|done]. rewrite locs_N. apply elem_of_app. right. by left. }
      destruct f as [c' y w r'|c' l' y w]; cbn [plug cpar blacks length] in *.
      + rewrite (IH c' (Nd c l x v r) y w r') by (done || lia). f_equal. destruct c, c'; lia.
      + rewrite (IH c' l' y w (Nd c l x v r)) by (done || lia). f_equal. destruct c, c'; lia.
  Qed.

  Lemma black_count_ok m hd lm rm n k c x v l r : Rep m hd lm rm (plug k (Nd c l x v r)) -> rbt BLACK n (plug k (Nd c l x v r)) -> l = Lf \/ r = Lf ->
    black_count m (Some x) (root (plug k (Nd c l x v r))) = Ok n.
  Proof.
    intros HR Hn Hlr. unfold black_count. rewrite (black_count_loop_ok hd lm rm m k c l x v r 0 _ HR).
    2:{ pose proof (Rep_fuel _ _ _ _ _ _ HR). unfold tfuel. lia. }
    f_equal. apply rbt_blacks in Hn as (c'&n'&Hn&->). inversion Hn as [|n0 l0 x0 v0 r0 Hl Hr|n0 c1 c2 l0 x0 v0 r0 Hl Hr]; subst.
    - assert (n' = 0) as ->; [|lia]. destruct Hlr as [-> | ->]; [by inversion Hl|by inversion Hr].
    - assert (n0 = 0) as ->; [|lia]. destruct Hlr as [-> | ->]; [by inversion Hl|by inversion Hr].
  Qed.
  Lemma first_Lf (T : tree V) x w R : cells T = (x, w) :: R -> exists k c r, T = plug k (Nd c Lf x w r).
  Proof. intros Hc. destruct (gap_first T x w R Hc) as (k&c&r&E&_). exists k, c, r. by rewrite <- E. Qed.
  Lemma verify_loop_ok t m T n : StrictWeakOrder (kcomp t) -> is_tree m (hdr t) T -> rbt BLACK n T -> ksorted t (cells T) ->
    forall es cs fuel, cells T = cs ++ es -> length es < fuel ->
    verify_loop fuel t m n (root T) (first_loc (hdr t) es) (Some (hdr t)) = Ok true.
  Proof.
    intros HW HT Hn HS. pose proof (is_tree_ND _ _ _ HT) as HN. induction es as [|[x w] es IH]; intros cs fuel Hc Hf; (destruct fuel as [|fuel]; [cbn in Hf; lia|]);
      cbn [verify_loop length] in *; [by rewrite decide_True|]. rewrite first_loc_cons.
    rewrite decide_False. 2:{ intros [= ->]. apply NoDup_cons in HN as [HN _]. apply HN. unfold locs. rewrite Hc, fmap_app. apply elem_of_app. right. by left. }
    rewrite (next_ok m (hdr t) T cs x w es HT Hc).
    destruct (split_at _ _ _ _ _ Hc) as (k&c&l&r&->&Ecs&Ees); [by apply NoDup_cons in HN as [_ ?]|].
    pose proof HT as [HR _]. rewrite (R_left _ _ _ _ _ _ _ _ _ _ HR), (R_right _ _ _ _ _ _ _ _ _ _ HR). cbn [rbind].
    pose proof (R_red _ _ _ _ _ _ HR) as Hred. cbn [root col] in Hred. rewrite Hred. cbn [rbind].
    pose proof (rbt_blacks _ _ _ _ Hn) as (c'&n'&Hx&Hnn).
    assert (Hl : is_black m (root l) = Ok (col l)) by exact (R_black _ _ _ _ (FL c x w r :: k) l HR).
    assert (Hr : is_black m (root r) = Ok (col r)) by exact (R_black _ _ _ _ (FR c l x w :: k) r HR).
    match goal with |- rbind ?e _ = _ => assert (e = Ok false) as -> end.
    { destruct c; [done|]. cbn [negb]. inversion Hx; subst. assert (col l = true) as El by (by eapply rbt_col). assert (col r = true) as Er by (by eapply rbt_col).
      rewrite El in Hl. rewrite Er in Hr. destruct (root l); [rewrite Hl|]; cbn [rbind negb]; (destruct (root r); [rewrite Hr|]; done). }
    cbn [rbind]. rewrite cells_plug in HS. cbn [cells] in HS.
    assert (Hlk : forall y u, (y, u) ∈ cells l -> kcomp t (kov t w) (kov t u) = false).
    { intros y u Hy. rewrite <- app_assoc in HS. cbn [app] in HS. rewrite app_assoc in HS. apply ksorted_mid in HS as [HS _].
      apply (HS (y, u)). apply elem_of_app. by right. }
    assert (Hrk : forall y u, (y, u) ∈ cells r -> kcomp t (kov t u) (kov t w) = false).
    { intros y u Hy. rewrite <- app_assoc in HS. cbn [app] in HS. rewrite app_assoc in HS. apply ksorted_mid in HS as [_ HS].
      apply (HS (y, u)). apply elem_of_app. by left. }
    rewrite (R_nkey t _ _ _ _ _ _ _ _ _ _ HR).
    match goal with |- rbind ?e _ = _ => assert (e = Ok false) as -> end.
    { destruct l as [|cl ll y u lr]; [done|]. cbn [root rbind]. rewrite (R_nkey t _ _ _ _ (FL c x w r :: k) cl ll y u lr HR). cbn [rbind]. f_equal.
      apply (Hlk y). cbn [cells]. apply elem_of_app. right. by left. }
    cbn [rbind].
    match goal with |- rbind ?e _ = _ => assert (e = Ok false) as -> end.
    { destruct r as [|cl ll y u lr]; [done|]. cbn [root rbind]. rewrite (R_nkey t _ _ _ _ (FR c l x w :: k) cl ll y u lr HR). cbn [rbind]. f_equal.
      apply (Hrk y). cbn [cells]. apply elem_of_app. right. by left. }
    cbn [rbind].
    match goal with |- rbind ?e _ = _ => assert (e = Ok false) as -> end.
    { destruct l; [|done]. destruct r; [|done]. cbn [root]. rewrite (black_count_ok _ _ _ _ n _ _ _ _ _ _ HR Hn) by by left. cbn [rbind]. by rewrite Nat.eqb_refl. }
    cbn [rbind]. apply (IH (cs ++ [(x, w)])); [by rewrite <- app_assoc|lia].
  Qed.
  Lemma rb_verify_ok t h cs : is_rbtree (mem h) t cs -> c_tree_rb_verify t h = Ok true.
  Proof.
    intros HB. pose proof HB as (HW&(T&HT&<-)&Hc&HS). pose proof HT as [HR [n Hn]]. pose proof HR as (Hh&Hr&HN). unfold c_tree_rb_verify.
    rewrite (left_ok _ _ _ Hh), (right_ok _ _ _ Hh), (parent_ok _ _ _ Hh), (color_ok _ _ _ Hh). cbn [rbind nleft nright npar ncol].
    rewrite Hc. destruct T as [|c l x v r] eqn:ET; [cbn; by rewrite !bool_decide_true|]. rewrite <- ET in *.
    assert (Hne : cells T <> []) by (rewrite ET; apply cells_Nd_ne).
    assert (HT0 : T <> Lf) by by rewrite ET.
    assert (Hlen : length (cells T) <> 0) by (by destruct (cells T)).
    rewrite (proj2 (Nat.eqb_neq _ _) Hlen). cbn [orb]. rewrite bool_decide_false by by apply first_ne_hd.
    cbn [negb]. pose proof (R_black _ _ _ _ [] T HR) as Hb. rewrite Hb. cbn [rbind]. rewrite (rbt_col _ _ _ Hn). cbn [negb].
    assert (parent (mem h) (root T) = Ok (Some (hdr t))) as ->.
    { rewrite ET. cbn [root]. rewrite ET in HR. exact (R_parent _ _ _ _ [] c l x v r HR). }
    cbn [rbind]. rewrite bool_decide_false by auto.
    destruct (cells T) as [|[y u] es] eqn:Ec; [done|]. destruct (first_Lf T y u es Ec) as (k'&c'&r'&Eg).
    rewrite first_loc_cons in *. pose proof HR as HR'. rewrite Eg in HR'. pose proof Hn as Hn'. rewrite Eg in Hn'.
    assert (black_count (mem h) (Some y) (root T) = Ok n) as ->.
    { rewrite Eg. eapply black_count_ok; [exact HR'|exact Hn'|by left]. }
    cbn [rbind]. pose proof (verify_loop_ok t (mem h) T n HW HT Hn) as Hv. rewrite Ec in Hv. specialize (Hv HS ((y, u) :: es) [] (tfuel (mem h)) eq_refl).
    rewrite first_loc_cons in Hv. rewrite Hv.
    2:{ pose proof (is_tree_size _ _ _ HT) as Hs. rewrite Ec in Hs. unfold tfuel. lia. }
    cbn [rbind]. assert (Hfu : length (cells T) <= tfuel (mem h)). { pose proof (is_tree_size _ _ _ HT). unfold tfuel. lia. }
    rewrite (minimum_ok (hdr t) T (mem h) (hdr t) Hr HT0 Hfu), (maximum_ok (hdr t) T (mem h) (hdr t) Hr HT0 Hfu). cbn [rbind].
    rewrite Ec. rewrite first_loc_cons. by rewrite !bool_decide_true.
  Qed.

  (** ** creation and destruction *)
  Lemma create_ok (alloc : M -> loc) h comp key : tmalloc_ok alloc -> StrictWeakOrder comp ->
    exists h' t, c_tree_create alloc h comp key = (h', t) /\ is_rbtree (mem h') t [] /\ kcomp t = comp /\ kov t = key /\
      mem h !! hdr t = None /\ tstep (mem h) (mem h') [] [hdr t] /\ tdead h' = tdead h.
  Proof.
    intros Ha HW. eexists _, _. split; [reflexivity|]. cbn [mem hdr kcomp kov tdead]. split; [|split; [done|split; [done|split; [apply Ha|split; [|done]]]]].
    - eapply (is_rbtree_intro _ _ _ Lf); [done| |done|done|apply ksorted_nil]. apply is_tree_nil. by rewrite lookup_insert.
    - split; [|split].
      + intros z _ Hz. apply lookup_insert_ne. intros Hq. apply Hz, elem_of_list_singleton. by symmetry.
      + intros z Hz. by apply elem_of_nil in Hz.
      + intros z _ ->%elem_of_list_singleton. apply Ha.
  Qed.
  Lemma destroy_ok t h cs : is_rbtree (mem h) t cs ->
    exists h', c_tree_destroy t h = Ok h' /\ tstep (mem h) (mem h') (tnodes (hdr t) cs) [hdr t] /\ is_Some (mem h' !! hdr t) /\ tdead h' = tdead h ++ rev cs.*2.
  Proof.
    intros HB. destruct (clear_upd t h cs HB) as (h'&t'&E&->&H1&H2&H3). unfold c_tree_destroy. rewrite E. cbn [rbind]. exists h'.
    split; [done|]. split; [done|]. split; [|done]. destruct H1 as (_&H1&_). apply holds_nodes in H1 as [_ H1]. apply H1. by left.
  Qed.

  (** ** erase_from, when keys and values have the same size (sets) *)
  Lemma erase_from_loop_ok ks2 : forall ks1 t h cs sz fuel, is_rbtree (mem h) t cs -> 0 < sz -> length ks2 < fuel ->
    exists h' t' cs' gone, erase_from_loop fuel t h (ks1 ++ ks2) sz sz (length ks1 * sz) = Ok (h', t') /\ tupd h t cs h' t' cs' gone /\
      cs'.*2 = fold_left (fun l a => without_key (kcomp t) (kov t) a l) ks2 cs.*2.
  Proof.
    induction ks2 as [|a ks2 IH]; intros ks1 t h cs sz fuel HB Hsz Hf; (destruct fuel as [|fuel]; [cbn in Hf; lia|]); cbn [erase_from_loop length fold_left] in *.
    - rewrite app_nil_r, Nat.eqb_refl. exists h, t, cs, []. split; [done|]. split; [by apply tupd_refl|done].
    - rewrite app_length. cbn [length]. rewrite (proj2 (Nat.eqb_neq _ _)) by nia. rewrite Nat.div_mul by lia.
      rewrite lookup_app_r, Nat.sub_diag by lia. cbn [lookup list_lookup]. rewrite Nat.mod_mul by lia. cbn [Nat.eqb].
      destruct (erase_key_ok t h cs (KVal a) a HB eq_refl) as (h1&t1&c1&->&_&Hv1&HU1). cbn [rbind]. pose proof HU1 as (Ht1&HB1&_).
      destruct (IH (ks1 ++ [a]) t1 h1 c1 sz fuel HB1 Hsz) as (h2&t2&c2&g2&E&HU2&Hv2); [lia|].
      rewrite <- app_assoc in E. cbn [app] in E. rewrite app_length in E. cbn [length] in E. replace ((length ks1 + 1) * sz) with (length ks1 * sz + sz) in E by lia.
      rewrite E. eexists h2, t2, c2, _. split; [done|]. split; [exact (tupd_trans _ _ _ _ _ _ _ _ _ _ _ HU1 HU2)|].
      rewrite Hv2, Hv1. rewrite Ht1. done.
  Qed.
  Lemma erase_from_ok t h cs ks sz : is_rbtree (mem h) t cs -> 0 < sz ->
    exists h' t' cs' gone, c_tree_erase_from t h ks sz sz = Ok (h', t') /\ tupd h t cs h' t' cs' gone /\
      cs'.*2 = fold_left (fun l a => without_key (kcomp t) (kov t) a l) ks cs.*2.
  Proof. intros HB Hsz. apply (erase_from_loop_ok ks [] t h cs sz); [done|done|]. nia. Qed.
End check.
