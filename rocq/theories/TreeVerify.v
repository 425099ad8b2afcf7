(** TreeVerify.v — what c_tree_rb_verify decides on any well-linked tree (sorted or not, balanced or not), and
    c_tree_erase_from for any sizes of key and value. *)
From Verif Require Import Base Spec SpecSeq SpecListOps SpecTreeOps Facts DList Tree SpecTree TreeRep TreeInsert TreeErase TreeIter
  TreeUnlink TreeApi TreeOps TreeLookup TreeMod TreeCheck.
From stdpp Require Import list gmap.

(** ** the specification *)
Section spec.
  Context {K V : Type}.
  Definition b2n (c : bool) : nat := if c then 1 else 0.
  (** no red node has a red child *)
  Definition colour (s : tree V) : bool := match s with Lf => BLACK | Nd c _ _ _ _ => c end.
  Fixpoint no_red_red (s : tree V) : Prop :=
    match s with Lf => True | Nd c l _ _ r => (c = RED -> colour l = BLACK /\ colour r = BLACK) /\ no_red_red l /\ no_red_red r end.
  (** every child is on the right side of its parent (not: every descendant) *)
  Fixpoint child_sorted (comp : K -> K -> bool) (key : V -> K) (s : tree V) : Prop :=
    match s with
    | Lf => True
    | Nd _ l _ v r =>
        match l with Nd _ _ _ u _ => comp (key v) (key u) = false | Lf => True end /\
        match r with Nd _ _ _ u _ => comp (key u) (key v) = false | Lf => True end /\
        child_sorted comp key l /\ child_sorted comp key r
    end.
  (** every node without children is at black depth [n] (nothing is said about nodes with one child) *)
  Fixpoint leaves_at (n : nat) (s : tree V) : Prop :=
    match s with
    | Lf => True
    | Nd c Lf _ _ Lf => n = b2n c
    | Nd c l _ _ r => exists n', n = b2n c + n' /\ leaves_at n' l /\ leaves_at n' r
    end.
  (** the black depth of the leftmost node *)
  Fixpoint left_blacks (s : tree V) : nat := match s with Lf => 0 | Nd c l _ _ _ => b2n c + left_blacks l end.
End spec.

Section verify.
  Context {K V : Type}.
  Notation M := (gmap loc (tnode V)).
  Notation ctx := (list (frame V)).
  Implicit Types (m : M) (h : theap V) (t : tobj K V) (k : ctx) (s l r T : tree V).

  Definition top_val s : option V := match s with Lf => None | Nd _ _ _ v _ => Some v end.
  Definition is_leaf l r : bool := match l, r with Lf, Lf => true | _, _ => false end.
  Definition node_ok t (n : nat) k (c : bool) l (w : V) r : bool :=
    (c || (colour l && colour r)) &&
    match top_val l with Some u => negb (kcomp t (kov t w) (kov t u)) | None => true end &&
    match top_val r with Some u => negb (kcomp t (kov t u) (kov t w)) | None => true end &&
    (negb (is_leaf l r) || (b2n c + blacks k =? n)).
  Lemma verify_step t m n lm rm k c l x w r f : Rep m (hdr t) lm rm (plug k (Nd c l x w r)) ->
    verify_loop (S f) t m n (root (plug k (Nd c l x w r))) (Some x) (Some (hdr t)) =
    if node_ok t n k c l w r then verify_loop f t m n (root (plug k (Nd c l x w r))) (first_loc (hdr t) (cells r ++ rcells k)) (Some (hdr t)) else Ok false.
  Proof.
    intros HR. pose proof HR as (_&_&HN). cbn [verify_loop].
    rewrite decide_False. 2:{ intros [= ->]. apply NoDup_cons in HN as [HN _]. apply HN. unfold locs. rewrite cells_plug. cbn [cells]. rewrite !fmap_app.
      apply elem_of_app. right. apply elem_of_app. left. apply elem_of_app. right. by left. }
    rewrite (increment_ok m (hdr t) lm rm k c l x w r HR).
    rewrite (R_left _ _ _ _ _ _ _ _ _ _ HR), (R_right _ _ _ _ _ _ _ _ _ _ HR). cbn [rbind].
    pose proof (R_red _ _ _ _ _ _ HR) as Hred. cbn [root col] in Hred. rewrite Hred. cbn [rbind].
    assert (Hl : is_black m (root l) = Ok (colour l)) by exact (R_black _ _ _ _ (FL c x w r :: k) l HR).
    assert (Hr : is_black m (root r) = Ok (colour r)) by exact (R_black _ _ _ _ (FR c l x w :: k) r HR).
    match goal with |- rbind ?e _ = _ => assert (e = Ok (negb (c || (colour l && colour r)))) as -> end.
    { destruct c; [done|]. cbn [negb orb]. destruct l as [|cl ll y u lr]; cbn [root colour andb rbind] in *.
      - destruct r as [|cr rl z q rr]; cbn [root colour rbind] in *; [done|by rewrite Hr].
      - rewrite Hl. cbn [rbind]. destruct cl; cbn [negb andb]; [|done]. destruct r as [|cr rl z q rr]; cbn [root colour rbind] in *; [done|by rewrite Hr]. }
    cbn [rbind]. unfold node_ok. destruct (c || (colour l && colour r)); cbn [negb andb]; [|done].
    rewrite (R_nkey t _ _ _ _ _ _ _ _ _ _ HR). cbn [rbind].
    match goal with |- rbind ?e _ = _ => assert (e = Ok (negb match top_val l with Some u => negb (kcomp t (kov t w) (kov t u)) | None => true end)) as -> end.
    { destruct l as [|cl ll y u lr]; [done|]. cbn [root rbind top_val]. rewrite (R_nkey t _ _ _ _ (FL c x w r :: k) cl ll y u lr HR). cbn [rbind].
      by rewrite negb_involutive. }
    cbn [rbind]. destruct (match top_val l with Some u => negb (kcomp t (kov t w) (kov t u)) | None => true end); cbn [negb andb]; [|done].
    match goal with |- rbind ?e _ = _ => assert (e = Ok (negb match top_val r with Some u => negb (kcomp t (kov t u) (kov t w)) | None => true end)) as -> end.
    { destruct r as [|cl ll y u lr]; [done|]. cbn [root rbind top_val]. rewrite (R_nkey t _ _ _ _ (FR c l x w :: k) cl ll y u lr HR). cbn [rbind].
      by rewrite negb_involutive. }
    cbn [rbind]. destruct (match top_val r with Some u => negb (kcomp t (kov t u) (kov t w)) | None => true end); cbn [negb andb]; [|done].
    match goal with |- rbind ?e _ = _ => assert (e = Ok (negb (negb (is_leaf l r) || (b2n c + blacks k =? n)))) as -> end.
    { destruct l; [|done]. destruct r; [|done]. cbn [root is_leaf negb orb]. unfold black_count.
      rewrite (black_count_loop_ok _ _ _ m k c Lf x w Lf 0 _ HR); [done|]. pose proof (Rep_fuel _ _ _ _ _ _ HR). unfold tfuel. lia. }
    cbn [rbind]. by destruct (negb (is_leaf l r) || (b2n c + blacks k =? n)).
  Qed.
  Lemma verify_exact t m n lm rm T : Rep m (hdr t) lm rm T -> forall es cs fuel, cells T = cs ++ es -> length es < fuel ->
    exists b, verify_loop fuel t m n (root T) (first_loc (hdr t) es) (Some (hdr t)) = Ok b /\
      (b = true <-> forall k c l x w r, T = plug k (Nd c l x w r) -> (x, w) ∈ es -> node_ok t n k c l w r = true).
  Proof.
    intros HR. pose proof HR as (_&_&HN). induction es as [|[x w] es IH]; intros cs fuel Hc Hf; (destruct fuel as [|fuel]; [cbn in Hf; lia|]).
    - exists true. cbn [verify_loop]. rewrite decide_True by done. split; [done|]. split; [|done]. intros _ k c l x w r _ H. by apply elem_of_nil in H.
    - rewrite first_loc_cons. destruct (split_at _ _ _ _ _ Hc) as (k&c&l&r&HT&Ecs&Ees); [by apply NoDup_cons in HN as [_ ?]|].
      cbn [length] in Hf. destruct (IH (cs ++ [(x, w)]) fuel) as (b&E&Hb); [by rewrite <- app_assoc|lia|].
      rewrite HT, (verify_step t m n lm rm) by by rewrite <- HT. rewrite <- Ees, <- HT.
      destruct (node_ok t n k c l w r) eqn:En.
      + exists b. split; [done|]. rewrite Hb. split.
        * intros H k' c' l' x' w' r' HT' [Hx|Hx]%elem_of_cons; [|by eapply H]. injection Hx as -> ->.
          pose proof (verify_step t m n lm rm k' c' l' x w r' 0) as V1. rewrite <- HT' in V1. specialize (V1 HR).
          pose proof (verify_step t m n lm rm k c l x w r 0) as V2. rewrite <- HT in V2. specialize (V2 HR). rewrite V2, En in V1.
          destruct (node_ok t n k' c' l' w r'); [done|]. cbn in V1. done.
        * intros H k' c' l' x' w' r' HT' Hx. eapply H; [done|by right].
      + exists false. split; [done|]. split; [done|]. intros H. rewrite <- En. eapply H; [exact HT|by left].
  Qed.

  (** ** from the nodes to the recursive predicates *)
  Lemma all_nodes_rr t n T : (forall k c l x w r, T = plug k (Nd c l x w r) -> (x, w) ∈ cells T -> node_ok t n k c l w r = true) ->
    no_red_red T /\ child_sorted (kcomp t) (kov t) T /\ (T <> Lf -> leaves_at n T).
  Proof.
    intros H. assert (forall s k, T = plug k s -> no_red_red s /\ child_sorted (kcomp t) (kov t) s /\ (s <> Lf -> exists n', n = n' + blacks k /\ leaves_at n' s)) as Hs.
    { induction s as [|c l IHl x w r IHr]; intros k HT; [done|].
      assert (node_ok t n k c l w r = true) as Hn.
      { eapply H; [exact HT|]. rewrite HT, cells_plug. cbn [cells]. apply elem_of_app. right. apply elem_of_app. left. apply elem_of_app. right. by left. }
      destruct (IHl (FL c x w r :: k) HT) as (L1&L2&L3). destruct (IHr (FR c l x w :: k) HT) as (R1&R2&R3). clear IHl IHr.
      unfold node_ok in Hn. apply andb_true_iff in Hn as [Hn Hn4]. apply andb_true_iff in Hn as [Hn Hn3]. apply andb_true_iff in Hn as [Hn1 Hn2].
      cbn [no_red_red child_sorted]. split; [|split].
      - split; [|done]. intros ->. cbn in Hn1. by apply andb_true_iff in Hn1.
      - split; [destruct l; [done|]; by apply negb_true_iff|]. split; [destruct r; [done|]; by apply negb_true_iff|done].
      - intros _. cbn [blacks] in L3, R3. cbn [leaves_at]. destruct l as [|cl ll y u lr], r as [|cr rl z q rr]; cbn [is_leaf negb orb] in Hn4.
        + apply Nat.eqb_eq in Hn4. exists (b2n c). split; [lia|done].
        + destruct (R3 ltac:(done)) as (n'&E&Hl). exists (b2n c + n'). split; [destruct c; cbn in *; lia|]. exists n'. split; [done|]. split; done.
        + destruct (L3 ltac:(done)) as (n'&E&Hl). exists (b2n c + n'). split; [destruct c; cbn in *; lia|]. exists n'. split; [done|]. split; done.
        + destruct (L3 ltac:(done)) as (n'&E&Hl). destruct (R3 ltac:(done)) as (n2&E2&Hl2). assert (n2 = n') as -> by (destruct c; cbn in *; lia).
          exists (b2n c + n'). split; [destruct c; cbn in *; lia|]. exists n'. split; [done|]. split; done. }
    destruct (Hs T [] eq_refl) as (H1&H2&H3). split; [done|]. split; [done|]. intros HT. destruct (H3 HT) as (n'&E&Hl). cbn in E.
    by replace n with n' by lia.
  Qed.
  Lemma leaves_plug n k s : leaves_at n (plug k s) -> s <> Lf -> exists n', n = n' + blacks k /\ leaves_at n' s.
  Proof.
    revert n s. induction k as [|[b x v r|b l x v] k IH]; intros n s H Hs; cbn [plug blacks] in *.
    - exists n. split; [lia|done].
    - apply IH in H as (n'&->&H); [|done]. cbn [leaves_at] in H. destruct s as [|c1 l1 x1 v1 r1]; [done|].
      assert (exists n'', n' = b2n b + n'' /\ leaves_at n'' (Nd c1 l1 x1 v1 r1)) as (n2&->&H2) by (destruct r; destruct H as (n''&->&H1&H2); by exists n'').
      exists n2. split; [destruct b; cbn; lia|done].
    - apply IH in H as (n'&->&H); [|done]. cbn [leaves_at] in H. destruct s as [|c1 l1 x1 v1 r1]; [done|].
      assert (exists n'', n' = b2n b + n'' /\ leaves_at n'' (Nd c1 l1 x1 v1 r1)) as (n2&->&H2) by (destruct l; destruct H as (n''&->&H1&H2); by exists n'').
      exists n2. split; [destruct b; cbn; lia|done].
  Qed.
  Lemma rr_plug k s : no_red_red (plug k s) -> no_red_red s.
  Proof. revert s. induction k as [|[b x v r|b l x v] k IH]; intros s H; cbn [plug] in *; [done| |]; apply IH in H as (_&H1&H2); done. Qed.
  Lemma cs_plug comp (key : V -> K) k s : child_sorted comp key (plug k s) -> child_sorted comp key s.
  Proof. revert s. induction k as [|[b x v r|b l x v] k IH]; intros s H; cbn [plug] in *; [done| |]; apply IH in H as (_&_&H1&H2); done. Qed.
  Lemma rr_all_nodes t n T : no_red_red T -> child_sorted (kcomp t) (kov t) T -> leaves_at n T ->
    forall k c l x w r, T = plug k (Nd c l x w r) -> node_ok t n k c l w r = true.
  Proof.
    intros H1 H2 H3 k c l x w r ->. apply rr_plug in H1 as (H1&_). apply cs_plug in H2 as (H2&H2'&_). apply leaves_plug in H3 as (n'&->&H3); [|done].
    unfold node_ok. rewrite !andb_true_iff. split; [split; [split|]|].
    - destruct c; [done|]. destruct (H1 eq_refl) as [-> ->]. done.
    - destruct l; cbn; [done|]. by rewrite H2.
    - destruct r; cbn; [done|]. by rewrite H2'.
    - destruct l, r; cbn; try done. cbn in H3. subst n'. apply Nat.eqb_eq. done.
  Qed.
  Lemma left_blacks_plug k c x w r : forall T, T = plug k (Nd c Lf x w r) -> lcells k = [] -> left_blacks T = b2n c + blacks k.
  Proof.
    assert (forall k s, lcells k = [] -> left_blacks (plug k s) = left_blacks s + blacks k) as H.
    { clear. induction k as [|[b x v r|b l x v] k IH]; intros s H; cbn [plug blacks lcells] in *; [lia| |].
      - rewrite IH by done. cbn [left_blacks]. destruct b; cbn; lia.
      - by destruct (lcells k), (cells l). }
    intros T -> Hk. rewrite H by done. cbn [left_blacks]. lia.
  Qed.
  (** the verdict on any well-linked, non-empty tree whose first and last elements are recorded *)
  Lemma rb_verify_exact t h T : Rep (mem h) (hdr t) (first_loc (hdr t) (cells T)) (last_loc (hdr t) (cells T)) T -> cnt t <> 0 -> T <> Lf ->
    exists b, c_tree_rb_verify t h = Ok b /\
      (b = true <-> colour T = BLACK /\ no_red_red T /\ child_sorted (kcomp t) (kov t) T /\ leaves_at (left_blacks T) T).
  Proof.
    intros HR Hc HT0. pose proof HR as (Hh&Hr&HN). unfold c_tree_rb_verify.
    rewrite (left_ok _ _ _ Hh), (right_ok _ _ _ Hh), (parent_ok _ _ _ Hh), (color_ok _ _ _ Hh). cbn [rbind nleft nright npar ncol].
    rewrite (proj2 (Nat.eqb_neq _ _) Hc). cbn [orb].
    assert (Hne : cells T <> []) by (destruct T; [done|apply cells_Nd_ne]).
    destruct (cells T) as [|[y u] es] eqn:Ec; [done|]. rewrite first_loc_cons in *.
    rewrite bool_decide_false.
    2:{ intros [= ->]. apply NoDup_cons in HN as [HN _]. apply HN. unfold locs. rewrite Ec. by left. }
    cbn [negb]. pose proof (R_black _ _ _ _ [] T HR) as Hb. change (col T) with (colour T) in Hb. rewrite Hb. cbn [rbind].
    destruct (colour T) eqn:Ecol; cbn [negb]; [|exists false; split; [done|]; split; [done|]; by intros (?&_)].
    assert (parent (mem h) (root T) = Ok (Some (hdr t))) as ->.
    { destruct T as [|c l x v r]; [done|]. cbn [root]. exact (R_parent _ _ _ _ [] c l x v r HR). }
    cbn [rbind]. rewrite bool_decide_false by auto.
    destruct (split_at T [] y u es Ec) as (k&c&l&r&HTk&Hlk&Hes); [by apply NoDup_cons in HN as [_ ?]|].
    symmetry in Hlk. apply app_eq_nil in Hlk as [Hlk Hll]. assert (l = Lf) as -> by (destruct l; [done|]; by apply cells_Nd_ne in Hll).
    assert (black_count (mem h) (Some y) (root T) = Ok (left_blacks T)) as ->.
    { rewrite (left_blacks_plug k c y u r T HTk Hlk). rewrite HTk. unfold black_count.
      rewrite (black_count_loop_ok (hdr t) (Some y) (last_loc (hdr t) ((y, u) :: es)) (mem h) k c Lf y u r 0); [done|by rewrite <- HTk|].
      pose proof HR as HR2. rewrite HTk in HR2. pose proof (Rep_fuel _ _ _ _ _ _ HR2). unfold tfuel. lia. }
    cbn [rbind].
    assert (Hsz : length (cells T) < size (mem h)) by (pose proof (Rep_size _ _ _ _ _ HR); lia).
    destruct (verify_exact t (mem h) (left_blacks T) _ _ T HR ((y, u) :: es) [] (tfuel (mem h))) as (b&E&Hbb); [done|rewrite <- Ec; unfold tfuel; lia|].
    rewrite first_loc_cons in E. rewrite E. cbn [rbind].
    assert (Hfu : length (cells T) <= tfuel (mem h)) by (unfold tfuel; lia).
    rewrite (minimum_ok (hdr t) T (mem h) (hdr t) Hr HT0 Hfu), (maximum_ok (hdr t) T (mem h) (hdr t) Hr HT0 Hfu). cbn [rbind].
    rewrite Ec, first_loc_cons. rewrite !bool_decide_true by done. exists b. split; [by destruct b|]. rewrite Hbb. rewrite <- Ec. split.
    - intros H. apply all_nodes_rr in H as (H1&H2&H3). split; [done|]. split; [done|]. split; [done|]. by apply H3.
    - intros (_&H1&H2&H3) k' c' l' x' w' r' HT' _. by eapply rr_all_nodes.
  Qed.
End verify.

(** ** erase_from when a value is [q] times as large as a key (maps) *)
Section stride.
  Context {K V : Type}.
  Implicit Types (h : theap V) (t : tobj K V) (ks : list K).
  (** every [q]-th of the elements *)
  Definition strided (q : nat) ks : list K := omap (fun i => ks !! (i * q)) (seq 0 (length ks / q)).
  Lemma stride_loop q ksize ks : 0 < q -> 0 < ksize -> forall d t h cs i fuel, is_rbtree (mem h) t cs -> length ks - i * q = d -> i * q <= length ks ->
    length ks - i * q < fuel ->
    (length ks mod q = 0 -> exists h' t' cs' gone, erase_from_loop fuel t h ks ksize (q * ksize) (i * q * ksize) = Ok (h', t') /\ tupd h t cs h' t' cs' gone /\
      cs'.*2 = fold_left (fun l a => without_key (kcomp t) (kov t) a l) (omap (fun i => ks !! (i * q)) (seq i (length ks / q - i))) cs.*2) /\
    (length ks mod q <> 0 -> erase_from_loop fuel t h ks ksize (q * ksize) (i * q * ksize) = UB).
  Proof.
    intros Hq Hks. induction d as [d IH] using lt_wf_ind. intros t h cs i fuel HB Hd Hi Hf. destruct fuel as [|fuel]; [lia|]. cbn [erase_from_loop].
    pose proof (Nat.div_mod (length ks) q ltac:(lia)) as Hdm. pose proof (Nat.mod_upper_bound (length ks) q ltac:(lia)) as Hmu.
    destruct (decide (i * q = length ks)) as [He|He].
    - rewrite He, Nat.eqb_refl. split.
      + intros _. exists h, t, cs, []. split; [done|]. split; [by apply tupd_refl|].
        assert (length ks / q = i) as -> by (rewrite <- He; apply Nat.div_mul; lia). by rewrite Nat.sub_diag.
      + intros Hm. exfalso. apply Hm. rewrite <- He. apply Nat.mod_mul. lia.
    - rewrite (proj2 (Nat.eqb_neq _ _)) by nia. rewrite Nat.div_mul, Nat.mod_mul by lia. cbn [Nat.eqb].
      destruct (lookup_lt_is_Some_2 ks (i * q)) as [a Ha]; [lia|]. rewrite Ha.
      destruct (erase_key_ok t h cs (KVal a) a HB eq_refl) as (h1&t1&c1&->&_&Hv1&HU1). cbn [rbind]. pose proof HU1 as (Ht1&HB1&_).
      replace (i * q * ksize + q * ksize) with (S i * q * ksize) by lia.
      destruct (decide (S i * q <= length ks)) as [Hs|Hs].
      + destruct (IH (length ks - S i * q) ltac:(lia) t1 h1 c1 (S i) fuel HB1 eq_refl Hs ltac:(lia)) as [I1 I2]. split.
        * intros Hm. destruct (I1 Hm) as (h2&t2&c2&g2&E&HU2&Hv2). eexists h2, t2, c2, _. split; [exact E|].
          split; [exact (tupd_trans _ _ _ _ _ _ _ _ _ _ _ HU1 HU2)|]. rewrite Hv2, Hv1, Ht1. cbn [kcomp kov sized].
          assert (S i <= length ks / q) by (apply Nat.div_le_lower_bound; lia).
          replace (length ks / q - i) with (S (length ks / q - S i)) by lia. cbn [seq omap list_omap]. rewrite Ha. done.
        * intros Hm. by apply I2.
      + split.
        * intros Hm. exfalso. assert (length ks = q * (length ks / q)) as E by lia. assert (i < length ks / q) by nia. nia.
        * intros Hm. destruct fuel as [|fuel]; [lia|]. cbn [erase_from_loop]. rewrite (proj2 (Nat.eqb_neq _ _)) by nia. rewrite Nat.div_mul by lia.
          rewrite lookup_ge_None_2 by lia. done.
  Qed.
  Lemma erase_from_stride q ksize ks t h cs : 0 < q -> 0 < ksize -> is_rbtree (mem h) t cs ->
    (length ks mod q = 0 -> exists h' t' cs' gone, c_tree_erase_from t h ks ksize (q * ksize) = Ok (h', t') /\ tupd h t cs h' t' cs' gone /\
      cs'.*2 = fold_left (fun l a => without_key (kcomp t) (kov t) a l) (strided q ks) cs.*2) /\
    (length ks mod q <> 0 -> c_tree_erase_from t h ks ksize (q * ksize) = UB).
  Proof.
    intros Hq Hk HB. unfold c_tree_erase_from, strided. pose proof (stride_loop q ksize ks Hq Hk (length ks) t h cs 0 (S (S (length ks * ksize))) HB) as H.
    cbn [Nat.mul] in H. rewrite Nat.sub_0_r in *. rewrite Nat.sub_0_r in H. apply H; [done|lia|nia].
  Qed.
End stride.
