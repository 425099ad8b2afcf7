(** TreeInsert.v — rebalancing after an insertion. *)
From Verif Require Import Base DList Tree SpecTree TreeRep.
From stdpp Require Import list gmap.

Section insert.
  Context {V : Type}.
  Notation M := (gmap loc (tnode V)).
  Notation ctx := (list (frame V)).
  Implicit Types (m : M) (t : tree V) (k : ctx).

  (** colour of the root; null is black *)
  Definition col t : bool := match t with Lf => BLACK | Nd c _ _ _ _ => c end.
  Lemma rbt_col c n t : rbt c n t -> col t = c.
  Proof. by destruct 1. Qed.
  (** [rbk c n k]: filling the hole of [k] with a red-black tree with root colour [c] and black height [n] gives a
      red-black tree with a black root *)
  Inductive rbk : bool -> nat -> ctx -> Prop :=
  | rbk_nil n : rbk BLACK n []
  | rbk_FLR n x v r k : rbt BLACK n r -> rbk RED n k -> rbk BLACK n (FL RED x v r :: k)
  | rbk_FRR n x v l k : rbt BLACK n l -> rbk RED n k -> rbk BLACK n (FR RED l x v :: k)
  | rbk_FLB n c c' x v r k : rbt c' n r -> rbk BLACK (S n) k -> rbk c n (FL BLACK x v r :: k)
  | rbk_FRB n c c' x v l k : rbt c' n l -> rbk BLACK (S n) k -> rbk c n (FR BLACK l x v :: k).
  Lemma rbk_plug c n k t : rbt c n t -> rbk c n k -> exists n', rbt BLACK n' (plug k t).
  Proof.
    intros Ht Hk. revert t Ht. induction Hk; intros t Ht; cbn [plug]; [by eexists|..]; apply IHHk; by econstructor.
  Qed.
  Lemma rbk_of c n k t : rbt c n (plug k t) -> c = BLACK -> exists c' n', rbt c' n' t /\ rbk c' n' k.
  Proof.
    revert t. induction k as [|[c0 x v r|c0 l x v] k IH]; intros t Ht ->; cbn [plug] in Ht.
    - eexists _, _. split; [done|]. constructor.
    - destruct (IH _ Ht eq_refl) as (c'&n'&H1&H2). inversion H1; subst; eexists _, _; (split; [done|]); by econstructor.
    - destruct (IH _ Ht eq_refl) as (c'&n'&H1&H2). inversion H1; subst; eexists _, _; (split; [done|]); by econstructor.
  Qed.
  Lemma rbk_weaken n k : rbk RED n k -> rbk BLACK n k.
  Proof. inversion 1; subst; by econstructor. Qed.

  (** ** reading around a position *)
  Lemma R_parent m hd lm rm k c l x v r : Rep m hd lm rm (plug k (Nd c l x v r)) -> parent m (Some x) = Ok (Some (cpar hd k)).
  Proof. intros H. by rewrite (parent_ok _ _ _ (Rep_node _ _ _ _ _ _ _ _ _ _ H)). Qed.
  Lemma R_left m hd lm rm k c l x v r : Rep m hd lm rm (plug k (Nd c l x v r)) -> left m (Some x) = Ok (root l).
  Proof. intros H. by rewrite (left_ok _ _ _ (Rep_node _ _ _ _ _ _ _ _ _ _ H)). Qed.
  Lemma R_right m hd lm rm k c l x v r : Rep m hd lm rm (plug k (Nd c l x v r)) -> right m (Some x) = Ok (root r).
  Proof. intros H. by rewrite (right_ok _ _ _ (Rep_node _ _ _ _ _ _ _ _ _ _ H)). Qed.
  Lemma R_color m hd lm rm k c l x v r : Rep m hd lm rm (plug k (Nd c l x v r)) -> color m (Some x) = Ok c.
  Proof. intros H. by rewrite (color_ok _ _ _ (Rep_node _ _ _ _ _ _ _ _ _ _ H)). Qed.
  Lemma R_val m hd lm rm k c l x v r : Rep m hd lm rm (plug k (Nd c l x v r)) -> valof m (Some x) = Ok v.
  Proof. intros H. by rewrite (valof_ok _ _ _ v (Rep_node _ _ _ _ _ _ _ _ _ _ H)). Qed.
  Lemma R_black m hd lm rm k t : Rep m hd lm rm (plug k t) -> is_black m (root t) = Ok (col t).
  Proof. intros H. destruct t; [done|]. cbn [root is_black col]. by rewrite (R_color _ _ _ _ _ _ _ _ _ _ H). Qed.
  Lemma R_red m hd lm rm k t : Rep m hd lm rm (plug k t) -> is_red m (root t) = Ok (negb (col t)).
  Proof. intros H. destruct t; [done|]. cbn [root is_red col]. by rewrite (R_color _ _ _ _ _ _ _ _ _ _ H). Qed.
  Lemma Rep_ND m hd lm rm k t : Rep m hd lm rm (plug k t) -> NoDup (hd :: locs t ++ clocs k).
  Proof. by intros (_&_&?)%Rep_plug. Qed.
  (** siblings differ *)
  Lemma R_ne m hd lm rm k c l x v r y : Rep m hd lm rm (plug k (Nd c l x v r)) -> root l = Some y -> root r <> Some y.
  Proof.
    intros H%Rep_ND Hl Hr. rewrite locs_N in H.
    assert (NoDup (concat [[hd]; locs l; [x]; locs r; clocs k])) as HS.
    { eapply NoDup_perm; [exact H|]. cbn. rewrite app_nil_r. solve_Permutation. }
    apply root_in in Hl, Hr. sp HS 1 3.
  Qed.
  (** a node differs from the root of the whole tree unless its context is empty *)
  Lemma R_notroot m hd lm rm f k c l x v r : Rep m hd lm rm (plug (f :: k) (Nd c l x v r)) ->
    root (plug (f :: k) (Nd c l x v r)) <> Some x.
  Proof.
    intros H%Rep_ND. rewrite locs_N in H. rewrite root_plug. apply crt_ne; [done|].
    assert (NoDup (concat [[hd]; locs l; [x]; locs r; clocs (f :: k)])) as HS.
    { eapply NoDup_perm; [exact H|]. cbn. rewrite app_nil_r. solve_Permutation. }
    intros ?. sp HS 2 4.
  Qed.

  Lemma R_is_left_L m hd lm rm k c l x v r cp p vp s : Rep m hd lm rm (plug (FL cp p vp s :: k) (Nd c l x v r)) ->
    is_left m (Some x) = Ok true /\ is_right m (Some x) = Ok false.
  Proof.
    intros H. unfold is_left, is_right. rewrite (R_parent _ _ _ _ _ _ _ _ _ _ H). cbn [rbind cpar].
    pose proof (H : Rep m hd lm rm (plug k (Nd cp (Nd c l x v r) p vp s))) as Hp.
    rewrite (R_left _ _ _ _ _ _ _ _ _ _ Hp), (R_right _ _ _ _ _ _ _ _ _ _ Hp). cbn [rbind root].
    rewrite bool_decide_true by done. split; [done|]. rewrite bool_decide_false; [done|].
    intros E. exact (R_ne _ _ _ _ _ _ _ _ _ _ x Hp ltac:(first [done|exact E]) ltac:(first [done|exact E])).
  Qed.

  Lemma R_is_right_R m hd lm rm k c l x v r cp p vp s : Rep m hd lm rm (plug (FR cp s p vp :: k) (Nd c r x v l)) ->
    is_right m (Some x) = Ok true /\ is_left m (Some x) = Ok false.
  Proof.
    intros H. unfold is_right, is_left. rewrite (R_parent _ _ _ _ _ _ _ _ _ _ H). cbn [rbind cpar].
    pose proof (H : Rep m hd lm rm (plug k (Nd cp s p vp (Nd c r x v l)))) as Hp.
    rewrite (R_right _ _ _ _ _ _ _ _ _ _ Hp), (R_left _ _ _ _ _ _ _ _ _ _ Hp). cbn [rbind root].
    rewrite bool_decide_true by done. split; [done|]. rewrite bool_decide_false; [done|].
    intros E. exact (R_ne _ _ _ _ _ _ _ _ _ _ x Hp ltac:(first [done|exact E]) ltac:(first [done|exact E])).
  Qed.

  (** frames regardless of the side *)
  Definition floc (f : frame V) : loc := match f with FL _ x _ _ => x | FR _ _ x _ => x end.
  Definition fval (f : frame V) : V := match f with FL _ _ v _ => v | FR _ _ _ v => v end.
  Definition fsib (f : frame V) : tree V := match f with FL _ _ _ t => t | FR _ t _ _ => t end.
  Definition fcolor (f : frame V) : bool := match f with FL c _ _ _ => c | FR c _ _ _ => c end.
  Definition fcol (c : bool) (f : frame V) : frame V := match f with FL _ x v t => FL c x v t | FR _ t x v => FR c t x v end.
  Definition fsub (t : tree V) (f : frame V) : frame V := match f with FL c x v _ => FL c x v t | FR c _ x v => FR c t x v end.
  Lemma cells_fcol c f k t : cells (plug (fcol c f :: k) t) = cells (plug (f :: k) t).
  Proof. destruct f; cbn [fcol plug]; rewrite !cells_plug; done. Qed.
  Lemma R_floc m hd lm rm f k c l x v r : Rep m hd lm rm (plug (f :: k) (Nd c l x v r)) -> parent m (Some x) = Ok (Some (floc f)).
  Proof. intros H. rewrite (R_parent _ _ _ _ _ _ _ _ _ _ H). by destruct f. Qed.
  Lemma R_fcolor m hd lm rm f k t : Rep m hd lm rm (plug (f :: k) t) -> is_red m (Some (floc f)) = Ok (negb (fcolor f)).
  Proof.
    intros H. destruct f as [c x v s|c s x v].
    - exact (R_red _ _ _ _ _ (Nd c t x v s) H).
    - exact (R_red _ _ _ _ _ (Nd c s x v t) H).
  Qed.
  Lemma R_grand m hd lm rm f1 f2 k c l x v r : Rep m hd lm rm (plug (f1 :: f2 :: k) (Nd c l x v r)) ->
    grand_parent m (Some x) = Ok (Some (floc f2)).
  Proof.
    intros H. unfold grand_parent. rewrite (R_floc _ _ _ _ _ _ _ _ _ _ _ H). cbn [rbind].
    destruct f1 as [c1 x1 v1 s1|c1 s1 x1 v1]; exact (R_floc _ _ _ _ f2 k c1 _ _ _ _ H).
  Qed.
  Definition is_FL (f : frame V) : bool := match f with FL _ _ _ _ => true | FR _ _ _ _ => false end.
  Lemma R_side m hd lm rm f k c l x v r : Rep m hd lm rm (plug (f :: k) (Nd c l x v r)) ->
    is_left m (Some x) = Ok (is_FL f) /\ is_right m (Some x) = Ok (negb (is_FL f)).
  Proof.
    intros H. destruct f as [c1 x1 v1 s1|c1 s1 x1 v1].
    - exact (R_is_left_L _ _ _ _ _ _ _ _ _ _ _ _ _ _ H).
    - destruct (R_is_right_R _ _ _ _ _ _ _ _ _ _ _ _ _ _ H). by split.
  Qed.
  Lemma R_pside m hd lm rm f1 f2 k t : Rep m hd lm rm (plug (f1 :: f2 :: k) t) -> is_left m (Some (floc f1)) = Ok (is_FL f2).
  Proof.
    intros H. destruct f1 as [c1 x1 v1 s1|c1 s1 x1 v1].
    - exact (proj1 (R_side _ _ _ _ _ _ _ _ _ _ _ (H : Rep m hd lm rm (plug (f2 :: k) (Nd c1 t x1 v1 s1))))).
    - exact (proj1 (R_side _ _ _ _ _ _ _ _ _ _ _ (H : Rep m hd lm rm (plug (f2 :: k) (Nd c1 s1 x1 v1 t))))).
  Qed.
  Lemma R_uncle m hd lm rm f1 f2 k c l x v r : Rep m hd lm rm (plug (f1 :: f2 :: k) (Nd c l x v r)) ->
    uncle m (Some x) = Ok (root (fsib f2)).
  Proof.
    intros H. unfold uncle. rewrite (R_floc _ _ _ _ _ _ _ _ _ _ _ H). cbn [rbind]. rewrite (R_pside _ _ _ _ _ _ _ _ H). cbn [rbind].
    rewrite (R_grand _ _ _ _ _ _ _ _ _ _ _ _ H). cbn [rbind]. destruct f1 as [c1 x1 v1 s1|c1 s1 x1 v1], f2 as [c2 x2 v2 s2|c2 s2 x2 v2]; cbn [is_FL plug floc fsib] in *;
      first [exact (R_right _ _ _ _ _ _ _ _ _ _ H)|exact (R_left _ _ _ _ _ _ _ _ _ _ H)].
  Qed.
  Lemma recolor_frame m hd lm rm f k t c : Rep m hd lm rm (plug (f :: k) t) ->
    exists m', set_color m (Some (floc f)) c = Ok m' /\ Upd m m' hd lm rm (plug (f :: k) t) (plug (fcol c f :: k) t).
  Proof. intros H. destruct f; cbn [floc fcol plug] in *; exact (recolor_ok _ _ _ _ _ _ _ _ _ _ _ H). Qed.
  Lemma recolor_sib m hd lm rm f k t c c0 l x v r : Rep m hd lm rm (plug (f :: k) t) -> fsib f = Nd c0 l x v r ->
    exists m', set_color m (Some x) c = Ok m' /\ Upd m m' hd lm rm (plug (f :: k) t) (plug (fsub (Nd c l x v r) f :: k) t).
  Proof.
    intros H E. destruct f as [c1 x1 v1 s1|c1 s1 x1 v1]; cbn [fsib] in E; subst; cbn [fsub plug] in *.
    - exact (recolor_ok _ _ _ _ (FR c1 t x1 v1 :: k) _ _ _ _ _ _ H).
    - exact (recolor_ok _ _ _ _ (FL c1 x1 v1 t :: k) _ _ _ _ _ _ H).
  Qed.
  Lemma recolor_gframe m hd lm rm f1 f k t c : Rep m hd lm rm (plug (f1 :: f :: k) t) ->
    exists m', set_color m (Some (floc f)) c = Ok m' /\ Upd m m' hd lm rm (plug (f1 :: f :: k) t) (plug (f1 :: fcol c f :: k) t).
  Proof. intros H. destruct f1; cbn [plug] in H |- *; exact (recolor_frame _ _ _ _ _ _ _ _ H). Qed.
  Lemma recolor_gsib m hd lm rm f1 f k t c c0 l x v r : Rep m hd lm rm (plug (f1 :: f :: k) t) -> fsib f = Nd c0 l x v r ->
    exists m', set_color m (Some x) c = Ok m' /\ Upd m m' hd lm rm (plug (f1 :: f :: k) t) (plug (f1 :: fsub (Nd c l x v r) f :: k) t).
  Proof. intros H E. destruct f1; cbn [plug] in H |- *; exact (recolor_sib _ _ _ _ _ _ _ _ _ _ _ _ _ H E). Qed.

  (** one iteration of the loop, the uncle being red *)
  Lemma insert_red_uncle m hd lm rm f1 f2 k l x v r ul z vu ur f :
    Rep m hd lm rm (plug (f1 :: f2 :: k) (Nd RED l x v r)) -> fcolor f1 = RED -> fsib f2 = Nd RED ul z vu ur ->
    exists m', insert_loop (S f) m hd (Some x) = insert_loop f m' hd (Some (floc f2)) /\
      Upd m m' hd lm rm (plug (f1 :: f2 :: k) (Nd RED l x v r))
        (plug (fcol BLACK f1 :: fcol RED (fsub (Nd BLACK ul z vu ur) f2) :: k) (Nd RED l x v r)).
  Proof.
    intros HR Hc Hs. cbn [insert_loop]. rewrite (Rep_root _ _ _ _ _ HR). cbn [rbind].
    rewrite decide_False by (exact (R_notroot _ _ _ _ _ _ _ _ _ _ _ HR)).
    rewrite (R_floc _ _ _ _ _ _ _ _ _ _ _ HR). cbn [rbind]. rewrite (R_fcolor _ _ _ _ _ _ _ HR), Hc. cbn [rbind negb].
    rewrite (R_pside _ _ _ _ _ _ _ _ HR). cbn [rbind]. rewrite (R_uncle _ _ _ _ _ _ _ _ _ _ _ _ HR), Hs. cbn [rbind root].
    assert (is_red m (Some z) = Ok true) as Ez.
    { destruct f1 as [c1 x1 v1 s1|c1 s1 x1 v1], f2 as [c2 x2 v2 s2|c2 s2 x2 v2]; cbn [fsib plug] in *; subst s2;
        first [exact (R_red _ _ _ _ (FR _ _ _ _ :: k) (Nd RED ul z vu ur) HR)|exact (R_red _ _ _ _ (FL _ _ _ _ :: k) (Nd RED ul z vu ur) HR)]. }
    destruct (recolor_frame _ _ _ _ _ _ _ BLACK HR) as (m1&E1&HU1). pose proof (proj1 HU1) as HR1.
    destruct (recolor_gsib _ _ _ _ _ _ _ _ BLACK _ _ _ _ _ HR1 Hs) as (m2&E2&HU2). pose proof (proj1 HU2) as HR2.
    destruct (recolor_gframe _ _ _ _ _ _ _ _ RED HR2) as (m3&E3&HU3). pose proof (proj1 HU3) as HR3.
    assert (floc (fsub (Nd BLACK ul z vu ur) f2) = floc f2) as Hfl by (by destruct f2). rewrite Hfl in E3.
    pose proof (R_uncle _ _ _ _ _ _ _ _ _ _ _ _ HR1) as E4. rewrite Hs in E4. cbn [root] in E4.
    pose proof (R_grand _ _ _ _ _ _ _ _ _ _ _ _ HR2) as E5. rewrite Hfl in E5.
    pose proof (R_grand _ _ _ _ _ _ _ _ _ _ _ _ HR3) as E6.
    assert (floc (fcol RED (fsub (Nd BLACK ul z vu ur) f2)) = floc f2) as Hfl2 by (by destruct f2). rewrite Hfl2 in E6.
    exists m3. split; [|eapply Upd_trans; [exact HU1|eapply Upd_trans; [exact HU2|exact HU3]]].
    rewrite Ez. cbn [rbind]. destruct (is_FL f2); (rewrite E1; cbn [rbind]; rewrite E4; cbn [rbind]; rewrite E2; cbn [rbind];
      rewrite E5; cbn [rbind]; rewrite E3; cbn [rbind]; rewrite E6; reflexivity).
  Qed.
  (** the loop stops when the parent is black *)
  Lemma insert_stop m hd lm rm f k c l x v r fu : Rep m hd lm rm (plug (f :: k) (Nd c l x v r)) -> fcolor f = BLACK ->
    insert_loop (S fu) m hd (Some x) = Ok m.
  Proof.
    intros HR Hc. cbn [insert_loop]. rewrite (Rep_root _ _ _ _ _ HR). cbn [rbind]. rewrite decide_False by (exact (R_notroot _ _ _ _ _ _ _ _ _ _ _ HR)).
    rewrite (R_floc _ _ _ _ _ _ _ _ _ _ _ HR). cbn [rbind]. by rewrite (R_fcolor _ _ _ _ _ _ _ HR), Hc.
  Qed.

  (** the last rotation and the end of the loop *)
  Lemma insert_finish_left m hd lm rm k a x vx b y vy c g vg u f :
    Rep m hd lm rm (plug (FL RED y vy c :: FL BLACK g vg u :: k) (Nd RED a x vx b)) ->
    exists m', (do p <- parent m (Some x); do m <- set_color m p BLACK;
                do g <- grand_parent m (Some x); do m <- set_color m g RED;
                do g <- grand_parent m (Some x); do r <- root_of m hd; do m <- rotate_right m g r;
                insert_loop (S f) m hd (Some x)) = Ok m' /\
      Upd m m' hd lm rm (plug (FL RED y vy c :: FL BLACK g vg u :: k) (Nd RED a x vx b))
        (plug k (Nd BLACK (Nd RED a x vx b) y vy (Nd RED c g vg u))).
  Proof.
    intros HR. rewrite (R_floc _ _ _ _ _ _ _ _ _ _ _ HR). cbn [rbind].
    destruct (recolor_frame _ _ _ _ _ _ _ BLACK HR) as (m1&E1&HU1). pose proof (proj1 HU1) as HR1. rewrite E1. cbn [rbind].
    rewrite (R_grand _ _ _ _ _ _ _ _ _ _ _ _ HR1). cbn [rbind].
    destruct (recolor_gframe _ _ _ _ _ _ _ _ RED HR1) as (m2&E2&HU2). pose proof (proj1 HU2) as HR2. rewrite E2. cbn [rbind].
    rewrite (R_grand _ _ _ _ _ _ _ _ _ _ _ _ HR2). cbn [rbind]. rewrite (Rep_root _ _ _ _ _ HR2). cbn [rbind fcol floc].
    destruct (rotate_right_ok _ _ _ _ k _ _ _ _ _ _ _ _ _ HR2) as (m3&E3&HU3). pose proof (proj1 HU3) as HR3.
    cbn [fcol plug] in E3 |- *. rewrite E3. cbn [rbind].
    exists m3. split; [|eapply Upd_trans; [exact HU1|eapply Upd_trans; [exact HU2|exact HU3]]].
    exact (insert_stop _ _ _ _ (FL BLACK y vy (Nd RED c g vg u)) k _ _ _ _ _ f HR3 eq_refl).
  Qed.
  (** one iteration of the loop, the uncle being black and the parent a left child *)
  Lemma insert_outer_left m hd lm rm k l x v r p vp s g vg u f :
    Rep m hd lm rm (plug (FL RED p vp s :: FL BLACK g vg u :: k) (Nd RED l x v r)) -> col u = BLACK ->
    exists m', insert_loop (S (S f)) m hd (Some x) = Ok m' /\
      Upd m m' hd lm rm (plug (FL RED p vp s :: FL BLACK g vg u :: k) (Nd RED l x v r))
        (plug k (Nd BLACK (Nd RED l x v r) p vp (Nd RED s g vg u))).
  Proof.
    intros HR Hu. remember (S f) as f' eqn:Hf'. cbn [insert_loop]. rewrite (Rep_root _ _ _ _ _ HR). cbn [rbind].
    rewrite decide_False by (exact (R_notroot _ _ _ _ _ _ _ _ _ _ _ HR)).
    rewrite (R_floc _ _ _ _ _ _ _ _ _ _ _ HR). cbn [rbind]. rewrite (R_fcolor _ _ _ _ _ _ _ HR). cbn [rbind negb fcolor].
    rewrite (R_pside _ _ _ _ _ _ _ _ HR). cbn [rbind is_FL]. rewrite (R_uncle _ _ _ _ _ _ _ _ _ _ _ _ HR). cbn [rbind fsib].
    rewrite (R_red _ _ _ _ (FR BLACK (Nd RED (Nd RED l x v r) p vp s) g vg :: k) u HR), Hu. cbn [rbind negb].
    destruct (R_side _ _ _ _ _ _ _ _ _ _ _ HR) as [Eil Eir]. cbn [is_FL negb] in Eil, Eir. rewrite ?Eil, ?Eir. cbn [rbind].
    subst f'. exact (insert_finish_left _ _ _ _ _ _ _ _ _ _ _ _ _ _ _ f HR).
  Qed.
  Lemma insert_inner_left m hd lm rm k l x v r p vp s g vg u f :
    Rep m hd lm rm (plug (FR RED s p vp :: FL BLACK g vg u :: k) (Nd RED l x v r)) -> col u = BLACK ->
    exists m', insert_loop (S (S f)) m hd (Some x) = Ok m' /\
      Upd m m' hd lm rm (plug (FR RED s p vp :: FL BLACK g vg u :: k) (Nd RED l x v r))
        (plug k (Nd BLACK (Nd RED s p vp l) x v (Nd RED r g vg u))).
  Proof.
    intros HR Hu. remember (S f) as f' eqn:Hf'. cbn [insert_loop]. rewrite (Rep_root _ _ _ _ _ HR). cbn [rbind].
    rewrite decide_False by (exact (R_notroot _ _ _ _ _ _ _ _ _ _ _ HR)).
    rewrite (R_floc _ _ _ _ _ _ _ _ _ _ _ HR). cbn [rbind]. rewrite (R_fcolor _ _ _ _ _ _ _ HR). cbn [rbind negb fcolor].
    rewrite (R_pside _ _ _ _ _ _ _ _ HR). cbn [rbind is_FL]. rewrite (R_uncle _ _ _ _ _ _ _ _ _ _ _ _ HR). cbn [rbind fsib].
    rewrite (R_red _ _ _ _ (FR BLACK (Nd RED s p vp (Nd RED l x v r)) g vg :: k) u HR), Hu. cbn [rbind negb].
    destruct (R_side _ _ _ _ _ _ _ _ _ _ _ HR) as [Eil Eir]. cbn [is_FL negb] in Eil, Eir. rewrite ?Eil, ?Eir. cbn [rbind].
    destruct (rotate_left_ok _ _ _ _ (FL BLACK g vg u :: k) _ _ _ _ _ _ _ _ _ HR) as (m1&E1&HU1). pose proof (proj1 HU1) as HR1.
    cbn [floc plug] in E1 |- *. rewrite E1. cbn [rbind].
    subst f'. destruct (insert_finish_left _ _ _ _ k _ _ _ _ _ _ _ _ _ _ f (HR1 : Rep m1 hd lm rm
      (plug (FL RED x v r :: FL BLACK g vg u :: k) (Nd RED s p vp l)))) as (m2&E2&HU2).
    exists m2. split; [exact E2|]. eapply Upd_trans; [exact HU1|exact HU2].
  Qed.

  (** the last rotation and the end of the loop *)
  Lemma insert_finish_right m hd lm rm k a x vx b y vy c g vg u f :
    Rep m hd lm rm (plug (FR RED c y vy :: FR BLACK u g vg :: k) (Nd RED b x vx a)) ->
    exists m', (do p <- parent m (Some x); do m <- set_color m p BLACK;
                do g <- grand_parent m (Some x); do m <- set_color m g RED;
                do g <- grand_parent m (Some x); do r <- root_of m hd; do m <- rotate_left m g r;
                insert_loop (S f) m hd (Some x)) = Ok m' /\
      Upd m m' hd lm rm (plug (FR RED c y vy :: FR BLACK u g vg :: k) (Nd RED b x vx a))
        (plug k (Nd BLACK (Nd RED u g vg c) y vy (Nd RED b x vx a))).
  Proof.
    intros HR. rewrite (R_floc _ _ _ _ _ _ _ _ _ _ _ HR). cbn [rbind].
    destruct (recolor_frame _ _ _ _ _ _ _ BLACK HR) as (m1&E1&HU1). pose proof (proj1 HU1) as HR1. rewrite E1. cbn [rbind].
    rewrite (R_grand _ _ _ _ _ _ _ _ _ _ _ _ HR1). cbn [rbind].
    destruct (recolor_gframe _ _ _ _ _ _ _ _ RED HR1) as (m2&E2&HU2). pose proof (proj1 HU2) as HR2. rewrite E2. cbn [rbind].
    rewrite (R_grand _ _ _ _ _ _ _ _ _ _ _ _ HR2). cbn [rbind]. rewrite (Rep_root _ _ _ _ _ HR2). cbn [rbind fcol floc].
    destruct (rotate_left_ok _ _ _ _ k _ _ _ _ _ _ _ _ _ HR2) as (m3&E3&HU3). pose proof (proj1 HU3) as HR3.
    cbn [fcol plug] in E3 |- *. rewrite E3. cbn [rbind].
    exists m3. split; [|eapply Upd_trans; [exact HU1|eapply Upd_trans; [exact HU2|exact HU3]]].
    exact (insert_stop _ _ _ _ (FR BLACK (Nd RED u g vg c) y vy) k _ _ _ _ _ f HR3 eq_refl).
  Qed.
  (** one iteration of the loop, the uncle being black and the parent a right child *)
  Lemma insert_outer_right m hd lm rm k l x v r p vp s g vg u f :
    Rep m hd lm rm (plug (FR RED s p vp :: FR BLACK u g vg :: k) (Nd RED r x v l)) -> col u = BLACK ->
    exists m', insert_loop (S (S f)) m hd (Some x) = Ok m' /\
      Upd m m' hd lm rm (plug (FR RED s p vp :: FR BLACK u g vg :: k) (Nd RED r x v l))
        (plug k (Nd BLACK (Nd RED u g vg s) p vp (Nd RED r x v l))).
  Proof.
    intros HR Hu. remember (S f) as f' eqn:Hf'. cbn [insert_loop]. rewrite (Rep_root _ _ _ _ _ HR). cbn [rbind].
    rewrite decide_False by (exact (R_notroot _ _ _ _ _ _ _ _ _ _ _ HR)).
    rewrite (R_floc _ _ _ _ _ _ _ _ _ _ _ HR). cbn [rbind]. rewrite (R_fcolor _ _ _ _ _ _ _ HR). cbn [rbind negb fcolor].
    rewrite (R_pside _ _ _ _ _ _ _ _ HR). cbn [rbind is_FL]. rewrite (R_uncle _ _ _ _ _ _ _ _ _ _ _ _ HR). cbn [rbind fsib].
    rewrite (R_red _ _ _ _ (FL BLACK g vg (Nd RED s p vp (Nd RED r x v l)) :: k) u HR), Hu. cbn [rbind negb].
    destruct (R_side _ _ _ _ _ _ _ _ _ _ _ HR) as [Eil Eir]. cbn [is_FL negb] in Eil, Eir. rewrite ?Eil, ?Eir. cbn [rbind].
    subst f'. exact (insert_finish_right _ _ _ _ _ _ _ _ _ _ _ _ _ _ _ f HR).
  Qed.
  Lemma insert_inner_right m hd lm rm k l x v r p vp s g vg u f :
    Rep m hd lm rm (plug (FL RED p vp s :: FR BLACK u g vg :: k) (Nd RED r x v l)) -> col u = BLACK ->
    exists m', insert_loop (S (S f)) m hd (Some x) = Ok m' /\
      Upd m m' hd lm rm (plug (FL RED p vp s :: FR BLACK u g vg :: k) (Nd RED r x v l))
        (plug k (Nd BLACK (Nd RED u g vg r) x v (Nd RED l p vp s))).
  Proof.
    intros HR Hu. remember (S f) as f' eqn:Hf'. cbn [insert_loop]. rewrite (Rep_root _ _ _ _ _ HR). cbn [rbind].
    rewrite decide_False by (exact (R_notroot _ _ _ _ _ _ _ _ _ _ _ HR)).
    rewrite (R_floc _ _ _ _ _ _ _ _ _ _ _ HR). cbn [rbind]. rewrite (R_fcolor _ _ _ _ _ _ _ HR). cbn [rbind negb fcolor].
    rewrite (R_pside _ _ _ _ _ _ _ _ HR). cbn [rbind is_FL]. rewrite (R_uncle _ _ _ _ _ _ _ _ _ _ _ _ HR). cbn [rbind fsib].
    rewrite (R_red _ _ _ _ (FL BLACK g vg (Nd RED (Nd RED r x v l) p vp s) :: k) u HR), Hu. cbn [rbind negb].
    destruct (R_side _ _ _ _ _ _ _ _ _ _ _ HR) as [Eil Eir]. cbn [is_FL negb] in Eil, Eir. rewrite ?Eil, ?Eir. cbn [rbind].
    destruct (rotate_right_ok _ _ _ _ (FR BLACK u g vg :: k) _ _ _ _ _ _ _ _ _ HR) as (m1&E1&HU1). pose proof (proj1 HU1) as HR1.
    cbn [floc plug] in E1 |- *. rewrite E1. cbn [rbind].
    subst f'. destruct (insert_finish_right _ _ _ _ k _ _ _ _ _ _ _ _ _ _ f (HR1 : Rep m1 hd lm rm
      (plug (FR RED r x v :: FR BLACK u g vg :: k) (Nd RED l p vp s)))) as (m2&E2&HU2).
    exists m2. split; [exact E2|]. eapply Upd_trans; [exact HU1|exact HU2].
  Qed.

  Definition blacken t : tree V := match t with Lf => Lf | Nd _ l x v r => Nd BLACK l x v r end.
  (** the whole loop: the node [x] is red, everything else is as in a red-black tree *)
  Lemma insert_loop_ok k : forall m hd lm rm l x v r n fuel,
    Rep m hd lm rm (plug k (Nd RED l x v r)) -> rbt BLACK n l -> rbt BLACK n r -> rbk BLACK n k -> length k < fuel ->
    exists m' T', insert_loop fuel m hd (Some x) = Ok m' /\ Upd m m' hd lm rm (plug k (Nd RED l x v r)) T' /\
      cells T' = cells (plug k (Nd RED l x v r)) /\ exists n', rbt BLACK n' (blacken T').
  Proof.
    induction k as [k IH] using (induction_ltof1 _ length). unfold ltof in IH.
    intros m hd lm rm l x v r n fuel HR Hl Hr Hk Hf. destruct fuel as [|fuel]; [lia|]. destruct k as [|f1 k].
    { exists m, (Nd RED l x v r). split; [|split; [by apply Upd_refl|]].
      - cbn [insert_loop]. rewrite (Rep_root _ _ _ _ _ HR). cbn [rbind plug root]. by rewrite decide_True.
      - split; [done|]. eexists. cbn [blacken]. by econstructor. }
    destruct (fcolor f1) eqn:Hc1.
    { exists m, (plug (f1 :: k) (Nd RED l x v r)). split; [by eapply insert_stop|]. split; [by apply Upd_refl|]. split; [done|].
      assert (exists n', rbt BLACK n' (plug (f1 :: k) (Nd RED l x v r))) as [n' Hn'].
      { eapply (rbk_plug RED n); [by constructor|]. inversion Hk; subst; try done; by econstructor. }
      exists n'. destruct (plug (f1 :: k) (Nd RED l x v r)) eqn:E; [done|]. by inversion Hn'; subst. }
    destruct k as [|f2 k]. { inversion Hk; subst; try done; match goal with H : rbk RED _ [] |- _ => inversion H end. }
    assert (exists cu, fcolor f2 = BLACK /\ rbk BLACK (S n) k /\ rbt cu n (fsib f2) /\ rbt BLACK n (fsib f1)) as (cu&Hc2&Hk2&Hu&Hs).
    { inversion Hk as [|?????? Hk'|?????? Hk'| |]; subst; try done; inversion Hk'; subst; by eexists. }
    destruct cu.
    2:{ inversion Hu as [|n' ul z vu ur Hul Hur E0 E1 E2|]; subst.
      destruct (insert_red_uncle _ _ _ _ _ _ _ _ _ _ _ ul z vu ur fuel HR Hc1 (eq_sym E2)) as (m1&E3&HU1).
      assert (exists l' r', plug (fcol BLACK f1 :: fcol RED (fsub (Nd BLACK ul z vu ur) f2) :: k) (Nd RED l x v r) =
        plug k (Nd RED l' (floc f2) (fval f2) r') /\ rbt BLACK (S n) l' /\ rbt BLACK (S n) r') as (l'&r'&E4&Hl'&Hr').
      { destruct f1 as [c1 x1 v1 s1|c1 s1 x1 v1], f2 as [c2 x2 v2 s2|c2 s2 x2 v2]; cbn [fcol fsub plug floc fval fsib] in *;
          (eexists _, _; split; [reflexivity|]; split; repeat (econstructor; try done)). }
      rewrite E4 in HU1. destruct (IH k ltac:(cbn; lia) _ _ _ _ _ _ _ _ (S n) fuel (proj1 HU1) Hl' Hr' Hk2 ltac:(cbn in Hf; lia)) as (m2&T'&E5&HU2&Hce&Hrb).
      exists m2, T'. split; [by rewrite E3|]. split; [by eapply Upd_trans|]. split; [|done].
      rewrite Hce, <- E4. rewrite cells_fcol. destruct f1 as [c1 x1 v1 s1|c1 s1 x1 v1], f2 as [c2 x2 v2 s2|c2 s2 x2 v2]; cbn [fcol fsub plug fsib] in *; subst;
        rewrite !cells_plug; done. }
    pose proof (rbt_col _ _ _ Hu) as Hcu. destruct fuel as [|fuel]; [cbn in Hf; lia|].
    assert (forall t', rbt BLACK (S n) t' -> exists n', rbt BLACK n' (blacken (plug k t'))) as Hfin.
    { intros t' Ht'. destruct (rbk_plug _ _ _ _ Ht' Hk2) as [n' Hn']. exists n'. by inversion Hn'; subst; [constructor|by econstructor]. }
    destruct f1 as [c1 p vp s|c1 s p vp], f2 as [c2 g vg u|c2 u g vg]; cbn [fcolor fsib] in *; subst.
    - destruct (insert_outer_left _ _ _ _ _ _ _ _ _ _ _ _ _ _ _ fuel HR Hcu) as (m'&E&HU). eexists m', _.
      split; [exact E|]. split; [exact HU|]. split; [|apply Hfin; repeat (econstructor; try done)]. cbn [plug]. rewrite !cells_plug. cbn [cells]. by applist.
    - destruct (insert_inner_right _ _ _ _ _ _ _ _ _ _ _ _ _ _ _ fuel HR Hcu) as (m'&E&HU). eexists m', _.
      split; [exact E|]. split; [exact HU|]. split; [|apply Hfin; repeat (econstructor; try done)]. cbn [plug]. rewrite !cells_plug. cbn [cells]. by applist.
    - destruct (insert_inner_left _ _ _ _ _ _ _ _ _ _ _ _ _ _ _ fuel HR Hcu) as (m'&E&HU). eexists m', _.
      split; [exact E|]. split; [exact HU|]. split; [|apply Hfin; repeat (econstructor; try done)]. cbn [plug]. rewrite !cells_plug. cbn [cells]. by applist.
    - destruct (insert_outer_right _ _ _ _ _ _ _ _ _ _ _ _ _ _ _ fuel HR Hcu) as (m'&E&HU). eexists m', _.
      split; [exact E|]. split; [exact HU|]. split; [|apply Hfin; repeat (econstructor; try done)]. cbn [plug]. rewrite !cells_plug. cbn [cells]. by applist.
  Qed.

  (** the nodes of a tree are distinct allocated locations, so there is enough fuel *)
  Lemma rep_dom m p t z : rep m p t -> z ∈ locs t -> is_Some (m !! z).
  Proof.
    revert p. induction t as [|c l IHl x v r IHr]; intros p; [by intros _ ?%elem_of_nil|]. rewrite locs_N. intros (Hx&Hl&Hr).
    intros [Hz|[->|Hz]%elem_of_cons]%elem_of_app; [by eapply IHl|by eexists|by eapply IHr].
  Qed.
  Lemma Rep_size m hd lm rm T : Rep m hd lm rm T -> length (cells T) < size m.
  Proof.
    intros (Hh&HR&HN). assert (length (hd :: locs T) <= size m) as H.
    { rewrite <- (size_dom (D := gset loc)). rewrite <- (size_list_to_set (C := gset loc)) by done. apply subseteq_size.
      intros z. rewrite elem_of_list_to_set, elem_of_dom. intros [->|Hz]%elem_of_cons; [by eexists|]. by eapply rep_dom. }
    cbn in H. unfold locs in H. rewrite fmap_length in H. lia.
  Qed.
  Lemma length_ctx k t : length k <= length (cells (plug k t)).
  Proof.
    rewrite cells_plug, !app_length. induction k as [|[c x v r|c l x v] k IH]; cbn [lcells rcells length]; [lia| |]; rewrite ?app_length; cbn [length]; rewrite ?app_length; lia.
  Qed.
  Lemma rebalance_insert_ok m hd lm rm k l x v r n :
    Rep m hd lm rm (plug k (Nd RED l x v r)) -> rbt BLACK n l -> rbt BLACK n r -> rbk BLACK n k ->
    exists m' T', rebalance_insert m hd (Some x) = Ok m' /\ Upd m m' hd lm rm (plug k (Nd RED l x v r)) T' /\
      cells T' = cells (plug k (Nd RED l x v r)) /\ exists n', rbt BLACK n' T'.
  Proof.
    intros HR Hl Hr Hk. pose proof (Rep_size _ _ _ _ _ HR) as Hsz. pose proof (length_ctx k (Nd RED l x v r)) as Hlk.
    destruct (insert_loop_ok k m hd lm rm l x v r n (tfuel m) HR Hl Hr Hk) as (m1&T1&E1&HU1&Hc1&n'&Hn'); [unfold tfuel; lia|].
    unfold rebalance_insert. rewrite E1. cbn [rbind]. rewrite (Rep_root _ _ _ _ _ (proj1 HU1)). cbn [rbind].
    destruct T1 as [|c1 l1 x1 v1 r1].
    { rewrite cells_plug in Hc1. cbn [cells] in Hc1. destruct (lcells k); [|done]. cbn in Hc1. by destruct (cells l). }
    destruct (recolor_ok _ _ _ _ [] _ BLACK _ _ _ _ (proj1 HU1)) as (m2&E2&HU2). cbn [root]. exists m2, (Nd BLACK l1 x1 v1 r1).
    split; [done|]. split; [by eapply Upd_trans|]. split; [by rewrite <- Hc1|]. by exists n'.
  Qed.
End insert.
