(** TreeRep.v — positions in a tree (contexts), framing, field accesses and rotations. *)
From Verif Require Import Base DList Tree SpecTree.
From stdpp Require Import list gmap.

Lemma NoDup_perm {A} (l l' : list A) : NoDup l -> l ≡ₚ l' -> NoDup l'.
Proof. intros H E. by rewrite <- E. Qed.
(** break [NoDup] and [∉] hypotheses about conses and appends into atomic facts *)
Ltac nd := repeat match goal with
  | H : NoDup (_ :: _) |- _ => apply NoDup_cons in H as [? ?]
  | H : _ ∉ _ :: _ |- _ => apply not_elem_of_cons in H as [? ?]
  | H : _ ∉ _ ++ _ |- _ => apply not_elem_of_app in H as [? ?]
  | H : ~ _ ∈ _ :: _ |- _ => apply not_elem_of_cons in H as [? ?]
  | H : ~ _ ∈ _ ++ _ |- _ => apply not_elem_of_app in H as [? ?]
  end.

(** separation: distinct regions of a duplicate-free list have no common element *)
Lemma sep_false {A} (Ls : list (list A)) i j z (R S : list A) : NoDup (concat Ls) -> i < j ->
  Ls !! i = Some R -> Ls !! j = Some S -> z ∈ R -> z ∈ S -> False.
Proof.
  intros HN Hij Hi Hj HR HS. rewrite <- (take_drop_middle _ _ _ Hi) in HN, Hj.
  pose proof (lookup_lt_Some _ _ _ Hi) as Hl.
  rewrite lookup_app_r in Hj by (rewrite take_length; lia). rewrite take_length in Hj.
  replace (j - i `min` length Ls) with (Datatypes.S (j - i - 1)) in Hj by lia. cbn in Hj.
  rewrite concat_app in HN. cbn in HN. apply NoDup_app in HN as (_&_&HN). apply NoDup_app in HN as (_&HD&_).
  apply (HD z HR). apply elem_of_list_In, in_concat. exists S. split; [apply elem_of_list_In; by eapply elem_of_list_lookup_2|by apply elem_of_list_In].
Qed.
(** [sp HN i j]: contradiction, as regions [i] and [j] share an element *)
Ltac sp HN i j := exfalso; refine (sep_false _ i j _ _ _ HN ltac:(lia) eq_refl eq_refl _ _);
  [try first [eassumption|apply elem_of_list_here|apply elem_of_list_singleton; reflexivity]..].

(** a context: the path from a position up to the root, with the subtrees hanging off it *)
Inductive frame (V : Type) := FL (c : bool) (x : loc) (v : V) (r : tree V) | FR (c : bool) (l : tree V) (x : loc) (v : V).
Global Arguments FL {V} c x v r.
Global Arguments FR {V} c l x v.

Section rep.
  Context {V : Type}.
  Notation M := (gmap loc (tnode V)).
  Notation ctx := (list (frame V)).
  Implicit Types (m : M) (t : tree V) (k : ctx).

  Fixpoint plug k t : tree V :=
    match k with
    | [] => t
    | FL c x v r :: k => plug k (Nd c t x v r)
    | FR c l x v :: k => plug k (Nd c l x v t)
    end.
  Definition cpar (hd : loc) k : loc := match k with [] => hd | FL _ x _ _ :: _ => x | FR _ _ x _ :: _ => x end.
  Fixpoint lcells k : list (loc * V) :=
    match k with [] => [] | FL _ _ _ _ :: k => lcells k | FR _ l x v :: k => lcells k ++ cells l ++ [(x, v)] end.
  Fixpoint rcells k : list (loc * V) :=
    match k with [] => [] | FR _ _ _ _ :: k => rcells k | FL _ x v r :: k => (x, v) :: cells r ++ rcells k end.
  Definition clocs k : list loc := (lcells k).*1 ++ (rcells k).*1.
  Fixpoint repc m (hd : loc) (q : ptr) k : Prop :=
    match k with
    | [] => True
    | FL c x v r :: k => m !! x = Some (TNode c (Some (cpar hd k)) q (root r) (Some v)) /\ rep m x r /\ repc m hd (Some x) k
    | FR c l x v :: k => m !! x = Some (TNode c (Some (cpar hd k)) (root l) q (Some v)) /\ rep m x l /\ repc m hd (Some x) k
    end.
  (** the root of the whole tree, when the root at the position is [q] *)
  Fixpoint crt k (q : ptr) : ptr :=
    match k with [] => q | FL _ x _ _ :: k => crt k (Some x) | FR _ _ x _ :: k => crt k (Some x) end.
  Definition Ctx m hd lm rm k (q : ptr) : Prop :=
    m !! hd = Some (TNode RED (crt k q) lm rm None) /\ repc m hd q k.

  Lemma cells_plug k t : cells (plug k t) = lcells k ++ cells t ++ rcells k.
  Proof.
    revert t. induction k as [|[c x v r|c l x v] k IH]; intros t; cbn [plug lcells rcells].
    - by rewrite app_nil_r.
    - rewrite IH. cbn [cells]. by applist.
    - rewrite IH. cbn [cells]. by applist.
  Qed.
  Lemma root_plug k t : root (plug k t) = crt k (root t).
  Proof. revert t. induction k as [|[c x v r|c l x v] k IH]; intros t; cbn [plug crt]; [done| |]; by rewrite IH. Qed.
  Lemma locs_plug k t : locs (plug k t) ≡ₚ locs t ++ clocs k.
  Proof. unfold locs, clocs. rewrite cells_plug, !fmap_app. solve_Permutation. Qed.
  Lemma locs_N c (l : tree V) x v r : locs (Nd c l x v r) = locs l ++ x :: locs r.
  Proof. unfold locs. cbn [cells]. by rewrite fmap_app. Qed.
  Lemma clocs_FL c x v r k : clocs (FL c x v r :: k) ≡ₚ x :: locs r ++ clocs k.
  Proof. unfold clocs, locs. cbn [lcells rcells]. cbn [fmap list_fmap fst]. rewrite fmap_app. solve_Permutation. Qed.
  Lemma clocs_FR c x v l k : clocs (FR c l x v :: k) ≡ₚ x :: locs l ++ clocs k.
  Proof. unfold clocs, locs. cbn [lcells rcells]. rewrite !fmap_app. cbn. solve_Permutation. Qed.
  Lemma root_in t z : root t = Some z -> z ∈ locs t.
  Proof. destruct t as [|c l x v r]; [done|]. cbn [root]. intros [= ->]. rewrite locs_N. set_solver. Qed.
  Lemma root_notin t z : z ∉ locs t -> root t <> Some z.
  Proof. intros H E. by apply H, root_in. Qed.
  Lemma crt_in k z q : crt k q = Some z -> (k = [] /\ q = Some z) \/ z ∈ clocs k.
  Proof.
    revert q. induction k as [|[c x v r|c l x v] k IH]; intros q; cbn [crt]; [auto| |]; intros H; right.
    - rewrite clocs_FL. destruct (IH _ H) as [[_ [= ->]]|Hin]; set_solver.
    - rewrite clocs_FR. destruct (IH _ H) as [[_ [= ->]]|Hin]; set_solver.
  Qed.
  Lemma rep_plug m hd k t : rep m hd (plug k t) <-> rep m (cpar hd k) t /\ repc m hd (root t) k.
  Proof.
    revert t. induction k as [|[c x v r|c l x v] k IH]; intros t; cbn [plug repc cpar]; [tauto| |];
      rewrite IH; cbn [rep root]; tauto.
  Qed.
  Lemma Rep_plug m hd lm rm k t :
    Rep m hd lm rm (plug k t) <-> Ctx m hd lm rm k (root t) /\ rep m (cpar hd k) t /\ NoDup (hd :: locs t ++ clocs k).
  Proof. unfold Rep, Ctx. rewrite rep_plug, root_plug, locs_plug. tauto. Qed.

  (** framing *)
  Lemma rep_frame m m' p t : (forall z, z ∈ locs t -> m' !! z = m !! z) -> rep m p t -> rep m' p t.
  Proof.
    revert p. induction t as [|c l IHl x v r IHr]; intros p Hf; [done|]. cbn [rep]. rewrite locs_N in Hf.
    intros (Hx&Hl&Hr). split; [|split].
    - by rewrite Hf by set_solver.
    - apply IHl; [|done]. intros z Hz. apply Hf. set_solver.
    - apply IHr; [|done]. intros z Hz. apply Hf. set_solver.
  Qed.
  Lemma repc_frame m m' hd q k : (forall z, z ∈ clocs k -> m' !! z = m !! z) -> repc m hd q k -> repc m' hd q k.
  Proof.
    revert q. induction k as [|[c x v r|c l x v] k IH]; intros q Hf; [done| |]; cbn [repc]; intros (Hx&Hl&Hr).
    - setoid_rewrite (clocs_FL c x v r k) in Hf. split; [by rewrite Hf by set_solver|]. split.
      + eapply rep_frame; [|done]. intros z Hz. apply Hf. set_solver.
      + apply IH; [|done]. intros z Hz. apply Hf. set_solver.
    - setoid_rewrite (clocs_FR c x v l k) in Hf. split; [by rewrite Hf by set_solver|]. split.
      + eapply rep_frame; [|done]. intros z Hz. apply Hf. set_solver.
      + apply IH; [|done]. intros z Hz. apply Hf. set_solver.
  Qed.
  Lemma Ctx_frame m m' hd lm rm k q : (forall z, z ∈ hd :: clocs k -> m' !! z = m !! z) ->
    Ctx m hd lm rm k q -> Ctx m' hd lm rm k q.
  Proof.
    intros Hf [Hh Hc]. split.
    - by rewrite Hf by set_solver.
    - eapply repc_frame; [|done]. intros z Hz. apply Hf. set_solver.
  Qed.

  (** field updates as alterations *)
  Definition wpar (q : ptr) (n : tnode V) := TNode (ncol n) q (nleft n) (nright n) (nval n).
  Definition wleft (q : ptr) (n : tnode V) := TNode (ncol n) (npar n) q (nright n) (nval n).
  Definition wright (q : ptr) (n : tnode V) := TNode (ncol n) (npar n) (nleft n) q (nval n).
  Definition wcol (c : bool) (n : tnode V) := TNode c (npar n) (nleft n) (nright n) (nval n).
  Lemma alter_put m x n f : m !! x = Some n -> alter f x m = <[x := f n]> m.
  Proof. intros H. apply map_eq. intros z. destruct (decide (z = x)) as [->|Hne]; [by simplify_map_eq|by rewrite lookup_alter_ne, lookup_insert_ne]. Qed.
  Lemma get_ok m x n : m !! x = Some n -> get m (Some x) = Ok n.
  Proof. unfold get. by intros ->. Qed.
  Lemma parent_ok m x n : m !! x = Some n -> parent m (Some x) = Ok (npar n).
  Proof. unfold parent. intros H. by rewrite (get_ok _ _ _ H). Qed.
  Lemma left_ok m x n : m !! x = Some n -> left m (Some x) = Ok (nleft n).
  Proof. unfold left. intros H. by rewrite (get_ok _ _ _ H). Qed.
  Lemma right_ok m x n : m !! x = Some n -> right m (Some x) = Ok (nright n).
  Proof. unfold right. intros H. by rewrite (get_ok _ _ _ H). Qed.
  Lemma color_ok m x n : m !! x = Some n -> color m (Some x) = Ok (ncol n).
  Proof. unfold color. intros H. by rewrite (get_ok _ _ _ H). Qed.
  Lemma valof_ok m x n v : m !! x = Some n -> nval n = Some v -> valof m (Some x) = Ok v.
  Proof. unfold valof. intros H Hv. rewrite (get_ok _ _ _ H). cbn [rbind]. by rewrite Hv. Qed.
  Lemma set_parent_ok m x n q : m !! x = Some n -> set_parent m (Some x) q = Ok (alter (wpar q) x m).
  Proof. intros H. unfold set_parent. rewrite (get_ok _ _ _ H). cbn [rbind put]. by rewrite (alter_put _ _ _ _ H). Qed.
  Lemma set_left_ok m x n q : m !! x = Some n -> set_left m (Some x) q = Ok (alter (wleft q) x m).
  Proof. intros H. unfold set_left. rewrite (get_ok _ _ _ H). cbn [rbind put]. by rewrite (alter_put _ _ _ _ H). Qed.
  Lemma set_right_ok m x n q : m !! x = Some n -> set_right m (Some x) q = Ok (alter (wright q) x m).
  Proof. intros H. unfold set_right. rewrite (get_ok _ _ _ H). cbn [rbind put]. by rewrite (alter_put _ _ _ _ H). Qed.
  Lemma set_color_ok m x n c : m !! x = Some n -> set_color m (Some x) c = Ok (alter (wcol c) x m).
  Proof. intros H. unfold set_color. rewrite (get_ok _ _ _ H). cbn [rbind put]. by rewrite (alter_put _ _ _ _ H). Qed.

  (** giving the root [q] (if any) a new parent *)
  Definition reparent m (q : ptr) (p : ptr) : M := match q with Some z => alter (wpar p) z m | None => m end.
  Lemma reparent_ne m q p z : q <> Some z -> reparent m q p !! z = m !! z.
  Proof. intros H. destruct q as [y|]; [|done]. cbn. rewrite lookup_alter_ne; [done|congruence]. Qed.
  Lemma rep_reparent m t p p' : NoDup (locs t) -> rep m p t -> rep (reparent m (root t) (Some p')) p' t.
  Proof.
    destruct t as [|c l x v r]; [done|]. rewrite locs_N. intros HN%NoDup_app (Hx&Hl&Hr). destruct HN as (H1&H2&[H3 H4]%NoDup_cons).
    assert (x ∉ locs l) as H5 by (intros H; apply (H2 _ H); set_solver). cbn [root reparent rep]. split; [|split].
    - rewrite lookup_alter, Hx. done.
    - eapply rep_frame; [|done]. intros z Hz. apply lookup_alter_ne. set_solver.
    - eapply rep_frame; [|done]. intros z Hz. apply lookup_alter_ne. set_solver.
  Qed.
  Lemma set_parent_reparent m q p n : (forall z, q = Some z -> m !! z = Some (n z)) ->
    match q with Some _ => set_parent m q p | None => Ok m end = Ok (reparent m q p).
  Proof. intros H. destruct q as [z|]; [|done]. cbn. eapply set_parent_ok. by apply H. Qed.

  (** making the context's hole point to [q] *)
  Definition set_hole m (hd : loc) k (q : ptr) : M :=
    match k with [] => alter (wpar q) hd m | FL _ p _ _ :: _ => alter (wleft q) p m | FR _ _ p _ :: _ => alter (wright q) p m end.
  Lemma set_hole_ne m hd k q z : z <> cpar hd k -> set_hole m hd k q !! z = m !! z.
  Proof. destruct k as [|[c x v r|c l x v] k]; cbn; intros H; by rewrite lookup_alter_ne. Qed.
  Lemma Ctx_set_hole m hd lm rm k q q' : NoDup (hd :: clocs k) -> Ctx m hd lm rm k q -> Ctx (set_hole m hd k q') hd lm rm k q'.
  Proof.
    intros HN [Hh Hc]. destruct k as [|[c x v r|c l x v] k]; cbn [set_hole]; split; cbn [crt].
    - by rewrite lookup_alter, Hh.
    - done.
    - rewrite clocs_FL in HN. nd. by rewrite lookup_alter_ne.
    - rewrite clocs_FL in HN. nd. destruct Hc as (Hx&Hr&Hk). cbn [repc]. split; [by rewrite lookup_alter, Hx|]. split.
      + eapply rep_frame; [|done]. intros z Hz. apply lookup_alter_ne. set_solver.
      + eapply repc_frame; [|done]. intros z Hz. apply lookup_alter_ne. set_solver.
    - rewrite clocs_FR in HN. nd. by rewrite lookup_alter_ne.
    - rewrite clocs_FR in HN. nd. destruct Hc as (Hx&Hr&Hk). cbn [repc]. split; [by rewrite lookup_alter, Hx|]. split.
      + eapply rep_frame; [|done]. intros z Hz. apply lookup_alter_ne. set_solver.
      + eapply repc_frame; [|done]. intros z Hz. apply lookup_alter_ne. set_solver.
  Qed.
  Lemma crt_ne k x q : k <> [] -> x ∉ clocs k -> crt k q <> Some x.
  Proof. intros Hk Hx E. destruct (crt_in _ _ _ E) as [[? _]|?]; done. Qed.
  Lemma cpar_in hd k : cpar hd k = hd \/ cpar hd k ∈ clocs k.
  Proof.
    destruct k as [|[c x v r|c l x v] k]; [by left| |]; right; cbn [cpar].
    - rewrite clocs_FL. set_solver.
    - rewrite clocs_FR. set_solver.
  Qed.
  Lemma cpar_lookup m hd lm rm k q : Ctx m hd lm rm k q -> is_Some (m !! cpar hd k).
  Proof. intros [Hh Hc]. destruct k as [|[c x v r|c l x v] k]; cbn [cpar]; [by eexists| |]; destruct Hc as (Hx&_); by eexists. Qed.
  (** the code that redirects the parent of [x]: in rotations ... *)
  Lemma replace_child_ok m hd lm rm k x q n : Ctx m hd lm rm k (Some x) -> x <> hd -> x ∉ clocs k ->
    m !! x = Some n -> npar n = Some (cpar hd k) ->
    replace_child m (Some x) q (crt k (Some x)) = Ok (set_hole m hd k q).
  Proof.
    intros HC Hne Hx Hn Hp. unfold replace_child. destruct k as [|[c y v r|c l y v] k].
    - cbn [crt]. rewrite decide_True by done. rewrite (parent_ok _ _ _ Hn), Hp. cbn [rbind cpar].
      destruct HC as [Hh _]. by rewrite (set_parent_ok _ _ _ _ Hh).
    - destruct HC as [Hh (Hy&Hr&Hk)]. rewrite decide_False.
      2:{ intros E. symmetry in E. revert E. by apply crt_ne. }
      unfold is_left. rewrite (parent_ok _ _ _ Hn), Hp. cbn [rbind cpar]. rewrite (left_ok _ _ _ Hy). cbn [rbind nleft].
      rewrite bool_decide_true by done. by rewrite (set_left_ok _ _ _ _ Hy).
    - destruct HC as [Hh (Hy&Hr&Hk)]. rewrite decide_False.
      2:{ intros E. symmetry in E. revert E. by apply crt_ne. }
      unfold is_left, is_right. rewrite (parent_ok _ _ _ Hn), Hp. cbn [rbind cpar]. rewrite (left_ok _ _ _ Hy), (right_ok _ _ _ Hy).
      cbn [rbind nleft nright]. rewrite bool_decide_false.
      2:{ rewrite clocs_FR in Hx. nd. by apply root_notin. }
      rewrite bool_decide_true by done. by rewrite (set_right_ok _ _ _ _ Hy).
  Qed.
  (** ... and in erase *)
  Lemma relink_ok m hd lm rm k x q n : Ctx m hd lm rm k (Some x) -> x <> hd -> x ∉ clocs k ->
    m !! x = Some n -> npar n = Some (cpar hd k) ->
    relink m hd (Some x) q = Ok (set_hole m hd k q).
  Proof.
    intros HC Hne Hx Hn Hp. unfold relink, root_of. pose proof HC as [Hh Hc]. rewrite (parent_ok _ _ _ Hh). cbn [rbind npar].
    destruct k as [|[c y v r|c l y v] k].
    - cbn [crt]. rewrite decide_True by done. by rewrite (set_parent_ok _ _ _ _ Hh).
    - destruct Hc as (Hy&Hr&Hk). rewrite decide_False by (by apply crt_ne).
      unfold is_left. rewrite (parent_ok _ _ _ Hn), Hp. cbn [rbind cpar]. rewrite (left_ok _ _ _ Hy). cbn [rbind nleft].
      rewrite bool_decide_true by done. by rewrite (set_left_ok _ _ _ _ Hy).
    - destruct Hc as (Hy&Hr&Hk). rewrite decide_False by (by apply crt_ne).
      unfold is_left. rewrite (parent_ok _ _ _ Hn), Hp. cbn [rbind cpar]. rewrite (left_ok _ _ _ Hy).
      cbn [rbind nleft]. rewrite bool_decide_false.
      2:{ rewrite clocs_FR in Hx. nd. by apply root_notin. }
      by rewrite (set_right_ok _ _ _ _ Hy).
  Qed.

  (** ** the whole tree: reading and recolouring at a position *)
  Lemma Rep_node m hd lm rm k c l x v r : Rep m hd lm rm (plug k (Nd c l x v r)) ->
    m !! x = Some (TNode c (Some (cpar hd k)) (root l) (root r) (Some v)).
  Proof. rewrite Rep_plug. intros (_&(Hx&_)&_). done. Qed.
  Lemma Rep_root m hd lm rm T : Rep m hd lm rm T -> root_of m hd = Ok (root T).
  Proof. intros (Hh&_). unfold root_of. by rewrite (parent_ok _ _ _ Hh). Qed.

  (** [m'] holds [T'] instead of [T], and nothing else changed *)
  Definition Upd m m' (hd : loc) (lm rm : ptr) (T T' : tree V) : Prop :=
    Rep m' hd lm rm T' /\ locs T' ≡ₚ locs T /\ forall z, z ∉ hd :: locs T -> m' !! z = m !! z.
  Lemma Upd_refl m hd lm rm T : Rep m hd lm rm T -> Upd m m hd lm rm T T.
  Proof. intros H. by split. Qed.
  Lemma Upd_trans m m' m'' hd lm rm T T' T'' : Upd m m' hd lm rm T T' -> Upd m' m'' hd lm rm T' T'' -> Upd m m'' hd lm rm T T''.
  Proof.
    intros (H1&H2&H3) (H4&H5&H6). split; [done|]. split; [by rewrite H5|]. intros z Hz. rewrite H6; [by apply H3|]. by rewrite H2.
  Qed.

  Lemma recolor_ok m hd lm rm k c c' l x v r : Rep m hd lm rm (plug k (Nd c l x v r)) ->
    exists m', set_color m (Some x) c' = Ok m' /\ Upd m m' hd lm rm (plug k (Nd c l x v r)) (plug k (Nd c' l x v r)).
  Proof.
    intros HR. pose proof (Rep_node _ _ _ _ _ _ _ _ _ _ HR) as Hx. rewrite (set_color_ok _ _ _ _ Hx). eexists. split; [done|].
    pose proof HR as (HC&(_&Hl&Hr)&HN)%Rep_plug. rewrite locs_N in HN.
    assert (NoDup (x :: hd :: locs l ++ locs r ++ clocs k)) as HN' by (eapply NoDup_perm; [exact HN|solve_Permutation]). nd.
    split; [|split].
    - apply Rep_plug. split; [|split].
      + eapply Ctx_frame; [|exact HC]. intros z Hz. apply lookup_alter_ne. set_solver.
      + cbn [rep]. split; [by rewrite lookup_alter, Hx|]. split.
        * eapply rep_frame; [|done]. intros z Hz. apply lookup_alter_ne. set_solver.
        * eapply rep_frame; [|done]. intros z Hz. apply lookup_alter_ne. set_solver.
      + apply Rep_plug in HR as (_&_&HN0). rewrite locs_N in HN0. by rewrite locs_N.
    - rewrite !locs_plug, !locs_N. done.
    - intros z Hz. apply lookup_alter_ne. intros ->. apply Hz. right. rewrite locs_plug, locs_N. set_solver.
  Qed.
  Lemma rotate_right_ok m hd lm rm k c cl a y vy b x vx d :
    Rep m hd lm rm (plug k (Nd c (Nd cl a y vy b) x vx d)) ->
    exists m', rotate_right m (Some x) (root (plug k (Nd c (Nd cl a y vy b) x vx d))) = Ok m' /\
      Upd m m' hd lm rm (plug k (Nd c (Nd cl a y vy b) x vx d)) (plug k (Nd cl a y vy (Nd c b x vx d))).
  Proof.
    intros HR. rewrite root_plug. cbn [root]. pose proof HR as (HC&(Hx&(Hy&Ha&Hb)&Hd)&HN)%Rep_plug. cbn [root] in *.
    rewrite !locs_N in HN.
    assert (NoDup (concat [[x]; [y]; [hd]; locs a; locs b; locs d; clocs k])) as HS.
    { eapply NoDup_perm; [exact HN|]. cbn. rewrite app_nil_r. solve_Permutation. } clear HN.
    assert (NoDup (locs b)) as HNb.
    { eapply (NoDup_perm _ (locs b ++ x :: y :: hd :: locs a ++ locs d ++ clocs k)) in HS;
        [by apply NoDup_app in HS as (?&_)|cbn; rewrite app_nil_r; solve_Permutation]. }
    assert (NoDup (hd :: clocs k)) as HNk.
    { eapply (NoDup_perm _ ((hd :: clocs k) ++ x :: y :: locs a ++ locs d ++ locs b)) in HS;
        [by apply NoDup_app in HS as (?&_)|cbn; rewrite app_nil_r; solve_Permutation]. }
    assert (x <> y) as Hxy by (intros ->; sp HS 0 1).
    assert (x <> hd) as Hxh by (intros ->; sp HS 0 2).
    assert (x ∉ clocs k) as Hxk by (intros ?; sp HS 0 6).
    assert (root b <> Some x /\ root b <> Some y) as [Hbx Hby].
    { split; apply root_notin; intros ?; [sp HS 0 4|sp HS 1 4]. }
    unfold rotate_right. rewrite (left_ok _ _ _ Hx). cbn [rbind nleft]. rewrite (right_ok _ _ _ Hy). cbn [rbind nright].
    rewrite (set_left_ok _ _ _ _ Hx). cbn [rbind]. set (m1 := alter (wleft (root b)) x m).
    assert (m1 !! y = m !! y) as E1 by (by apply lookup_alter_ne). rewrite Hy in E1. rewrite (right_ok _ _ _ E1). cbn [rbind nright].
    assert (rep m1 y b) as Hb1.
    { eapply rep_frame; [|exact Hb]. intros z Hz. apply lookup_alter_ne. intros ->. sp HS 0 4. }
    assert (match root b with Some _ => set_parent m1 (root b) (Some x) | None => Ok m1 end = Ok (reparent m1 (root b) (Some x))) as E2.
    { destruct b as [|cb bl bx bv br]; [done|]. destruct Hb1 as (Hbx1&_). cbn [root reparent]. by rewrite (set_parent_ok _ _ _ _ Hbx1). }
    rewrite E2. cbn [rbind]. clear E2. set (m2 := reparent m1 (root b) (Some x)).
    assert (rep m2 x b) as Hb2 by (eapply rep_reparent; done).
    assert (m2 !! x = Some (TNode c (Some (cpar hd k)) (root b) (root d) (Some vx))) as Hx2.
    { unfold m2. rewrite reparent_ne by done. unfold m1. by rewrite lookup_alter, Hx. }
    assert (m2 !! y = Some (TNode cl (Some x) (root a) (root b) (Some vy))) as Hy2.
    { unfold m2. rewrite reparent_ne by done. done. }
    assert (forall z, z ≠ x -> z ∉ locs b -> m2 !! z = m !! z) as F2.
    { intros z Hz Hzb. unfold m2. rewrite reparent_ne by (by apply root_notin). by apply lookup_alter_ne. }
    assert (Ctx m2 hd lm rm k (Some x)) as HC2.
    { eapply Ctx_frame; [|exact HC]. intros z [->|Hz]%elem_of_cons; apply F2; intros ?; subst.
      - done.
      - sp HS 2 4.
      - done.
      - sp HS 4 6. }
    rewrite (replace_child_ok m2 hd lm rm k x (Some y) _ HC2 Hxh Hxk Hx2 eq_refl). cbn [rbind].
    set (m3 := set_hole m2 hd k (Some y)).
    assert (Ctx m3 hd lm rm k (Some y)) as HC3 by (exact (Ctx_set_hole _ _ _ _ _ _ _ HNk HC2)).
    assert (forall z, z <> hd -> z ∉ clocs k -> m3 !! z = m2 !! z) as F3.
    { intros z Hz Hzk. apply set_hole_ne. destruct (cpar_in hd k) as [->|Hin]; [done|]. intros ->. done. }
    assert (m3 !! x = m2 !! x) as Hx3 by (by apply F3). rewrite Hx2 in Hx3.
    assert (m3 !! y = m2 !! y) as Hy3 by (apply F3; [intros ->; sp HS 1 2|intros ?; sp HS 1 6]). rewrite Hy2 in Hy3.
    rewrite (parent_ok _ _ _ Hx3). cbn [rbind npar]. rewrite (set_parent_ok _ _ _ _ Hy3). cbn [rbind].
    set (m4 := alter (wpar (Some (cpar hd k))) y m3).
    assert (m4 !! y = Some (TNode cl (Some (cpar hd k)) (root a) (root b) (Some vy))) as Hy4.
    { unfold m4. by rewrite lookup_alter, Hy3. }
    rewrite (set_right_ok _ _ _ _ Hy4). cbn [rbind]. set (m5 := alter (wright (Some x)) y m4).
    assert (m5 !! x = m3 !! x) as Hx5.
    { unfold m5. rewrite lookup_alter_ne by done. unfold m4. by rewrite lookup_alter_ne. }
    rewrite Hx3 in Hx5. rewrite (set_parent_ok _ _ _ _ Hx5). eexists. split; [reflexivity|]. set (m6 := alter (wpar (Some y)) x m5).
    assert (forall z, z <> x -> z <> y -> m6 !! z = m3 !! z) as F6.
    { intros z Hzx Hzy. unfold m6. rewrite lookup_alter_ne by done. unfold m5. rewrite lookup_alter_ne by done. unfold m4. by rewrite lookup_alter_ne. }
    assert (m6 !! x = Some (TNode c (Some y) (root b) (root d) (Some vx))) as Hx6.
    { unfold m6. by rewrite lookup_alter, Hx5. }
    assert (m6 !! y = Some (TNode cl (Some (cpar hd k)) (root a) (Some x) (Some vy))) as Hy6.
    { unfold m6. rewrite lookup_alter_ne by done. unfold m5. by rewrite lookup_alter, Hy4. }
    clearbody m6 m5 m4 m3 m2 m1.
    assert (forall z, z <> x -> z <> y -> z <> hd -> z ∉ clocs k -> m6 !! z = m2 !! z) as F62.
    { intros z ????. rewrite F6 by done. by apply F3. }
    split; [|split].
    - apply Rep_plug. cbn [root]. split; [|split].
      + eapply Ctx_frame; [|exact HC3]. intros z [->|Hz]%elem_of_cons; apply F6; intros ?; subst.
        * done.
        * sp HS 1 2.
        * done.
        * sp HS 1 6.
      + cbn [rep root]. split; [done|]. split; [|split; [done|split]].
        * eapply rep_frame; [|exact Ha]. intros z Hz.
          rewrite F62; [apply F2| | | |]; intros ?; subst; [sp HS 0 3|sp HS 3 4|sp HS 0 3|sp HS 1 3|sp HS 2 3|sp HS 3 6].
        * eapply rep_frame; [|exact Hb2]. intros z Hz.
          apply F62; intros ?; subst; [sp HS 0 4|sp HS 1 4|sp HS 2 4|sp HS 4 6].
        * eapply rep_frame; [|exact Hd]. intros z Hz.
          rewrite F62; [apply F2| | | |]; intros ?; subst; [sp HS 0 5|sp HS 4 5|sp HS 0 5|sp HS 1 5|sp HS 2 5|sp HS 5 6].
      + rewrite !locs_N. clear - HS. eapply NoDup_perm; [exact HS|]. cbn. rewrite app_nil_r. solve_Permutation.
    - rewrite !locs_plug, !locs_N. solve_Permutation.
    - intros z Hz. rewrite locs_plug, !locs_N in Hz. clear - Hz F62 F2. nd. rewrite F62; [by apply F2|done..].
  Qed.
  Lemma rotate_left_ok m hd lm rm k c cl a y vy b x vx d :
    Rep m hd lm rm (plug k (Nd c d x vx (Nd cl b y vy a))) ->
    exists m', rotate_left m (Some x) (root (plug k (Nd c d x vx (Nd cl b y vy a)))) = Ok m' /\
      Upd m m' hd lm rm (plug k (Nd c d x vx (Nd cl b y vy a))) (plug k (Nd cl (Nd c d x vx b) y vy a)).
  Proof.
    intros HR. rewrite root_plug. cbn [root]. pose proof HR as (HC&(Hx&Hd&(Hy&Hb&Ha))&HN)%Rep_plug. cbn [root] in *.
    rewrite !locs_N in HN.
    assert (NoDup (concat [[x]; [y]; [hd]; locs a; locs b; locs d; clocs k])) as HS.
    { eapply NoDup_perm; [exact HN|]. cbn. rewrite app_nil_r. solve_Permutation. } clear HN.
    assert (NoDup (locs b)) as HNb.
    { eapply (NoDup_perm _ (locs b ++ x :: y :: hd :: locs a ++ locs d ++ clocs k)) in HS;
        [by apply NoDup_app in HS as (?&_)|cbn; rewrite app_nil_r; solve_Permutation]. }
    assert (NoDup (hd :: clocs k)) as HNk.
    { eapply (NoDup_perm _ ((hd :: clocs k) ++ x :: y :: locs a ++ locs d ++ locs b)) in HS;
        [by apply NoDup_app in HS as (?&_)|cbn; rewrite app_nil_r; solve_Permutation]. }
    assert (x <> y) as Hxy by (intros ->; sp HS 0 1).
    assert (x <> hd) as Hxh by (intros ->; sp HS 0 2).
    assert (x ∉ clocs k) as Hxk by (intros ?; sp HS 0 6).
    assert (root b <> Some x /\ root b <> Some y) as [Hbx Hby].
    { split; apply root_notin; intros ?; [sp HS 0 4|sp HS 1 4]. }
    unfold rotate_left. rewrite (right_ok _ _ _ Hx). cbn [rbind nright]. rewrite (left_ok _ _ _ Hy). cbn [rbind nleft].
    rewrite (set_right_ok _ _ _ _ Hx). cbn [rbind]. set (m1 := alter (wright (root b)) x m).
    assert (m1 !! y = m !! y) as E1 by (by apply lookup_alter_ne). rewrite Hy in E1. rewrite (left_ok _ _ _ E1). cbn [rbind nleft].
    assert (rep m1 y b) as Hb1.
    { eapply rep_frame; [|exact Hb]. intros z Hz. apply lookup_alter_ne. intros ->. sp HS 0 4. }
    assert (match root b with Some _ => set_parent m1 (root b) (Some x) | None => Ok m1 end = Ok (reparent m1 (root b) (Some x))) as E2.
    { destruct b as [|cb bl bx bv br]; [done|]. destruct Hb1 as (Hbx1&_). cbn [root reparent]. by rewrite (set_parent_ok _ _ _ _ Hbx1). }
    rewrite E2. cbn [rbind]. clear E2. set (m2 := reparent m1 (root b) (Some x)).
    assert (rep m2 x b) as Hb2 by (eapply rep_reparent; done).
    assert (m2 !! x = Some (TNode c (Some (cpar hd k)) (root d) (root b) (Some vx))) as Hx2.
    { unfold m2. rewrite reparent_ne by done. unfold m1. by rewrite lookup_alter, Hx. }
    assert (m2 !! y = Some (TNode cl (Some x) (root b) (root a) (Some vy))) as Hy2.
    { unfold m2. rewrite reparent_ne by done. done. }
    assert (forall z, z ≠ x -> z ∉ locs b -> m2 !! z = m !! z) as F2.
    { intros z Hz Hzb. unfold m2. rewrite reparent_ne by (by apply root_notin). by apply lookup_alter_ne. }
    assert (Ctx m2 hd lm rm k (Some x)) as HC2.
    { eapply Ctx_frame; [|exact HC]. intros z [->|Hz]%elem_of_cons; apply F2; intros ?; subst.
      - done.
      - sp HS 2 4.
      - done.
      - sp HS 4 6. }
    rewrite (replace_child_ok m2 hd lm rm k x (Some y) _ HC2 Hxh Hxk Hx2 eq_refl). cbn [rbind].
    set (m3 := set_hole m2 hd k (Some y)).
    assert (Ctx m3 hd lm rm k (Some y)) as HC3 by (exact (Ctx_set_hole _ _ _ _ _ _ _ HNk HC2)).
    assert (forall z, z <> hd -> z ∉ clocs k -> m3 !! z = m2 !! z) as F3.
    { intros z Hz Hzk. apply set_hole_ne. destruct (cpar_in hd k) as [->|Hin]; [done|]. intros ->. done. }
    assert (m3 !! x = m2 !! x) as Hx3 by (by apply F3). rewrite Hx2 in Hx3.
    assert (m3 !! y = m2 !! y) as Hy3 by (apply F3; [intros ->; sp HS 1 2|intros ?; sp HS 1 6]). rewrite Hy2 in Hy3.
    rewrite (parent_ok _ _ _ Hx3). cbn [rbind npar]. rewrite (set_parent_ok _ _ _ _ Hy3). cbn [rbind].
    set (m4 := alter (wpar (Some (cpar hd k))) y m3).
    assert (m4 !! y = Some (TNode cl (Some (cpar hd k)) (root b) (root a) (Some vy))) as Hy4.
    { unfold m4. by rewrite lookup_alter, Hy3. }
    rewrite (set_left_ok _ _ _ _ Hy4). cbn [rbind]. set (m5 := alter (wleft (Some x)) y m4).
    assert (m5 !! x = m3 !! x) as Hx5.
    { unfold m5. rewrite lookup_alter_ne by done. unfold m4. by rewrite lookup_alter_ne. }
    rewrite Hx3 in Hx5. rewrite (set_parent_ok _ _ _ _ Hx5). eexists. split; [reflexivity|]. set (m6 := alter (wpar (Some y)) x m5).
    assert (forall z, z <> x -> z <> y -> m6 !! z = m3 !! z) as F6.
    { intros z Hzx Hzy. unfold m6. rewrite lookup_alter_ne by done. unfold m5. rewrite lookup_alter_ne by done. unfold m4. by rewrite lookup_alter_ne. }
    assert (m6 !! x = Some (TNode c (Some y) (root d) (root b) (Some vx))) as Hx6.
    { unfold m6. by rewrite lookup_alter, Hx5. }
    assert (m6 !! y = Some (TNode cl (Some (cpar hd k)) (Some x) (root a) (Some vy))) as Hy6.
    { unfold m6. rewrite lookup_alter_ne by done. unfold m5. by rewrite lookup_alter, Hy4. }
    clearbody m6 m5 m4 m3 m2 m1.
    assert (forall z, z <> x -> z <> y -> z <> hd -> z ∉ clocs k -> m6 !! z = m2 !! z) as F62.
    { intros z ????. rewrite F6 by done. by apply F3. }
    split; [|split].
    - apply Rep_plug. cbn [root]. split; [|split].
      + eapply Ctx_frame; [|exact HC3]. intros z [->|Hz]%elem_of_cons; apply F6; intros ?; subst.
        * done.
        * sp HS 1 2.
        * done.
        * sp HS 1 6.
      + cbn [rep root]. split; [done|]. split; [split; [done|split]|].
        * eapply rep_frame; [|exact Hd]. intros z Hz.
          rewrite F62; [apply F2| | | |]; intros ?; subst; [sp HS 0 5|sp HS 4 5|sp HS 0 5|sp HS 1 5|sp HS 2 5|sp HS 5 6].
        * eapply rep_frame; [|exact Hb2]. intros z Hz.
          apply F62; intros ?; subst; [sp HS 0 4|sp HS 1 4|sp HS 2 4|sp HS 4 6].
        * eapply rep_frame; [|exact Ha]. intros z Hz.
          rewrite F62; [apply F2| | | |]; intros ?; subst; [sp HS 0 3|sp HS 3 4|sp HS 0 3|sp HS 1 3|sp HS 2 3|sp HS 3 6].
      + rewrite !locs_N. clear - HS. eapply NoDup_perm; [exact HS|]. cbn. rewrite app_nil_r. solve_Permutation.
    - rewrite !locs_plug, !locs_N. solve_Permutation.
    - intros z Hz. rewrite locs_plug, !locs_N in Hz. clear - Hz F62 F2. nd. rewrite F62; [by apply F2|done..].
  Qed.
End rep.
