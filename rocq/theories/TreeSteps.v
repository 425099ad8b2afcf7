(** TreeSteps.v — how many loop iterations ++ and -- take, one by one and over a whole traversal. *)
From Verif Require Import Base DList Tree SpecTree TreeRep TreeInsert TreeIter TreeCheck.
From stdpp Require Import list gmap.

(** ** ++ and -- of Tree.v, [NoFuel] if a loop needs more than [n] iterations.  c_tree.c 651-671 and 673-694 *)
Section bounded.
  Context {V : Type}.
  Notation M := (gmap loc (tnode V)).
  Definition increment_within (n : nat) (m : M) (node : ptr) : res ptr :=
    do r <- right m node;
    match r with
    | Some _ => min_loop n m r
    | None =>
      do p <- parent m node;
      do (x, p) <- climb_right n m node p;
      do r <- right m x;
      if decide (p <> r) then Ok p else Ok x
    end.
  Definition decrement_within (n : nat) (m : M) (node : ptr) : res ptr :=
    do ih <- is_header m node;
    if ih then right m node
    else
      do l <- left m node;
      match l with
      | Some _ => max_loop n m l
      | None =>
        do p <- parent m node;
        do (x, p) <- climb_left n m node p;
        Ok p
      end.
End bounded.

Section steps.
  Context {V : Type}.
  Notation M := (gmap loc (tnode V)).
  Notation ctx := (list (frame V)).
  Implicit Types (m : M) (t : tree V) (k : ctx).

  Lemma increment_tfuel m p : increment m p = increment_within (tfuel m) m p.
  Proof. unfold increment, increment_within. destruct (right m p) as [[q|]| |]; cbn [rbind]; reflexivity. Qed.
  Lemma decrement_tfuel m p : decrement m p = decrement_within (tfuel m) m p.
  Proof. unfold decrement, decrement_within. destruct (is_header m p) as [[]| |]; cbn [rbind]; [reflexivity| |reflexivity..]. by destruct (left m p) as [[q|]| |]. Qed.

  (** the number of steps to the first and the last element of a tree *)
  Fixpoint lspine t : nat := match t with Lf => 0 | Nd _ l _ _ _ => S (lspine l) end.
  Fixpoint rspine t : nat := match t with Lf => 0 | Nd _ _ _ _ r => S (rspine r) end.
  (** the number of steps from the root of a subtree to the element after it, before it *)
  Fixpoint up k : nat := match k with [] => 2 | FL _ _ _ _ :: _ => 1 | FR _ _ _ _ :: k => S (up k) end.
  Fixpoint down k : nat := match k with [] => 2 | FR _ _ _ _ :: _ => 1 | FL _ _ _ _ :: k => S (down k) end.
  Definition or_else t (a b : nat) : nat := match t with Lf => a | _ => b end.
  Fixpoint icosts (u : nat) t : list nat :=
    match t with Lf => [] | Nd _ l _ _ r => icosts 1 l ++ or_else r u (lspine r) :: icosts (S u) r end.
  Fixpoint dcosts (d : nat) t : list nat :=
    match t with Lf => [] | Nd _ l _ _ r => dcosts (S d) l ++ or_else l d (rspine l) :: dcosts 1 r end.

  Lemma icosts_length u t : length (icosts u t) = length (cells t).
  Proof. revert u. induction t as [|c l IHl x v r IHr]; intros u; cbn [icosts cells]; [done|]. rewrite !app_length. cbn [length]. by rewrite IHl, IHr. Qed.
  Lemma dcosts_length d t : length (dcosts d t) = length (cells t).
  Proof. revert d. induction t as [|c l IHl x v r IHr]; intros d; cbn [dcosts cells]; [done|]. rewrite !app_length. cbn [length]. by rewrite IHl, IHr. Qed.
  Lemma icosts_sum t u : t <> Lf -> sum_list (icosts u t) + lspine t + 1 <= 2 * length (cells t) + u.
  Proof.
    revert u. induction t as [|c l IHl x v r IHr]; intros u Hne; [done|]. cbn [icosts cells lspine]. rewrite sum_list_with_app, app_length. cbn [sum_list_with length].
    change (sum_list_with id) with sum_list.
    destruct l as [|cl ll xl vl rl]; [|specialize (IHl 1 ltac:(done))]; (destruct r as [|cr lr xr vr rr]; [|specialize (IHr (S u) ltac:(done))]);
      cbn [or_else] in *; cbn [icosts cells lspine sum_list_with length] in *; unfold id in *; lia.
  Qed.
  Lemma dcosts_sum t d : t <> Lf -> sum_list (dcosts d t) + rspine t + 1 <= 2 * length (cells t) + d.
  Proof.
    revert d. induction t as [|c l IHl x v r IHr]; intros u Hne; [done|]. cbn [dcosts cells rspine]. rewrite sum_list_with_app, app_length. cbn [sum_list_with length].
    change (sum_list_with id) with sum_list.
    destruct l as [|cl ll xl vl rl]; [|specialize (IHl (S u) ltac:(done))]; (destruct r as [|cr lr xr vr rr]; [|specialize (IHr 1 ltac:(done))]);
      cbn [or_else] in *; cbn [dcosts cells rspine sum_list_with length] in *; unfold id in *; lia.
  Qed.
  Lemma lspine_height t : lspine t <= height t.
  Proof. induction t; cbn [lspine height]; lia. Qed.
  Lemma rspine_height t : rspine t <= height t.
  Proof. induction t; cbn [rspine height]; lia. Qed.
  Lemma icosts_each t u c : c ∈ icosts u t -> c <= u + height t.
  Proof.
    revert u. induction t as [|c' l IHl x v r IHr]; intros u; cbn [icosts height]; [by intros ?%elem_of_nil|].
    rewrite elem_of_app, elem_of_cons. pose proof (lspine_height r). intros [H1%IHl|[->|H1%IHr]]; [lia| |lia]. destruct r; cbn [or_else height] in *; lia.
  Qed.
  Lemma dcosts_each t u c : c ∈ dcosts u t -> c <= u + height t.
  Proof.
    revert u. induction t as [|c' l IHl x v r IHr]; intros u; cbn [dcosts height]; [by intros ?%elem_of_nil|].
    rewrite elem_of_app, elem_of_cons. pose proof (rspine_height l). intros [H1%IHl|[->|H1%IHr]]; [lia| |lia]. destruct l; cbn [or_else height] in *; lia.
  Qed.
  Lemma icosts_plug k t : exists pre post, icosts 2 (plug k t) = pre ++ icosts (up k) t ++ post /\ length pre = length (lcells k).
  Proof.
    revert t. induction k as [|[c x v r|c l x v] k IH]; intros t; cbn [plug up lcells].
    - exists [], []. by rewrite app_nil_r.
    - destruct (IH (Nd c t x v r)) as (pre&post&->&Hl). cbn [icosts]. eexists pre, _. split; [|exact Hl]. rewrite <- !app_assoc. done.
    - destruct (IH (Nd c l x v t)) as (pre&post&->&Hl). cbn [icosts]. eexists (pre ++ icosts 1 l ++ [_]), post. split.
      + rewrite <- !app_assoc. cbn [app]. done.
      + rewrite !app_length, icosts_length, Hl. cbn [length]. lia.
  Qed.
  Lemma dcosts_plug k t : exists pre post, dcosts 2 (plug k t) = pre ++ dcosts (down k) t ++ post /\ length pre = length (lcells k).
  Proof.
    revert t. induction k as [|[c x v r|c l x v] k IH]; intros t; cbn [plug down lcells].
    - exists [], []. by rewrite app_nil_r.
    - destruct (IH (Nd c t x v r)) as (pre&post&->&Hl). cbn [dcosts]. eexists pre, _. split; [|exact Hl]. rewrite <- !app_assoc. done.
    - destruct (IH (Nd c l x v t)) as (pre&post&->&Hl). cbn [dcosts]. eexists (pre ++ dcosts (S (down k)) l ++ [_]), post. split.
      + rewrite <- !app_assoc. cbn [app]. done.
      + rewrite !app_length, dcosts_length, Hl. cbn [length]. lia.
  Qed.

  (** the loops with just enough fuel *)
  Lemma min_loop_tight hd t : forall m p, rep m p t -> t <> Lf -> min_loop (lspine t) m (root t) = Ok (first_loc hd (cells t)).
  Proof.
    induction t as [|c l IHl x v r IHr]; intros m p Hr Hne; [done|]. cbn [rep root lspine] in *. destruct Hr as (Hx&Hl&Hr).
    cbn [min_loop]. rewrite (left_ok _ _ _ Hx). cbn [rbind nleft]. destruct l as [|c' l' x' v' r'] eqn:E; [done|]. rewrite <- E in *.
    replace (root l) with (Some x') by by rewrite E. replace (Some x') with (root l) by by rewrite E.
    rewrite (IHl m x); [|done|by rewrite E]. cbn [cells]. rewrite first_loc_app; [done|]. rewrite E. apply cells_Nd_ne.
  Qed.
  Lemma max_loop_tight hd t : forall m p, rep m p t -> t <> Lf -> max_loop (rspine t) m (root t) = Ok (last_loc hd (cells t)).
  Proof.
    induction t as [|c l IHl x v r IHr]; intros m p Hr Hne; [done|]. cbn [rep root rspine] in *. destruct Hr as (Hx&Hl&Hr).
    cbn [max_loop]. rewrite (right_ok _ _ _ Hx). cbn [rbind nright]. destruct r as [|c' l' x' v' r'] eqn:E.
    - cbn [root cells]. by rewrite last_loc_snoc.
    - rewrite <- E in *. assert (r <> Lf) by by rewrite E.
      replace (root r) with (Some x') by by rewrite E. replace (Some x') with (root r) by by rewrite E.
      rewrite (IHr m x); [|done|done]. cbn [cells]. rewrite last_loc_app by done. rewrite last_loc_cons. f_equal.
      apply last_loc_irrel. rewrite E. apply cells_Nd_ne.
  Qed.
  Lemma climb_right_fuel m : forall f f' x p r, climb_right f m x p = Ok r -> f <= f' -> climb_right f' m x p = Ok r.
  Proof.
    induction f as [|f IH]; intros f' x p r H Hf; [done|]. destruct f' as [|f']; [lia|]. cbn [climb_right] in *.
    destruct (right m p); cbn [rbind] in *; [|done..]. destruct (decide _); [|done]. destruct (parent m p); cbn [rbind] in *; [|done..]. apply (IH f'); [done|lia].
  Qed.
  Lemma climb_left_fuel m : forall f f' x p r, climb_left f m x p = Ok r -> f <= f' -> climb_left f' m x p = Ok r.
  Proof.
    induction f as [|f IH]; intros f' x p r H Hf; [done|]. destruct f' as [|f']; [lia|]. cbn [climb_left] in *.
    destruct (left m p); cbn [rbind] in *; [|done..]. destruct (decide _); [|done]. destruct (parent m p); cbn [rbind] in *; [|done..]. apply (IH f'); [done|lia].
  Qed.
  Lemma climb_right_tight hd rm : forall k m lm t x, root t = Some x -> Rep m hd lm rm (plug k t) -> exists r, climb_right (up k) m (Some x) (Some (cpar hd k)) = Ok r.
  Proof.
    induction k as [|[c y w r|c l y w] k IH]; intros m lm t x Ht HR.
    - destruct (climb_right_ok hd rm [] m lm t 2 x Ht HR) as (x'&p'&E&_); [cbn; lia|]. eexists. exact E.
    - pose proof HR as HR0. cbn [plug] in HR0. pose proof (Rep_node _ _ _ _ _ _ _ _ _ _ HR0) as Hy. cbn [cpar up climb_right]. rewrite (right_ok _ _ _ Hy). cbn [rbind nright].
      assert (Hr : root r <> Some x).
      { intros E. refine (R_ne _ _ _ _ _ _ _ _ _ _ x HR0 _ E). done. }
      rewrite decide_False by done. eauto.
    - pose proof HR as HR0. cbn [plug] in HR0. pose proof (Rep_node _ _ _ _ _ _ _ _ _ _ HR0) as Hy. cbn [cpar up climb_right]. rewrite (right_ok _ _ _ Hy). cbn [rbind nright].
      rewrite decide_True by done. rewrite (parent_ok _ _ _ Hy). cbn [rbind npar]. by apply (IH m lm (Nd c l y w t) y).
  Qed.
  Lemma climb_left_tight hd rm : forall k m lm t x, root t = Some x -> Rep m hd lm rm (plug k t) -> lcells k <> [] ->
    exists r, climb_left (down k) m (Some x) (Some (cpar hd k)) = Ok r.
  Proof.
    induction k as [|[c y w r|c l y w] k IH]; intros m lm t x Ht HR Hne; [done| |].
    - pose proof HR as HR0. cbn [plug] in HR0. pose proof (Rep_node _ _ _ _ _ _ _ _ _ _ HR0) as Hy. cbn [cpar down climb_left]. rewrite (left_ok _ _ _ Hy). cbn [rbind nleft].
      rewrite decide_True by done. rewrite (parent_ok _ _ _ Hy). cbn [rbind npar]. by apply (IH m lm (Nd c t y w r) y).
    - pose proof HR as HR0. cbn [plug] in HR0. pose proof (Rep_node _ _ _ _ _ _ _ _ _ _ HR0) as Hy. cbn [cpar down climb_left]. rewrite (left_ok _ _ _ Hy). cbn [rbind nleft].
      assert (Hr : root l <> Some x).
      { intros E. by apply (R_ne _ _ _ _ _ _ _ _ _ _ x HR0 E). }
      rewrite decide_False by done. eauto.
  Qed.
  Lemma increment_tight m hd lm rm k c l x v r : Rep m hd lm rm (plug k (Nd c l x v r)) ->
    increment_within (or_else r (up k) (lspine r)) m (Some x) = Ok (first_loc hd (cells r ++ rcells k)).
  Proof.
    intros HR. pose proof (increment_ok _ _ _ _ _ _ _ _ _ _ HR) as HI. unfold increment in HI. unfold increment_within.
    rewrite (R_right _ _ _ _ _ _ _ _ _ _ HR) in *. cbn [rbind] in *. destruct (root r) eqn:E.
    - rewrite <- E. assert (r <> Lf) as Hne by by destruct r. pose proof HR as HR0.
      change (plug k (Nd c l x v r)) with (plug (FR c l x v :: k) r) in HR0. apply Rep_plug in HR0 as (_&Hr&_). cbn [cpar] in Hr.
      replace (or_else r (up k) (lspine r)) with (lspine r) by by destruct r. rewrite (min_loop_tight hd r m x Hr Hne).
      f_equal. symmetry. apply first_loc_app. intros H0%root_cells. congruence.
    - rewrite (R_parent _ _ _ _ _ _ _ _ _ _ HR) in *. cbn [rbind] in *. apply root_cells in E.
      assert (r = Lf) as -> by (destruct r as [|c' l' x' v' r']; [done|]; by apply cells_Nd_ne in E). cbn [or_else].
      destruct (climb_right_tight hd rm k m lm (Nd c l x v Lf) x eq_refl HR) as [q Hq].
      destruct (climb_right_ok hd rm k m lm (Nd c l x v Lf) (tfuel m) x eq_refl HR) as (x'&p'&E1&_).
      { pose proof (Rep_fuel _ _ _ _ _ _ HR). unfold tfuel. lia. }
      rewrite E1 in HI. assert (q = (x', p')) as ->.
      { pose proof (climb_right_fuel _ _ (up k + tfuel m) _ _ _ Hq ltac:(lia)) as H1. pose proof (climb_right_fuel _ _ (up k + tfuel m) _ _ _ E1 ltac:(lia)) as H2. congruence. }
      rewrite Hq. exact HI.
  Qed.
  Lemma decrement_tight m hd lm rm k c l x v r : Rep m hd lm rm (plug k (Nd c l x v r)) -> (k = [] -> c = BLACK) -> lcells k ++ cells l <> [] ->
    decrement_within (or_else l (down k) (rspine l)) m (Some x) = Ok (last_loc hd (lcells k ++ cells l)).
  Proof.
    intros HR Hc Hne. pose proof (decrement_ok _ _ _ _ _ _ _ _ _ _ HR Hc Hne) as HI. unfold decrement in HI. unfold decrement_within.
    rewrite (is_header_node _ _ _ _ _ _ _ _ _ _ HR Hc) in *. cbn [rbind] in *.
    rewrite (R_left _ _ _ _ _ _ _ _ _ _ HR) in *. cbn [rbind] in *. destruct (root l) eqn:E.
    - rewrite <- E. assert (l <> Lf) as Hnl by by destruct l. pose proof HR as HR0.
      change (plug k (Nd c l x v r)) with (plug (FL c x v r :: k) l) in HR0. apply Rep_plug in HR0 as (_&Hr&_). cbn [cpar] in Hr.
      replace (or_else l (down k) (rspine l)) with (rspine l) by by destruct l. rewrite (max_loop_tight hd l m x Hr Hnl).
      f_equal. symmetry. apply last_loc_app. intros H0%root_cells. congruence.
    - rewrite (R_parent _ _ _ _ _ _ _ _ _ _ HR) in *. cbn [rbind] in *. apply root_cells in E.
      assert (l = Lf) as -> by (destruct l as [|c' l' x' v' r']; [done|]; by apply cells_Nd_ne in E). cbn [or_else]. cbn [cells] in *. rewrite app_nil_r in *.
      destruct (climb_left_tight hd rm k m lm (Nd c Lf x v r) x eq_refl HR Hne) as [q Hq].
      destruct (climb_left_ok hd rm k m lm (Nd c Lf x v r) (tfuel m) x eq_refl HR) as (x'&E1); [|done|].
      { pose proof (Rep_fuel _ _ _ _ _ _ HR). unfold tfuel. lia. }
      rewrite E1 in HI. assert (q = (x', last_loc hd (lcells k))) as ->.
      { pose proof (climb_left_fuel _ _ (down k + tfuel m) _ _ _ Hq ltac:(lia)) as H1. pose proof (climb_left_fuel _ _ (down k + tfuel m) _ _ _ E1 ltac:(lia)) as H2. congruence. }
      rewrite Hq. exact HI.
  Qed.

  (** in terms of the sequence of cells *)
  Lemma next_tight m hd T cs x v ds : is_tree m hd T -> cells T = cs ++ (x, v) :: ds ->
    exists c, icosts 2 T !! length cs = Some c /\ increment_within c m (Some x) = Ok (first_loc hd ds).
  Proof.
    intros HT E. pose proof (is_tree_ND _ _ _ HT) as HN. apply NoDup_cons in HN as [_ HN].
    destruct (split_at _ _ _ _ _ E HN) as (k&c&l&r&->&->&->). destruct HT as [HR _]. eexists. split; [|by eapply increment_tight].
    destruct (icosts_plug k (Nd c l x v r)) as (pre&post&->&Hl). cbn [icosts]. rewrite <- app_assoc. rewrite app_assoc, lookup_app_r by (rewrite !app_length, icosts_length, Hl; lia).
    rewrite !app_length, icosts_length, Hl, Nat.sub_diag. done.
  Qed.
  Lemma prev_tight m hd T cs x v ds : is_tree m hd T -> cells T = cs ++ (x, v) :: ds -> cs <> [] ->
    exists c, dcosts 2 T !! length cs = Some c /\ decrement_within c m (Some x) = Ok (last_loc hd cs).
  Proof.
    intros HT E Hne. pose proof (is_tree_ND _ _ _ HT) as HN. apply NoDup_cons in HN as [_ HN].
    destruct (split_at _ _ _ _ _ E HN) as (k&c&l&r&E'&->&->). destruct HT as [HR [n Hn]]. rewrite E' in *. eexists. split; [|eapply decrement_tight; [done|by eapply root_black|done]].
    destruct (dcosts_plug k (Nd c l x v r)) as (pre&post&->&Hl). cbn [dcosts]. rewrite <- app_assoc. rewrite app_assoc, lookup_app_r by (rewrite !app_length, dcosts_length, Hl; lia).
    rewrite !app_length, dcosts_length, Hl, Nat.sub_diag. done.
  Qed.
  Lemma prev_end_tight m hd T : is_tree m hd T -> cells T <> [] -> decrement_within 0 m (Some hd) = Ok (last_loc hd (cells T)).
  Proof.
    intros HT Hne. rewrite <- (prev_end m hd T HT Hne). unfold decrement, decrement_within.
    pose proof (prev_end m hd T HT Hne) as H. unfold decrement in H. destruct HT as [(Hhd&Hrep&HN) _]. unfold is_header in *. rewrite (parent_ok _ _ _ Hhd) in *. cbn [rbind npar] in *.
    destruct T as [|c l x v r]; [done|]. cbn [root] in *. cbn [rep] in Hrep. destruct Hrep as (Hx&_). rewrite (parent_ok _ _ _ Hx) in *. cbn [rbind npar] in *.
    rewrite decide_True in * by done. rewrite (color_ok _ _ _ Hhd) in *. cbn [rbind ncol negb] in *. done.
  Qed.
End steps.
