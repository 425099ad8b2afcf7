(** TreeLookup.v — lookups, bounds, positions and traversal of one tree object. *)
From Verif Require Import Base Spec SpecSeq SpecListOps SpecTreeOps Facts DList Tree SpecTree TreeRep TreeInsert TreeErase TreeIter TreeUnlink TreeApi TreeOps.
From stdpp Require Import list gmap.

Section lookup.
  Context {K V : Type}.
  Notation M := (gmap loc (tnode V)).
  Notation ctx := (list (frame V)).
  Notation cell := (loc * V)%type.
  Implicit Types (m : M) (h : theap V) (t : tobj K V) (k : ctx) (cs L R : list cell).

  Lemma filter_all {X} (p : X -> bool) l : (forall x, x ∈ l -> p x = true) -> List.filter p l = l.
  Proof. induction l as [|x l IH]; intros H; [done|]. cbn. rewrite (H x) by (by left). f_equal. apply IH. intros y Hy. apply H. by right. Qed.
  Lemma filter_none {X} (p : X -> bool) l : (forall x, x ∈ l -> p x = false) -> List.filter p l = [].
  Proof. induction l as [|x l IH]; intros H; [done|]. cbn. rewrite (H x) by (by left). apply IH. intros y Hy. apply H. by right. Qed.
  Lemma List_filter_length {X} (p : X -> bool) l : length (List.filter p l) <= length l.
  Proof. induction l as [|x l IH]; [done|]. cbn. destruct (p x); cbn; lia. Qed.
  Lemma filter_split (p : V -> bool) L R : (forall c, c ∈ L -> p c.2 = true) -> (forall c, c ∈ R -> p c.2 = false) ->
    length (List.filter p (L ++ R).*2) = length L.
  Proof.
    intros H1 H2. rewrite fmap_app, List.filter_app, (filter_all p L.*2), (filter_none p R.*2), app_nil_r; [by rewrite fmap_length| |].
    - intros x (c&->&Hc)%elem_of_list_fmap. by apply H2.
    - intros x (c&->&Hc)%elem_of_list_fmap. by apply H1.
  Qed.
  Lemma split_take (p : V -> bool) cs L R : cs = L ++ R -> (forall c, c ∈ L -> p c.2 = true) -> (forall c, c ∈ R -> p c.2 = false) ->
    L = take (length (List.filter p cs.*2)) cs /\ R = drop (length (List.filter p cs.*2)) cs.
  Proof. intros -> H1 H2. rewrite (filter_split p L R H1 H2). by rewrite take_app, drop_app. Qed.
  Lemma upper_split t a cs L R : cs = L ++ R -> (forall c, c ∈ L -> le_key t a c.2 = true) -> (forall c, c ∈ R -> le_key t a c.2 = false) ->
    L = take (upper_index (kcomp t) (kov t) a cs.*2) cs /\ R = drop (upper_index (kcomp t) (kov t) a cs.*2) cs.
  Proof. apply split_take. Qed.
  Lemma lower_split t a cs L R : cs = L ++ R -> (forall c, c ∈ L -> lt_key t a c.2 = true) -> (forall c, c ∈ R -> lt_key t a c.2 = false) ->
    L = take (lower_index (kcomp t) (kov t) a cs.*2) cs /\ R = drop (lower_index (kcomp t) (kov t) a cs.*2) cs.
  Proof. apply split_take. Qed.
  Lemma lower_le t a cs : lower_index (kcomp t) (kov t) a cs.*2 <= length cs.
  Proof. unfold lower_index. rewrite <- (fmap_length snd cs). apply List_filter_length. Qed.
  Lemma upper_le t a cs : upper_index (kcomp t) (kov t) a cs.*2 <= length cs.
  Proof. unfold upper_index. rewrite <- (fmap_length snd cs). apply List_filter_length. Qed.

  Lemma root_fuel m hd T : is_tree m hd T -> height T < tfuel m.
  Proof. intros [HR _]. pose proof (height_le T). pose proof (Rep_size _ _ _ _ _ HR). unfold tfuel. lia. Qed.
  Lemma lower_bound_ok t h cs key a : is_rbtree (mem h) t cs -> kvalued t (mem h) key a ->
    c_tree_lower_bound t h key = Ok (first_loc (hdr t) (drop (lower_index (kcomp t) (kov t) a cs.*2) cs)).
  Proof.
    intros (HW&(T&HT&<-)&_&HS) Hk. pose proof HT as [HR _]. unfold c_tree_lower_bound. rewrite (Rep_root _ _ _ _ _ HR). cbn [rbind].
    destruct (lower_loop_ok t (mem h) (hdr t) _ _ key a HW Hk T [] (tfuel (mem h)) HR HS (root_fuel _ _ _ HT) (splits_nil _)) as (k&E&Ep&H1&H2). cbn [plug] in Ep. subst T.
    rewrite cells_plug in *. cbn [cells app] in *. cbn [rcells] in E. change (first_loc (hdr t) []) with (Some (hdr t)) in E. rewrite E.
    destruct (lower_split t a _ _ _ eq_refl H1 H2) as [_ <-]. done.
  Qed.
  Lemma upper_bound_ok t h cs key a : is_rbtree (mem h) t cs -> kvalued t (mem h) key a ->
    c_tree_upper_bound t h key = Ok (first_loc (hdr t) (drop (upper_index (kcomp t) (kov t) a cs.*2) cs)).
  Proof.
    intros (HW&(T&HT&<-)&_&HS) Hk. pose proof HT as [HR _]. unfold c_tree_upper_bound. rewrite (Rep_root _ _ _ _ _ HR). cbn [rbind].
    destruct (upper_loop_ok t (mem h) (hdr t) _ _ key a HW Hk T [] (tfuel (mem h)) HR HS (root_fuel _ _ _ HT) (splits_nil _)) as (k&E&Ep&H1&H2). cbn [plug] in Ep. subst T.
    rewrite cells_plug in *. cbn [cells app] in *. cbn [rcells] in E. change (first_loc (hdr t) []) with (Some (hdr t)) in E. rewrite E.
    destruct (upper_split t a _ _ _ eq_refl H1 H2) as [_ <-]. done.
  Qed.
  Lemma equal_range_ok t h cs key a : is_rbtree (mem h) t cs -> kvalued t (mem h) key a ->
    c_tree_equal_range t h key = Ok (first_loc (hdr t) (drop (lower_index (kcomp t) (kov t) a cs.*2) cs), first_loc (hdr t) (drop (upper_index (kcomp t) (kov t) a cs.*2) cs)).
  Proof.
    intros H Hk. unfold c_tree_equal_range. rewrite (lower_bound_ok _ _ _ _ _ H Hk), (upper_bound_ok _ _ _ _ _ H Hk). done.
  Qed.
  Lemma existsb_false {X} (p : X -> bool) l : existsb p l = false <-> forall x, x ∈ l -> p x = false.
  Proof.
    split.
    - intros H x Hx. destruct (p x) eqn:E; [|done]. assert (existsb p l = true); [|congruence]. apply existsb_exists. exists x. split; [by apply elem_of_list_In|done].
    - intros H. destruct (existsb p l) eqn:E; [|done]. apply existsb_exists in E as (x&Hx&E). rewrite H in E; [done|by apply elem_of_list_In].
  Qed.
  Lemma present_false t a cs : present (kcomp t) (kov t) a cs.*2 = false <-> forall c, c ∈ cs -> eq_key t a c.2 = false.
  Proof.
    unfold present. rewrite existsb_false. split; intros H.
    - intros c Hc. apply (H c.2), elem_of_list_fmap. by exists c.
    - intros x (c&->&Hc)%elem_of_list_fmap. by apply H.
  Qed.
  Lemma present_true t a cs x w : (x, w) ∈ cs -> eq_key t a w = true -> present (kcomp t) (kov t) a cs.*2 = true.
  Proof. intros Hx Hw. unfold present. apply existsb_exists. exists w. split; [|done]. apply elem_of_list_In, elem_of_list_fmap. by exists (x, w). Qed.
  Lemma find_ok t h cs key a : is_rbtree (mem h) t cs -> kvalued t (mem h) key a ->
    (exists x w, c_tree_find t h key = Ok (Some x) /\ (x, w) ∈ cs /\ eq_key t a w = true) \/
    (c_tree_find t h key = Ok (Some (hdr t)) /\ forall c, c ∈ cs -> eq_key t a c.2 = false).
  Proof.
    intros (HW&(T&HT&<-)&Hc&HS) Hk. pose proof HT as [HR _]. unfold c_tree_find, c_tree_empty. rewrite Hc. destruct (length (cells T) =? 0) eqn:E.
    - right. split; [done|]. apply Nat.eqb_eq, nil_length_inv in E. rewrite E. intros c Hcc. by apply elem_of_nil in Hcc.
    - rewrite (Rep_root _ _ _ _ _ HR). cbn [rbind].
      apply (find_loop_ok t (mem h) _ _ key a HW Hk T [] (tfuel (mem h)) HR HS (root_fuel _ _ _ HT)).
  Qed.
  Lemma occurrences_with t a cs : occurrences t a cs = length (with_key (kcomp t) (kov t) a cs.*2).
  Proof.
    unfold occurrences, with_key, same_key, eq_key. induction cs as [|c cs IH]; [done|]. cbn.
    destruct (equivb (kcomp t) a (kov t c.2)); cbn [length]; by rewrite IH.
  Qed.
  Lemma count_ok t h cs key a : is_rbtree (mem h) t cs -> kvalued t (mem h) key a ->
    c_tree_count t h key = Ok (length (with_key (kcomp t) (kov t) a cs.*2)).
  Proof.
    intros (HW&(T&HT&<-)&Hc&HS) Hk. pose proof HT as [HR _]. unfold c_tree_count, c_tree_empty. rewrite Hc. destruct (length (cells T) =? 0) eqn:E.
    - apply Nat.eqb_eq, nil_length_inv in E. by rewrite E.
    - rewrite (Rep_root _ _ _ _ _ HR). cbn [rbind]. rewrite <- occurrences_with.
      apply (count_loop_ok t (mem h) (hdr t) _ _ key a HW Hk T [] (tfuel (mem h)) HR HS (root_fuel _ _ _ HT)).
  Qed.

  (** ** positions *)
  Lemma begin_ok t h cs : is_rbtree (mem h) t cs -> c_tree_begin t h = Ok (first_loc (hdr t) cs).
  Proof. intros (_&(T&[(Hh&_) _]&<-)&_). unfold c_tree_begin. by rewrite (left_ok _ _ _ Hh). Qed.
  Lemma increments_ok m hd T : forall es cs ds, is_tree m hd T -> cells T = cs ++ es ++ ds ->
    increments m (first_loc hd (es ++ ds)) (length es) = Ok (first_loc hd ds).
  Proof.
    induction es as [|[x a] es IH]; intros cs ds HT Hc; [done|]. cbn [length increments app]. rewrite first_loc_cons.
    rewrite (next_ok _ _ _ cs x a (es ++ ds) HT Hc). cbn [rbind]. apply (IH (cs ++ [(x, a)]) ds HT). by rewrite <- app_assoc.
  Qed.
  Lemma decrements_ok m hd T : forall es cs ds, is_tree m hd T -> cells T = cs ++ es ++ ds ->
    decrements m (first_loc hd ds) (length es) = Ok (first_loc hd (es ++ ds)).
  Proof.
    intros es. induction es as [|[x a] es IH] using rev_ind; intros cs ds HT Hc; [done|]. rewrite app_length, Nat.add_comm. cbn [length Nat.add decrements].
    rewrite <- app_assoc in *. cbn [app] in *. rewrite (prev_at m hd T (cs ++ es) x a ds HT) by by rewrite <- app_assoc. cbn [rbind].
    apply (IH cs ((x, a) :: ds) HT Hc).
  Qed.
  Lemma advance_ok t h cs i j : is_rbtree (mem h) t cs -> i <= length cs -> j <= length cs ->
    tree_advance (mem h) (first_loc (hdr t) (drop i cs)) (Z.of_nat j - Z.of_nat i) = Ok (first_loc (hdr t) (drop j cs)).
  Proof.
    intros (_&(T&HT&<-)&_) Hi Hj. unfold tree_advance. destruct (0 <? Z.of_nat j - Z.of_nat i)%Z eqn:E.
    - assert (i <= j) by lia. replace (Z.to_nat (Z.of_nat j - Z.of_nat i)) with (j - i) by lia.
      pose proof (increments_ok (mem h) (hdr t) T (take (j - i) (drop i (cells T))) (take i (cells T)) (drop j (cells T)) HT) as H'.
      assert (drop i (cells T) = take (j - i) (drop i (cells T)) ++ drop j (cells T)) as Ed.
      { rewrite <- (take_drop (j - i) (drop i (cells T))) at 1. f_equal. rewrite drop_drop. f_equal. lia. }
      rewrite <- Ed in H'. rewrite take_length, drop_length in H'. replace ((j - i) `min` (length (cells T) - i)) with (j - i) in H' by lia. apply H'.
      by rewrite take_drop.
    - assert (j <= i) by lia. replace (Z.to_nat (- (Z.of_nat j - Z.of_nat i))) with (i - j) by lia.
      pose proof (decrements_ok (mem h) (hdr t) T (take (i - j) (drop j (cells T))) (take j (cells T)) (drop i (cells T)) HT) as H'.
      assert (drop j (cells T) = take (i - j) (drop j (cells T)) ++ drop i (cells T)) as Ed.
      { rewrite <- (take_drop (i - j) (drop j (cells T))) at 1. f_equal. rewrite drop_drop. f_equal. lia. }
      rewrite <- Ed in H'. rewrite take_length, drop_length in H'. replace ((i - j) `min` (length (cells T) - j)) with (i - j) in H' by lia. apply H'.
      by rewrite take_drop.
  Qed.
  Lemma rb_walk_ok t h cs : is_rbtree (mem h) t cs -> c_tree_walk t h = Ok (prod_map Some id <$> cs).
  Proof.
    intros HB. unfold c_tree_walk. rewrite (begin_ok _ _ _ HB). cbn [rbind]. destruct HB as (_&(T&HT&<-)&_).
    pose proof (walk_ok (mem h) (hdr t) T [] (cells T) [] (tfuel (mem h)) HT) as H. rewrite app_nil_r in H. apply H; [done|].
    pose proof (is_tree_size _ _ _ HT). unfold tfuel. lia.
  Qed.
  Lemma rb_rtraverse_ok t h cs : is_rbtree (mem h) t cs -> c_tree_rtraverse t h = Ok (rev cs.*2).
  Proof.
    intros HB. unfold c_tree_rtraverse, c_tree_rend. pose proof (begin_ok _ _ _ HB) as Hb. unfold c_tree_begin in Hb. rewrite Hb. cbn [rbind].
    destruct HB as (_&(T&HT&<-)&_).
    pose proof (rwalk_ok (mem h) (hdr t) T [] (cells T) [] (tfuel (mem h)) HT) as H. rewrite app_nil_r in H. apply H; [done|].
    pose proof (is_tree_size _ _ _ HT). unfold tfuel. lia.
  Qed.
  Lemma rb_distance_ok t h cs i j : is_rbtree (mem h) t cs -> i <= j <= length cs ->
    tree_distance (mem h) (first_loc (hdr t) (drop i cs)) (first_loc (hdr t) (drop j cs)) = Ok (j - i).
  Proof.
    intros (_&(T&HT&<-)&_) Hij.
    assert (drop i (cells T) = take (j - i) (drop i (cells T)) ++ drop j (cells T)) as Ed.
    { rewrite <- (take_drop (j - i) (drop i (cells T))) at 1. f_equal. rewrite drop_drop. f_equal. lia. }
    unfold tree_distance. rewrite Ed. rewrite (distance_ok (mem h) (hdr t) T (take i (cells T))); [|done|by rewrite <- Ed, take_drop|].
    - f_equal. rewrite take_length, drop_length. lia.
    - rewrite take_length, drop_length. pose proof (is_tree_size _ _ _ HT). unfold tfuel. lia.
  Qed.
End lookup.
