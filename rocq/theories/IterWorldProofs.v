(** IterWorldProofs.v — the iterators of every container behave as [view] (IterFlat.v) demands. *)
From stdpp Require Import list gmap.
From Verif Require Import Base Spec Iter IterFlat Buffer Path Vector Deque DList SpecList Slist SpecSlist Tree SpecTree TreeIter
  DListProofs SlistProofs VectorProofs DequeProofs IterWorld SpecIter.
From stdpp Require Import list.

(** ** Chains: positions each of which leads to the next *)
Section chain.
  Context {X : Type} `{EqDecision X} (step : X -> res X).
  Definition chain (xs : list X) : Prop := forall i x y, xs !! i = Some x -> xs !! S i = Some y -> step x = Ok y.
  Definition rchain (xs : list X) : Prop := forall i x y, xs !! i = Some x -> xs !! S i = Some y -> step y = Ok x.
  Lemma chain_reverse xs : rchain xs -> chain (reverse xs).
  Proof.
    intros H i x y Hx Hy. pose proof (lookup_lt_Some _ _ _ Hy) as Hl. rewrite reverse_length in Hl.
    rewrite reverse_lookup in Hx by lia. rewrite reverse_lookup in Hy by lia.
    apply (H (length xs - S (S i))); [done|]. rewrite <- Hx. f_equal. lia.
  Qed.
  Lemma rchain_reverse xs : chain xs -> rchain (reverse xs).
  Proof.
    intros H i x y Hx Hy. pose proof (lookup_lt_Some _ _ _ Hy) as Hl. rewrite reverse_length in Hl.
    rewrite reverse_lookup in Hx by lia. rewrite reverse_lookup in Hy by lia.
    apply (H (length xs - S (S i))); [done|]. rewrite <- Hx. f_equal. lia.
  Qed.
  (** moving [n] times *)
  Lemma many_ok (many : X -> nat -> res X) xs :
    (forall x, many x 0 = Ok x) -> (forall x n, many x (S n) = do y <- step x; many y n) ->
    chain xs -> forall n i x y, xs !! i = Some x -> xs !! (i + n) = Some y -> many x n = Ok y.
  Proof.
    intros E0 ES H n. induction n as [|n IH]; intros i x y Hx Hy.
    - rewrite Nat.add_0_r in Hy. rewrite E0. congruence.
    - destruct (lookup_lt_is_Some_2 xs (S i)) as [z Hz]. { apply lookup_lt_Some in Hy. lia. }
      rewrite ES, (H i x z) by done. cbn [rbind]. apply (IH (S i)); [done|]. rewrite <- Hy. f_equal. lia.
  Qed.
  Lemma rmany_ok (many : X -> nat -> res X) xs :
    (forall x, many x 0 = Ok x) -> (forall x n, many x (S n) = do y <- step x; many y n) ->
    rchain xs -> forall n i x y, xs !! i = Some x -> xs !! (i + n) = Some y -> many y n = Ok x.
  Proof.
    intros E0 ES H n. induction n as [|n IH]; intros i x y Hx Hy.
    - rewrite Nat.add_0_r in Hy. rewrite E0. congruence.
    - destruct (lookup_lt_is_Some_2 xs (i + n)) as [z Hz]. { apply lookup_lt_Some in Hy. lia. }
      rewrite ES, (H (i + n) z y); [|done|rewrite <- Hy; f_equal; lia]. cbn [rbind]. by apply (IH i).
  Qed.
  (** counting the moves *)
  Lemma dist_ok (dist : nat -> X -> X -> res nat) xs :
    (forall f x y, dist (S f) x y = if decide (x = y) then Ok 0 else do z <- step x; do n <- dist f z y; Ok (S n)) ->
    NoDup xs -> chain xs ->
    forall n f i x y, n < f -> xs !! i = Some x -> xs !! (i + n) = Some y -> dist f x y = Ok n.
  Proof.
    intros ES Hnd H n. induction n as [|n IH]; intros [|f] i x y Hf Hx Hy; try lia; rewrite ES.
    - rewrite Nat.add_0_r in Hy. rewrite decide_True by congruence. done.
    - rewrite decide_False.
      2:{ intros ->. pose proof (NoDup_lookup _ _ _ _ Hnd Hx Hy). lia. }
      destruct (lookup_lt_is_Some_2 xs (S i)) as [z Hz]. { apply lookup_lt_Some in Hy. lia. }
      rewrite (H i x z) by done. cbn [rbind]. rewrite (IH f (S i) z y); [done|lia|done|]. rewrite <- Hy. f_equal. lia.
  Qed.
End chain.

(** [snoc] of the nodes: the value at an index, the next node *)
Lemma fst_app_lookup {X Y} (cs : list (X * Y)) (e : X) i x a : cs !! i = Some (x, a) -> (cs.*1 ++ [e]) !! i = Some x.
Proof. intros H. rewrite lookup_app_l; [by rewrite list_lookup_fmap, H|]. rewrite fmap_length. by eapply lookup_lt_Some. Qed.

(** ** What one container guarantees *)
Record sview {A} {CK : Checked} (M : cmem A) (c : cont) (ps : list cpos) (vs : list A) : Prop := SView {
  s_len : length ps = S (length vs);
  s_kind : Forall (fun p => ckind p = kind_of c) ps;
  s_inc : forall o p p', ps !! o = Some p -> ps !! S o = Some p' -> c_inc M p = Ok p';
  s_dec : BIDIRECTION <= cat_of c -> forall o p p', ps !! o = Some p -> ps !! S o = Some p' -> c_dec M p' = Ok p;
  s_adv : forall o o' p p', o <= o' \/ BIDIRECTION <= cat_of c -> ps !! o = Some p -> ps !! o' = Some p' ->
    c_adv M p (Z.of_nat o' - Z.of_nat o) = Ok p';
  s_dist : forall o o' p p', o <= o' -> ps !! o = Some p -> ps !! o' = Some p' ->
    c_dist M p p' = Ok (Z.of_nat o' - Z.of_nat o)%Z;
  s_eq : forall o o' p p', ps !! o = Some p -> ps !! o' = Some p' -> c_eq p p' = Ok (o =? o');
  s_less : RANDOM <= cat_of c -> forall o o' p p', ps !! o = Some p -> ps !! o' = Some p' -> c_less p p' = Ok (o <? o');
  s_deref : forall o p v, ps !! o = Some p -> vs !! o = Some v -> c_deref M p = Ok v;
}.

(** category from kind *)
Definition cat_of_kind (k : nat) : nat :=
  match k with 0 => FORWARD | 1 | 2 => BIDIRECTION | 3 | 4 | 5 | 6 => RANDOM | _ => BIDIRECTION end.
Lemma ccat_kind p : ccat p = cat_of_kind (ckind p).
Proof. destruct p as [[]| |[] []|[]]; reflexivity. Qed.
Lemma cat_kind c : cat_of c = cat_of_kind (kind_of c).
Proof. destruct c as [[]| |[] []|[]|p]; try reflexivity. apply ccat_kind. Qed.

Lemma dir_length {X} r (l : list X) : length (dir r l) = length l.
Proof. destruct r; [apply reverse_length|done]. Qed.
Lemma dir_fmap {X Y} (f : X -> Y) r l : f <$> dir r l = dir r (f <$> l).
Proof. destruct r; [apply fmap_reverse|done]. Qed.
Lemma fmap_lookup_Some {X Y} (f : X -> Y) (l : list X) i y : (f <$> l) !! i = Some y -> exists x, l !! i = Some x /\ y = f x.
Proof. rewrite list_lookup_fmap. destruct (l !! i); [|done]. intros [= <-]. eauto. Qed.
Lemma kind_all {X} (f : X -> cpos) k (xs : list X) : (forall x, ckind (f x) = k) -> Forall (fun p => ckind p = k) (f <$> xs).
Proof. intros H. apply Forall_fmap. by apply Forall_true. Qed.
Lemma eq_at {X} `{EqDecision X} (xs : list X) o o' x x' : NoDup xs -> xs !! o = Some x -> xs !! o' = Some x' ->
  bool_decide (x = x') = (o =? o').
Proof.
  intros Hnd H1 H2. destruct (Nat.eqb_spec o o') as [->|Hne].
  - apply bool_decide_eq_true. congruence.
  - apply bool_decide_eq_false. intros ->. apply Hne. by eapply NoDup_lookup.
Qed.

(** ** Linked containers, in either direction *)
Section linked.
  Context {A X : Type} {CK : Checked} `{EqDecision X} (M : cmem A) (c : cont) (mk : X -> cpos) (xs : list X) (vs : list A)
    (fwd bwd : X -> res X) (dist : nat -> X -> X -> res nat) (fuel : nat).
  Lemma linked_view (many many' : X -> nat -> res X) :
    length xs = S (length vs) -> NoDup xs -> chain fwd xs -> (BIDIRECTION <= cat_of c -> rchain bwd xs) ->
    (forall x, ckind (mk x) = kind_of c) -> cat_of c < RANDOM ->
    (forall x, c_inc M (mk x) = do y <- fwd x; Ok (mk y)) ->
    (BIDIRECTION <= cat_of c -> forall x, c_dec M (mk x) = do y <- bwd x; Ok (mk y)) ->
    (forall x n, (0 <= n)%Z -> c_adv M (mk x) n = do y <- many x (Z.to_nat n); Ok (mk y)) ->
    (BIDIRECTION <= cat_of c -> forall x n, (n < 0)%Z -> c_adv M (mk x) n = do y <- many' x (Z.to_nat (- n)); Ok (mk y)) ->
    (forall x y, c_dist M (mk x) (mk y) = do n <- dist fuel x y; Ok (Z.of_nat n)) ->
    (forall x y, c_eq (mk x) (mk y) = Ok (bool_decide (x = y))) ->
    (forall x, many x 0 = Ok x) -> (forall x n, many x (S n) = do y <- fwd x; many y n) ->
    (forall x, many' x 0 = Ok x) -> (forall x n, many' x (S n) = do y <- bwd x; many' y n) ->
    (forall f x y, dist (S f) x y = if decide (x = y) then Ok 0 else do z <- fwd x; do n <- dist f z y; Ok (S n)) ->
    length xs <= fuel ->
    (forall o x v, xs !! o = Some x -> vs !! o = Some v -> c_deref M (mk x) = Ok v) ->
    sview M c (mk <$> xs) vs.
  Proof.
    intros Hl Hnd Hf Hb Hk Hc Hinc Hdec Hadv Hadv' Hdist Heq Hm0 HmS Hm0' HmS' HdS Hfu Hd. split.
    - by rewrite fmap_length.
    - by apply kind_all.
    - intros o p p' (x&Hx&->)%fmap_lookup_Some (y&Hy&->)%fmap_lookup_Some. rewrite Hinc. by rewrite (Hf _ _ _ Hx Hy).
    - intros Hbi o p p' (x&Hx&->)%fmap_lookup_Some (y&Hy&->)%fmap_lookup_Some. rewrite Hdec by done.
      by rewrite (Hb Hbi _ _ _ Hx Hy).
    - intros o o' p p' Ho (x&Hx&->)%fmap_lookup_Some (y&Hy&->)%fmap_lookup_Some.
      destruct (decide (o <= o')) as [Hle|Hgt].
      + rewrite Hadv by lia. rewrite (many_ok fwd many xs Hm0 HmS Hf _ o x y); [done|done|].
        rewrite <- Hy. f_equal. lia.
      + assert (BIDIRECTION <= cat_of c) as Hbi by (destruct Ho; [lia|done]).
        rewrite Hadv' by (done || lia).
        rewrite (rmany_ok bwd many' xs Hm0' HmS' (Hb Hbi) _ o' y x); [done|done|].
        rewrite <- Hx. f_equal. lia.
    - intros o o' p p' Ho (x&Hx&->)%fmap_lookup_Some (y&Hy&->)%fmap_lookup_Some. rewrite Hdist.
      rewrite (dist_ok fwd dist xs HdS Hnd Hf (o' - o) fuel o x y).
      + cbn [rbind]. f_equal. lia.
      + apply lookup_lt_Some in Hy. lia.
      + done.
      + rewrite <- Hy. f_equal. lia.
    - intros o o' p p' (x&Hx&->)%fmap_lookup_Some (y&Hy&->)%fmap_lookup_Some. rewrite Heq. f_equal. by eapply eq_at.
    - intros Hr. lia.
    - intros o p v (x&Hx&->)%fmap_lookup_Some Hv. by eapply Hd.
  Qed.
End linked.

Section lists.
  Context {A : Type} {CK : Checked}.
  Implicit Types (h : heap A) (M : cmem A).
  Lemma list_chain h l cs : is_list h l cs -> chain (next h) (cs.*1 ++ [l]) /\ rchain (prev h) (cs.*1 ++ [l]).
  Proof.
    intros (_&Hp&_&_). unfold nodes in Hp. destruct Hp as (_&_&Hp).
    split; intros i x y Hx Hy; revert i x y Hx Hy; induction cs as [|[z a] cs IH]; intros i x y Hx Hy; cbn in Hx, Hy.
    - by destruct i.
    - cbn in Hp. destruct Hp as (H1&H2&H3). destruct i as [|i]; cbn in Hx, Hy; [|by eapply IH].
      injection Hx as <-. unfold next. rewrite H1. f_equal. destruct cs as [|[w b] cs]; cbn in *; congruence.
    - by destruct i.
    - cbn in Hp. destruct Hp as (H1&H2&H3). destruct i as [|i]; cbn in Hx, Hy; [|by eapply IH].
      injection Hx as <-. unfold prev. assert (y = hd l cs.*1) as ->.
      { destruct cs as [|[w b] cs]; cbn in *; congruence. }
      by rewrite H2.
  Qed.
  Lemma list_nodup h l cs : is_list h l cs -> NoDup (cs.*1 ++ [l]).
  Proof. intros (H&_). unfold nodes in H. rewrite Permutation_app_comm. done. Qed.
  Lemma list_fuel h l cs : is_list h l cs -> length (cs.*1 ++ [l]) <= fuel_of h.
  Proof.
    intros (Hnd&_&H1&H2). unfold fuel_of. rewrite app_length, fmap_length. cbn [length].
    enough (length (nodes l cs) <= size (vl h)) as E.
    { unfold nodes in E. cbn [length] in E. rewrite fmap_length in E. lia. }
    rewrite <- size_dom. rewrite <- (size_list_to_set (C := gset loc) (nodes l cs)) by done. apply subseteq_size.
    intros x Hx. apply elem_of_list_to_set in Hx. apply elem_of_dom. unfold nodes in Hx.
    apply elem_of_cons in Hx as [->|Hx]; [by rewrite H1|].
    apply elem_of_list_fmap in Hx as (cc&->&Hc). rewrite Forall_forall in H2. by rewrite (H2 _ Hc).
  Qed.
  Lemma list_value h l cs i x a : is_list h l cs -> cs !! i = Some (x, a) -> value h x = Ok a.
  Proof. intros (_&_&_&H) Hi. apply (Forall_lookup_1 _ _ _ _ H) in Hi. unfold value. cbn in Hi. by rewrite Hi. Qed.
  Lemma snd_lookup {X Y} (cs : list (X * Y)) i (a : Y) : cs.*2 !! i = Some a -> exists x, cs !! i = Some (x, a).
  Proof. rewrite list_lookup_fmap. destruct (cs !! i) as [[x b]|]; [|done]. intros [= ->]. eauto. Qed.
  Lemma reverse_lookup_Some2 {X} (l : list X) i x : reverse l !! i = Some x -> i < length l /\ l !! (length l - S i) = Some x.
  Proof.
    intros H. pose proof (lookup_lt_Some _ _ _ H) as Hl. rewrite reverse_length in Hl. by rewrite reverse_lookup in H.
  Qed.

  Lemma list_view M r l cs : is_list (m_list M) l cs ->
    sview M (CList r l) (PList r <$> dir r (cs.*1 ++ [l])) (dir r (cs.*2)).
  Proof.
    intros HL. pose proof (list_chain _ _ _ HL) as [Hf Hb]. pose proof (list_nodup _ _ _ HL) as Hnd.
    pose proof (list_fuel _ _ _ HL) as Hfu. destruct r; cbn [dir].
    - apply linked_view with (fwd := prev (m_list M)) (bwd := next (m_list M))
        (dist := fun f => reverse_distance f (m_list M)) (fuel := fuel_of (m_list M))
        (many := prevs (m_list M)) (many' := nexts (m_list M)); try done.
      + rewrite !reverse_length, app_length, !fmap_length. cbn. lia.
      + by rewrite reverse_Permutation.
      + by apply chain_reverse.
      + intros _. by apply rchain_reverse.
      + cbn. unfold RANDOM, BIDIRECTION. lia.
      + intros x n Hn. cbn [c_adv]. unfold reverse_iter_advance. destruct (0 <? n)%Z eqn:E; [done|].
        apply Z.ltb_ge in E. assert (n = 0%Z) as -> by lia. done.
      + intros _ x n Hn. cbn [c_adv]. unfold reverse_iter_advance. by rewrite (proj2 (Z.ltb_ge _ _)) by lia.
      + intros x y. cbn [c_eq]. f_equal. by apply bool_decide_ext; naive_solver.
      + by rewrite reverse_length.
      + intros o x v [Hlt Hx]%reverse_lookup_Some2 [Hlt' Hv]%reverse_lookup_Some2.
        rewrite app_length in Hx, Hlt. rewrite fmap_length in Hx, Hlt. rewrite fmap_length in Hv, Hlt'. cbn [length] in Hx, Hlt.
        apply snd_lookup in Hv as (y&Hy). cbn [c_deref]. unfold reverse_iter_dereference.
        rewrite (Hb (length cs - S o) y x).
        * cbn [rbind]. by eapply list_value.
        * by eapply fst_app_lookup.
        * rewrite <- Hx. f_equal. lia.
    - apply linked_view with (fwd := next (m_list M)) (bwd := prev (m_list M))
        (dist := fun f => distance f (m_list M)) (fuel := fuel_of (m_list M))
        (many := nexts (m_list M)) (many' := prevs (m_list M)); try done.
      + rewrite app_length, !fmap_length. cbn. lia.
      + cbn. unfold RANDOM, BIDIRECTION. lia.
      + intros x n Hn. cbn [c_adv]. unfold iter_advance. destruct (0 <? n)%Z eqn:E; [done|].
        apply Z.ltb_ge in E. assert (n = 0%Z) as -> by lia. done.
      + intros _ x n Hn. cbn [c_adv]. unfold iter_advance. by rewrite (proj2 (Z.ltb_ge _ _)) by lia.
      + intros x y. cbn [c_eq]. f_equal. by apply bool_decide_ext; naive_solver.
      + intros o x v Hx Hv. apply snd_lookup in Hv as (y&Hy). cbn [c_deref].
        rewrite (fst_app_lookup cs l o y v Hy) in Hx. injection Hx as <-. by eapply list_value.
  Qed.
End lists.

Section slists.
  Context {A : Type} {CK : Checked}.
  Implicit Types (h : sheap A) (M : cmem A).
  Lemma slist_chain h l cs : is_slist h l cs -> chain (snext h) (cs.*1 ++ [l.2]).
  Proof.
    intros (_&Hp&_). destruct Hp as (_&Hp). intros i x y Hx Hy; revert i x y Hx Hy.
    induction cs as [|[z a] cs IH]; intros i x y Hx Hy; cbn in Hx, Hy; [by destruct i|].
    cbn in Hp. destruct Hp as (H1&H3). destruct i as [|i]; cbn in Hx, Hy; [|by eapply IH].
    injection Hx as <-. unfold snext. rewrite H1. f_equal. destruct cs as [|[w b] cs]; cbn in *; congruence.
  Qed.
  Lemma slist_nodup h l cs : is_slist h l cs -> NoDup (cs.*1 ++ [l.2]).
  Proof. intros (H&_). unfold snodes in H. rewrite Permutation_app_comm. by apply NoDup_cons in H as [_ H]. Qed.
  Lemma slist_view M l cs : is_slist (m_slist M) l cs -> sview M (CSlist l) (PSlist <$> cs.*1 ++ [l.2]) (cs.*2).
  Proof.
    intros HL. pose proof (slist_chain _ _ _ HL) as Hf. pose proof (slist_nodup _ _ _ HL) as Hnd.
    apply linked_view with (fwd := snext (m_slist M)) (bwd := fun x => Ok x)
        (dist := fun f => sdistance f (m_slist M)) (fuel := sfuel (m_slist M))
        (many := snexts (m_slist M)) (many' := fun x n => Ok x); try done.
    - rewrite app_length, !fmap_length. cbn. lia.
    - cbn. unfold BIDIRECTION, FORWARD. lia.
    - cbn. unfold RANDOM, FORWARD. lia.
    - cbn. unfold BIDIRECTION, FORWARD. lia.
    - cbn. unfold BIDIRECTION, FORWARD. lia.
    - pose proof (sfuel_enough _ _ _ HL) as E. rewrite app_length, fmap_length. cbn in *. lia.
    - intros o x v Hx Hv. apply snd_lookup in Hv as (y&Hy). cbn [c_deref].
      rewrite (fst_app_lookup cs l.2 o y v Hy) in Hx. injection Hx as <-.
      destruct HL as (_&_&_&_&H). apply (Forall_lookup_1 _ _ _ _ H) in Hy. unfold svalue. cbn in Hy. by rewrite Hy.
  Qed.
End slists.

Section trees.
  Context {A : Type} {CK : Checked}.
  Implicit Types (m : gmap loc (tnode A)) (M : cmem A).
  Lemma first_loc_at hd (cs : list (loc * A)) i y : ((Some <$> cs.*1) ++ [Some hd]) !! i = Some y -> y = first_loc hd (drop i cs).
  Proof.
    revert i. induction cs as [|[x a] cs IH]; intros i; cbn.
    - destruct i as [|i]; [by intros [= <-]|by destruct i].
    - destruct i as [|i]; [by intros [= <-]|]. apply IH.
  Qed.
  Lemma tree_chain m hd cs : holds m hd cs ->
    chain (increment m) ((Some <$> cs.*1) ++ [Some hd]) /\ rchain (decrement m) ((Some <$> cs.*1) ++ [Some hd]).
  Proof.
    intros (T&HT&Hcs).
    assert (forall i y, ((Some <$> cs.*1) ++ [Some hd]) !! S i = Some y ->
      exists x a, cs !! i = Some (x, a) /\ y = first_loc hd (drop (S i) cs)) as Hnext.
    { intros i y Hy. destruct (lookup_lt_is_Some_2 cs i) as [[x a] Hx].
      { apply lookup_lt_Some in Hy. rewrite app_length, !fmap_length in Hy. cbn in Hy. lia. }
      exists x, a. split; [done|]. by apply first_loc_at. }
    assert (forall i x a z, cs !! i = Some (x, a) -> ((Some <$> cs.*1) ++ [Some hd]) !! i = Some z -> z = Some x) as Hat.
    { intros i x a z Hx Hz. rewrite lookup_app_l in Hz by (rewrite !fmap_length; by eapply lookup_lt_Some).
      rewrite !list_lookup_fmap, Hx in Hz. by injection Hz. }
    split; intros i z y Hz Hy; destruct (Hnext _ _ Hy) as (x&a&Hx&->); rewrite (Hat _ _ _ _ Hx Hz).
    - eapply (next_ok m hd T (take i cs) x a); [done|]. rewrite Hcs. symmetry. by apply take_drop_middle.
    - eapply (TreeIter.prev_at m hd T (take i cs) x a); [done|]. rewrite Hcs. symmetry. by apply take_drop_middle.
  Qed.
  Lemma tree_nodup m hd cs : holds m hd cs -> NoDup ((Some <$> cs.*1) ++ [Some hd]).
  Proof.
    intros (T&HT&<-). apply is_tree_ND in HT. rewrite Permutation_app_comm.
    change (NoDup (Some <$> hd :: locs T)). apply NoDup_fmap_2; [apply _|done].
  Qed.
  Lemma tree_fuel m hd cs : holds m hd cs -> length ((Some <$> cs.*1) ++ [Some hd]) <= tfuel m.
  Proof.
    intros (T&HT&<-). apply is_tree_size in HT. rewrite app_length, !fmap_length. cbn [length]. unfold tfuel. lia.
  Qed.
  Lemma tree_value m hd cs i x a : holds m hd cs -> cs !! i = Some (x, a) -> valof m (Some x) = Ok a.
  Proof. intros (T&HT&<-) Hx. eapply val_ok; [exact HT|]. by eapply elem_of_list_lookup_2. Qed.
  Lemma tree_view M r hd cs : holds (mem (m_tree M)) hd cs ->
    sview M (CTree r hd) (PTree r <$> dir r ((Some <$> cs.*1) ++ [Some hd])) (dir r (cs.*2)).
  Proof.
    intros HL. pose proof (tree_chain _ _ _ HL) as [Hf Hb]. pose proof (tree_nodup _ _ _ HL) as Hnd.
    pose proof (tree_fuel _ _ _ HL) as Hfu. set (m := mem (m_tree M)) in *. destruct r; cbn [dir].
    - apply linked_view with (fwd := decrement m) (bwd := increment m)
        (dist := fun f => reverse_distance_loop f m) (fuel := tfuel m)
        (many := decrements m) (many' := increments m); try done.
      + rewrite !reverse_length, app_length, !fmap_length. cbn. lia.
      + by rewrite reverse_Permutation.
      + by apply chain_reverse.
      + intros _. by apply rchain_reverse.
      + cbn. unfold RANDOM, BIDIRECTION. lia.
      + intros x n Hn. cbn [c_adv]. fold m. unfold tree_reverse_advance. destruct (0 <? n)%Z eqn:E; [done|].
        apply Z.ltb_ge in E. assert (n = 0%Z) as -> by lia. done.
      + intros _ x n Hn. cbn [c_adv]. fold m. unfold tree_reverse_advance. by rewrite (proj2 (Z.ltb_ge _ _)) by lia.
      + intros x y. cbn [c_eq]. f_equal. by apply bool_decide_ext; naive_solver.
      + by rewrite reverse_length.
      + intros o x v [Hlt Hx]%reverse_lookup_Some2 [Hlt' Hv]%reverse_lookup_Some2.
        rewrite app_length in Hx, Hlt. rewrite !fmap_length in Hx, Hlt. rewrite fmap_length in Hv, Hlt'. cbn [length] in Hx, Hlt.
        apply snd_lookup in Hv as (y&Hy). cbn [c_deref]. fold m. unfold tree_reverse_deref.
        rewrite (Hb (length cs - S o) (Some y) x).
        * cbn [rbind]. by eapply tree_value.
        * rewrite lookup_app_l by (rewrite !fmap_length; by eapply lookup_lt_Some). by rewrite !list_lookup_fmap, Hy.
        * rewrite <- Hx. f_equal. lia.
    - apply linked_view with (fwd := increment m) (bwd := decrement m)
        (dist := fun f => distance_loop f m) (fuel := tfuel m)
        (many := increments m) (many' := decrements m); try done.
      + rewrite app_length, !fmap_length. cbn. lia.
      + cbn. unfold RANDOM, BIDIRECTION. lia.
      + intros x n Hn. cbn [c_adv]. fold m. unfold tree_advance. destruct (0 <? n)%Z eqn:E; [done|].
        apply Z.ltb_ge in E. assert (n = 0%Z) as -> by lia. done.
      + intros _ x n Hn. cbn [c_adv]. fold m. unfold tree_advance. by rewrite (proj2 (Z.ltb_ge _ _)) by lia.
      + intros x y. cbn [c_eq]. f_equal. by apply bool_decide_ext; naive_solver.
      + intros o x v Hx Hv. apply snd_lookup in Hv as (y&Hy). cbn [c_deref]. fold m.
        rewrite lookup_app_l in Hx by (rewrite !fmap_length; by eapply lookup_lt_Some).
        rewrite !list_lookup_fmap, Hy in Hx. injection Hx as <-. by eapply tree_value.
  Qed.
End trees.

Section blocks.
  Context {A : Type} {CK : Checked}.
  Implicit Types (M : cmem A).
  Lemma slot_add_ok M d v b i j n : IterWorld.block M d v = Ok b -> (j = i + n)%Z -> (0 <= j <= Z.of_nat (length b))%Z ->
    slot_add M d v i n = Ok j.
  Proof.
    intros Hb -> Hj. unfold slot_add. destruct (Z.eqb_spec n 0) as [->|_]; [f_equal; lia|]. destruct checked; [|done].
    rewrite Hb. cbn [rbind]. by rewrite !(proj2 (Z.leb_le _ _)) by lia.
  Qed.
  Lemma dir_seq r s n o i : dir r (Z.of_nat <$> seq s (S n)) !! o = Some i ->
    o <= n /\ i = Z.of_nat (if r then s + n - o else s + o).
  Proof.
    destruct r; cbn [dir]; intros H.
    - apply reverse_lookup_Some2 in H as [H1 H2]. rewrite fmap_length, seq_length in *.
      apply fmap_lookup_Some in H2 as (k&H2&->). apply lookup_seq in H2 as [-> H2]. lia.
    - apply fmap_lookup_Some in H as (k&H&->). apply lookup_seq in H as [-> H]. lia.
  Qed.
  Lemma get_slot_ok M d v b i j a : IterWorld.block M d v = Ok b -> i = Z.of_nat j -> b !! j = Some (Some a) -> get_slot M d v i = Ok a.
  Proof.
    intros Hb -> Hj. unfold get_slot. rewrite Hb. cbn [rbind]. rewrite (proj2 (Z.leb_le _ _)) by lia. rewrite Nat2Z.id.
    unfold Buffer.get. by rewrite Hj.
  Qed.
  (** a view of a block whose slots from [s] hold [us] *)
  Lemma blk_view M d r v s us b :
    IterWorld.block M d v = Ok b -> s + length us <= length b -> (forall o u, us !! o = Some u -> b !! (s + o) = Some (Some u)) ->
    sview M (CBlk d r v) (PBlk d r v <$> dir r (Z.of_nat <$> seq s (S (length us)))) (dir r us).
  Proof.
    intros Hb Hle Hu. split.
    - by rewrite fmap_length, !dir_length, fmap_length, seq_length.
    - apply kind_all. intros i. by destruct d.
    - intros o p p' (i&Hi&->)%fmap_lookup_Some (j&Hj&->)%fmap_lookup_Some.
      apply dir_seq in Hi as [Ho Hi]. apply dir_seq in Hj as [Ho' Hj]. destruct r; cbn [c_inc].
      + by rewrite (slot_add_ok M d v b i j _ Hb) by lia.
      + by rewrite (slot_add_ok M d v b i j _ Hb) by lia.
    - intros _ o p p' (i&Hi&->)%fmap_lookup_Some (j&Hj&->)%fmap_lookup_Some.
      apply dir_seq in Hi as [Ho Hi]. apply dir_seq in Hj as [Ho' Hj]. destruct r; cbn [c_dec].
      + by rewrite (slot_add_ok M d v b j i _ Hb) by lia.
      + by rewrite (slot_add_ok M d v b j i _ Hb) by lia.
    - intros o o' p p' _ (i&Hi&->)%fmap_lookup_Some (j&Hj&->)%fmap_lookup_Some.
      apply dir_seq in Hi as [Ho Hi]. apply dir_seq in Hj as [Ho' Hj]. destruct r; cbn [c_adv].
      + by rewrite (slot_add_ok M d v b i j _ Hb) by lia.
      + by rewrite (slot_add_ok M d v b i j _ Hb) by lia.
    - intros o o' p p' Hoo (i&Hi&->)%fmap_lookup_Some (j&Hj&->)%fmap_lookup_Some.
      apply dir_seq in Hi as [Ho Hi]. apply dir_seq in Hj as [Ho' Hj]. cbn [c_dist].
      rewrite bool_decide_eq_true_2 by done. rewrite Nat.eqb_refl. destruct r.
      + rewrite (proj2 (Z.leb_le _ _)) by lia. f_equal. lia.
      + rewrite (proj2 (Z.leb_le _ _)) by lia. f_equal. lia.
    - intros o o' p p' (i&Hi&->)%fmap_lookup_Some (j&Hj&->)%fmap_lookup_Some.
      apply dir_seq in Hi as [Ho Hi]. apply dir_seq in Hj as [Ho' Hj]. cbn [c_eq].
      rewrite bool_decide_eq_true_2 by done. rewrite Nat.eqb_refl. f_equal.
      destruct r, (Z.eqb_spec i j), (Nat.eqb_spec o o'); lia.
    - intros _ o o' p p' (i&Hi&->)%fmap_lookup_Some (j&Hj&->)%fmap_lookup_Some.
      apply dir_seq in Hi as [Ho Hi]. apply dir_seq in Hj as [Ho' Hj]. cbn [c_less].
      rewrite bool_decide_eq_true_2 by done. rewrite Nat.eqb_refl. f_equal.
      destruct r.
      + destruct (Z.ltb_spec j i), (Nat.ltb_spec o o'); lia.
      + destruct (Z.ltb_spec i j), (Nat.ltb_spec o o'); lia.
    - intros o p u (i&Hi&->)%fmap_lookup_Some Hv. apply dir_seq in Hi as [Ho Hi]. destruct r; cbn [dir c_deref] in *.
      + apply reverse_lookup_Some2 in Hv as [Hlt Hv]. eapply (get_slot_ok _ _ _ _ _ (s + (length us - S o)) _ Hb); [lia|]. by apply Hu.
      + eapply (get_slot_ok _ _ _ _ _ (s + o) _ Hb); [lia|]. by apply Hu.
  Qed.
  Lemma shows_view M c ps vs : shows M c ps vs -> sview M c ps vs.
  Proof.
    destruct c as [r l|l|[] r v|r hd|p]; cbn [shows].
    - intros (cs&HL&->&->). by apply list_view.
    - intros (cs&HL&->&->). by apply slist_view.
    - intros (d&us&Hv&(pp&rr&Hb&Hs&_)&->&->). eapply blk_view.
      + cbn [IterWorld.block]. by rewrite Hv.
      + rewrite Hb, Hs, !app_length, map_length. lia.
      + intros o u Hu. rewrite Hb, Hs. rewrite lookup_app_r by lia. rewrite lookup_app_l.
        2:{ rewrite map_length. apply lookup_lt_Some in Hu. lia. }
        replace (length pp + o - length pp) with o by lia. change (map Some us) with (Some <$> us).
        by rewrite list_lookup_fmap, Hu.
    - intros (x&us&Hv&(rr&Hb&_)&->&->). eapply blk_view.
      + cbn [IterWorld.block]. by rewrite Hv.
      + rewrite Hb, !app_length, map_length. lia.
      + intros o u Hu. rewrite Hb. rewrite lookup_app_l.
        2:{ rewrite map_length. apply lookup_lt_Some in Hu. lia. }
        change (map Some us) with (Some <$> us). cbn [plus]. by rewrite list_lookup_fmap, Hu.
    - intros (cs&HL&->&->). by apply tree_view.
    - intros (->&->). split.
      + done.
      + by apply Forall_singleton.
      + intros o p1 p' H1 H2. by destruct o.
      + intros _ o p1 p' H1 H2. by destruct o.
      + intros o o' p1 p' _ H1 H2. destruct o as [|o]; [|by destruct o]. destruct o' as [|o']; [|by destruct o'].
        injection H1 as <-. injection H2 as <-. change (Z.of_nat 0 - Z.of_nat 0)%Z with 0%Z.
        destruct p as [[]| |[] [] v i|[]]; done.
      + intros o o' p1 p' _ H1 H2. destruct o as [|o]; [|by destruct o]. destruct o' as [|o']; [|by destruct o'].
        injection H1 as <-. injection H2 as <-. change (Z.of_nat 0 - Z.of_nat 0)%Z with 0%Z.
        destruct p as [[] x|x|[] [] v i|[] x]; cbn [c_dist].
        all: rewrite ?bool_decide_eq_true_2, ?Nat.eqb_refl, ?Z.leb_refl, ?Z.sub_diag by done; try done.
        * unfold fuel_of. cbn [reverse_distance]. by rewrite decide_True.
        * unfold fuel_of. cbn [distance]. by rewrite decide_True.
        * unfold sfuel. cbn [sdistance]. by rewrite decide_True.
        * unfold tree_reverse_distance. destruct (tfuel _) as [|f] eqn:E; [unfold tfuel in E; lia|]. cbn [reverse_distance_loop]. by rewrite decide_True.
        * unfold tree_distance. destruct (tfuel _) as [|f] eqn:E; [unfold tfuel in E; lia|]. cbn [distance_loop]. by rewrite decide_True.
      + intros o o' p1 p' H1 H2. destruct o as [|o]; [|by destruct o]. destruct o' as [|o']; [|by destruct o'].
        injection H1 as <-. injection H2 as <-.
        destruct p as [[] x|x|[] [] v i|[] x]; cbn [c_eq].
        all: rewrite ?bool_decide_eq_true_2, ?Nat.eqb_refl, ?Z.eqb_refl by done; done.
      + intros Hr o o' p1 p' H1 H2. destruct o as [|o]; [|by destruct o]. destruct o' as [|o']; [|by destruct o'].
        injection H1 as <-. injection H2 as <-. cbn [cat_of] in Hr.
        destruct p as [[] x|x|[] [] v i|[] x]; cbn [c_less ccat] in *; unfold BIDIRECTION, FORWARD, RANDOM in Hr; try lia.
        all: rewrite ?bool_decide_eq_true_2, ?Nat.eqb_refl, ?Z.ltb_irrefl by done; done.
      + intros o p1 v H1 H2. by destruct o.
  Qed.
End blocks.

(** ** Overwriting an element *)
Section writes.
  Context {A : Type} {CK : Checked}.
  Implicit Types (M : cmem A).
  Definition slot_of (r : bool) (n o : nat) : nat := if r then n - S o else o.
  Lemma dir_insert {X} r (us : list X) o v v' : dir r us !! o = Some v ->
    us !! slot_of r (length us) o = Some v /\ dir r (<[slot_of r (length us) o := v']> us) = <[o := v']> (dir r us).
  Proof.
    destruct r; cbn [dir slot_of]; [|done]. intros [H1 H2]%reverse_lookup_Some2. split; [done|].
    apply list_eq. intros i. destruct (decide (i < length us)) as [Hi|Hi].
    2:{ rewrite !lookup_ge_None_2; [done| |]; rewrite ?insert_length, ?reverse_length, ?insert_length; lia. }
    rewrite reverse_lookup by (by rewrite insert_length). rewrite insert_length. destruct (decide (i = o)) as [->|Hne].
    - rewrite !list_lookup_insert; [done| |lia]. by rewrite reverse_length.
    - rewrite !list_lookup_insert_ne by lia. by rewrite reverse_lookup.
  Qed.
  Lemma vals_insert (m : gmap loc (option A)) (cs : list (loc * A)) k x v v' :
    Forall (fun c => m !! c.1 = Some (Some c.2)) cs -> NoDup cs.*1 -> cs !! k = Some (x, v) ->
    Forall (fun c => <[x := Some v']> m !! c.1 = Some (Some c.2)) (<[k := (x, v')]> cs).
  Proof.
    intros HF Hnd Hk. apply Forall_lookup. intros i [y a] Hi. cbn [fst snd].
    destruct (decide (i = k)) as [->|Hne].
    - rewrite list_lookup_insert in Hi by (by eapply lookup_lt_Some). injection Hi as <- <-. by rewrite lookup_insert.
    - rewrite list_lookup_insert_ne in Hi by done. rewrite lookup_insert_ne.
      + by apply (Forall_lookup_1 _ _ _ _ HF Hi).
      + intros ->. apply Hne. eapply (NoDup_lookup cs.*1); [done|rewrite list_lookup_fmap..]; [by rewrite Hi|by rewrite Hk].
  Qed.
  Lemma vals_frame (m : gmap loc (option A)) (cs : list (loc * A)) x v' :
    Forall (fun c => m !! c.1 = Some (Some c.2)) cs -> x ∉ cs.*1 ->
    Forall (fun c => <[x := Some v']> m !! c.1 = Some (Some c.2)) cs.
  Proof.
    intros HF Hx. apply Forall_lookup. intros i [y a] Hi. cbn [fst snd]. rewrite lookup_insert_ne.
    - by apply (Forall_lookup_1 _ _ _ _ HF Hi).
    - intros ->. apply Hx. apply elem_of_list_fmap. exists (y, a). split; [done|]. by eapply elem_of_list_lookup_2.
  Qed.
  Lemma fst_insert {X Y} (cs : list (X * Y)) k x v v' : cs !! k = Some (x, v) -> (<[k := (x, v')]> cs).*1 = cs.*1.
  Proof. intros H. rewrite list_fmap_insert. cbn [fst]. apply list_insert_id. by rewrite list_lookup_fmap, H. Qed.
  Lemma snd_insert {X Y} (cs : list (X * Y)) k (x : X) v' : (<[k := (x, v')]> cs).*2 = <[k := v']> cs.*2.
  Proof. apply list_fmap_insert. Qed.

  (** two chains that meet end in the same node *)
  Lemma paths_meet (m : gmap loc loc) (w : gmap loc (option A)) xs : forall e ys e',
    path m xs e -> path m ys e' ->
    Forall (fun x => exists a, w !! x = Some (Some a)) xs -> Forall (fun x => exists a, w !! x = Some (Some a)) ys ->
    w !! e = Some None -> w !! e' = Some None -> hd e xs = hd e' ys -> e = e'.
  Proof.
    induction xs as [|x xs IH]; intros e ys e' Hx Hy Fx Fy He He' Hh.
    - destruct ys as [|y ys]; [done|]. cbn [hd] in Hh. apply Forall_cons in Fy as [[a Ha] _]. congruence.
    - destruct ys as [|y ys]; [cbn [hd] in Hh; apply Forall_cons in Fx as [[a Ha] _]; congruence|].
      cbn [hd] in Hh. subst y. destruct Hx as [H1 H2]. destruct Hy as [H3 H4].
      apply Forall_cons in Fx as [_ Fx]. apply Forall_cons in Fy as [_ Fy].
      eapply IH; [exact H2|exact H4|done|done|done|done|]. congruence.
  Qed.
  Lemma paths_disjoint (m : gmap loc loc) (w : gmap loc (option A)) (cs cs' : list (loc * A)) e e' x :
    path m cs.*1 e -> path m cs'.*1 e' ->
    Forall (fun c => w !! c.1 = Some (Some c.2)) cs -> Forall (fun c => w !! c.1 = Some (Some c.2)) cs' ->
    w !! e = Some None -> w !! e' = Some None -> x ∈ cs.*1 -> x ∈ cs'.*1 -> e = e'.
  Proof.
    intros H1 H2 F1 F2 He He' (i&Hi)%elem_of_list_lookup (j&Hj)%elem_of_list_lookup.
    assert (forall (cs : list (loc * A)), Forall (fun c => w !! c.1 = Some (Some c.2)) cs ->
      Forall (fun x => exists a, w !! x = Some (Some a)) cs.*1) as HF.
    { intros l Hl. apply Forall_fmap. eapply Forall_impl; [exact Hl|]. intros [y a] Hy. by exists a. }
    apply (paths_meet m w (drop i cs.*1) e (drop j cs'.*1) e').
    - rewrite <- (take_drop i cs.*1) in H1. by apply path_app in H1 as [_ H1].
    - rewrite <- (take_drop j cs'.*1) in H2. by apply path_app in H2 as [_ H2].
    - apply Forall_drop. by apply HF.
    - apply Forall_drop. by apply HF.
    - done.
    - done.
    - by rewrite (drop_S _ _ _ Hi), (drop_S _ _ _ Hj).
  Qed.
  Lemma dpath_path (h : heap A) xs e : dpath h xs e -> path (nx h) xs e.
  Proof. induction xs as [|x xs IH]; [done|]. intros (H1&H2&H3). split; [done|by apply IH]. Qed.
  Lemma dpath_ext (h h' : heap A) xs e : nx h' = nx h -> pv h' = pv h -> dpath h xs e -> dpath h' xs e.
  Proof.
    intros E1 E2. induction xs as [|x xs IH]; [done|]. intros (H1&H2&H3). split_and!; [by rewrite E1|by rewrite E2|by apply IH].
  Qed.

  Lemma list_write (h : heap A) l cs k x v v' : is_list h l cs -> cs !! k = Some (x, v) ->
    exists h', set_value h x v' = Ok h' /\ is_list h' l (<[k := (x, v')]> cs) /\
      forall l' cs', l' <> l -> is_list h l' cs' -> is_list h' l' cs'.
  Proof.
    intros HL Hk. pose proof HL as (Hnd&Hp&Hs&HF). unfold set_value. rewrite (list_value _ _ _ _ _ _ HL Hk). cbn [rbind].
    eexists. split; [done|].
    assert (x ∈ cs.*1) as Hin. { apply elem_of_list_fmap. exists (x, v). split; [done|]. by eapply elem_of_list_lookup_2. }
    pose proof (Forall_lookup_1 _ _ _ _ HF Hk) as Hxv. cbn [fst snd] in Hxv.
    split.
    - unfold is_list, nodes. rewrite (fst_insert _ _ _ _ _ Hk). split; [done|]. split; [by apply (dpath_ext h)|].
      split; cbn [vl].
      + rewrite lookup_insert_ne; [done|]. intros E. rewrite E, Hs in Hxv. done.
      + eapply vals_insert; [done| |done]. unfold nodes in Hnd. by apply NoDup_cons in Hnd as [_ Hnd].
    - intros l' cs' Hne HL'. pose proof HL' as (Hnd'&Hp'&Hs'&HF'). split; [done|]. split; [by apply (dpath_ext h)|].
      split; cbn [vl].
      + rewrite lookup_insert_ne; [done|]. intros E. rewrite E, Hs' in Hxv. done.
      + apply vals_frame; [done|]. intros Hin'. apply Hne.
        apply dpath_path in Hp. apply dpath_path in Hp'. unfold nodes in Hp, Hp'. destruct Hp as [_ Hp]. destruct Hp' as [_ Hp'].
        symmetry. by eapply (paths_disjoint (nx h) (vl h) cs cs').
  Qed.
  Lemma slist_write (h : sheap A) l cs k x v v' : is_slist h l cs -> cs !! k = Some (x, v) ->
    exists h', set_svalue h x v' = Ok h' /\ is_slist h' l (<[k := (x, v')]> cs) /\
      forall l' cs', l'.2 <> l.2 -> is_slist h l' cs' -> is_slist h' l' cs'.
  Proof.
    intros HL Hk. pose proof HL as (Hnd&Hp&Hs&Hs2&HF). unfold set_svalue.
    pose proof (Forall_lookup_1 _ _ _ _ HF Hk) as Hxv. cbn [fst snd] in Hxv.
    unfold svalue. rewrite Hxv. cbn [rbind]. eexists. split; [done|].
    assert (x ∈ cs.*1) as Hin. { apply elem_of_list_fmap. exists (x, v). split; [done|]. by eapply elem_of_list_lookup_2. }
    split.
    - unfold is_slist, snodes. rewrite (fst_insert _ _ _ _ _ Hk). split; [done|]. split; [done|].
      split_and!; cbn [svl].
      + rewrite lookup_insert_ne; [done|]. intros E. congruence.
      + rewrite lookup_insert_ne; [done|]. intros E. congruence.
      + eapply vals_insert; [done| |done]. unfold snodes in Hnd.
        apply NoDup_cons in Hnd as [_ Hnd]. by apply NoDup_cons in Hnd as [_ Hnd].
    - intros l' cs' Hne HL'. pose proof HL' as (Hnd'&Hp'&Hs'&Hs2'&HF'). split; [done|]. split; [done|].
      split_and!; cbn [svl].
      + rewrite lookup_insert_ne; [done|]. intros E. congruence.
      + rewrite lookup_insert_ne; [done|]. intros E. congruence.
      + apply vals_frame; [done|]. intros Hin'. apply Hne. destruct Hp as [_ Hp]. destruct Hp' as [_ Hp'].
        symmetry. by eapply (paths_disjoint (snx h) (svl h) cs cs').
  Qed.
  Lemma prev_of (h : heap A) l cs o x y a : is_list h l cs -> o < length cs ->
    reverse (cs.*1 ++ [l]) !! o = Some x -> cs !! (length cs - S o) = Some (y, a) -> prev h x = Ok y.
  Proof.
    intros HL Ho [Hlt Hx]%reverse_lookup_Some2 Hy. pose proof (list_chain _ _ _ HL) as [_ Hb].
    rewrite app_length in Hx, Hlt. rewrite fmap_length in Hx, Hlt. cbn [length] in Hx, Hlt.
    apply (Hb (length cs - S o)); [by eapply fst_app_lookup|]. rewrite <- Hx. f_equal. lia.
  Qed.

  (** the block of [M] after a write *)
  Lemma set_slot_ok M d v b i j a a' : IterWorld.block M d v = Ok b -> i = Z.of_nat j -> b !! j = Some (Some a) ->
    set_slot M d v i a' = Ok (set_block M d v (<[j := Some a']> b)).
  Proof.
    intros H1 H2 H3. unfold set_slot. rewrite (get_slot_ok _ _ _ _ _ _ _ H1 H2 H3), H1. cbn [rbind]. by rewrite H2, Nat2Z.id.
  Qed.
  Lemma set_block_frame M d v b c ps vs : obj_of c <> OBlk d v -> shows M c ps vs -> shows (set_block M d v b) c ps vs.
  Proof.
    intros Hne. destruct c as [r l|l|[] r w|r hd|p], d; cbn [shows set_block m_list m_slist m_vec m_deq m_tree]; try done.
    - intros (x&us&H1&H2). exists x, us. split; [|done]. rewrite list_lookup_alter_ne; [done|]. intros ->. by apply Hne.
    - intros (x&us&H1&H2). exists x, us. split; [|done]. rewrite list_lookup_alter_ne; [done|]. intros ->. by apply Hne.
  Qed.
  Lemma write_ok M c ps vs o p v v' : shows M c ps vs -> mutable c = true -> ps !! o = Some p -> vs !! o = Some v ->
    exists M', c_write M p v' = Ok M' /\ shows M' c ps (<[o := v']> vs) /\
      forall c' ps' vs', obj_of c' <> obj_of c -> shows M c' ps' vs' -> shows M' c' ps' vs'.
  Proof.
    destruct c as [r l|l|d r w|r hd|q]; cbn [shows].
    - intros (cs&HL&->&->) _ (x&Hx&->)%fmap_lookup_Some Hv.
      destruct (dir_insert r (cs.*2) o v v' Hv) as [Hk Hins]. rewrite fmap_length in Hk, Hins.
      set (k := slot_of r (length cs) o) in *. apply snd_lookup in Hk as (y&Hk).
      destruct (list_write _ _ _ _ _ _ v' HL Hk) as (h'&E&HL'&Hfr).
      exists (CMem h' (m_slist M) (m_vec M) (m_deq M) (m_tree M)). split; [|split].
      + destruct r; cbn [dir] in Hx; cbn [c_write].
        * rewrite (prev_of _ _ _ o x y v HL); [|by apply reverse_lookup_Some2 in Hv as [Hv _]; rewrite fmap_length in Hv|done|done].
          cbn [rbind]. by rewrite E.
        * cbn [slot_of] in k. subst k. pose proof (fst_app_lookup cs l _ _ _ Hk) as E2.
          assert (Some x = Some y) as [= ->] by (etransitivity; [symmetry; exact Hx|exact E2]). by rewrite E.
      + cbn [m_list]. exists (<[k := (y, v')]> cs). split; [done|]. rewrite (fst_insert _ _ _ _ _ Hk), snd_insert. done.
      + intros c' ps' vs' Hne. destruct c' as [r' l'|l'|[] r' w|r' hd|p']; cbn [shows m_list m_slist m_vec m_deq m_tree]; try done.
        intros (cs'&HL2&H3). exists cs'. split; [|done]. apply Hfr; [|done]. intros ->. by apply Hne.
    - intros (cs&HL&->&->) _ (x&Hx&->)%fmap_lookup_Some Hv. apply snd_lookup in Hv as (y&Hk).
      pose proof (fst_app_lookup cs l.2 _ _ _ Hk) as E2.
      assert (Some x = Some y) as [= ->] by (etransitivity; [symmetry; exact Hx|exact E2]).
      destruct (slist_write _ _ _ _ _ _ v' HL Hk) as (h'&E&HL'&Hfr).
      exists (CMem (m_list M) h' (m_vec M) (m_deq M) (m_tree M)). split; [|split].
      + cbn [c_write]. by rewrite E.
      + cbn [m_slist]. exists (<[o := (y, v')]> cs). split; [done|]. rewrite (fst_insert _ _ _ _ _ Hk), snd_insert. done.
      + intros c' ps' vs' Hne. destruct c' as [r' l'|l'|[] r' w|r' hd|p']; cbn [shows m_list m_slist m_vec m_deq m_tree]; try done.
        intros (cs'&HL2&H3). exists cs'. split; [|done]. apply Hfr; [|done]. intros E3. apply Hne. cbn. f_equal. exact E3.
    - intros Hsh _ Hp Hv.
      assert (exists s us b, IterWorld.block M d w = Ok b /\ ps = PBlk d r w <$> dir r (Z.of_nat <$> seq s (S (length us))) /\ vs = dir r us /\
        (forall k u, us !! k = Some u -> b !! (s + k) = Some (Some u)) /\
        forall k u u', us !! k = Some u -> shows (set_block M d w (<[s + k := Some u']> b)) (CBlk d r w) ps (dir r (<[k := u']> us)))
        as (s&us&b&Hb&->&->&Hu&Hsh').
      { destruct d; cbn [shows] in Hsh.
        - destruct Hsh as (d&us&Hd&(pp&rr&Eb&Es&Ef)&->&->). exists (dstart d), us, (dbuf d).
          split_and!; [cbn [IterWorld.block]; by rewrite Hd|done|done| |].
          + intros k u Hk. rewrite Eb, Es. rewrite lookup_app_r by lia. rewrite lookup_app_l.
            2:{ rewrite map_length. apply lookup_lt_Some in Hk. lia. }
            replace (length pp + k - length pp) with k by lia. change (map Some us) with (Some <$> us).
            by rewrite list_lookup_fmap, Hk.
          + intros k u u' Hk. cbn [shows set_block m_deq].
            exists (Deq (<[dstart d + k := Some u']> (dbuf d)) (dstart d) (dfin d) (dgen d) (ddead d)), (<[k := u']> us).
            rewrite list_lookup_alter, Hd. split; [done|]. rewrite insert_length. split; [|done].
            exists pp, rr. cbn [dbuf dstart dfin]. rewrite insert_length. split; [|done].
            rewrite Eb, Es. rewrite insert_app_r_alt by lia. replace (length pp + k - length pp) with k by lia.
            rewrite insert_app_l by (rewrite map_length; by eapply lookup_lt_Some). f_equal. f_equal.
            change (map Some us) with (Some <$> us). change (map Some (<[k := u']> us)) with (Some <$> <[k := u']> us).
            by rewrite list_fmap_insert.
        - destruct Hsh as (x&us&Hd&(rr&Eb&Ef)&->&->). exists 0, us, (buf x).
          split_and!; [cbn [IterWorld.block]; by rewrite Hd|done|done| |].
          + intros k u Hk. rewrite Eb. cbn [plus]. rewrite lookup_app_l.
            2:{ rewrite map_length. apply lookup_lt_Some in Hk. lia. }
            change (map Some us) with (Some <$> us). by rewrite list_lookup_fmap, Hk.
          + intros k u u' Hk. cbn [shows set_block m_vec].
            exists (Vec (<[k := Some u']> (buf x)) (fin x) (gen x) (Vector.dead x)), (<[k := u']> us).
            rewrite list_lookup_alter, Hd. split; [done|]. rewrite insert_length. split; [|done].
            exists rr. cbn [buf fin]. rewrite insert_length. split; [|done].
            rewrite Eb.
            rewrite insert_app_l by (rewrite map_length; by eapply lookup_lt_Some). f_equal.
            change (map Some us) with (Some <$> us). change (map Some (<[k := u']> us)) with (Some <$> <[k := u']> us).
            by rewrite list_fmap_insert. }
      apply fmap_lookup_Some in Hp as (i&Hi&->). apply dir_seq in Hi as [Ho Hi].
      destruct (dir_insert r us o v v' Hv) as [Hk Hins]. set (k := slot_of r (length us) o) in *.
      exists (set_block M d w (<[s + k := Some v']> b)). split; [|split].
      + destruct r; cbn [c_write].
        * apply reverse_lookup_Some2 in Hv as [Hv _].
          eapply set_slot_ok; [done|unfold k; cbn [slot_of]; lia|]. by apply Hu.
        * eapply set_slot_ok; [done|exact Hi|]. by apply Hu.
      + rewrite <- Hins. by eapply Hsh'.
      + intros c' ps' vs' Hne. apply set_block_frame. by cbn in Hne.
    - destruct r; done.
    - intros [-> ->] _ _ Hv. done.
  Qed.
End writes.

(** ** The view of a group of containers *)
(** may iterators of the container be moved out of it?  Only slot pointers, and only if the model allows it. *)
Definition strays {CK : Checked} (c : cont) : bool := negb checked && (cat_of c =? RANDOM).
Section group.
  Context {A : Type} {CK : Checked} (M0 : cmem A) (qs : group A) (fl : nat -> bool).
  (** the sequences of the group; those with [fl a = true] may be written *)
  Definition layout_of (qs : group A) : layout :=
    imap (fun a q => Seqd (length q.2) (cat_of q.1.1) (kind_of q.1.1) (fl a) (strays q.1.1)) qs.
  Definition its_of (qs : group A) : list (list cpos) := (fun q => q.1.2) <$> qs.
  (** [M] shows the group with the elements [vss], and every container that is not written as in [M0] *)
  Definition ginv (M : cmem A) (vss : list (list A)) : Prop :=
    length vss = length qs /\
    (forall a c ps vs0 vs, qs !! a = Some (c, ps, vs0) -> vss !! a = Some vs ->
       shows M c ps vs /\ (fl a = false -> vs = vs0)) /\
    (forall c ps vs, (forall a c' ps' vs', qs !! a = Some (c', ps', vs') -> fl a = true -> obj_of c <> obj_of c') ->
       shows M0 c ps vs -> shows M c ps vs) /\
    ((forall a, fl a = false) -> M = M0).
  Context (Hsh : forall c ps vs, (c, ps, vs) ∈ qs -> shows M0 c ps vs).
  Context (Hfl : forall a c ps vs, qs !! a = Some (c, ps, vs) -> fl a = true -> mutable c = true /\
    forall b c' ps' vs', qs !! b = Some (c', ps', vs') -> b <> a -> obj_of c' <> obj_of c).

  Lemma layout_at a d : layout_of qs !! a = Some d ->
    exists c ps vs, qs !! a = Some (c, ps, vs) /\ d = Seqd (length vs) (cat_of c) (kind_of c) (fl a) (strays c).
  Proof.
    unfold layout_of. rewrite list_lookup_imap. destruct (qs !! a) as [[[c ps] vs]|]; [|done]. cbn. intros [= <-]. eauto 10.
  Qed.
  Lemma its_at_q a ps : its_of qs !! a = Some ps -> exists c vs, qs !! a = Some (c, ps, vs).
  Proof.
    unfold its_of. rewrite list_lookup_fmap. destruct (qs !! a) as [[[c ps'] vs]|]; [|done]. cbn. intros [= <-]. eauto.
  Qed.
  Lemma ginv0 : ginv M0 ((fun q => q.2) <$> qs).
  Proof.
    split; [by rewrite fmap_length|]. split; [|split; done]. intros a c ps vs0 vs Ha. rewrite list_lookup_fmap, Ha.
    cbn. intros [= <-]. split; [|done]. apply Hsh. by eapply elem_of_list_lookup_2.
  Qed.
  Lemma group_len a c ps vs : qs !! a = Some (c, ps, vs) -> length ps = S (length vs).
  Proof. intros Ha. eapply s_len, shows_view, Hsh. by eapply elem_of_list_lookup_2. Qed.
  Lemma group_kind a c ps vs o p : qs !! a = Some (c, ps, vs) -> ps !! o = Some p -> ckind p = kind_of c.
  Proof.
    intros Ha Hp. assert (sview M0 c ps vs) as Hv. { apply shows_view, Hsh. by eapply elem_of_list_lookup_2. }
    apply (Forall_lookup_1 _ _ _ _ (s_kind _ _ _ _ Hv) Hp).
  Qed.
  Lemma ginv_view M vss a c ps vs0 vs : ginv M vss -> qs !! a = Some (c, ps, vs0) -> vss !! a = Some vs -> sview M c ps vs.
  Proof. intros (_&H&_) Ha Hv. apply shows_view. by eapply (H a). Qed.
  Lemma ginv_at M vss a q : ginv M vss -> qs !! a = Some q -> exists vs, vss !! a = Some vs.
  Proof. intros (H&_) Ha. apply lookup_lt_is_Some. rewrite H. by eapply lookup_lt_Some. Qed.
  Lemma group_view : view (cworld A) (layout_of qs) (its_of qs) ginv.
  Proof.
    split.
    - intros s d (c&ps&vs&Hq&->)%layout_at. exists ps. split; [unfold its_of; by rewrite list_lookup_fmap, Hq|].
      by eapply group_len.
    - intros M vss HI. split; [destruct HI as (H&_); unfold layout_of; by rewrite imap_length|].
      intros s d vs (c&ps&vs0&Hq&->)%layout_at Hv. cbn [q_len].
      pose proof (s_len _ _ _ _ (ginv_view _ _ _ _ _ _ _ HI Hq Hv)) as E1. pose proof (group_len _ _ _ _ Hq) as E2. lia.
    - intros s d ps o p (c&ps'&vs0&Hq&->)%layout_at (c'&vs'&Hq')%its_at_q Hp. rewrite Hq in Hq'. injection Hq' as <- <- <-.
      cbn [cworld w_cat q_cat]. by rewrite ccat_kind, (group_kind _ _ _ _ _ _ Hq Hp), <- cat_kind.
    - intros s d ps o p (c&ps'&vs0&Hq&->)%layout_at (c'&vs'&Hq')%its_at_q Hp Hm. rewrite Hq in Hq'. injection Hq' as <- <- <-.
      cbn [cworld w_mutable]. cbn [q_mut] in Hm. rewrite (group_kind _ _ _ _ _ _ Hq Hp).
      destruct (Hfl _ _ _ _ Hq Hm) as [Hmu _]. assert (kind_of c <? 7 = true) as -> by (by destruct c). done.
    - intros s d ps o p s' d' ps' o' p' (c&ps1&vs1&Hq&->)%layout_at (c1&vs1'&Hq1)%its_at_q Hp
        (c'&ps2&vs2&Hq'&->)%layout_at (c2&vs2'&Hq2)%its_at_q Hp' Hk.
      rewrite Hq in Hq1. injection Hq1 as <- <- <-. rewrite Hq' in Hq2. injection Hq2 as <- <- <-.
      cbn [cworld w_assign]. unfold c_assign. cbn [q_kind] in Hk.
      by rewrite (group_kind _ _ _ _ _ _ Hq Hp), (group_kind _ _ _ _ _ _ Hq' Hp'), Hk, Nat.eqb_refl.
    - intros M vss s d ps o p p' HI (c&ps1&vs1&Hq&->)%layout_at (c1&vs1'&Hq1)%its_at_q Hp Hp'.
      rewrite Hq in Hq1. injection Hq1 as <- <- <-. destruct (ginv_at _ _ _ _ HI Hq) as [vs Hv].
      by eapply (s_inc _ _ _ _ (ginv_view _ _ _ _ _ _ _ HI Hq Hv)).
    - intros M vss s d ps o p p' HI (c&ps1&vs1&Hq&->)%layout_at (c1&vs1'&Hq1)%its_at_q Hc Hp Hp'.
      rewrite Hq in Hq1. injection Hq1 as <- <- <-. destruct (ginv_at _ _ _ _ HI Hq) as [vs Hv].
      by eapply (s_dec _ _ _ _ (ginv_view _ _ _ _ _ _ _ HI Hq Hv)).
    - intros M vss s d ps o o' p p' HI (c&ps1&vs1&Hq&->)%layout_at (c1&vs1'&Hq1)%its_at_q Hc Hp Hp'.
      rewrite Hq in Hq1. injection Hq1 as <- <- <-. destruct (ginv_at _ _ _ _ HI Hq) as [vs Hv].
      by eapply (s_adv _ _ _ _ (ginv_view _ _ _ _ _ _ _ HI Hq Hv)).
    - intros M vss s d ps o p z HI (c&ps1&vs1&Hq&->)%layout_at (c1&vs1'&Hq1)%its_at_q Hc Hp.
      rewrite Hq in Hq1. injection Hq1 as <- <- <-. cbn [q_over] in Hc. unfold strays in Hc.
      apply andb_true_iff in Hc as [Hck Hcat]. apply negb_true_iff in Hck. apply Nat.eqb_eq in Hcat.
      pose proof (group_kind _ _ _ _ _ _ Hq Hp) as Hk. rewrite cat_kind, <- Hk, <- ccat_kind in Hcat.
      destruct p as [| |dq rr w i|]; try (cbn [ccat] in Hcat; unfold FORWARD, BIDIRECTION, RANDOM in Hcat; discriminate Hcat).
      assert (forall z, slot_add M dq w i z = Ok (i + z)%Z) as Hsa.
      { intros z'. unfold slot_add. destruct (Z.eqb_spec z' 0) as [->|_]; [f_equal; lia|]. by rewrite Hck. }
      exists (PBlk dq rr w (if rr then i - z else i + z)%Z). split.
      + cbn [cworld w_adv]. destruct rr; cbn [c_adv]; by rewrite Hsa.
      + intros s' d' ps' o' p' (c'&ps2&vs2&Hq'&->)%layout_at (c2&vs2'&Hq2)%its_at_q Hp' Hkk.
        rewrite Hq' in Hq2. injection Hq2 as <- <- <-. cbn [cworld w_assign]. unfold c_assign. cbn [q_kind] in Hkk.
        rewrite (group_kind _ _ _ _ _ _ Hq' Hp'), <- Hkk, <- Hk.
        replace (ckind (PBlk dq rr w (if rr then (i - z)%Z else (i + z)%Z))) with (ckind (PBlk dq rr w i)) by (by destruct dq).
        by rewrite Nat.eqb_refl.
    - intros M vss s d ps o o' p p' HI (c&ps1&vs1&Hq&->)%layout_at (c1&vs1'&Hq1)%its_at_q Hc Hp Hp'.
      rewrite Hq in Hq1. injection Hq1 as <- <- <-. destruct (ginv_at _ _ _ _ HI Hq) as [vs Hv].
      by eapply (s_dist _ _ _ _ (ginv_view _ _ _ _ _ _ _ HI Hq Hv)).
    - intros s d ps o o' p p' (c&ps1&vs1&Hq&->)%layout_at (c1&vs1'&Hq1)%its_at_q Hp Hp'.
      rewrite Hq in Hq1. injection Hq1 as <- <- <-.
      assert (sview M0 c ps1 vs1) as Hv. { apply shows_view, Hsh. by eapply elem_of_list_lookup_2. }
      by eapply (s_eq _ _ _ _ Hv).
    - intros s d ps o o' p p' (c&ps1&vs1&Hq&->)%layout_at (c1&vs1'&Hq1)%its_at_q Hc Hp Hp'.
      rewrite Hq in Hq1. injection Hq1 as <- <- <-.
      assert (sview M0 c ps1 vs1) as Hv. { apply shows_view, Hsh. by eapply elem_of_list_lookup_2. }
      by eapply (s_less _ _ _ _ Hv).
    - intros M vss s d ps vs o p v HI (c&ps1&vs1&Hq&->)%layout_at (c1&vs1'&Hq1)%its_at_q Hv Hvo Hp.
      rewrite Hq in Hq1. injection Hq1 as <- <- <-.
      by eapply (s_deref _ _ _ _ (ginv_view _ _ _ _ _ _ _ HI Hq Hv)).
    - intros M vss s d ps vs o p v v' HI (c&ps1&vs1&Hq&->)%layout_at (c1&vs1'&Hq1)%its_at_q Hv Hvo Hp Hm.
      rewrite Hq in Hq1. injection Hq1 as <- <- <-. cbn [q_mut] in Hm. destruct (Hfl _ _ _ _ Hq Hm) as [Hmu Hdis].
      pose proof HI as (H1&H2&H3&H4). destruct (H2 _ _ _ _ _ Hq Hv) as [Hs _].
      destruct (write_ok _ _ _ _ _ _ _ v' Hs Hmu Hp Hvo) as (M'&E&Hs'&Hfr). exists M'. split; [done|].
      split; [by rewrite insert_length|]. split; [|split].
      + intros a c' ps' vs0 vs2 Ha Hv2. destruct (decide (a = s)) as [->|Hne].
        * rewrite list_lookup_insert in Hv2 by (by eapply lookup_lt_Some). injection Hv2 as <-.
          rewrite Hq in Ha. injection Ha as <- <- <-. split; [done|]. congruence.
        * rewrite list_lookup_insert_ne in Hv2 by done. destruct (H2 _ _ _ _ _ Ha Hv2) as [H5 H6].
          split; [|done]. apply Hfr; [|done]. by eapply Hdis.
      + intros c' ps' vs2 Hd Hs2. apply Hfr; [by eapply Hd|]. by apply H3.
      + intros Hno. rewrite Hno in Hm. done.
  Qed.
End group.
