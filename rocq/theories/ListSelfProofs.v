(** ListSelfProofs.v — c_list_merge_by with the same list as both arguments. *)
From Verif Require Import Base Spec SpecSeq Facts DList Path SpecList DListCore DListProofs.
From stdpp Require Import list gmap.

Section proofs.
  Context {A : Type} (comp : A -> A -> bool).
  Implicit Types h : heap A.
  Notation cell := (loc * A)%type.
  Implicit Types C D R cs : list cell.

  Lemma self_ne h s cs x a : is_list h s cs -> (x, a) ∈ cs -> x <> s.
  Proof.
    intros (HN&_) Hx ->. unfold nodes in HN. apply NoDup_cons in HN as [HN _]. apply HN. apply elem_of_list_fmap. by exists (s, a).
  Qed.
  (** the first iterator passes the elements that the element at the second is not less than *)
  Lemma self_pass h s x a S1 : forall C R fuel, is_list h s (C ++ S1 ++ R) -> (x, a) ∈ C ++ S1 ++ R ->
    (forall c, c ∈ S1 -> comp a c.2 = false) ->
    merge_loop comp (length S1 + fuel) h (hd s (S1 ++ R).*1) s x s = merge_loop comp fuel h (hd s R.*1) s x s.
  Proof.
    induction S1 as [|[y b] S1 IH]; intros C R fuel HL Hx HS; [done|]. cbn [length Nat.add merge_loop app fmap list_fmap fst hd].
    rewrite decide_False by (apply (self_ne h s _ y b HL); set_solver). rewrite decide_False by (by apply (self_ne h s _ x a HL)).
    rewrite (value_in h s _ x a HL Hx), (value_at h s C y b (S1 ++ R)) by done. cbn [rbind].
    assert (comp a b = false) as -> by (apply (HS (y, b)); set_solver). rewrite (next_at h s C y b (S1 ++ R)) by done. cbn [rbind].
    apply (IH (C ++ [(y, b)]) R).
    - by rewrite <- app_assoc.
    - by rewrite <- app_assoc.
    - intros c Hc. apply HS. set_solver.
  Qed.
  Lemma self_pass_never h s x a S1 C R : is_list h s (C ++ S1 ++ R) -> (x, a) ∈ C ++ S1 ++ R -> (forall c, c ∈ S1 -> comp a c.2 = false) ->
    (forall f, merge_loop comp f h (hd s R.*1) s x s = NoFuel) -> forall f, merge_loop comp f h (hd s (S1 ++ R).*1) s x s = NoFuel.
  Proof.
    revert C. induction S1 as [|[y b] S1 IH]; intros C HL Hx HS HR f; [by apply HR|]. destruct f as [|f]; [done|].
    cbn [merge_loop app fmap list_fmap fst hd].
    rewrite decide_False by (apply (self_ne h s _ y b HL); set_solver). rewrite decide_False by (by apply (self_ne h s _ x a HL)).
    rewrite (value_in h s _ x a HL Hx), (value_at h s C y b (S1 ++ R)) by done. cbn [rbind].
    assert (comp a b = false) as -> by (apply (HS (y, b)); set_solver). rewrite (next_at h s C y b (S1 ++ R)) by done. cbn [rbind].
    apply (IH (C ++ [(y, b)])).
    - by rewrite <- app_assoc.
    - by rewrite <- app_assoc.
    - intros c Hc. apply HS. set_solver.
    - done.
  Qed.
  (** two or more elements below the one at the first iterator go round for ever *)
  Lemma self_chase fuel : forall h s C q b D p a R, is_list h s (C ++ (q, b) :: D ++ (p, a) :: R) -> D <> [] ->
    (forall c, c ∈ (q, b) :: D -> comp c.2 a = true) -> merge_loop comp fuel h p s q s = NoFuel.
  Proof.
    induction fuel as [|fuel IH]; intros h s C q b D p a R HL HD HS; [done|]. cbn [merge_loop].
    assert (Hp : (p, a) ∈ C ++ (q, b) :: D ++ (p, a) :: R) by set_solver. assert (Hq : (q, b) ∈ C ++ (q, b) :: D ++ (p, a) :: R) by set_solver.
    rewrite decide_False by (by apply (self_ne h s _ p a HL)). rewrite decide_False by (by apply (self_ne h s _ q b HL)).
    rewrite (value_in h s _ p a HL Hp), (value_in h s _ q b HL Hq). cbn [rbind].
    assert (comp b a = true) as -> by (apply (HS (q, b)); set_solver). rewrite (next_at h s C q b _ HL). cbn [rbind].
    destruct (transfer_back h s C [(q, b)] D ((p, a) :: R) HL) as (h'&E&HL'&_). cbn [app fmap list_fmap fst hd] in E. rewrite E. cbn [rbind].
    destruct D as [|[q' b'] D]; [done|]. cbn [app fmap list_fmap fst hd].
    apply (IH h' s C q' b' (D ++ [(q, b)]) p a R).
    - by rewrite <- app_assoc.
    - by destruct D.
    - intros c Hc. apply HS. set_solver.
  Qed.
  (** one round for both iterators when the next element is greater *)
  Lemma self_round h s C x a y b R fuel : is_list h s (C ++ (x, a) :: (y, b) :: R) -> comp a a = false -> comp a b = true ->
    merge_loop comp (2 + fuel) h x s x s = merge_loop comp fuel h y s y s.
  Proof.
    intros HL Ha Hb. assert (Hx : (x, a) ∈ C ++ (x, a) :: (y, b) :: R) by set_solver. assert (Hy : (y, b) ∈ C ++ (x, a) :: (y, b) :: R) by set_solver.
    pose proof (self_ne _ _ _ _ _ HL Hx) as Nx. pose proof (self_ne _ _ _ _ _ HL Hy) as Ny. change (2 + fuel) with (S (S fuel)).
    cbn [merge_loop]. rewrite !decide_False by done. rewrite (value_in _ _ _ _ _ HL Hx). cbn [rbind]. rewrite Ha. rewrite (next_at _ _ _ _ _ _ HL). cbn [rbind fmap list_fmap fst hd].
    rewrite (decide_False (P := y = s)) by done. rewrite (decide_False (P := x = s)) by done. rewrite (value_in _ _ _ _ _ HL Hy). cbn [rbind]. rewrite Hb.
    cbn [rbind fmap list_fmap fst hd]. unfold transfer. by rewrite decide_True.
  Qed.
  Lemma split_head (a : A) cs : exists S1 R, cs = S1 ++ R /\ (forall c, c ∈ S1 -> comp a c.2 = false) /\
    match R with [] => True | c :: _ => comp a c.2 = true end.
  Proof.
    induction cs as [|c cs (S1&R&->&H1&H2)].
    - exists [], []. split; [done|]. split; [|done]. intros c Hc. by apply elem_of_nil in Hc.
    - destruct (comp a c.2) eqn:E.
      + exists [], (c :: S1 ++ R). split; [done|]. split; [|done]. intros c' Hc. by apply elem_of_nil in Hc.
      + exists (c :: S1), R. split; [done|]. split; [|done]. intros c' [->|Hc]%elem_of_cons; [done|by apply H1].
  Qed.

  (** two equivalent elements that are below the last one *)
  Definition twin_below (l : list A) : Prop :=
    exists i x y z, l !! i = Some x /\ l !! S i = Some y /\ comp x y = false /\ last l = Some z /\ comp y z = true.
  Lemma sorted_tail (x : A) l : sorted comp (x :: l) -> sorted comp l.
  Proof. intros HS i j a b Hij Hi Hj. apply (HS (S i) (S j) a b); [lia|done|done]. Qed.
  Lemma twin_tail (x y : A) l : comp x y = true -> twin_below (x :: y :: l) -> twin_below (y :: l).
  Proof.
    intros Hxy (i&a&b&z&Hi&Hj&Hab&Hz&Hb). destruct i as [|i].
    - cbn in Hi, Hj. injection Hi as ->. injection Hj as ->. congruence.
    - exists i, a, b, z. done.
  Qed.
  Lemma twin_tail_inv (x y : A) l : twin_below (y :: l) -> twin_below (x :: y :: l).
  Proof. intros (i&a&b&z&Hi&Hj&Hab&Hz&Hb). by exists (S i), a, b, z. Qed.
  Context (HW : StrictWeakOrder comp).
  Lemma sorted_le_last (x z : A) l : sorted comp l -> x ∈ l -> last l = Some z -> comp z x = false.
  Proof.
    intros HS Hx Hz. apply elem_of_list_lookup in Hx as [i Hi]. rewrite last_lookup in Hz. pose proof (lookup_lt_Some _ _ _ Hi).
    destruct (decide (i = pred (length l))) as [->|]; [rewrite Hi in Hz; injection Hz as ->; apply (swo_irrefl _ HW)|].
    apply (HS i (pred (length l)) x z); [lia|done|done].
  Qed.

  Lemma self_never cs : forall h s C x a, is_list h s (C ++ (x, a) :: cs) -> sorted comp (a :: cs.*2) -> twin_below (a :: cs.*2) ->
    forall f, merge_loop comp f h x s x s = NoFuel.
  Proof.
    induction cs as [|[y b] cs IH]; intros h s C x a HL HS HB f.
    { destruct HB as ([|i]&?&?&?&_&?&_); done. }
    cbn [fmap list_fmap snd] in HS, HB. destruct (comp a b) eqn:Eab.
    - assert (IHf : forall f, merge_loop comp f h y s y s = NoFuel).
      { apply (IH h s (C ++ [(x, a)]) y b); [by rewrite <- app_assoc|by eapply sorted_tail|by eapply twin_tail]. }
      destruct f as [|[|f]]; [done| |].
      + cbn [merge_loop]. rewrite !decide_False by (apply (self_ne h s _ x a HL); set_solver). rewrite (value_at _ _ _ _ _ _ HL). cbn [rbind].
        rewrite (swo_irrefl _ HW). rewrite (next_at _ _ _ _ _ _ HL). done.
      + change (S (S f)) with (2 + f). rewrite (self_round h s C x a y b cs f HL (swo_irrefl _ HW _) Eab). apply IHf.
    - destruct (split_head a cs) as (S1&R&->&H1&H2).
      assert (Hlast : exists z, last (a :: b :: (S1 ++ R).*2) = Some z /\ comp a z = true).
      { destruct HB as (i&u&v&z&Hi&Hj&Huv&Hz&Hv). exists z. split; [done|]. eapply (swo_le_lt_trans _ HW); [|exact Hv].
        refine (HS 0 (S i) a v _ _ Hj); [lia|done]. }
      destruct Hlast as (z&Hz&Haz). destruct R as [|[p c] R].
      { exfalso. assert (z ∈ a :: b :: (S1 ++ []).*2) as Hin by (rewrite last_lookup in Hz; by eapply elem_of_list_lookup_2).
        rewrite app_nil_r in Hin. assert (comp a z = false); [|congruence].
        apply elem_of_cons in Hin as [->|[->|Hin]%elem_of_cons]; [apply (swo_irrefl _ HW)|done|].
        apply elem_of_list_fmap in Hin as (e&->&He). by apply H1. }
      change x with (hd s (((x, a) :: (y, b) :: S1) ++ (p, c) :: R).*1).
      apply (self_pass_never h s x a ((x, a) :: (y, b) :: S1) C ((p, c) :: R)).
      + done.
      + set_solver.
      + intros e [->|[->|He]%elem_of_cons]%elem_of_cons; [apply (swo_irrefl _ HW)|done|by apply H1].
      + intros f'. cbn [fmap list_fmap fst hd]. apply (self_chase f' h s C x a ((y, b) :: S1) p c R HL); [done|].
        intros e He. cbn in H2. apply elem_of_cons in He as [->|[->|He]%elem_of_cons]; [done| |].
        * by apply (swo_le_lt_trans _ HW) with a.
        * apply (swo_le_lt_trans _ HW) with a; [by apply H1|done].
  Qed.
  Lemma self_returns cs : forall h s C x a fuel, is_list h s (C ++ (x, a) :: cs) -> sorted comp (a :: cs.*2) -> ~ twin_below (a :: cs.*2) ->
    2 * S (length cs) < fuel -> exists o, merge_loop comp fuel h x s x s = Ok (h, o).
  Proof.
    induction cs as [|[y b] cs IH]; intros h s C x a fuel HL HS HB Hf.
    - exists x. change x with (hd s ([(x, a)] ++ []).*1) at 1. replace fuel with (length [(x, a)] + S (fuel - 2)) by (cbn in *; lia).
      rewrite (self_pass h s x a [(x, a)] C []); [|done|set_solver|intros c ->%elem_of_list_singleton; apply (swo_irrefl _ HW)].
      cbn [fmap list_fmap hd merge_loop]. by rewrite decide_True.
    - cbn [fmap list_fmap snd length] in HS, HB, Hf. destruct (comp a b) eqn:Eab.
      + replace fuel with (2 + (fuel - 2)) by lia. rewrite (self_round h s C x a y b cs _ HL (swo_irrefl _ HW _) Eab).
        apply (IH h s (C ++ [(x, a)]) y b); [by rewrite <- app_assoc|by eapply sorted_tail| |lia]. intros HB'. by apply HB, twin_tail_inv.
      + exists x. change x with (hd s (((x, a) :: (y, b) :: cs) ++ []).*1) at 1.
        replace fuel with (length ((x, a) :: (y, b) :: cs) + S (fuel - 3 - length cs)) by (cbn in *; lia).
        rewrite (self_pass h s x a _ C []).
        * cbn [fmap list_fmap hd merge_loop]. by rewrite decide_True.
        * by rewrite app_nil_r.
        * set_solver.
        * assert (Hz : exists z, last (a :: b :: cs.*2) = Some z) by (rewrite <- is_Some_alt || idtac; destruct (last (a :: b :: cs.*2)) as [z|] eqn:E; [by exists z|by apply last_None in E]).
          destruct Hz as (z&Hz). intros e He. destruct (comp a e.2) eqn:Eae; [|done]. exfalso. apply HB. exists 0, a, b, z.
          do 3 (split; [done|]). split; [done|]. apply (swo_le_lt_trans _ HW) with a; [done|].
          eapply (swo_lt_le_trans _ HW); [exact Eae|]. apply (sorted_le_last e.2 z (a :: b :: cs.*2) HS); [|done].
          change (a :: b :: cs.*2) with ((x, a) :: (y, b) :: cs).*2. apply elem_of_list_fmap. by exists e.
  Qed.
  Lemma merge_self_ok h s cs : is_list h s cs -> sorted comp cs.*2 -> ~ twin_below cs.*2 -> c_list_merge_by comp h s s = Ok h.
  Proof.
    intros HL HS HB. unfold c_list_merge_by, c_list_empty. rewrite (begin_ok h s cs HL). cbn [rbind]. destruct cs as [|[x a] cs].
    - cbn. by rewrite bool_decide_true.
    - cbn [fmap list_fmap fst hd]. rewrite bool_decide_false by (apply (self_ne h s _ x a HL); set_solver). cbn [rbind].
      destruct (self_returns cs h s [] x a (fuel_of h) HL HS HB) as (o&->).
      { unfold fuel_of. pose proof (is_list_length _ _ _ HL) as Hl. cbn [length] in Hl. lia. }
      cbn [rbind]. destruct (decide (o = s)); [done|]. unfold transfer. by rewrite decide_True.
  Qed.
End proofs.
