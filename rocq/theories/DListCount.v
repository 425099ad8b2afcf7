(** DListCount.v — how many comparisons c_list_merge_by and c_list_sort_by make. *)
From Verif Require Import Base Spec SpecSeq SpecListOps Facts MergeFacts DList Path SpecList DListCore DListProofs DListAlgo DListSort.
From stdpp Require Import list gmap.

(** forgetting the number of comparisons *)
Definition erase {B} (r : res (B * nat)) : res B := do (x, _) <- r; Ok x.

(** ** the merge and sort functions of DList.v once more, also returning how often [comp] was called *)
Section counted.
  Context {A : Type} (alloc : heap A -> loc) (comp : A -> A -> bool).
  Implicit Types h : heap A.
  (** c_list.c 821-843 *)
  Fixpoint merge_loop_n (fuel : nat) h (node last onode olast : loc) : res (heap A * loc * nat) :=
    match fuel with
    | 0 => NoFuel
    | S f =>
      if decide (node = last) then Ok (h, onode, 0)
      else if decide (onode = olast) then Ok (h, onode, 0)
      else do b <- value h onode; do a <- value h node;
           if comp b a then
             do onext <- next h onode;
             do h <- transfer h node onode onext;
             do (r, n) <- merge_loop_n f h node last onext olast; Ok (r, S n)
           else do n <- next h node; do (r, n) <- merge_loop_n f h n last onode olast; Ok (r, S n)
    end.
  Definition c_list_merge_by_n h (l other : loc) : res (heap A * nat) :=
    do e <- c_list_empty h other;
    if e then Ok (h, 0)
    else do node <- next h l; do onode <- next h other;
         do (h, onode, n) <- merge_loop_n (fuel_of h) h node l onode other;
         if decide (onode = other) then Ok (h, n) else do h <- transfer h l onode other; Ok (h, n).
  (** c_list.c 921-924 *)
  Fixpoint carry_loop_n (fuel : nat) h (carry : loc) (cs : list loc) (i fill : nat)
    : res (heap A * loc * list loc * nat * nat) :=
    match fuel with
    | 0 => NoFuel
    | S f =>
      if i <? fill then
        do c <- cget cs i; do e <- c_list_empty h c;
        if (e : bool) then Ok (h, carry, cs, i, 0)
        else do (h, n) <- c_list_merge_by_n h c carry;
             do cs <- cset cs i carry;
             do (r, n') <- carry_loop_n f h c cs (S i) fill; Ok (r, n + n')
      else Ok (h, carry, cs, i, 0)
    end.
  (** c_list.c 918-927 *)
  Fixpoint sort_loop_n (fuel : nat) h (l carry : loc) (cs : list loc) (fill : nat)
    : res (heap A * loc * list loc * nat * nat) :=
    match fuel with
    | 0 => NoFuel
    | S f =>
      do e <- c_list_empty h l;
      if (e : bool) then Ok (h, carry, cs, fill, 0)
      else
        do cb <- next h carry; do b <- next h l; do b2 <- next h b;
        do h <- transfer h cb b b2;
        do (h, carry, cs, i, n) <- carry_loop_n (S fill) h carry cs 0 fill;
        do c <- cget cs i; do cs <- cset cs i carry;
        do (r, n') <- sort_loop_n f h l c cs (if i =? fill then S fill else fill); Ok (r, n + n')
    end.
  (** c_list.c 929-930 *)
  Fixpoint merge_up_n (n i : nat) h (cs : list loc) : res (heap A * nat) :=
    match n with
    | 0 => Ok (h, 0)
    | S n' => do c <- cget cs i; do c' <- cget cs (i - 1);
              do (h, k) <- c_list_merge_by_n h c c'; do (h, k') <- merge_up_n n' (S i) h cs; Ok (h, k + k')
    end.
  (** c_list.c 905-939 *)
  Definition c_list_sort_by_n h (l : loc) : res (heap A * loc * nat) :=
    do e <- c_list_empty h l;
    if (e : bool) then Ok (h, l, 0)
    else
      do n <- c_list_size h l;
      if n =? 1 then Ok (h, l, 0)
      else
        let (h, carry) := c_list_create alloc h in
        let (h, cs) := create_counters alloc 64 h in
        do (h, carry, cs, fill, k) <- sort_loop_n (fuel_of h) h l carry cs 0;
        do (h, k') <- merge_up_n (fill - 1) 1 h cs;
        do c <- cget cs (fill - 1); do cs <- cset cs (fill - 1) l;
        do h <- destroy_all h cs;
        do h <- c_list_destroy h carry;
        Ok (h, c, k + k').

  (** these are the functions of the model *)
  Lemma erase_merge_loop fuel : forall h node last onode olast,
    erase (merge_loop_n fuel h node last onode olast) = merge_loop comp fuel h node last onode olast.
  Proof.
    induction fuel as [|f IH]; intros *; cbn [merge_loop merge_loop_n]; [done|].
    destruct (decide (node = last)); [done|]. destruct (decide (onode = olast)); [done|].
    destruct (value h onode) as [b| |]; cbn [rbind]; [|done..]. destruct (value h node) as [a| |]; cbn [rbind]; [|done..].
    destruct (comp b a).
    - destruct (next h onode) as [q| |]; cbn [rbind]; [|done..]. destruct (transfer h node onode q) as [h1| |]; cbn [rbind]; [|done..].
      rewrite <- IH. by destruct (merge_loop_n _ _ _ _ _ _) as [[r ?]| |].
    - destruct (next h node) as [q| |]; cbn [rbind]; [|done..].
      rewrite <- IH. by destruct (merge_loop_n _ _ _ _ _ _) as [[r ?]| |].
  Qed.
  Lemma erase_merge h l other : erase (c_list_merge_by_n h l other) = c_list_merge_by comp h l other.
  Proof.
    unfold c_list_merge_by, c_list_merge_by_n. destruct (c_list_empty h other) as [[]| |]; cbn [rbind]; [done| |done..].
    destruct (next h l) as [x| |]; cbn [rbind]; [|done..]. destruct (next h other) as [y| |]; cbn [rbind]; [|done..].
    rewrite <- erase_merge_loop. destruct (merge_loop_n _ _ _ _ _ _) as [[[h1 o] n]| |]; cbn [rbind erase]; [|done..].
    destruct (decide (o = other)); [done|]. by destruct (transfer h1 l o other).
  Qed.
  Lemma erase_carry fuel : forall h carry cs i fill, erase (carry_loop_n fuel h carry cs i fill) = carry_loop comp fuel h carry cs i fill.
  Proof.
    induction fuel as [|f IH]; intros *; cbn [carry_loop carry_loop_n]; [done|]. destruct (i <? fill); [|done].
    destruct (cget cs i) as [c| |]; cbn [rbind]; [|done..]. destruct (c_list_empty h c) as [[]| |]; cbn [rbind]; [done| |done..].
    rewrite <- erase_merge. destruct (c_list_merge_by_n h c carry) as [[h1 n]| |]; cbn [rbind erase]; [|done..].
    destruct (cset cs i carry) as [cs1| |]; cbn [rbind]; [|done..]. rewrite <- IH. by destruct (carry_loop_n _ _ _ _ _ _) as [[r n']| |].
  Qed.
  Lemma erase_sort_loop fuel : forall h l carry cs fill, erase (sort_loop_n fuel h l carry cs fill) = sort_loop comp fuel h l carry cs fill.
  Proof.
    induction fuel as [|f IH]; intros *; cbn [sort_loop sort_loop_n]; [done|]. destruct (c_list_empty h l) as [[]| |]; cbn [rbind]; [done| |done..].
    destruct (next h carry) as [cb| |]; cbn [rbind]; [|done..]. destruct (next h l) as [b| |]; cbn [rbind]; [|done..].
    destruct (next h b) as [b2| |]; cbn [rbind]; [|done..]. destruct (transfer h cb b b2) as [h1| |]; cbn [rbind]; [|done..].
    rewrite <- erase_carry. destruct (carry_loop_n _ _ _ _ _ _) as [[[[[h2 carry2] cs2] i] n]| |]; cbn [rbind erase]; [|done..].
    destruct (cget cs2 i) as [c| |]; cbn [rbind]; [|done..]. destruct (cset cs2 i carry2) as [cs3| |]; cbn [rbind]; [|done..].
    rewrite <- IH. by destruct (sort_loop_n _ _ _ _ _ _) as [[r n']| |].
  Qed.
  Lemma erase_merge_up n : forall i h cs, erase (merge_up_n n i h cs) = merge_up comp n i h cs.
  Proof.
    induction n as [|n IH]; intros *; cbn [merge_up merge_up_n]; [done|]. destruct (cget cs i) as [c| |]; cbn [rbind]; [|done..].
    destruct (cget cs (i - 1)) as [c'| |]; cbn [rbind]; [|done..].
    rewrite <- erase_merge. destruct (c_list_merge_by_n h c c') as [[h1 k]| |]; cbn [rbind erase]; [|done..].
    rewrite <- IH. by destruct (merge_up_n _ _ _ _) as [[r k']| |].
  Qed.
  Lemma erase_sort h l : erase (c_list_sort_by_n h l) = c_list_sort_by alloc comp h l.
  Proof.
    unfold c_list_sort_by, c_list_sort_by_n. destruct (c_list_empty h l) as [[]| |]; cbn [rbind]; [done| |done..].
    destruct (c_list_size h l) as [n| |]; cbn [rbind]; [|done..]. destruct (n =? 1); [done|].
    destruct (c_list_create alloc h) as [h1 carry]. destruct (create_counters alloc 64 h1) as [h2 cs].
    rewrite <- erase_sort_loop. destruct (sort_loop_n _ _ _ _ _ _) as [[[[[h3 carry3] cs3] fill] k]| |]; cbn [rbind erase]; [|done..].
    rewrite <- erase_merge_up. destruct (merge_up_n _ _ _ _) as [[h4 k']| |]; cbn [rbind erase]; [|done..].
    destruct (cget cs3 (fill - 1)) as [c| |]; cbn [rbind]; [|done..]. destruct (cset cs3 (fill - 1) l) as [cs4| |]; cbn [rbind]; [|done..].
    destruct (destroy_all h4 cs4) as [h5| |]; cbn [rbind]; [|done..]. by destruct (c_list_destroy h5 carry3).
  Qed.
End counted.

(** the work in bins: an element in bin [i] has been through [i] merges *)
Section work.
  Context {B : Type}.
  Implicit Types bins : list (list B).
  Fixpoint work (i : nat) bins : nat := match bins with [] => 0 | b :: bins => i * length b + work (S i) bins end.
  Lemma work_app i b1 b2 : work i (b1 ++ b2) = work i b1 + work (i + length b1) b2.
  Proof. revert i. induction b1 as [|b b1 IH]; intros i; cbn [app work length]; [by rewrite Nat.add_0_r|]. rewrite IH, <- plus_n_Sm. cbn. lia. Qed.
  Lemma work_nil i bins : Forall (fun b => b = []) bins -> work i bins = 0.
  Proof. intros H. revert i. induction H as [|b bins -> _ IH]; intros i; cbn [work length]; [done|]. rewrite IH. lia. Qed.
  Lemma work_log Srt i bins m : binned Srt i bins -> length (flat bins) <= m -> work i bins <= Nat.log2 m * length (flat bins).
  Proof.
    revert i. induction bins as [|b bins IH]; intros i Hb Hm; cbn [work]; [lia|]. apply binned_cons in Hb as [[_ Hb] Hbs].
    rewrite flat_cons, app_length in *. specialize (IH (S i) Hbs ltac:(lia)).
    assert (i * length b <= Nat.log2 m * length b); [|lia]. destruct Hb as [->|Hb]; [cbn; lia|].
    apply Nat.mul_le_mono_r. rewrite <- (Nat.log2_pow2 i) by lia. apply Nat.log2_le_mono. lia.
  Qed.
End work.


Section proofs.
  Context {A : Type} (alloc : heap A -> loc) (Halloc : malloc_ok alloc) (comp : A -> A -> bool).
  Implicit Types h : heap A.
  Notation cell := (loc * A)%type.
  Implicit Types cs ds rest cr : list cell.
  Implicit Types bins : list (list cell).
  Implicit Types ls other : list (loc * list cell).
  Notation ccomp := (on2 (K := loc) comp).
  Notation mrg := (seq_merge ccomp).
  Context (Srt : list (loc * A) -> Prop) (Rel : list (loc * A) -> list (loc * A) -> Prop) (HM : merging Srt Rel mrg).
  Lemma merge_loop_count s t fuel : forall h c1 c2 d2, lists h [(s, c1 ++ c2); (t, d2)] ->
    length c2 + length d2 < fuel ->
    exists r n, merge_loop_n comp fuel h (hd s c2.*1) s (hd t d2.*1) t = Ok (r, n) /\ n <= length c2 + length d2 - 1 /\
      (c2 = [] \/ d2 = [] -> n = 0).
  Proof.
    induction fuel as [|fuel IH]; intros h c1 c2 d2 HL Hf; [lia|]. cbn [merge_loop_n].
    pose proof HL as (HLs&HLt&_)%lists_two.
    destruct c2 as [|[x a] c2].
    { cbn [fmap list_fmap hd]. rewrite decide_True by done. eexists _, 0. split; [done|]. split; [lia|done]. }
    assert (x ≠ s) as Hx by (by eapply not_sentinel).
    destruct d2 as [|[y b] d2].
    { cbn [fmap list_fmap fst hd]. rewrite decide_False by done. rewrite decide_True by done. eexists _, 0. split; [done|]. split; [lia|done]. }
    assert (y ≠ t) as Hy by (by apply (not_sentinel h t [] y b d2)).
    cbn [fmap list_fmap fst hd]. rewrite !decide_False by done.
    rewrite (value_at h t [] y b d2 HLt), (value_at _ _ _ _ _ _ HLs). cbn [rbind].
    destruct (comp b a).
    - rewrite (next_at h t [] y b d2 HLt). cbn [rbind].
      destruct (transfer_two h s c1 ((x, a) :: c2) t [] [(y, b)] d2 HL) as (h1&E1&HL1&Hr1).
      cbn [app fmap list_fmap fst hd] in E1. fold (@fmap list _ _ _ (@fst loc A)) in E1. rewrite E1. cbn [rbind].
      destruct (IH h1 (c1 ++ [(y, b)]) ((x, a) :: c2) d2) as (r&n&E2&Hn&_).
      + rewrite <- app_assoc. done.
      + cbn in *. lia.
      + cbn [fmap list_fmap fst hd] in E2. rewrite E2. cbn [rbind]. eexists _, (S n). split; [done|]. cbn [length] in *. split; [lia|by intros [|]].
    - rewrite (next_at _ _ _ _ _ _ HLs). cbn [rbind].
      destruct (IH h (c1 ++ [(x, a)]) c2 ((y, b) :: d2)) as (r&n&E2&Hn&_).
      + rewrite <- app_assoc. done.
      + cbn in *. lia.
      + cbn [fmap list_fmap fst hd] in E2. rewrite E2. cbn [rbind]. eexists _, (S n). split; [done|]. cbn [length] in *. split; [lia|by intros [|]].
  Qed.
  (** merging makes fewer comparisons than there are elements, and none when a list is empty *)
  Lemma merge_count h s cs t ds : lists h [(s, cs); (t, ds)] ->
    exists h' n, c_list_merge_by_n comp h s t = Ok (h', n) /\ upd2 h h' s t cs ds (seq_merge (on2 comp) cs ds) [] /\
      n <= length cs + length ds - 1 /\ (cs = [] \/ ds = [] -> n = 0).
  Proof.
    intros HL. destruct (merge_ok comp h s cs t ds HL) as (h'&E&HU). rewrite <- erase_merge in E. unfold erase in E.
    apply rbind_Ok in E as ([h1 n]&E&[= ->]). exists h', n. split; [done|]. split; [done|].
    pose proof HL as (HLs&HLt&_)%lists_two. unfold c_list_merge_by_n in E. rewrite (empty_ok _ _ _ HLt) in E. cbn [rbind] in E.
    case_bool_decide as Hc; [injection E as _ <-; subst ds; split; [lia|done]|].
    rewrite (begin_ok _ _ _ HLs), (begin_ok _ _ _ HLt) in E. cbn [rbind] in E.
    destruct (merge_loop_count s t (fuel_of h) h [] cs ds HL) as (r&k&E1&Hn&H0).
    { unfold fuel_of. pose proof (is_list_length _ _ _ HLs). pose proof (is_list_length _ _ _ HLt). lia. }
    rewrite E1 in E. destruct r as [h2 o]. cbn [rbind] in E. assert (n = k) as ->; [|done].
    destruct (decide (o = t)); [by injection E as _ <-|]. apply rbind_Ok in E as (h3&_&[= _ <-]). done.
  Qed.
  Lemma inv_merge_n h0 L0 h s cs t ds other : inv h0 L0 h ((s, cs) :: (t, ds) :: other) ->
    exists h' n, c_list_merge_by_n comp h s t = Ok (h', n) /\ inv h0 L0 h' ((s, seq_merge ccomp cs ds) :: (t, []) :: other) /\
      n <= length cs + length ds - 1 /\ (cs = [] \/ ds = [] -> n = 0).
  Proof.
    intros HI. destruct (merge_count h s cs t ds (inv_two _ _ _ _ _ _ _ _ HI)) as (h'&n&E&HU&Hn).
    exists h', n. split; [done|]. split; [by eapply inv_op2|done].
  Qed.
  (** pushing the carry through the occupied bins *)
  Lemma carry_loop_count h0 L0 other fill fuel : forall h carry cr ct1 ct2 b1 b2,
    inv h0 L0 h ((carry, cr) :: zip (ct1 ++ ct2) (b1 ++ b2) ++ other) ->
    length ct1 = length b1 -> length ct2 = length b2 ->
    Forall (fun b => b = []) b1 -> binned Srt (length b1) b2 ->
    length b1 <= fill <= length b1 + length b2 -> fill - length b1 < fuel ->
    Srt cr -> length cr = 2 ^ length b1 ->
    exists h' carry' cr' ct1' ct2' b1' b2' n, carry_loop_n comp fuel h carry (ct1 ++ ct2) (length b1) fill =
        Ok (h', carry', ct1' ++ ct2', length b1', n) /\
      n + work (length b1) b2 + length b1 * length cr <= work (length b1') b2' + length b1' * length cr' /\
      inv h0 L0 h' ((carry', cr') :: zip (ct1' ++ ct2') (b1' ++ b2') ++ other) /\
      length ct1' = length b1' /\ length ct2' = length b2' /\ length b1' + length b2' = length b1 + length b2 /\
      Forall (fun b => b = []) b1' /\ binned Srt (length b1') b2' /\
      length b1' <= fill /\ (length b1' = fill \/ exists r, b2' = [] :: r) /\ (exists p, p ++ b2' = b2 /\ length b1' = length b1 + length p) /\
      Srt cr' /\ length cr' = 2 ^ length b1' /\
      Rel (flat b2 ++ cr) (flat b2' ++ cr').
  Proof.
    induction fuel as [|fuel IH]; intros h carry cr ct1 ct2 b1 b2 HI Hc1 Hc2 Hb1 Hb2 Hfill Hf Hs Hl; [lia|].
    cbn [carry_loop_n]. destruct (length b1 <? fill) eqn:Hlt.
    2:{ apply Nat.ltb_ge in Hlt. exists h, carry, cr, ct1, ct2, b1, b2, 0.
        refine (conj eq_refl (conj (le_n _) (conj HI (conj Hc1 (conj Hc2 (conj eq_refl (conj Hb1 (conj Hb2 (conj _ (conj _ (conj _ (conj Hs (conj Hl _))))))))))))).
        - lia.
        - left. lia.
        - exists []. split; [done|]. cbn. lia.
        - apply (m_refl HM). }
    apply Nat.ltb_lt in Hlt. destruct b2 as [|b b2]; [cbn in Hfill; lia|]. destruct ct2 as [|c ct2]; [done|].
    injection Hc2 as Hc2. rewrite cget_at by done. cbn [rbind].
    assert (zip (ct1 ++ c :: ct2) (b1 ++ b :: b2) = zip ct1 b1 ++ (c, b) :: zip ct2 b2) as Hz by (rewrite zip_with_app by done; done).
    rewrite Hz in HI.
    assert ((carry, cr) :: (zip ct1 b1 ++ (c, b) :: zip ct2 b2) ++ other ≡ₚ
      (c, b) :: (carry, cr) :: (zip ct1 b1 ++ zip ct2 b2) ++ other) as Hp.
    { rewrite <- Permutation_middle. cbn. constructor. }
    apply (inv_perm _ _ _ _ _ Hp) in HI. pose proof (inv_in _ _ _ _ c b HI ltac:(left)) as HLc.
    rewrite (empty_ok _ _ _ HLc). cbn [rbind]. apply binned_cons in Hb2 as [[Hbs Hbl] Hb2].
    case_bool_decide as Hbe.
    - subst b. exists h, carry, cr, ct1, (c :: ct2), b1, ([] :: b2), 0.
      refine (conj eq_refl (conj (le_n _) (conj _ (conj Hc1 (conj _ (conj eq_refl (conj Hb1 (conj _ (conj _ (conj _ (conj _ (conj Hs (conj Hl _))))))))))))).
      + rewrite Hz. eapply inv_perm; [symmetry; exact Hp|done].
      + cbn. by rewrite Hc2.
      + apply binned_cons. split; [split; [apply (m_short HM); cbn; lia|by left]|done].
      + lia.
      + right. by eexists.
      + exists []. split; [done|]. cbn. lia.
      + apply (m_refl HM).
    - destruct (inv_merge_n _ _ _ _ _ _ _ _ HI) as (h1&n1&E1&HI1&Hn1&_). rewrite E1. cbn [rbind].
      rewrite cset_at by done. cbn [rbind]. destruct Hbl as [?|Hbl]; [done|].
      destruct (IH h1 c (seq_merge ccomp b cr) (ct1 ++ [carry]) ct2 (b1 ++ [[]]) b2)
        as (h'&carry'&cr'&ct1'&ct2'&b1'&b2'&n2&E&R0&R1&R2&R3&R4&R5&R6&R7&R8&(p&Rp1&Rp2)&R9&R10&R11).
      + rewrite <- !app_assoc. cbn [app]. rewrite zip_with_app by done. cbn [zip zip_with].
        eapply inv_perm; [|exact HI1]. constructor. rewrite <- app_assoc. cbn. rewrite <- app_assoc. cbn.
        by rewrite <- Permutation_middle.
      + rewrite !app_length. cbn. lia.
      + done.
      + apply Forall_app. split; [done|]. by constructor.
      + rewrite app_length. cbn. by rewrite Nat.add_1_r.
      + rewrite app_length. cbn in *. lia.
      + rewrite app_length. cbn in *. lia.
      + by apply (m_srt HM).
      + rewrite (m_len HM), app_length, Hbl, Hl. cbn [length]. rewrite Nat.add_1_r. cbn. lia.
      + rewrite app_length in E. cbn [length] in E. rewrite Nat.add_1_r in E. rewrite <- app_assoc in E. cbn [app] in E.
        exists h', carry', cr', ct1', ct2', b1', b2', (n1 + n2). rewrite E. cbn [rbind]. rewrite app_length in R4, Rp2. cbn in R4, Rp2.
        refine (conj eq_refl (conj _ (conj R1 (conj R2 (conj R3 (conj _ (conj R5 (conj R6 (conj R7 (conj R8 (conj _ (conj R9 (conj R10 _))))))))))))).
        * cbn [work]. rewrite app_length in R0. cbn [length] in R0. rewrite Nat.add_1_r in R0. rewrite (m_len HM) in R0. rewrite Hbl, Hl in *. lia.
        * cbn. lia.
        * exists (b :: p). split; [cbn; by rewrite Rp1|]. cbn. lia.
        * eapply (m_trans HM); [|exact R11]. rewrite flat_cons, <- app_assoc. apply (m_app HM); [apply (m_refl HM)|].
          by apply (m_rel HM).
  Qed.
  (** taking the elements one by one *)
  Lemma sort_loop_count h0 L0 other l fuel : forall h carry cts bins fill done_ rest,
    inv h0 L0 h ((l, rest) :: (carry, []) :: zip cts bins ++ other) ->
    length cts = 64 -> length bins = 64 -> binned Srt 0 bins -> fill <= 64 ->
    (forall i b, bins !! i = Some b -> fill <= i -> b = []) -> (done_ <> [] -> 0 < fill) ->
    Rel done_ (flat bins) ->
    (Z.of_nat (length (done_ ++ rest)) < 2 ^ 64)%Z -> length rest < fuel ->
    exists h' carry' cts' bins' fill' n, sort_loop_n comp fuel h l carry cts fill = Ok (h', carry', cts', fill', n) /\
      n + work 0 bins <= work 0 bins' /\
      inv h0 L0 h' ((l, []) :: (carry', []) :: zip cts' bins' ++ other) /\
      length cts' = 64 /\ length bins' = 64 /\ binned Srt 0 bins' /\ fill' <= 64 /\
      (forall i b, bins' !! i = Some b -> fill' <= i -> b = []) /\ (done_ ++ rest <> [] -> 0 < fill') /\
      Rel (done_ ++ rest) (flat bins').
  Proof.
    induction fuel as [|fuel IH]; intros h carry cts bins fill done_ rest HI Hct Hbl Hb Hfill Hempty Hpos Hst Hlen Hf; [lia|].
    cbn [sort_loop_n]. pose proof (inv_in _ _ _ _ l rest HI ltac:(left)) as HLl.
    rewrite (empty_ok _ _ _ HLl). cbn [rbind]. case_bool_decide as Hr.
    { subst rest. exists h, carry, cts, bins, fill, 0. rewrite app_nil_r in *.
      refine (conj eq_refl (conj (le_n _) (conj HI (conj Hct (conj Hbl (conj Hb (conj Hfill (conj Hempty (conj Hpos Hst))))))))). }
    destruct rest as [|[x a] rest]; [done|].
    pose proof (inv_in _ _ _ _ carry [] HI ltac:(right; left)) as HLc.
    rewrite (begin_ok _ _ _ HLc), (begin_ok _ _ _ HLl). cbn [rbind hd fmap list_fmap fst].
    rewrite (next_at h l [] x a rest HLl). cbn [rbind].
    assert (lists h [(carry, []); (l, (x, a) :: rest)]) as HL2.
    { eapply lists_perm; [|eapply inv_two; exact HI]. constructor. }
    destruct (transfer_two h carry [] [] l [] [(x, a)] rest HL2) as (h1&E1&HL1&Hr1).
    cbn [app fmap list_fmap fst hd] in E1. fold (@fmap list _ _ _ (@fst loc A)) in E1. rewrite E1. cbn [rbind].
    assert (inv h0 L0 h1 ((carry, [(x, a)]) :: (l, rest) :: zip cts bins ++ other)) as HI1.
    { eapply (inv_op2 _ _ h h1 carry [] l ((x, a) :: rest)); [eapply inv_perm; [|exact HI]; constructor|].
      refine (conj HL1 (conj _ Hr1)). eapply relink_two; [exact HL2|done|]. done. }
    destruct (carry_loop_count h0 L0 ((l, rest) :: other) fill (S fill) h1 carry [(x, a)] [] cts [] bins)
      as (h2&carry'&cr'&ct1'&ct2'&b1'&b2'&n1&E2&R0&R1&R2&R3&R4&R5&R6&R7&R8&(p&Rp1&Rp2)&R9&R10&R11); try done.
    - cbn [app]. eapply inv_perm; [|exact HI1]. constructor. apply (Permutation_middle (zip cts bins) other (l, rest)).
    - cbn. lia.
    - cbn. lia.
    - cbn. lia.
    - apply (m_short HM). cbn. lia.
    - cbn [app length] in E2. rewrite E2. cbn [rbind]. cbn in R4.
      assert (Hst2 : Rel (done_ ++ [(x, a)]) (flat b2' ++ cr')).
      { eapply (m_trans HM); [|exact R11]. apply (m_app HM); [done|apply (m_refl HM)]. }
      assert (length b1' < 64) as H64.
      { eapply pow64; [exact Hlen|]. rewrite <- R10. pose proof (m_perm HM _ _ Hst2) as Hperm. apply Permutation_length in Hperm.
        rewrite !app_length in *. cbn in *. lia. }
      destruct b2' as [|b b2']; [cbn in R4; lia|]. destruct ct2' as [|c ct2']; [done|]. injection R3 as R3.
      assert (b = []) as ->.
      { destruct R8 as [R8|[r [= -> _]]]; [|done]. apply (Hempty (length b1')); [|lia]. rewrite <- Rp1.
        cbn in Rp2. rewrite Rp2. by rewrite list_lookup_middle. }
      rewrite cget_at by done. cbn [rbind]. rewrite cset_at by done. cbn [rbind].
      rewrite zip_with_app in R1 by done. cbn [zip_with] in R1.
      destruct (IH h2 c (ct1' ++ carry' :: ct2') (b1' ++ cr' :: b2') (if length b1' =? fill then S fill else fill)
        (done_ ++ [(x, a)]) rest) as (h3&carry3&cts3&bins3&fill3&n2&E3&Q0&Q1&Q2&Q3&Q4&Q5&Q6&Q7&Q8).
      + rewrite zip_with_app by done. cbn [zip_with]. eapply inv_perm; [|exact R1].
        rewrite <- !app_assoc. cbn. solve_Permutation.
      + rewrite app_length. cbn. cbn in R4. lia.
      + rewrite app_length. cbn. cbn in R4. lia.
      + apply binned_app. split; [by apply (binned_nil _ (m_short HM))|]. cbn. apply binned_cons in R6 as [_ R6]. apply binned_cons.
        split; [split; [done|by right]|done].
      + destruct (length b1' =? fill) eqn:Hef; [apply Nat.eqb_eq in Hef; lia|lia].
      + intros i b Hi Hle. destruct (decide (i < length b1')) as [Hlt|Hge].
        { rewrite lookup_app_l in Hi by done. rewrite Forall_lookup in R5. by eapply R5. }
        rewrite lookup_app_r in Hi by lia. destruct (i - length b1') as [|k] eqn:Hk.
        { exfalso. destruct (length b1' =? fill) eqn:Hef; [apply Nat.eqb_eq in Hef; lia|apply Nat.eqb_neq in Hef; lia]. }
        cbn in Hi. apply (Hempty i).
        * rewrite <- Rp1. cbn in Rp2. rewrite lookup_app_r by lia. replace (i - length p) with (S k) by lia. done.
        * destruct (length b1' =? fill); lia.
      + intros _. destruct (length b1' =? fill) eqn:Hef; [lia|]. apply Nat.eqb_neq in Hef. lia.
      + eapply (m_trans HM); [exact Hst2|]. rewrite flat_app, !flat_cons, (flat_nil b1') by done. rewrite !app_nil_r. apply (m_refl HM).
      + rewrite <- app_assoc. done.
      + cbn in Hf. lia.
      + exists h3, carry3, cts3, bins3, fill3, (n1 + n2). rewrite <- app_assoc in Q8, Q7. rewrite E3. cbn [rbind].
        refine (conj eq_refl (conj _ (conj Q1 (conj Q2 (conj Q3 (conj Q4 (conj Q5 (conj Q6 (conj Q7 Q8))))))))).
        rewrite work_app, (work_nil 0 b1') in Q0 by done. cbn [work length Nat.add] in *. lia.
  Qed.
  (** merging the bins upwards *)
  Lemma merge_up_count h0 L0 other n : forall h ct1 c ct2 b1 b b2,
    inv h0 L0 h (zip (ct1 ++ c :: ct2) (b1 ++ b :: b2) ++ other) -> length ct1 = length b1 -> length ct2 = length b2 ->
    Forall (fun b => b = []) b1 -> Srt b -> binned Srt (S (length b1)) b2 -> length b < 2 ^ S (length b1) -> n <= length b2 ->
    exists h' b1' b' b2' k, merge_up_n comp n (S (length b1)) h (ct1 ++ c :: ct2) = Ok (h', k) /\ k <= 2 * length (flat b2) /\
      inv h0 L0 h' (zip (ct1 ++ c :: ct2) (b1' ++ b' :: b2') ++ other) /\ length b1' = length b1 + n /\
      Forall (fun b => b = []) b1' /\ Srt b' /\ b2' = drop n b2 /\
      Rel (flat (b1 ++ b :: b2)) (flat (b1' ++ b' :: b2')).
  Proof.
    induction n as [|n IH]; intros h ct1 c ct2 b1 b b2 HI Hc1 Hc2 Hb1 Hb Hb2 Hsm Hn; cbn [merge_up_n].
    { exists h, b1, b, b2, 0. rewrite Nat.add_0_r, drop_0.
      refine (conj eq_refl (conj (Nat.le_0_l _) (conj HI (conj eq_refl (conj Hb1 (conj Hb (conj eq_refl _))))))). apply (m_refl HM). }
    destruct b2 as [|y b2]; [cbn in Hn; lia|]. destruct ct2 as [|d ct2]; [done|]. injection Hc2 as Hc2.
    apply binned_cons in Hb2 as [[Hy Hyl] Hb2].
    assert (cget (ct1 ++ c :: d :: ct2) (S (length b1)) = Ok d) as ->.
    { replace (ct1 ++ c :: d :: ct2) with ((ct1 ++ [c]) ++ d :: ct2) by by rewrite <- app_assoc.
      apply cget_at. rewrite app_length. cbn. lia. }
    cbn [rbind]. rewrite cget_at by lia. cbn [rbind].
    rewrite zip_with_app in HI by done. cbn [zip_with] in HI.
    assert ((zip_with pair ct1 b1 ++ (c, b) :: (d, y) :: zip_with pair ct2 b2) ++ other ≡ₚ
       (d, y) :: (c, b) :: (zip_with pair ct1 b1 ++ zip_with pair ct2 b2) ++ other) as Hp.
    { rewrite <- !app_assoc. cbn. solve_Permutation. }
    apply (inv_perm _ _ _ _ _ Hp) in HI. destruct (inv_merge_n _ _ _ _ _ _ _ _ HI) as (h1&k1&E1&HI1&Hk1&Hk0). rewrite E1. cbn [rbind].
    destruct (IH h1 (ct1 ++ [c]) d ct2 (b1 ++ [[]]) (seq_merge ccomp y b) b2) as (h2&b1'&b'&b2'&k2&E2&Q0&Q1&Q2&Q3&Q4&Q5&Q6); try done.
    - rewrite zip_with_app by (rewrite !app_length; cbn; lia). rewrite zip_with_app by done. cbn [zip_with].
      eapply inv_perm; [|exact HI1]. rewrite <- !app_assoc. cbn. solve_Permutation.
    - rewrite !app_length. cbn. lia.
    - apply Forall_app. split; [done|]. by constructor.
    - by apply (m_srt HM).
    - rewrite app_length. cbn. by rewrite Nat.add_1_r.
    - rewrite (m_len HM), app_length. cbn [length]. rewrite Nat.add_1_r. cbn in *. destruct Hyl as [->|Hyl]; cbn in *; lia.
    - cbn in Hn. lia.
    - rewrite app_length in E2, Q2. cbn [length] in E2, Q2. rewrite Nat.add_1_r in E2. rewrite <- !app_assoc in E2. cbn [app] in E2.
      rewrite <- !app_assoc in Q1. cbn [app] in Q1.
      exists h2, b1', b', b2', (k1 + k2). cbn [drop]. rewrite E2. cbn [rbind].
      refine (conj eq_refl (conj _ (conj Q1 (conj _ (conj Q3 (conj Q4 (conj Q5 _))))))); [|lia|].
      { rewrite flat_cons, app_length. destruct Hyl as [->|Hyl]; [rewrite Hk0 by (by left)|]; cbn in *; lia. }
      eapply (m_trans HM); [|exact Q6]. rewrite <- app_assoc. cbn [app]. rewrite !flat_app, !flat_cons, app_nil_r.
      apply (m_app HM); [|apply (m_refl HM)]. rewrite <- app_assoc. apply (m_app HM); [apply (m_refl HM)|].
      by apply (m_rel HM).
  Qed.

  Lemma sort_count_gen h l cs : is_list h l cs -> (Z.of_nat (length cs) < 2 ^ 64)%Z ->
    exists r n, c_list_sort_by_n alloc comp h l = Ok (r, n) /\ n <= length cs * Nat.log2 (length cs) + 2 * length cs.
  Proof.
    intros HL Hlen. destruct (sort_gen alloc Halloc comp Srt Rel HM h l cs HL Hlen) as (h'&l'&cs'&E&_).
    rewrite <- erase_sort in E. unfold erase in E. apply rbind_Ok in E as ([r n]&E&_). exists r, n. split; [done|].
    unfold c_list_sort_by_n in E. rewrite (empty_ok _ _ _ HL) in E. cbn [rbind] in E.
    case_bool_decide as Hc; [injection E as _ <-; lia|].
    rewrite (size_ok _ _ _ HL) in E. cbn [rbind] in E. destruct (length cs =? 1) eqn:E1; [injection E as _ <-; lia|].
    assert (inv h (nodes l cs) h [(l, cs)]) as HI0.
    { split_and!; [by apply lists_one| |done]. rewrite all_nodes_one. by apply step_refl. }
    pose proof (inv_create alloc Halloc _ _ _ _ HI0) as HI1. destruct (c_list_create alloc h) as [h1 carry].
    pose proof (create_counters_ok alloc Halloc 64 _ _ _ _ HI1) as HI2. destruct (create_counters alloc 64 h1) as [h2 cts].
    destruct HI2 as [Hct HI2].
    destruct (sort_loop_count h (nodes l cs) [] l (fuel_of h2) h2 carry cts (replicate 64 []) 0 [] cs)
      as (h3&carry3&cts3&bins3&fill3&k&E3&Q0&Q1&Q2&Q3&Q4&Q5&Q6&Q7&Q8).
    - eapply inv_perm; [|exact HI2]. rewrite app_nil_r. solve_Permutation.
    - done.
    - by rewrite replicate_length.
    - apply (binned_nil _ (m_short HM)), Forall_replicate. done.
    - lia.
    - intros i b Hi _. apply lookup_replicate in Hi as [-> _]. done.
    - done.
    - rewrite flat_replicate. apply (m_refl HM).
    - done.
    - eapply fuel_enough. eapply (inv_in _ _ _ _ l cs HI2). apply elem_of_app. right. right. left.
    - rewrite E3 in E. cbn [rbind] in E. cbn [app] in Q7, Q8. specialize (Q7 Hc). rewrite app_nil_r in Q1.
      pose proof (m_perm HM _ _ Q8) as Hlf. apply Permutation_length in Hlf.
      pose proof (work_log Srt 0 bins3 (length cs) Q4 ltac:(lia)) as Hw. rewrite (work_nil 0 (replicate 64 [])) in Q0 by (by apply Forall_replicate).
      destruct bins3 as [|b bins3]; [done|]. destruct cts3 as [|c cts3]; [done|]. injection Q2 as Q2. injection Q3 as Q3.
      apply binned_cons in Q4 as [[Hbs Hbl] Q4].
      destruct (merge_up_count h (nodes l cs) [(l, []); (carry3, [])] (fill3 - 1) h3 [] c cts3 [] b bins3)
        as (h4&b1&b'&b2&k'&E4&P0&_).
      + cbn [app]. eapply inv_perm; [|exact Q1]. cbn. solve_Permutation.
      + done.
      + lia.
      + constructor.
      + done.
      + done.
      + cbn. destruct Hbl as [->|Hbl]; cbn in *; lia.
      + lia.
      + cbn [length app] in E4. rewrite E4 in E. cbn [rbind] in E.
        apply rbind_Ok in E as (c'&_&E). apply rbind_Ok in E as (cs4&_&E). apply rbind_Ok in E as (h5&_&E). apply rbind_Ok in E as (h6&_&[= _ <-]).
        rewrite flat_cons, app_length in Hlf. rewrite flat_cons, app_length in Hw. nia.
  Qed.
End proofs.

(** sorting n elements makes at most n log2 n + 2 n comparisons, whatever the comparator *)
Lemma sort_count {A} alloc (Halloc : malloc_ok alloc) (comp : A -> A -> bool) (h : heap A) l cs :
  is_list h l cs -> (Z.of_nat (length cs) < 2 ^ 64)%Z ->
  exists r n, c_list_sort_by_n alloc comp h l = Ok (r, n) /\ n <= length cs * Nat.log2 (length cs) + 2 * length cs.
Proof. eapply sort_count_gen; [done|]. apply any_merging. Qed.
