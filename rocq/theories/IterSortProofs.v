(** IterSortProofs.v — the iterator programs of IterSort.v compute on flat cells what the functions of
    AlgoSort.v compute on a list: the list is the container, at the beginning of the flat memory. *)
From stdpp Require Import list gmap.
From Verif Require Import Base Spec Facts Iter IterFlat IterWp IterNonMod IterNonModProofs IterMod IterModProofs IterModProofs3 IterLocals
  IterHeap IterHeapProofs IterSort AlgoNonMod AlgoMod AlgoModProofs AlgoHeap AlgoHeapProofs AlgoSort AlgoSortProofs SortLen.
From stdpp Require Import list.

Section tools.
  Context {A : Type} (L : layout) (comp : A -> A -> bool) (m0 : list A) (N : nat).
  Context (HN : N <= length m0) (Hr : rng L 0 N) (Hw : writable L 0) (Hcat : flat_cat L 0 = Ok RANDOM).
  Implicit Types (h : list A) (s : gmap iid nat) (Q : unit -> list A -> gmap iid nat -> Prop).
  Local Notation V := (patch m0 0).

  Lemma HV : view_of V 0.
  Proof. apply view_patch. lia. Qed.
  Lemma Hg : cat_ge L RANDOM 0.
  Proof. by apply flat_cat_ge. Qed.
  Lemma Hb : cat_ge L BIDIRECTION 0.
  Proof. eapply (cat_weaken L RANDOM); [unfold BIDIRECTION, RANDOM; lia|apply Hg]. Qed.
  Lemma t_home f l : f <= l <= N -> home L 0 f l.
  Proof.
    intros H. split; [eapply rng_sub; [exact Hr|cbn; lia..]|]. split; [eapply writable_rng; [exact Hr|cbn; lia|done]|].
    eapply flat_cat_rng; [exact Hr|cbn; lia|done].
  Qed.
  Lemma t_rd X k x h s (Q : A -> list A -> gmap iid nat -> Prop) : length h = N -> s !! X = Some k -> rd h k = Ok x -> Q x (V h) s -> fwp L (Deref X) (V h) s Q.
  Proof.
    intros Hl HX Hx HQ. pose proof (rd_lt _ _ _ Hx). apply (proj1 HV) in Hx. cbn [plus] in Hx. wrd Hr Hx. done.
  Qed.
  Lemma t_wr X k x h h' s Q : length h = N -> s !! X = Some k -> wr h k x = Ok h' -> Q tt (V h') s -> fwp L (Write X x) (V h) s Q.
  Proof.
    intros Hl HX Hx HQ. assert (k < N).
    { unfold wr in Hx. destruct (h !! k) eqn:E; [|done]. apply lookup_lt_Some in E. lia. }
    apply (proj2 HV) in Hx. cbn [plus] in Hx. wwr Hr Hw Hx. done.
  Qed.
  Lemma t_da X Y k k' x h h' s Q : length h = N -> s !! Y = Some k -> s !! X = Some k' -> rd h k' = Ok x -> wr h k x = Ok h' ->
    Q tt (V h') s -> fwp L (DerefAssign Y X) (V h) s Q.
  Proof. intros Hl HY HX Hx Hm HQ. unfold DerefAssign. wb. eapply t_rd; [done..|]. by eapply t_wr. Qed.
  Lemma t_swap X Y i j h h' s Q : length h = N -> s !! X = Some i -> s !! Y = Some j -> swp h i j = Ok h' -> Q tt (V h') s -> fwp L (iter_swap_p X Y) (V h) s Q.
  Proof.
    intros Hl HX HY Hm HQ. destruct (swp_inv _ _ _ _ Hm) as (x&y&m1&Hx%rd_lt&Hy%rd_lt&_). apply (view_swp _ _ _ _ _ _ HV) in Hm. cbn [plus] in Hm.
    assert (cat_ge L FORWARD 0) as Hc2 by (eapply (cat_weaken L RANDOM); [unfold FORWARD, RANDOM; lia|apply Hg]).
    eapply (iter_swap_wp L _ _ _ _ i j 0 N 0 N); [exact Hm|exact Hr|lia|exact Hr|lia|done..].
  Qed.
  Lemma t_inc X k m s Q : s !! X = Some k -> k < N -> Q tt (m : list A) (<[X := S k]> s) -> fwp L (Inc X) m s Q.
  Proof. intros HX Hk HQ. winc Hr. done. Qed.
  Lemma t_dec X k m s Q : s !! X = Some (S k) -> S k <= N -> Q tt (m : list A) (<[X := k]> s) -> fwp L (Dec X) m s Q.
  Proof. intros HX Hk HQ. eapply fwp_dec; [exact HX|by eapply rng_dec; [exact Hr|apply Hb|lia]|]. cbn [Nat.sub]. by rewrite Nat.sub_0_r. Qed.
  Lemma t_adv m k k' z : z = (Z.of_nat k' - Z.of_nat k)%Z -> k <= N -> k' <= N -> flat_adv L (m : list A) k z = Ok k'.
  Proof. intros -> H1 H2. eapply rng_advz; [done|exact Hr|lia|lia|right; apply Hb]. Qed.
  Lemma t_dist X Y i j m s (Q : Z -> list A -> gmap iid nat -> Prop) : s !! X = Some i -> s !! Y = Some j -> i <= j <= N -> Q (Z.of_nat (j - i)) m s -> fwp L (Dist X Y) m s Q.
  Proof. intros H1 H2 H3 HQ. eapply (dist_wp L 0 i j); [eapply rng_sub; [exact Hr|cbn; lia..]|done..]. Qed.
  Lemma t_len h h' s : length h = N -> length h' = length h -> length h' = N.
  Proof. lia. Qed.

  (** ** partition *)
  Lemma scan_up_wp F p : forall fuel h i j s Q, scan_up comp fuel h i p = Ok j -> length h = N -> s !! F = Some i -> Q tt (V h) (<[F := j]> s) ->
    fwp L (While (x <~ Deref F;; Ret (comp x p)) (Inc F)) (V h) s Q.
  Proof.
    induction fuel as [|fuel IH]; intros h i j s Q; cbn [scan_up]; [done|]. intros (x&Hx&H)%rbind_Ok Hl HF HQ.
    pose proof (rd_lt _ _ _ Hx). apply fwp_while. wb. eapply t_rd; [done..|]. apply fwp_ret. destruct (comp x p).
    - eapply t_inc; [done|lia|]. eapply IH; [exact H|done|lk|]. by rewrite insert_insert.
    - injection H as <-. by rewrite insert_id in HQ.
  Qed.
  Lemma scan_down_wp E p : forall fuel h l j s Q, scan_down comp fuel h l p = Ok j -> length h = N -> s !! E = Some l -> Q tt (V h) (<[E := j]> s) ->
    fwp L (Dec E) (V h) s (fun _ m1 s1 => fwp L (While (x <~ Deref E;; Ret (comp p x)) (Dec E)) m1 s1 Q).
  Proof.
    induction fuel as [|fuel IH]; intros h l j s Q; cbn [scan_down]; [done|]. destruct l as [|l']; [done|].
    intros (x&Hx&H)%rbind_Ok Hl HE HQ. pose proof (rd_lt _ _ _ Hx). eapply t_dec; [done|lia|].
    apply fwp_while. wb. eapply t_rd; [done|lk|done|]. apply fwp_ret. destruct (comp p x).
    - eapply IH; [exact H|done|lk|]. by rewrite insert_insert.
    - by injection H as <-.
  Qed.
  Lemma scan_down_lt p : forall fuel h l j, scan_down comp fuel h l p = Ok j -> j < l /\ j < length h.
  Proof.
    induction fuel as [|fuel IH]; intros h l j; cbn [scan_down]; [done|]. destruct l as [|l']; [done|].
    intros (x&Hx&H)%rbind_Ok. apply rd_lt in Hx. destruct (comp p x); [apply IH in H; lia|]. injection H as <-. lia.
  Qed.
  Lemma scan_up_lt p : forall fuel h i j, scan_up comp fuel h i p = Ok j -> i <= j < length h.
  Proof.
    induction fuel as [|fuel IH]; intros h i j; cbn [scan_up]; [done|].
    intros (x&Hx&H)%rbind_Ok. apply rd_lt in Hx. destruct (comp x p); [apply IH in H; lia|]. injection H as <-. lia.
  Qed.
  Lemma partition_loop_wp F E p : F <> E -> forall fuel h i l h' part s Q, partition_by comp fuel h i l p = Ok (h', part) -> length h = N ->
    s !! F = Some i -> s !! E = Some l -> (forall j, Q tt (V h') (<[E := j]> (<[F := part]> s))) ->
    fwp L (Loop tt (fun _ => b <~ partition_round_p comp F E p;; Ret (if (b : bool) then inr tt else inl tt))) (V h) s Q.
  Proof.
    intros HFE. induction fuel as [|fuel IH]; intros h i l h' part s Q; cbn [partition_by]; [done|].
    intros (i'&Hi&(j&Hj&H)%rbind_Ok)%rbind_Ok Hl HF HE HQ. pose proof (scan_up_lt _ _ _ _ _ Hi). pose proof (scan_down_lt _ _ _ _ _ Hj).
    apply fwp_loop. wb. unfold partition_round_p at 1. wb. eapply scan_up_wp; [exact Hi|done|done|].
    wb. eapply fwp_mono; [eapply (scan_down_wp E p); [exact Hj|done|by rewrite lookup_insert_ne|]|].
    2:{ intros r m1 s1 Hm. wb. exact Hm. }
    wb. eapply fwp_less; [lk|lk|by eapply rng_less; [exact Hr|apply Hg|lia..]|]. destruct (i' <? j) eqn:Eij; cbn [negb] in *.
    - apply Nat.ltb_lt in Eij. apply rbind_Ok in H as (h1&Hs&H). wb. eapply t_swap; [done|lk|lk|exact Hs|]. wb. eapply t_inc; [lk|lia|]. apply fwp_ret. apply fwp_ret.
      eapply IH; [exact H|apply swp_length in Hs; lia|lk|lk|]. intros j'.
      match goal with |- Q _ _ ?x => replace x with (<[E := j']> (<[F := part]> s)) by mapeq end. done.
    - injection H as <- <-. apply fwp_ret. apply fwp_ret. apply HQ.
  Qed.
  Lemma partition_wp first last p h i l h' part s (Q : option iid -> list A -> gmap iid nat -> Prop) :
    partition_by comp (S (length h)) h i l p = Ok (h', part) -> length h = N -> s !! first = Some i -> s !! last = Some l ->
    (forall X, s !! X = None -> Q (Some X) (V h') (<[X := part]> s)) ->
    fwp L (partition_by_p comp first last (Some None) p) (V h) s Q.
  Proof.
    intros H Hl Hf Hla HQ. unfold partition_by_p. wnew. wnew. wb. eapply partition_loop_wp; [congruence|exact H|done|lk|lk|]. intros j.
    wb. eapply (fwp_copy_or_assign L (Some None)); [done|lk|].
    cbn. intros v s' (X&HX&->&->). fresh_hyps. wfree. wfree. apply fwp_ret.
    match goal with |- Q _ _ ?x => replace x with (<[X := part]> s) by mapeq end. by apply HQ.
  Qed.

  (** ** partial_sort *)
  Lemma t_exactly x k m s Q : s !! x = Some k -> k <= N -> Q tt (m : list A) s -> fwp L (exactly x RANDOM) m s Q.
  Proof. intros Hx Hk HQ. eapply exactly_wp; [done|eapply flat_cat_rng; [exact Hr|lia|done]|done]. Qed.
  Lemma t_mut x k m s Q : s !! x = Some k -> k <= N -> Q tt (m : list A) s -> fwp L (is_mutable x) m s Q.
  Proof. intros Hx Hk HQ. eapply fwp_is_mutable; [done|eapply writable_rng; [exact Hr|lia|done]|done]. Qed.
  Lemma partial_sort_loop_wp f mid l s0 F X E i p : f <= mid <= l -> l <= N -> s0 !! i = None -> s0 !! F = Some f -> s0 !! X = Some mid -> s0 !! E = Some l -> s0 !! p = Some (mid - 1) ->
    forall fuel h k h' Q, partial_sort_loop comp fuel h f mid k l = Ok h' -> length h = N -> k <= l -> Q tt (V h') (<[i := l]> s0) ->
    fwp L (While (Ne i E) (x <~ Deref i;; y <~ Deref F;;
      (if comp x y then pop_heap_by_p comp F X;;; iter_swap_p p i;;; push_heap_by_p comp F X else Ret tt);;; Inc i)) (V h) (<[i := k]> s0) Q.
  Proof.
    intros Hm Hl Hi HF HX HE Hp. assert (i <> F /\ i <> X /\ i <> E /\ i <> p) as (N1&N2&N3&N4) by (repeat split; congruence).
    induction fuel as [|fuel IH]; intros h k h' Q; cbn [partial_sort_loop]; [done|]. intros H Hlen Hk HQ.
    apply fwp_while. wne Hr. destruct (Nat.eqb_spec k l) as [->|Nk].
    - injection H as <-. cbn [negb]. done.
    - cbn [negb]. apply rbind_Ok in H as (x&Hx&(y&Hy&H)%rbind_Ok). wb. eapply t_rd; [done|lk|done|]. wb. eapply t_rd; [done|lk|done|].
      destruct (comp x y).
      + apply rbind_Ok in H as (m1&H1&(m2&H2&(m3&H3&H)%rbind_Ok)%rbind_Ok). pose proof (pop_heap_length _ _ _ _ _ H1) as L1. pose proof (swp_length _ _ _ _ H2) as L2.
        pose proof (push_heap_length _ _ _ _ _ H3) as L3.
        wb. wb. eapply (pop_heap_wp L comp V 0 HV f mid); [exact H1|apply t_home; lia|lk|lk|].
        wb. eapply t_swap; [lia|lk|lk|exact H2|]. eapply (push_heap_wp L comp V 0 HV f mid); [exact H3|apply t_home; lia|lk|lk|].
        eapply t_inc; [lk|lia|]. rewrite insert_insert. eapply IH; [exact H|lia|lia|done].
      + wb. apply fwp_ret. eapply t_inc; [lk|lia|]. rewrite insert_insert. eapply IH; [exact H|lia|lia|done].
  Qed.
  Lemma partial_sort_wp f mid l first middle last h h' s Q : algo_partial_sort_by comp h f mid l = Ok h' -> length h = N -> f <= mid <= l -> l <= N -> over L f ->
    s !! first = Some f -> s !! middle = Some mid -> s !! last = Some l -> Q tt (V h') s -> fwp L (partial_sort_by_p comp first middle last) (V h) s Q.
  Proof.
    intros H Hlen Hm Hl Ho Hf Hmi Hla HQ. unfold partial_sort_by_p, algo_partial_sort_by in *.
    wb. eapply t_exactly; [done|lia|]. wb. eapply t_exactly; [done|lia|]. wb. eapply t_exactly; [done|lia|].
    wb. eapply t_mut; [done|lia|]. wb. eapply t_mut; [done|lia|]. wb. weq Hr. destruct (Nat.eqb_spec f mid) as [->|Nf].
    { injection H as <-. by apply fwp_ret. }
    apply rbind_Ok in H as (m1&H1&(m2&H2&H)%rbind_Ok).
    pose proof (make_heap_length _ _ _ _ _ H1) as L1. pose proof (partial_sort_loop_length _ _ _ _ _ _ _ _ H2) as L2.
    wnew. wnew. wnew. wnew. wb. eapply fwp_new_and_move; [lk|by apply (t_adv _ mid (mid - 1)); lia|]. intros p Hp. fresh_hyps.
    wb. eapply (make_heap_wp L comp V 0 HV f mid); [exact H1|apply t_home; lia|done|lk|lk|].
    wb. match goal with |- fwp _ _ _ (<[?p := ?a]> (<[?x := ?k]> ?s0)) _ => replace (<[p := a]> (<[x := k]> s0)) with (<[x := k]> (<[p := a]> s0)) by mapeq end.
    eapply (partial_sort_loop_wp f mid l); [lia|lia|lk|lk|lk|lk|lk|exact H2|lia|lia|].
    wb. eapply (sort_heap_wp L comp V 0 HV f mid); [exact H|apply t_home; lia|lk|lk|].
    wfree. wfree. wfree. wfree. eapply fwp_free; [lk|].
    match goal with |- Q _ _ ?x => replace x with s by mapeq end. done.
  Qed.

  (** ** the two insertion sorts *)
  (** what a value reference is at list level *)
  Definition ref_of s (v : A + iid) (r : vref) : Prop :=
    match v, r with inl x, Tmp y => x = y | inr i, Cell k => s !! i = Some k | _, _ => False end.
  Lemma val_wp v r x h s (Q : A -> list A -> gmap iid nat -> Prop) : length h = N -> ref_of s v r -> deref h r = Ok x -> Q x (V h) s -> fwp L (val_p v) (V h) s Q.
  Proof.
    intros Hl Hv Hx HQ. destruct v as [y|i], r as [z|k]; try done; cbn in *.
    - subst. injection Hx as ->. by apply fwp_ret.
    - by eapply t_rd.
  Qed.
  Lemma unguarded_loop_wp E n v r : E <> n -> forall fuel h l h' s0 Q, unguarded_linear comp fuel h l r = Ok h' -> length h = N -> l <= N -> ref_of s0 v r ->
    s0 !! E = None -> s0 !! n = None -> (forall h1 k x, length h1 = N -> deref h1 r = Ok x -> wr h1 k x = Ok h' -> Q tt (V h1) (<[n := k - 1]> (<[E := k]> s0))) ->
    fwp L (While (x <~ val_p v;; y <~ Deref n;; Ret (comp x y)) (DerefAssign E n;;; Assign E n;;; Dec n)) (V h) (<[n := l - 1]> (<[E := l]> s0)) Q.
  Proof.
    intros HEn. induction fuel as [|fuel IH]; intros h l h' s0 Q; cbn [unguarded_linear]; [done|]. destruct l as [|next]; [done|].
    intros (x&Hx&(y&Hy&H)%rbind_Ok)%rbind_Ok Hlen Hl Hv HE Hn HQ. cbn [Nat.sub]. rewrite Nat.sub_0_r. pose proof (rd_lt _ _ _ Hy).
    assert (ref_of (<[n := next]> (<[E := S next]> s0)) v r) as Hv2.
    { destruct v as [z|i], r as [w|k]; try done. cbn in *. assert (i <> n /\ i <> E) as [? ?] by (split; congruence). lk. }
    apply fwp_while. wb. eapply val_wp; [done|exact Hv2|exact Hx|]. wb. eapply t_rd; [done|lk|exact Hy|]. apply fwp_ret. destruct (comp x y).
    - apply rbind_Ok in H as (h1&Hh1&H). wb. eapply t_da; [done|lk|lk|exact Hy|exact Hh1|].
      wb. eapply fwp_assign; [lk|lk|by eapply alike_rng; [exact Hr|lia..]|]. apply wr_length in Hh1.
      assert (exists nn, next = S nn) as (nn&->).
      { destruct fuel; [done|]. destruct next; [done|eauto]. }
      eapply t_dec; [lk|lia|].
      match goal with |- fwp _ _ _ ?x _ => replace x with (<[n := S nn - 1]> (<[E := S nn]> s0)) by (cbn [Nat.sub]; rewrite Nat.sub_0_r; mapeq) end.
      eapply IH; [exact H|lia|lia|done|done|done|done].
    - specialize (HQ h (S next) x Hlen Hx H). cbn [Nat.sub] in HQ. by rewrite Nat.sub_0_r in HQ.
  Qed.
  Lemma unguarded_linear_wp last v r fuel h l h' s Q : unguarded_linear comp fuel h l r = Ok h' -> length h = N -> l <= N -> s !! last = Some l ->
    ref_of s v r -> Q tt (V h') s -> fwp L (unguarded_linear_p comp last v) (V h) s Q.
  Proof.
    intros H Hlen Hl Hla Hv HQ. unfold unguarded_linear_p. assert (0 < l) as Hpos by (destruct fuel; [done|]; destruct l; [done|lia]).
    wnew. wb. eapply fwp_new_and_move; [lk|by apply (t_adv _ l (l - 1)); lia|]. intros n Hn. fresh_hyps.
    wb. eapply unguarded_loop_wp; [congruence|exact H|done|done|exact Hv|done|done|]. intros h1 k x L1 Hx Hwr.
    assert (k < N) as Hk.
    { unfold wr in Hwr. destruct (h1 !! k) eqn:E; [|done]. apply lookup_lt_Some in E. lia. }
    wb. eapply (val_wp _ r); [done| |exact Hx|].
    { destruct v as [z|i'], r as [w|k']; try done. cbn in *. assert (i' <> n /\ i' <> i) as [? ?] by (split; congruence). lk. }
    wb. eapply t_wr; [done|lk|exact Hwr|]. wfree. eapply fwp_free; [lk|].
    match goal with |- Q _ _ ?x => replace x with s by mapeq end. done.
  Qed.
  Lemma V_patch h d l : length h = N -> d + length l <= N -> patch (V h) d l = V (patch h d l).
  Proof.
    intros H1 H2. assert (forall x, length x = N -> V x = x ++ drop N m0) as E.
    { intros x Hx. unfold patch. cbn [take app plus]. by rewrite Hx. }
    rewrite (E h), (E (patch h d l)) by (try rewrite patch_length; lia). unfold patch.
    rewrite take_app_le by lia. rewrite drop_app_le by lia. by rewrite !app_assoc.
  Qed.
  Lemma V_slice h i j : length h = N -> j <= N -> slice (V h) i j = slice h i j.
  Proof.
    intros H1 H2. unfold slice, patch. rewrite take_0. cbn [app plus]. destruct (decide (i <= length h)) as [Hi|Hi].
    - rewrite drop_app_le by done. rewrite take_app_le; [done|]. rewrite drop_length. lia.
    - by replace (j - i) with 0 by lia.
  Qed.
  Lemma linear_sort_wp first last f l h h' s Q : linear_sort comp h f l = Ok h' -> length h = N -> f <= l -> s !! first = Some f -> s !! last = Some l ->
    Q tt (V h') s -> fwp L (linear_sort_p comp first last) (V h) s Q.
  Proof.
    intros H Hlen Hfl Hf Hl HQ. unfold linear_sort_p, linear_sort in *. apply rbind_Ok in H as (v&Hv&(x&Hx&H)%rbind_Ok). pose proof (rd_lt _ _ _ Hv) as Hvl.
    wnew. wnew. wb. eapply t_rd; [done|lk|exact Hv|]. wb. eapply t_rd; [done|lk|exact Hx|]. destruct (comp v x).
    - rewrite copy_backward_ok in H by (try split; lia). cbn [rbind fst] in H.
      assert (length (V h) = length m0) as HVl by (apply patch_length; lia).
      assert (d : S l - (l - f) = S f) by lia. rewrite d in H.
      wb. wb. eapply fwp_new_and_move; [lk|by apply (t_adv _ l (S l)); lia|]. intros n Hn. fresh_hyps.
      wb. match goal with |- fwp _ _ _ ?st _ => eapply fwp_mono; [eapply (copy_backward_wp L _ _ _ None (V h) st f l (S f) (S l) (patch (V h) (S f) (slice h f l)) (S f) (l - f))|] end.
      + rewrite copy_backward_ok by (try split; lia). rewrite d. by rewrite V_slice by lia.
      + eapply rng_sub; [exact Hr|lia..].
      + eapply rng_sub; [exact Hr|lia..].
      + lia.
      + eapply writable_rng; [exact Hr|lia|done].
      + eapply (cat_rng L _ 0 N); [exact Hr|lia|apply Hb].
      + eapply (cat_rng L _ 0 N); [exact Hr|lia|apply Hb].
      + lk.
      + lk.
      + lk.
      + done.
      + intros r m1 s1 (_&->&[_ ->]). assert (length (slice h f l) = l - f) as Hsl by (apply slice_length; split; lia).
        rewrite V_patch by lia. wb. eapply t_wr; [rewrite patch_length; lia|lk|exact H|].
        eapply fwp_free; [lk|]. wfree. eapply fwp_free; [lk|]. match goal with |- Q _ _ ?x => replace x with s by mapeq end. done.
    - wb. eapply (unguarded_linear_wp _ _ (Tmp v)); [exact H|done|lia|lk|done|]. wfree. eapply fwp_free; [lk|].
      match goal with |- Q _ _ ?x => replace x with s by mapeq end. done.
  Qed.
  Lemma insertion_loop_wp F E i f l s0 : s0 !! F = Some f -> s0 !! E = Some l -> s0 !! i = None -> l <= N -> forall fuel h k h' Q,
    insertion_loop comp fuel h f k l = Ok h' -> length h = N -> f <= k <= l -> Q tt (V h') (<[i := l]> s0) ->
    fwp L (While (Ne i E) (linear_sort_p comp F i;;; Inc i)) (V h) (<[i := k]> s0) Q.
  Proof.
    intros HF HE Hi Hl. assert (i <> F /\ i <> E) as [NF NE] by (split; congruence).
    induction fuel as [|fuel IH]; intros h k h' Q; cbn [insertion_loop]; [done|]. intros H Hlen Hk HQ.
    apply fwp_while. wne Hr. destruct (Nat.eqb_spec k l) as [->|Nk].
    - injection H as <-. done.
    - cbn [negb]. apply rbind_Ok in H as (h1&H1&H). pose proof (linear_sort_length _ _ _ _ _ (proj1 Hk) H1).
      wb. eapply linear_sort_wp; [exact H1|done|lia|lk|lk|]. eapply t_inc; [lk|lia|]. rewrite insert_insert. eapply IH; [exact H|lia|lia|done].
  Qed.
  Lemma insertion_sort_wp first last f l h h' s Q : insertion_sort comp h f l = Ok h' -> length h = N -> f <= l <= N -> s !! first = Some f -> s !! last = Some l ->
    Q tt (V h') s -> fwp L (insertion_sort_p comp first last) (V h) s Q.
  Proof.
    intros H Hlen Hfl Hf Hl HQ. unfold insertion_sort_p, insertion_sort in *. wb. weq Hr. destruct (Nat.eqb_spec f l) as [->|Nf].
    { injection H as <-. by apply fwp_ret. }
    wnew. wnew. wb. eapply fwp_new_and_move; [lk|by apply (t_adv _ f (S f)); lia|]. intros n Hn. fresh_hyps.
    wb. eapply (insertion_loop_wp _ _ _ f l); [lk|lk|lk|lia|exact H|done|lia|].
    wfree. wfree. eapply fwp_free; [lk|]. match goal with |- Q _ _ ?x => replace x with s by mapeq end. done.
  Qed.
  Lemma unguarded_insertion_loop_wp E i l s0 : s0 !! E = Some l -> s0 !! i = None -> l <= N -> forall fuel h k h' Q,
    unguarded_insertion comp fuel h k l = Ok h' -> length h = N -> k <= l -> Q tt (V h') (<[i := l]> s0) ->
    fwp L (While (Ne i E) (unguarded_linear_p comp i (inr i);;; Inc i)) (V h) (<[i := k]> s0) Q.
  Proof.
    intros HE Hi Hl. assert (i <> E) by congruence.
    induction fuel as [|fuel IH]; intros h k h' Q; cbn [unguarded_insertion]; [done|]. intros H' Hlen Hk HQ.
    apply fwp_while. wne Hr. destruct (Nat.eqb_spec k l) as [->|Nk].
    - injection H' as <-. done.
    - cbn [negb]. apply rbind_Ok in H' as (h1&H1&H'). pose proof (unguarded_linear_length _ _ _ _ _ _ H1).
      wb. eapply (unguarded_linear_wp _ _ (Cell k)); [exact H1|done|lia|lk|cbn; lk|]. eapply t_inc; [lk|lia|]. rewrite insert_insert. eapply IH; [exact H'|lia|lia|done].
  Qed.
  Lemma unguarded_insertion_wp first last k l fuel h h' s Q : unguarded_insertion comp fuel h k l = Ok h' -> length h = N -> k <= l <= N ->
    s !! first = Some k -> s !! last = Some l -> Q tt (V h') s -> fwp L (unguarded_insertion_p comp first last) (V h) s Q.
  Proof.
    intros H Hlen Hfl Hf Hl HQ. unfold unguarded_insertion_p. wnew. wnew. wnew.
    wb. eapply (unguarded_insertion_loop_wp _ _ l); [lk|lk|lia|exact H|done|lia|].
    wfree. wfree. eapply fwp_free; [lk|]. match goal with |- Q _ _ ?x => replace x with s by mapeq end. done.
  Qed.
  Lemma final_insertion_wp first last f l h h' s Q : final_insertion_sort comp h f l = Ok h' -> length h = N -> f <= l <= N ->
    s !! first = Some f -> s !! last = Some l -> Q tt (V h') s -> fwp L (final_insertion_p comp first last) (V h) s Q.
  Proof.
    intros H Hlen Hfl Hf Hl HQ. unfold final_insertion_p, final_insertion_sort in *. wnew. wnew. wb. eapply t_dist; [lk|lk|lia|]. rewrite ltb_of.
    destruct (Nat.ltb_spec threshold (l - f)) as [Ht|Ht].
    - apply rbind_Ok in H as (h1&Hh1&H). pose proof (insertion_sort_length _ _ _ _ _ Hh1).
      wb. wb. eapply fwp_new_and_move; [lk|by apply (t_adv _ f (f + threshold)); lia|]. intros n Hn. fresh_hyps.
      wb. eapply insertion_sort_wp; [exact Hh1|done|lia|lk|lk|]. wb. eapply unguarded_insertion_wp; [exact H|lia|lia|lk|lk|].
      eapply fwp_free; [lk|]. wfree. eapply fwp_free; [lk|]. match goal with |- Q _ _ ?x => replace x with s by mapeq end. done.
    - wb. eapply insertion_sort_wp; [exact H|done|lia|lk|lk|]. wfree. eapply fwp_free; [lk|].
      match goal with |- Q _ _ ?x => replace x with s by mapeq end. done.
  Qed.

  (** ** introsort *)
  Context (HW : StrictWeakOrder comp).
  Lemma partition_bounds h f l p i0 h' part : partition_by comp (S (length h)) h f l p = Ok (h', part) -> f <= l <= length h -> f <= i0 < l -> h !! i0 = Some p ->
    f <= part < l.
  Proof.
    intros H Hfl Hi0 Hp. destruct (partition_by_ok comp HW p f l (S (length h)) h f l) as (m1&part'&H1&Hpart&_); [split; lia|lia|lia|lia|lia| | |lia|lia|].
    - exists i0, p. split; [done|]. split; [done|]. apply (swo_irrefl _ HW).
    - exists i0, p. split; [done|]. split; [done|]. apply (swo_irrefl _ HW).
    - rewrite H in H1. injection H1 as <- <-. done.
  Qed.
  Lemma rd_look h k x : rd h k = Ok x -> h !! k = Some x.
  Proof. unfold rd. destruct (h !! k); [|done]. by intros [= ->]. Qed.
  (** only ranges of more than 512 elements are given to partial_sort, whose make_heap moves an iterator out of the range *)
  Context (n0 : nat) (Hov : 512 < n0 -> over L 0).
  Lemma over_at k : 512 < n0 -> k <= N -> over L k.
  Proof.
    intros Hn Hk. destruct (Hov Hn) as (s0&o0&d0&E1&E2). destruct (rng_loc L 0 N k Hr ltac:(lia)) as (a&o&d&E3&E4&_).
    rewrite E1 in E3. injection E3 as <- <- <-. by eexists _, _, d0.
  Qed.
  Local Notation P := (fun k => k <= N).
  Lemma introsort_loop_wp depth : forall h f l h' F E mid prev s0 s1 (Q : option iid * option iid -> list A -> gmap iid nat -> Prop),
    introspective_sort comp depth h f l = Ok h' -> length h = N -> f <= l <= N -> l - f <= n0 -> s0 !! F = Some f -> s0 !! E = Some l -> F <> E ->
    locals P s0 [mid; prev] s1 ->
    (forall mid' prev' l' s2, locals P (<[E := l']> s0) [mid'; prev'] s2 -> Q (mid', prev') (V h') s2) ->
    fwp L (introsort_loop_p comp depth F E mid prev) (V h) s1 Q.
  Proof.
    induction depth as [|depth IH]; intros h f l h' F E mid prev s0 s1 Q H Hlen Hfl Hn0 HF HE HFE HL HQ; cbn [introspective_sort introsort_loop_p] in *.
    - pose proof (locals_look _ _ _ _ _ _ HL HF) as HF1. pose proof (locals_look _ _ _ _ _ _ HL HE) as HE1.
      wb. eapply t_dist; [done|done|lia|]. rewrite ltb_of. destruct (Nat.ltb_spec threshold (l - f)) as [Ht|Ht].
      + assert (512 < l - f) as Ht' by exact Ht. wb. eapply partial_sort_wp; [exact H|done|lia|lia|apply over_at; lia|done|done|done|]. apply fwp_ret. apply (HQ mid prev l). by rewrite insert_id.
      + injection H as <-. apply fwp_ret. apply (HQ mid prev l). by rewrite insert_id.
    - pose proof (locals_look _ _ _ _ _ _ HL HF) as HF1. pose proof (locals_look _ _ _ _ _ _ HL HE) as HE1.
      wb. eapply t_dist; [done|done|lia|]. rewrite ltb_of. destruct (Nat.ltb_spec threshold (l - f)) as [Ht|Ht].
      2:{ injection H as <-. apply fwp_ret. apply (HQ mid prev l). by rewrite insert_id. }
      assert (512 < l - f) as Ht' by exact Ht. clear Ht.
      apply rbind_Ok in H as (x&Hx&(y&Hy&(z&Hz&([h1 part]&Hp&(h2&H2&H)%rbind_Ok)%rbind_Ok)%rbind_Ok)%rbind_Ok).
      assert ((l - f) / 2 < l - f) as Hdiv by (apply Nat.div_lt; lia).
      assert (f <= part < l) as Hpart.
      { destruct (median_in comp x y z) as [Em|[Em|Em]]; rewrite Em in Hp.
        - by eapply (partition_bounds _ f l x f); [exact Hp|lia|lia|apply rd_look].
        - eapply (partition_bounds _ f l y (f + (l - f) / 2)); [exact Hp|lia|lia|by apply rd_look].
        - eapply (partition_bounds _ f l z (l - 1)); [exact Hp|lia|lia|by apply rd_look]. }
      pose proof (partition_by_length _ _ _ _ _ _ _ _ Hp) as L1. pose proof (introspective_length _ _ _ _ _ _ H2) as L2.
      wb. eapply t_dist; [done|done|lia|].
      wb. eapply (copy_and_move_wp L _ s0 _ 0); [exact HL|done|exact HF|by intros k Hk; cbn beta in Hk; apply (covers_rng _ _ _ _ _ Hr); lia| |cbn beta|].
      { apply (t_adv _ f (f + (l - f) / 2)); [|lia|lia]. change 2%Z with (Z.of_nat 2). rewrite Z.quot_div_nonneg by lia. rewrite <- Nat2Z.inj_div. lia. }
      { lia. }
      intros X HX _ HL1. ins.
      wb. eapply (copy_and_move_wp L _ s0 _ 1); [exact HL1|done|exact HE|by intros k Hk; cbn beta in Hk; apply (covers_rng _ _ _ _ _ Hr); lia| |cbn beta|].
      { apply (t_adv _ l (l - 1)); lia. }
      { lia. }
      intros Y HY HN2 HL2. pose proof (HN2 0 X ltac:(done) eq_refl) as NXY. ins. clear HL1 HN2.
      pose proof (locals_look _ _ _ _ _ _ HL2 HF) as HF2. pose proof (locals_look _ _ _ _ _ _ HL2 HE) as HE2.
      wb. eapply t_rd; [done|exact HF2|exact Hx|]. wb. eapply t_rd; [done|lk|exact Hy|]. wb. eapply t_rd; [done|lk|exact Hz|].
      cbn zeta. clear HL. revert HL2 HF2 HE2. generalize (<[Y := l - 1]> (<[X := f + (l - f) / 2]> s1)). clear s1 HF1 HE1. intros s1 HL HF1 HE1.
      wb. eapply partition_wp; [exact Hp|done|exact HF1|exact HE1|]. intros W HNW.
      assert (s0 !! W = None) as HW0.
      { rewrite <- (lo_frame _ _ _ _ HL); [done|]. intros n Hn. destruct (lo_var _ _ _ _ HL n W Hn) as (_&k&Hk&_). congruence. }
      wb. eapply fwp_new; [lk|]. intros F' HF'. fresh_hyps. wb. eapply fwp_new; [lk|]. intros E' HE'. fresh_hyps.
      wb. match goal with |- fwp _ _ _ ?st _ => eapply (IH h1 part l h2 F' E' None None st) end;
        [exact H2|lia|lia|lia|lk|lk|congruence|apply locals_nil; by repeat constructor|].
      cbn beta. intros mid' prev' l' s2 HL2. cbn [fst snd]. lfree 1 HL2. lfree 0 HL2. ldone HL2.
      wfree. wfree. wb. eapply fwp_assign; [lk|lk|by eapply alike_rng; [exact Hr|lia..]|]. wfree.
      eapply (IH h2 f part h' F E (Some X) (Some Y) (<[E := part]> s0)); [exact H|lia|lia|lia|by rewrite lookup_insert_ne|by rewrite lookup_insert|done| |].
      + match goal with |- locals _ _ _ ?x => replace x with (<[E := part]> s1) by mapeq end.
        destruct (locals_out _ _ _ _ (Some (Some E)) part (Some E) (<[E := part]> s1) HL) as (s0'&[_ ->]&HL'); [done|intros i [= <-]; congruence|done].
      + intros mid2 prev2 l2 s4 HL4. rewrite insert_insert in HL4. by eapply HQ.
  Qed.
  Lemma introsort_wp depth h f l h' first last s Q : introspective_sort comp depth h f l = Ok h' -> length h = N -> f <= l <= N -> l - f <= n0 ->
    s !! first = Some f -> s !! last = Some l -> Q tt (V h') s -> fwp L (introsort_p comp first last depth) (V h) s Q.
  Proof.
    intros H Hlen Hfl Hn0 Hf Hl HQ. unfold introsort_p. wnew. wnew.
    wb. match goal with |- fwp _ _ _ ?st _ => eapply (introsort_loop_wp depth h f l h' _ _ None None st) end;
      [exact H|lia|lia|lia|lk|lk|congruence|apply locals_nil; by repeat constructor|].
    intros mid' prev' l' s2 HL2. cbn [fst snd]. lfree 1 HL2. lfree 0 HL2. ldone HL2. wfree. eapply fwp_free; [lk|].
    match goal with |- Q _ _ ?x => replace x with s by mapeq end. done.
  Qed.
  Lemma sort_wp h f l h' first last s Q : algo_sort_by comp h f l = Ok h' -> length h = N -> f <= l <= N -> l - f <= n0 ->
    s !! first = Some f -> s !! last = Some l -> Q tt (V h') s -> fwp L (sort_by_p comp first last) (V h) s Q.
  Proof.
    intros H Hlen Hfl Hn0 Hf Hl HQ. unfold sort_by_p, algo_sort_by in *.
    wb. eapply t_exactly; [done|lia|]. wb. eapply t_exactly; [done|lia|]. wb. eapply t_mut; [done|lia|]. wb. weq Hr. destruct (Nat.eqb_spec f l) as [->|Nf].
    { injection H as <-. by apply fwp_ret. }
    apply rbind_Ok in H as (h1&H1&H). pose proof (introspective_length _ _ _ _ _ _ H1) as L1.
    wnew. wnew. wb. eapply t_dist; [lk|lk|lia|]. rewrite Nat2Z.id. wb. eapply introsort_wp; [exact H1|done|lia|lia|lk|lk|].
    wb. eapply final_insertion_wp; [exact H|lia|lia|lk|lk|]. wfree. eapply fwp_free; [lk|].
    match goal with |- Q _ _ ?x => replace x with s by mapeq end. done.
  Qed.
End tools.
