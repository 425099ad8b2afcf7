(** IterOom.v — running the algorithms of /repo/algorithm when malloc may fail.

    The algorithms copy the caller's iterators to the heap (c_internal.h 141-205) and do not look whether the copy was
    made.  [run_m] is [run] of Iter.v with the outcomes of the calls of malloc to come ([r], as in DListOom.v).  An iterator
    variable of the program whose allocation failed is a null pointer: its entry in the store is [None].
    Not represented: failing allocation of temporaries for element values (algo_swap and the like), which is
    __c_allocate of the element type. *)
From stdpp Require Import list gmap.
From Verif Require Import Base DListOom Iter IterNonMod IterMod IterOrd IterHeap IterSort.
From stdpp Require Import list.

(** container memory and iterator variables *)
Definition mstate {A} (W : world A) : Type := w_mem W * gmap iid (option (w_pos W)).

Section run_m.
  Context {A : Type} (W : world A).
  Notation orc := (list bool).
  Implicit Types (r : orc) (st : mstate W) (s : gmap iid (option (w_pos W))).

  (** the iterator object a variable points to; reading through a null pointer is undefined *)
  Definition obj s (i : iid) : res (w_pos W) := match s !! i with Some (Some p) => Ok p | _ => UB end.
  (** the same where the function table is not read through the pointer: the functions test it for null, e.g. c_vector.c
      62, 84, 146, 157, 169, c_list.c 73, 137, 162, c_tree.c 645, 738, 761 *)
  Definition obj_or_null s (i : iid) : res (option (w_pos W)) := match s !! i with Some o => Ok o | _ => UB end.

  (** as [run] (Iter.v); alloc_and_copy leaves the variable null when there is no memory (c_vector.c 74-80, c_list.c 63-69,
      c_forward_list.c 51-57, c_deque.c 87-93, c_tree.c 635-641).  With a null second argument assign does nothing, equal and
      less are false, and distance is 0 (lines above); free of a null pointer does nothing (c_internal.h 112-118) *)
  Fixpoint run_m (fuel : nat) {R : Type} (p : prog A R) r st : res (R * orc * mstate W) :=
    match p in prog _ R0 return res (R0 * orc * mstate W) with
    | Ret x => Ok (x, r, st)
    | Fail => UB
    | Bind p k => do (x, r', st') <- run_m fuel p r st; run_m fuel (k x) r' st'
    | Loop x body =>
        (fix loop (n : nat) x r st :=
           match n with
           | 0 => NoFuel
           | S n' => do (y, r', st') <- run_m fuel (body x) r st;
                     match y with inl x' => loop n' x' r' st' | inr z => Ok (z, r', st') end
           end) fuel x r st
    | New src => do p <- obj st.2 src;
                 let (ok, r) := outcome r in
                 let i := fresh (dom st.2) in Ok (i, r, (st.1, <[i := if ok then Some p else None]> st.2))
    | Free i => do _ <- obj_or_null st.2 i; Ok (tt, r, (st.1, delete i st.2))
    | Assign d s => do p <- obj st.2 d; do q <- obj_or_null st.2 s;
                    match q with
                    | Some q => do z <- w_assign W p q; Ok (tt, r, (st.1, <[d := Some z]> st.2))
                    | None => Ok (tt, r, st)
                    end
    | Inc i => do p <- obj st.2 i; do q <- w_inc W st.1 p; Ok (tt, r, (st.1, <[i := Some q]> st.2))
    | Dec i => do p <- obj st.2 i; do q <- w_dec W st.1 p; Ok (tt, r, (st.1, <[i := Some q]> st.2))
    | Adv i n => do p <- obj st.2 i; do q <- w_adv W st.1 p n; Ok (tt, r, (st.1, <[i := Some q]> st.2))
    | Dist i j => do p <- obj st.2 i; do q <- obj_or_null st.2 j;
                  match q with Some q => do n <- w_dist W st.1 p q; Ok (n, r, st) | None => Ok (0%Z, r, st) end
    | Eq i j => do p <- obj st.2 i; do q <- obj_or_null st.2 j;
                match q with Some q => do b <- w_eq W p q; Ok (b, r, st) | None => Ok (false, r, st) end
    | Less i j => do p <- obj st.2 i; do q <- obj_or_null st.2 j;
                  match q with
                  | Some q => do b <- w_less W p q; Ok (b, r, st)
                  | None => do _ <- w_less W p p; Ok (false, r, st)   (* undefined if there is no such function *)
                  end
    | Deref i => do p <- obj st.2 i; do v <- w_deref W st.1 p; Ok (v, r, st)
    | Write i v => do p <- obj st.2 i; do m' <- w_write W st.1 p v; Ok (tt, r, (m', st.2))
    | Cat i => do p <- obj st.2 i; do c <- w_cat W p; Ok (c, r, st)
    | Mutable i => do p <- obj st.2 i; do b <- w_mutable W p; Ok (b, r, st)
    end.

  (** started with the outcomes [r] of malloc, the call returns [x] in state [st'] / never returns normally *)
  Definition exec_m {R : Type} (p : prog A R) r st (x : R) st' : Prop := exists fuel r', run_m fuel p r st = Ok (x, r', st').
  Definition never_m {R : Type} (p : prog A R) r st : Prop := forall x st', ~ exec_m p r st x st'.
  (** the caller's iterator objects *)
  Definition present (s : gmap iid (w_pos W)) : gmap iid (option (w_pos W)) := Some <$> s.

  Fixpoint loop_m (fuel : nat) {X R : Type} (body : X -> prog A (X + R)) (n : nat) (x : X) r st : res (R * orc * mstate W) :=
    match n with
    | 0 => NoFuel
    | S n' => do (y, r', st') <- run_m fuel (body x) r st;
              match y with inl x' => loop_m fuel body n' x' r' st' | inr z => Ok (z, r', st') end
    end.
  Lemma run_m_Loop fuel {X R : Type} (x : X) (body : X -> prog A (X + R)) r st :
    run_m fuel (Loop x body) r st = loop_m fuel body fuel x r st.
  Proof.
    cbn [run_m].
    enough (forall n x r st,
      (fix loop (n0 : nat) (x0 : X) (r0 : orc) (st0 : mstate W) {struct n0} : res (R * orc * mstate W) :=
         match n0 with
         | 0 => NoFuel
         | S n' => do (y, r', st') <- run_m fuel (body x0) r0 st0;
                   match y with inl x' => loop n' x' r' st' | inr z => Ok (z, r', st') end
         end) n x r st = loop_m fuel body n x r st) as H by apply H.
    intros n. induction n as [|n IH]; intros y r' st'; [done|]. cbn [loop_m].
    destruct (run_m fuel (body y) r' st') as [[[[x'|z] r1] s1]| |]; cbn [rbind]; [apply IH|done..].
  Qed.

  (** ** with enough memory nothing changes *)
  Definition lift {R : Type} (x : res (R * istate W)) r (y : res (R * orc * mstate W)) : Prop :=
    match x with
    | Ok (v, (m, s)) => exists r', Forall (eq true) r' /\ y = Ok (v, r', (m, present s))
    | UB => y = UB
    | NoFuel => y = NoFuel
    end.
  Lemma present_get (s : gmap iid (w_pos W)) i : obj (present s) i = get W s i.
  Proof. unfold obj, get, present. rewrite lookup_fmap. by destruct (s !! i). Qed.
  Lemma present_get_null (s : gmap iid (w_pos W)) i : obj_or_null (present s) i = (do p <- get W s i; Ok (Some p)).
  Proof. unfold obj_or_null, get, present. rewrite lookup_fmap. by destruct (s !! i). Qed.
  Lemma present_insert (s : gmap iid (w_pos W)) i p : present (<[i := p]> s) = <[i := Some p]> (present s).
  Proof. apply fmap_insert. Qed.
  Lemma present_delete (s : gmap iid (w_pos W)) i : present (delete i s) = delete i (present s).
  Proof. apply fmap_delete. Qed.
  Lemma present_dom (s : gmap iid (w_pos W)) : dom (present s) = dom s.
  Proof. apply dom_fmap_L. Qed.
  Lemma outcome_true r : Forall (eq true) r -> exists r', outcome r = (true, r') /\ Forall (eq true) r'.
  Proof. intros [|b r' <- H]; cbn; eauto. Qed.
  Lemma run_m_run {R : Type} (p : prog A R) : forall fuel r m (s : gmap iid (w_pos W)), Forall (eq true) r ->
    lift (run W fuel p (m, s)) r (run_m fuel p r (m, present s)).
  Proof.
    induction p as [R x|R|X R p IHp k IHk|X R x body IH|src|i|d src|i|i|i z|i j|i j|i j|i|i v|i|i];
      intros fuel r m s Hr.
    - cbn. eauto.
    - done.
    - cbn [run run_m]. specialize (IHp fuel r m s Hr).
      destruct (run W fuel p (m, s)) as [[x [m1 s1]]| |]; cbn [lift] in IHp.
      + destruct IHp as (r1&Hr1&->). cbn [rbind]. by apply IHk.
      + rewrite IHp. done.
      + rewrite IHp. done.
    - rewrite run_Loop, run_m_Loop.
      enough (forall n x r m (s : gmap iid (w_pos W)), Forall (eq true) r -> lift (run_loop W fuel body n x (m, s)) r (loop_m fuel body n x r (m, present s))) as H
        by by apply H.
      clear x r m s Hr. intros n. induction n as [|n IHn]; intros x r m s Hr; [done|]. cbn [run_loop loop_m].
      specialize (IH x fuel r m s Hr).
      destruct (run W fuel (body x) (m, s)) as [[[x'|z] [m1 s1]]| |]; cbn [lift] in IH.
      + destruct IH as (r1&Hr1&->). cbn [rbind]. by apply IHn.
      + destruct IH as (r1&Hr1&->). cbn [rbind lift]. eauto.
      + by rewrite IH.
      + by rewrite IH.
    - cbn [run run_m fst snd]. rewrite present_get. destruct (get W s src) as [p| |]; [|done..]. cbn [rbind].
      destruct (outcome_true r Hr) as (r'&->&Hr'). cbn [lift]. exists r'. split; [done|].
      by rewrite present_insert, present_dom.
    - cbn [run run_m fst snd]. rewrite present_get_null. destruct (get W s i) as [p| |]; [|done..]. cbn [rbind lift].
      exists r. by rewrite present_delete.
    - cbn [run run_m fst snd]. rewrite present_get, present_get_null. destruct (get W s d) as [p| |]; [|done..]. cbn [rbind].
      destruct (get W s src) as [q| |]; [|done..]. cbn [rbind]. destruct (w_assign W p q) as [z| |]; [|done..]. cbn [rbind lift].
      exists r. by rewrite present_insert.
    - cbn [run run_m fst snd]. rewrite present_get. destruct (get W s i) as [p| |]; [|done..]. cbn [rbind].
      destruct (w_inc W m p); [|done..]. cbn [rbind lift]. exists r. by rewrite present_insert.
    - cbn [run run_m fst snd]. rewrite present_get. destruct (get W s i) as [p| |]; [|done..]. cbn [rbind].
      destruct (w_dec W m p); [|done..]. cbn [rbind lift]. exists r. by rewrite present_insert.
    - cbn [run run_m fst snd]. rewrite present_get. destruct (get W s i) as [p| |]; [|done..]. cbn [rbind].
      destruct (w_adv W m p z); [|done..]. cbn [rbind lift]. exists r. by rewrite present_insert.
    - cbn [run run_m fst snd]. rewrite present_get, present_get_null. destruct (get W s i) as [p| |]; [|done..]. cbn [rbind].
      destruct (get W s j) as [q| |]; [|done..]. cbn [rbind]. destruct (w_dist W m p q); [|done..]. cbn [rbind lift]. eauto.
    - cbn [run run_m fst snd]. rewrite present_get, present_get_null. destruct (get W s i) as [p| |]; [|done..]. cbn [rbind].
      destruct (get W s j) as [q| |]; [|done..]. cbn [rbind]. destruct (w_eq W p q); [|done..]. cbn [rbind lift]. eauto.
    - cbn [run run_m fst snd]. rewrite present_get, present_get_null. destruct (get W s i) as [p| |]; [|done..]. cbn [rbind].
      destruct (get W s j) as [q| |]; [|done..]. cbn [rbind]. destruct (w_less W p q); [|done..]. cbn [rbind lift]. eauto.
    - cbn [run run_m fst snd]. rewrite present_get. destruct (get W s i) as [p| |]; [|done..]. cbn [rbind].
      destruct (w_deref W m p); [|done..]. cbn [rbind lift]. eauto.
    - cbn [run run_m fst snd]. rewrite present_get. destruct (get W s i) as [p| |]; [|done..]. cbn [rbind].
      destruct (w_write W m p v); [|done..]. cbn [rbind lift]. eauto.
    - cbn [run run_m fst snd]. rewrite present_get. destruct (get W s i) as [p| |]; [|done..]. cbn [rbind].
      destruct (w_cat W p); [|done..]. cbn [rbind lift]. eauto.
    - cbn [run run_m fst snd]. rewrite present_get. destruct (get W s i) as [p| |]; [|done..]. cbn [rbind].
      destruct (w_mutable W p); [|done..]. cbn [rbind lift]. eauto.
  Qed.

  (** ** a null variable *)
  (** [p] does not return normally when the variable [F] is null *)
  Definition nul {R : Type} (F : iid) (p : prog A R) : Prop :=
    forall fuel r m s x, s !! F = Some None -> run_m fuel p r (m, s) <> Ok x.
  (** [p], if it returns, leaves [F] null and returns something in [Q] *)
  Definition kept {R : Type} (F : iid) (p : prog A R) (Q : R -> Prop) : Prop :=
    forall fuel r m s x r' m' s', s !! F = Some None -> run_m fuel p r (m, s) = Ok (x, r', (m', s')) -> s' !! F = Some None /\ Q x.
  Lemma nul_head {X R : Type} F (p : prog A X) (k : X -> prog A R) : nul F p -> nul F (Bind p k).
  Proof. intros H fuel r m s x Hs. cbn [run_m]. intros [[[y r'] [m' s']] [H1 _]]%rbind_Ok. by eapply H. Qed.
  Lemma nul_bind {X R : Type} F (p : prog A X) (k : X -> prog A R) (Q : X -> Prop) :
    kept F p Q -> (forall y, Q y -> nul F (k y)) -> nul F (Bind p k).
  Proof.
    intros H Hk fuel r m s x Hs. cbn [run_m]. intros [[[y r'] [m' s']] [H1 H2]]%rbind_Ok.
    destruct (H _ _ _ _ _ _ _ _ Hs H1) as [Hs' HQ]. by eapply Hk.
  Qed.
  Lemma nul_ret {X R : Type} F (x : X) (k : X -> prog A R) : nul F (k x) -> nul F (Bind (Ret x) k).
  Proof. intros H fuel r m s y Hs. cbn [run_m rbind]. by apply H. Qed.
  Lemma obj_null s F : s !! F = Some None -> obj s F = UB.
  Proof. intros H. unfold obj. by rewrite H. Qed.
  Ltac nul_op := let Hs := fresh "Hs" in intros ????? Hs; cbn [run_m fst snd]; by rewrite (obj_null _ _ Hs).
  Lemma nul_New F : nul F (New F). Proof. nul_op. Qed.
  Lemma nul_Assign F i : nul F (Assign F i). Proof. nul_op. Qed.
  Lemma nul_Inc F : nul F (Inc F). Proof. nul_op. Qed.
  Lemma nul_Dec F : nul F (Dec F). Proof. nul_op. Qed.
  Lemma nul_Adv F n : nul F (Adv F n). Proof. nul_op. Qed.
  Lemma nul_Dist F i : nul F (Dist F i). Proof. nul_op. Qed.
  Lemma nul_Eq F i : nul F (Eq F i). Proof. nul_op. Qed.
  Lemma nul_Less F i : nul F (Less F i). Proof. nul_op. Qed.
  Lemma nul_Deref F : nul F (Deref F). Proof. nul_op. Qed.
  Lemma nul_Write F a : nul F (Write F a). Proof. nul_op. Qed.
  Lemma nul_Cat F : nul F (Cat F). Proof. nul_op. Qed.
  Lemma nul_Mutable F : nul F (Mutable F). Proof. nul_op. Qed.
  Lemma nul_Fail {R : Type} F : nul F (@Fail A R). Proof. intros ?????? [=]. Qed.
  Lemma nul_loop {X R : Type} F (x : X) (body : X -> prog A (X + R)) : nul F (body x) -> nul F (Loop x body).
  Proof.
    intros H fuel r m s z Hs. rewrite run_m_Loop. destruct fuel as [|n]; [done|]. cbn [loop_m].
    intros [[[y r'] [m' s']] [H1 _]]%rbind_Ok. by eapply H.
  Qed.
  (** a loop that never ends as long as [F] is null *)
  Lemma nul_forever {X R : Type} F (x : X) (body : X -> prog A (X + R)) :
    (forall x, kept F (body x) (fun y => exists x', y = inl x')) -> nul F (Loop x body).
  Proof.
    intros H fuel r m s z Hs. rewrite run_m_Loop. revert x r m s Hs. generalize fuel at 2 as n.
    intros n. induction n as [|n IH]; intros x r m s Hs; [done|]. cbn [loop_m].
    intros [[[y r'] [m' s']] [H1 H2]]%rbind_Ok. destruct (H _ _ _ _ _ _ _ _ _ Hs H1) as [Hs' [x' ->]]. by eapply IH.
  Qed.
  Lemma nul_new {R : Type} F src (k : iid -> prog A R) :
    (forall i, i <> F -> nul F (k i)) -> nul F (Bind (New src) k).
  Proof.
    intros H fuel r m s x Hs. cbn [run_m fst snd]. intros [[[i r'] [m' s']] [H1 H2]]%rbind_Ok.
    apply rbind_Ok in H1 as (p & _ & H1). destruct (outcome r) as [ok r1]. injection H1 as <- <- <- <-.
    revert H2. apply H.
    - intros E. apply (is_fresh (dom s)). rewrite E. apply elem_of_dom. eauto.
    - rewrite lookup_insert_ne; [done|]. intros E. apply (is_fresh (dom s)). rewrite E. apply elem_of_dom. eauto.
  Qed.

  (** *** keeping a variable null *)
  Lemma kept_Ret {R : Type} F (x : R) (Q : R -> Prop) : Q x -> kept F (Ret x) Q.
  Proof. intros HQ fuel r m s y r' m' s' Hs [= <- <- <- <-]. done. Qed.
  Lemma kept_bind {X R : Type} F (p : prog A X) (k : X -> prog A R) (P : X -> Prop) (Q : R -> Prop) :
    kept F p P -> (forall x, P x -> kept F (k x) Q) -> kept F (Bind p k) Q.
  Proof.
    intros H Hk fuel r m s x r' m' s' Hs. cbn [run_m]. intros [[[y r1] [m1 s1]] [H1 H2]]%rbind_Ok.
    destruct (H _ _ _ _ _ _ _ _ Hs H1) as [Hs1 HP]. by eapply Hk.
  Qed.
  Lemma kept_nul {R : Type} F (p : prog A R) Q : nul F p -> kept F p Q.
  Proof. intros H fuel r m s x r' m' s' Hs H1. by destruct (H fuel r m s (x, r', (m', s')) Hs). Qed.
  Lemma kept_upd {X} (F i : iid) (m : w_mem W) s (v : X) (r : orc) x r' m' s' p (e : res (w_pos W)) :
    s !! F = Some None -> obj s i = Ok p ->
    (do q <- e; Ok (v, r, (m, <[i := Some q]> s))) = Ok (x, r', (m', s')) -> s' !! F = Some None.
  Proof.
    intros Hs Hi. intros (q & _ & [= <- <- <- <-])%rbind_Ok. rewrite lookup_insert_ne; [done|].
    intros ->. unfold obj in Hi. by rewrite Hs in Hi.
  Qed.
  Lemma kept_Inc F i : kept F (Inc i) (fun _ => True).
  Proof.
    intros fuel r m s x r' m' s' Hs. cbn [run_m fst snd]. intros (p & Hp & H)%rbind_Ok. split; [|done]. by eapply kept_upd.
  Qed.
  Lemma kept_Dec F i : kept F (Dec i) (fun _ => True).
  Proof.
    intros fuel r m s x r' m' s' Hs. cbn [run_m fst snd]. intros (p & Hp & H)%rbind_Ok. split; [|done]. by eapply kept_upd.
  Qed.
  Lemma kept_Adv F i n : kept F (Adv i n) (fun _ => True).
  Proof.
    intros fuel r m s x r' m' s' Hs. cbn [run_m fst snd]. intros (p & Hp & H)%rbind_Ok. split; [|done]. by eapply kept_upd.
  Qed.
  Lemma kept_Assign F i j : kept F (Assign i j) (fun _ => True).
  Proof.
    intros fuel r m s x r' m' s' Hs. cbn [run_m fst snd]. intros (p & Hp & (q & Hq & H)%rbind_Ok)%rbind_Ok. split; [|done].
    destruct q as [q|]; [by eapply kept_upd|]. by injection H as <- <- <- <-.
  Qed.
  Lemma kept_Deref F i : kept F (Deref i) (fun _ => True).
  Proof.
    intros fuel r m s x r' m' s' Hs. cbn [run_m fst snd]. intros (p & Hp & (v & Hv & [= <- <- <- <-])%rbind_Ok)%rbind_Ok. done.
  Qed.
  Lemma kept_Write F i a : kept F (Write i a) (fun _ => True).
  Proof.
    intros fuel r m s x r' m' s' Hs. cbn [run_m fst snd]. intros (p & Hp & (v & Hv & [= <- <- <- <-])%rbind_Ok)%rbind_Ok. done.
  Qed.
  Lemma kept_Cat F i : kept F (Cat i) (fun _ => True).
  Proof.
    intros fuel r m s x r' m' s' Hs. cbn [run_m fst snd]. intros (p & Hp & (v & Hv & [= <- <- <- <-])%rbind_Ok)%rbind_Ok. done.
  Qed.
  Lemma kept_Mutable F i : kept F (Mutable i) (fun _ => True).
  Proof.
    intros fuel r m s x r' m' s' Hs. cbn [run_m fst snd]. intros (p & Hp & (v & Hv & [= <- <- <- <-])%rbind_Ok)%rbind_Ok. done.
  Qed.
  (** comparing with a null variable *)
  Lemma kept_Eq_null F i : kept F (Eq i F) (fun b => b = false).
  Proof.
    intros fuel r m s x r' m' s' Hs. cbn [run_m fst snd]. intros (p & Hp & (q & Hq & H)%rbind_Ok)%rbind_Ok.
    unfold obj_or_null in Hq. rewrite Hs in Hq. injection Hq as <-. by injection H as <- <- <- <-.
  Qed.

  Lemma kept_New F src : kept F (New src) (fun i => i <> F).
  Proof.
    intros fuel r m s x r' m' s' Hs. cbn [run_m fst snd]. intros (p & Hp & H)%rbind_Ok. destruct (outcome r) as [ok r1].
    injection H as <- <- <- <-.
    assert (base.fresh (dom s) <> F) as E.
    { intros E. apply (is_fresh (dom s)). rewrite E. apply elem_of_dom. eauto. }
    split; [|done]. rewrite lookup_insert_ne; done.
  Qed.
  Lemma kept_Free F i : i <> F -> kept F (Free i) (fun _ => True).
  Proof.
    intros Hi fuel r m s x r' m' s' Hs. cbn [run_m fst snd]. intros (p & Hp & [= <- <- <- <-])%rbind_Ok.
    split; [|done]. rewrite lookup_delete_ne; done.
  Qed.
  Lemma kept_Eq F i j : kept F (Eq i j) (fun _ => True).
  Proof.
    intros fuel r m s x r' m' s' Hs. cbn [run_m fst snd]. intros (p & Hp & (q & Hq & H)%rbind_Ok)%rbind_Ok.
    destruct q as [q|]; [apply rbind_Ok in H as (b & Hb & H)|]; by injection H as <- <- <- <-.
  Qed.
  Lemma kept_Fail {R : Type} F (Q : R -> Prop) : kept F (@Fail A R) Q.
  Proof. intros fuel r m s x r' m' s' Hs [=]. Qed.
  Lemma kept_loop {X R : Type} F (x : X) (body : X -> prog A (X + R)) :
    (forall x, kept F (body x) (fun _ => True)) -> kept F (Loop x body) (fun _ => True).
  Proof.
    intros H fuel r m s z r' m' s' Hs. rewrite run_m_Loop. revert x r m s Hs. generalize fuel at 2 as n.
    intros n. induction n as [|n IH]; intros x r m s Hs; [done|]. cbn [loop_m].
    intros [[[y r1] [m1 s1]] [H1 H2]]%rbind_Ok. destruct (H _ _ _ _ _ _ _ _ _ Hs H1) as [Hs' _].
    destruct y as [y|y]; [by eapply IH|]. injection H2 as <- <- <- <-. done.
  Qed.

  (** ** the first allocation of a call fails *)
  (** from memory [m] and the caller's iterators [s], the call does not return normally *)
  Definition fatal {R : Type} (m : w_mem W) (s : gmap iid (w_pos W)) (p : prog A R) : Prop :=
    forall r, never_m p (false :: r) (m, present s).
  (** [p] touches neither the store nor malloc *)
  Definition quiet {R : Type} (p : prog A R) : Prop :=
    forall fuel r m s x r' st', run_m fuel p r (m, s) = Ok (x, r', st') -> r' = r /\ st' = (m, s).
  Lemma fatal_quiet {X R : Type} m (s : gmap iid (w_pos W)) (p : prog A X) (k : X -> prog A R) :
    quiet p -> (forall x, fatal m s (k x)) -> fatal m s (Bind p k).
  Proof.
    intros Hp Hk r x st' (fuel & r' & H). cbn [run_m] in H. apply rbind_Ok in H as ([[y r1] st1] & H1 & H2).
    destruct (Hp _ _ _ _ _ _ _ H1) as [-> ->]. eapply (Hk y r x st'). by exists fuel, r'.
  Qed.
  Lemma fatal_new {R : Type} m (s : gmap iid (w_pos W)) src (k : iid -> prog A R) : (forall F, nul F (k F)) -> fatal m s (Bind (New src) k).
  Proof.
    intros Hk r x st' (fuel & r' & H). cbn [run_m fst snd] in H. apply rbind_Ok in H as ([[i r1] [m1 s1]] & H1 & H2).
    apply rbind_Ok in H1 as (p & _ & H1). cbn [outcome] in H1. injection H1 as <- <- <- <-.
    revert H2. apply Hk. apply lookup_insert.
  Qed.
  (** the two iterators are apart *)
  Definition apart (s : gmap iid (w_pos W)) (i j : iid) : Prop :=
    forall p q, s !! i = Some p -> s !! j = Some q -> w_eq W p q <> Ok true.
  Lemma run_m_Eq fuel r m (s : gmap iid (w_pos W)) i j y st1 : apart s i j ->
    run_m fuel (Eq i j) r (m, present s) = Ok (y, st1) -> y.1 = false /\ y.2 = r /\ st1 = (m, present s).
  Proof.
    intros Ha H1. cbn [run_m fst snd] in H1. rewrite present_get, present_get_null in H1. unfold get in H1.
    destruct (s !! i) as [p|] eqn:Ep; [|done]. destruct (s !! j) as [q|] eqn:Eq'; [|done]. cbn [rbind] in H1.
    apply rbind_Ok in H1 as (b & Hb & [= <- <-]). cbn. specialize (Ha _ _ Ep Eq'). by destruct b.
  Qed.
  Lemma fatal_eq {R : Type} m (s : gmap iid (w_pos W)) i j (k : bool -> prog A R) : apart s i j -> fatal m s (k false) -> fatal m s (Bind (Eq i j) k).
  Proof.
    intros Ha Hk r x st' (fuel & r' & H). cbn [run_m] in H. apply rbind_Ok in H as ([[y r1] st1] & H1 & H2).
    destruct (run_m_Eq fuel (false :: r) m s i j (y, r1) st1 Ha H1) as (Hy&Hr&->). cbn in Hy, Hr. subst y r1.
    eapply (Hk r x st'). by exists fuel, r'.
  Qed.
  (** at least [n] elements between two iterators *)
  Definition room (m : w_mem W) (s : gmap iid (w_pos W)) (i j : iid) (n : Z) : Prop :=
    forall p q d, s !! i = Some p -> s !! j = Some q -> w_dist W m p q = Ok d -> (n <= d)%Z.
  Lemma fatal_dist {R : Type} m (s : gmap iid (w_pos W)) i j n (k : Z -> prog A R) : room m s i j n ->
    (forall d, (n <= d)%Z -> fatal m s (k d)) -> fatal m s (Bind (Dist i j) k).
  Proof.
    intros Ha Hk r x st' (fuel & r' & H). cbn [run_m] in H. apply rbind_Ok in H as ([[y r1] st1] & H1 & H2).
    cbn [fst snd] in H1. rewrite present_get, present_get_null in H1. unfold get in H1.
    destruct (s !! i) as [p|] eqn:Ep; [|done]. destruct (s !! j) as [q|] eqn:Eq'; [|done]. cbn [rbind] in H1.
    apply rbind_Ok in H1 as (d & Hd & [= <- <- <-]).
    eapply (Hk d (Ha _ _ _ Ep Eq' Hd) r x st'). by exists fuel, r'.
  Qed.
  Lemma quiet_Cat i : quiet (Cat i).
  Proof.
    intros fuel r m s x r' st'. cbn [run_m fst snd]. intros (p & Hp & (c & Hc & [= <- <- <-])%rbind_Ok)%rbind_Ok. done.
  Qed.
  Lemma quiet_Mutable i : quiet (Mutable i).
  Proof.
    intros fuel r m s x r' st'. cbn [run_m fst snd]. intros (p & Hp & (c & Hc & [= <- <- <-])%rbind_Ok)%rbind_Ok. done.
  Qed.
  Lemma quiet_Ret {R : Type} (x : R) : quiet (Ret x).
  Proof. intros fuel r m s y r' st' [= <- <- <-]. done. Qed.
  Lemma quiet_bind {X R : Type} (p : prog A X) (k : X -> prog A R) : quiet p -> (forall x, quiet (k x)) -> quiet (Bind p k).
  Proof.
    intros Hp Hk fuel r m s x r' st'. cbn [run_m]. intros ([[y r1] st1] & H1 & H2)%rbind_Ok.
    destruct (Hp _ _ _ _ _ _ _ H1) as [-> ->]. by eapply Hk.
  Qed.
  Lemma quiet_passert b : quiet (passert b).
  Proof. destruct b; [apply quiet_Ret|]. intros fuel r m s x r' st' [=]. Qed.
  Lemma quiet_at_least i c : quiet (at_least i c).
  Proof. apply quiet_bind; [apply quiet_Cat|intros; apply quiet_passert]. Qed.
  Lemma quiet_exactly i c : quiet (exactly i c).
  Proof. apply quiet_bind; [apply quiet_Cat|intros; apply quiet_passert]. Qed.
  Lemma quiet_is_mutable i : quiet (is_mutable i).
  Proof. apply quiet_bind; [apply quiet_Mutable|intros; apply quiet_passert]. Qed.
  Lemma quiet_out_exactly o c : quiet (out_exactly o c).
  Proof. destruct o as [[i|]|]; cbn; [apply quiet_exactly|apply quiet_Ret..]. Qed.
  Lemma quiet_out_at_least o c : quiet (out_at_least o c).
  Proof. destruct o as [[i|]|]; cbn; [apply quiet_at_least|apply quiet_Ret..]. Qed.
End run_m.
