(** IterTempProofs.v — the programs of IterTemp.v do what the programs with local values do; what becomes of the temporaries. *)
From stdpp Require Import list gmap.
From Verif Require Import Base Iter IterNonMod IterMod IterOrd IterHeap IterSort AlgoSort IterTemp.
From stdpp Require Import list.

Section sim.
  Context {A : Type} (W : world A).
  Implicit Types g : temps A.
  Local Notation trun := (trun W).
  Local Notation run := (run W).

  (** started with temporaries satisfying [I], [t] does what [p] does; when it returns [r] the temporaries satisfy [J r] *)
  Definition sim {R} (I : temps A -> Prop) (t : tprog A R) (p : prog A R) (J : R -> temps A -> Prop) : Prop :=
    forall fuel st g, I g ->
    match run fuel p st with
    | Ok (r, s) => exists g', trun fuel t (st, g) = Ok (r, (s, g')) /\ J r g'
    | UB => trun fuel t (st, g) = UB
    | NoFuel => trun fuel t (st, g) = NoFuel
    end.
  Lemma sim_weaken {R} (I I' : temps A -> Prop) (t : tprog A R) p (J J' : R -> temps A -> Prop) :
    sim I t p J -> (forall g, I' g -> I g) -> (forall r g, J r g -> J' r g) -> sim I' t p J'.
  Proof.
    intros H HI HJ fuel st g Hg. specialize (H fuel st g (HI g Hg)). destruct (run fuel p st) as [[r s]| |]; [|done..].
    destruct H as (g'&H1&H2). exists g'. auto.
  Qed.
  Lemma sim_lift {R} (I : temps A -> Prop) (p : prog A R) (J : R -> temps A -> Prop) : (forall r g, I g -> J r g) -> sim I (TLift p) p J.
  Proof. intros H fuel st g Hg. cbn [IterTemp.trun fst snd]. destruct (run fuel p st) as [[r s]| |]; cbn [rbind]; [|done..]. exists g. auto. Qed.
  Lemma sim_ret {R} (I : temps A -> Prop) (r : R) (J : R -> temps A -> Prop) : (forall g, I g -> J r g) -> sim I (TLift (Ret r)) (Ret r) J.
  Proof. intros H fuel st g Hg. cbn [IterTemp.trun Iter.run fst snd rbind]. exists g. auto. Qed.
  Lemma sim_bind {X R} (I : temps A -> Prop) (t : tprog A X) p K (k : X -> tprog A R) k' (J : R -> temps A -> Prop) :
    sim I t p K -> (forall x, sim (K x) (k x) (k' x) J) -> sim I (TBind t k) (Bind p k') J.
  Proof.
    intros H1 H2 fuel st g Hg. cbn [IterTemp.trun Iter.run]. specialize (H1 fuel st g Hg).
    destruct (run fuel p st) as [[x s]| |]; cbn [rbind].
    - destruct H1 as (g1&->&HK). cbn [rbind]. by apply H2.
    - by rewrite H1.
    - by rewrite H1.
  Qed.
  (** commands that concern the temporaries only *)
  Lemma sim_ghost {X R} (I : temps A -> Prop) (t : tprog A X) K (k : X -> tprog A R) p (J : R -> temps A -> Prop) :
    (forall fuel st g, I g -> exists x g', trun fuel t (st, g) = Ok (x, (st, g')) /\ K x g') ->
    (forall x, sim (K x) (k x) p J) -> sim I (TBind t k) p J.
  Proof.
    intros H1 H2 fuel st g Hg. cbn [IterTemp.trun]. destruct (H1 fuel st g Hg) as (x&g'&->&HK). cbn [rbind]. by apply H2.
  Qed.
  Lemma sim_ghost_last {R} (I : temps A -> Prop) (t : tprog A R) r (J : R -> temps A -> Prop) :
    (forall fuel st g, I g -> exists g', trun fuel t (st, g) = Ok (r, (st, g')) /\ J r g') -> sim I t (Ret r) J.
  Proof. intros H fuel st g Hg. cbn [Iter.run]. by apply H. Qed.
  Lemma sim_ret_r {R} (I : temps A -> Prop) (t : tprog A R) p (J : R -> temps A -> Prop) : sim I t (Bind p (fun x => Ret x)) J -> sim I t p J.
  Proof.
    intros H fuel st g Hg. specialize (H fuel st g Hg). cbn [Iter.run] in H.
    destruct (run fuel p st) as [[r s]| |]; cbn [rbind] in H; done.
  Qed.
  Lemma sim_assoc {X Y R} (I : temps A -> Prop) (t : tprog A X) (k : X -> tprog A Y) (l : Y -> tprog A R) p (J : R -> temps A -> Prop) :
    sim I (TBind t (fun x => TBind (k x) l)) p J -> sim I (TBind (TBind t k) l) p J.
  Proof.
    intros H fuel st g Hg. specialize (H fuel st g Hg). cbn [IterTemp.trun] in *. revert H.
    destruct (trun fuel t (st, g)) as [[x s]| |]; cbn [rbind]; done.
  Qed.
  (** the loop inside [trun], named *)
  Fixpoint trun_loop (fuel : nat) {X R : Type} (body : X -> tprog A (X + R)) (n : nat) (x : X) (st : tstate W) : res (R * tstate W) :=
    match n with
    | 0 => NoFuel
    | S n' => do (y, st') <- trun fuel (body x) st;
              match y with inl x' => trun_loop fuel body n' x' st' | inr r => Ok (r, st') end
    end.
  Lemma trun_Loop fuel {X R : Type} (x : X) (body : X -> tprog A (X + R)) st :
    trun fuel (TLoop x body) st = trun_loop fuel body fuel x st.
  Proof.
    cbn [IterTemp.trun].
    enough (forall n x st,
      (fix loop (n0 : nat) (x0 : X) (st0 : tstate W) {struct n0} : res (R * tstate W) :=
         match n0 with
         | 0 => NoFuel
         | S n' => do (y, st') <- trun fuel (body x0) st0;
                   match y with inl x' => loop n' x' st' | inr r => Ok (r, st') end
         end) n x st = trun_loop fuel body n x st) as H by apply H.
    intros n. induction n as [|n IH]; intros y st'; [done|]. cbn [trun_loop].
    destruct (trun fuel (body y) st') as [[[x'|r] s]| |]; cbn [rbind]; [apply IH|done..].
  Qed.
  Lemma sim_loop {X R} (Inv : X -> temps A -> Prop) x (body : X -> tprog A (X + R)) body' (J : R -> temps A -> Prop) :
    (forall x, sim (Inv x) (body x) (body' x) (fun y => match y with inl x' => Inv x' | inr r => J r end)) ->
    sim (Inv x) (TLoop x body) (Loop x body') J.
  Proof.
    intros HB fuel st g Hg. rewrite trun_Loop, run_Loop.
    enough (forall n x st g, Inv x g ->
      match run_loop W fuel body' n x st with
      | Ok (r, s) => exists g', trun_loop fuel body n x (st, g) = Ok (r, (s, g')) /\ J r g'
      | UB => trun_loop fuel body n x (st, g) = UB
      | NoFuel => trun_loop fuel body n x (st, g) = NoFuel end) as H by (by apply H).
    clear x st g Hg. intros n. induction n as [|n IH]; intros x st g Hg; [done|]. pose proof (HB x fuel st g Hg) as H.
    cbn [trun_loop run_loop].
    destruct (run fuel (body' x) st) as [[[x'|r] s]| |]; cbn [rbind].
    - destruct H as (g'&->&Hg'). cbn [rbind]. by apply IH.
    - destruct H as (g'&->&Hg'). cbn [rbind]. by exists g'.
    - by rewrite H.
    - by rewrite H.
  Qed.

  (** [t] leaves the temporaries as they were *)
  Definition same {R} (t : tprog A R) (p : prog A R) : Prop := forall g, sim (fun g' => g' = g) t p (fun _ g' => g' = g).
  Lemma same_lift {R} (p : prog A R) : same (TLift p) p.
  Proof. intros g. by apply sim_lift. Qed.
  Lemma same_bind {X R} (t : tprog A X) p (k : X -> tprog A R) k' : same t p -> (forall x, same (k x) (k' x)) -> same (TBind t k) (Bind p k').
  Proof. intros H1 H2 g. eapply sim_bind; [apply H1|]. intros x. apply H2. Qed.
  Lemma same_loop {X R} x (body : X -> tprog A (X + R)) body' : (forall x, same (body x) (body' x)) -> same (TLoop x body) (Loop x body').
  Proof.
    intros H g. apply (sim_loop (fun _ g' => g' = g)). intros y. eapply sim_weaken; [apply (H y g)|done|]. by intros [?|?].
  Qed.
  (** a program that keeps the temporaries keeps every property of them *)
  Lemma same_sim {R} (t : tprog A R) p (I : temps A -> Prop) (J : R -> temps A -> Prop) : same t p -> (forall r g, I g -> J r g) -> sim I t p J.
  Proof.
    intros H HJ fuel st g Hg. specialize (H g fuel st g eq_refl). destruct (run fuel p st) as [[r s]| |]; [|done..].
    destruct H as (g'&H1&->). exists g. auto.
  Qed.
  Lemma same_bind_sim {X R} (I : temps A -> Prop) (t : tprog A X) p (k : X -> tprog A R) k' (J : R -> temps A -> Prop) :
    same t p -> (forall x, sim I (k x) (k' x) J) -> sim I (TBind t k) (Bind p k') J.
  Proof. intros H1 H2. apply (sim_bind I t p (fun _ => I)); [by apply same_sim|done]. Qed.
  Lemma lift_bind {X R} (I : temps A -> Prop) (p : prog A X) (k : X -> tprog A R) k' (J : R -> temps A -> Prop) :
    (forall x, sim I (k x) (k' x) J) -> sim I (TBind (TLift p) k) (Bind p k') J.
  Proof. intros H. apply same_bind_sim; [apply same_lift|done]. Qed.
  Lemma same_exec {R} (t : tprog A R) p st r s g : same t p -> exec W p st r s -> texec W t (st, g) r (s, g).
  Proof. intros H [f Hf]. exists f. specialize (H g f st g eq_refl). rewrite Hf in H. by destruct H as (g'&H&->). Qed.
  Lemma sim_exec {R} (I : temps A -> Prop) (t : tprog A R) p (J : R -> temps A -> Prop) st r s g :
    sim I t p J -> I g -> exec W p st r s -> exists g', texec W t (st, g) r (s, g') /\ J r g'.
  Proof. intros H HI [f Hf]. specialize (H f st g HI). rewrite Hf in H. destruct H as (g'&H&HJ). exists g'. split; [by exists f|done]. Qed.

  (** the temporaries [g0] and in addition the storage [t] with the content [o] *)
  Definition also g0 (t : tid) (o : option A) : temps A := Temps (<[t := o]> (t_obj g0)) (t_lost g0).
  Definition lose (n : nat) g0 : temps A := Temps (t_obj g0) (n + t_lost g0).
  Lemma lose_0 g : lose 0 g = g.
  Proof. by destruct g. Qed.
  Lemma temps_eta (o : gmap tid (option A)) n g : o = t_obj g -> n = t_lost g -> Temps o n = g.
  Proof. destruct g. cbn. congruence. Qed.

  Lemma malloc_bind {R} g0 (k : tid -> tprog A R) p (J : R -> temps A -> Prop) :
    (forall t, t_obj g0 !! t = None -> sim (fun g => g = also g0 t None) (k t) p J) -> sim (fun g => g = g0) (TBind TMalloc k) p J.
  Proof.
    intros H. apply (sim_ghost _ _ (fun t g => g = also g0 t None /\ t_obj g0 !! t = None)).
    - intros fuel st g ->. cbn [IterTemp.trun fst snd]. eexists _, _. split; [reflexivity|]. split; [done|]. apply not_elem_of_dom, is_fresh.
    - intros t fuel st g [-> Ht]. by apply (H t Ht).
  Qed.
  Lemma copy_bind {R} g0 t v (k : unit -> tprog A R) p (J : R -> temps A -> Prop) :
    sim (fun g => g = also g0 t (Some v)) (k tt) p J -> sim (fun g => g = also g0 t None) (TBind (TCopy t v) k) p J.
  Proof.
    intros H. apply (sim_ghost _ _ (fun _ g => g = also g0 t (Some v))); [|by intros []].
    intros fuel st g ->. cbn [IterTemp.trun fst snd]. unfold storage. cbn [t_obj also lose t_lost]. rewrite lookup_insert. cbn [rbind].
    eexists _, _. split; [reflexivity|]. unfold also, lose. cbn. by rewrite insert_insert.
  Qed.
  Lemma assign_bind {R} g0 t v w (k : unit -> tprog A R) p (J : R -> temps A -> Prop) :
    sim (fun g => g = also g0 t (Some v)) (k tt) p J -> sim (fun g => g = also g0 t (Some w)) (TBind (TAssign t v) k) p J.
  Proof.
    intros H. apply (sim_ghost _ _ (fun _ g => g = also g0 t (Some v))); [|by intros []].
    intros fuel st g ->. cbn [IterTemp.trun fst snd]. unfold element, storage. cbn [t_obj also]. rewrite lookup_insert. cbn [rbind].
    eexists _, _. split; [reflexivity|]. unfold also. cbn. by rewrite insert_insert.
  Qed.
  Lemma read_bind {R} (I : temps A -> Prop) t v (k : A -> tprog A R) p (J : R -> temps A -> Prop) :
    (forall g, I g -> t_obj g !! t = Some (Some v)) -> sim I (k v) p J -> sim I (TBind (TRead t) k) p J.
  Proof.
    intros Ht H. apply (sim_ghost _ _ (fun x g => x = v /\ I g)).
    - intros fuel st g Hg. cbn [IterTemp.trun fst snd]. unfold element, storage. rewrite (Ht g Hg). cbn [rbind]. by eexists _, _.
    - intros x fuel st g [-> Hg]. by apply H.
  Qed.
  Lemma destroy_bind {R} g0 t v (k : unit -> tprog A R) p (J : R -> temps A -> Prop) :
    sim (fun g => g = also g0 t None) (k tt) p J -> sim (fun g => g = also g0 t (Some v)) (TBind (TDestroy t) k) p J.
  Proof.
    intros H. apply (sim_ghost _ _ (fun _ g => g = also g0 t None)); [|by intros []].
    intros fuel st g ->. cbn [IterTemp.trun fst snd]. unfold element, storage. cbn [t_obj also]. rewrite lookup_insert. cbn [rbind].
    eexists _, _. split; [reflexivity|]. unfold also. cbn. by rewrite insert_insert.
  Qed.
  (** the element in [t], if there is one, is lost *)
  Definition lost (o : option A) g0 : temps A := match o with Some _ => lose 1 g0 | None => g0 end.
  Lemma zero_bind {R} g0 t o (k : unit -> tprog A R) p (J : R -> temps A -> Prop) :
    sim (fun g => g = also (lost o g0) t None) (k tt) p J -> sim (fun g => g = also g0 t o) (TBind (TZero t) k) p J.
  Proof.
    intros H. apply (sim_ghost _ _ (fun _ g => g = also (lost o g0) t None)); [|by intros []].
    intros fuel st g ->. cbn [IterTemp.trun fst snd]. unfold storage. cbn [t_obj also lose t_lost]. rewrite lookup_insert. cbn [rbind].
    eexists _, _. split; [reflexivity|]. unfold also, lose. cbn. rewrite insert_insert. by destruct o.
  Qed.
  Lemma free_run g0 t o fuel (st : istate W) : t_obj g0 !! t = None ->
    trun fuel (TFree t) (st, also g0 t o) = Ok (tt, (st, lost o g0)).
  Proof.
    intros Ht. cbn [IterTemp.trun fst snd]. unfold storage. cbn [t_obj also lose t_lost]. rewrite lookup_insert. cbn [rbind].
    rewrite delete_insert by done. do 3 f_equal. destruct o, g0; done.
  Qed.
  Lemma free_bind {R} g0 t o (k : unit -> tprog A R) p (J : R -> temps A -> Prop) : t_obj g0 !! t = None ->
    sim (fun g => g = lost o g0) (k tt) p J -> sim (fun g => g = also g0 t o) (TBind (TFree t) k) p J.
  Proof.
    intros Ht H. apply (sim_ghost _ _ (fun _ g => g = lost o g0)); [|by intros []].
    intros fuel st g ->. rewrite free_run by done. by eexists _, _.
  Qed.
  Lemma free_last g0 t o (J : unit -> temps A -> Prop) : t_obj g0 !! t = None -> J tt (lost o g0) ->
    sim (fun g => g = also g0 t o) (TFree t) (Ret tt) J.
  Proof. intros Ht H. apply sim_ghost_last. intros fuel st g ->. rewrite free_run by done. by eexists _. Qed.
  Lemma also_here g0 t o : forall g, g = also g0 t o -> t_obj g !! t = Some o.
  Proof. intros g ->. cbn. by rewrite lookup_insert. Qed.
End sim.

(** two programs of the same shape *)
Ltac tsame H :=
  intros;
  lazymatch goal with
  | |- same _ (TLift _) _ => apply same_lift
  | |- same _ (TBind _ _) (Bind _ _) => first [apply H | apply same_bind; tsame H]
  | |- same _ (TLoop _ _) (Loop _ _) => apply same_loop; tsame H
  | |- same _ (TWhile _ _) (While _ _) => unfold TWhile, While; tsame H
  | |- same _ (TWhileV _ _ _) (WhileV _ _ _) => unfold TWhileV, WhileV; tsame H
  | |- same _ (each_t _ _ _ _) (each_p _ _ _ _) => unfold each_t, each_p; tsame H
  | |- same _ (match ?x with _ => _ end) _ => destruct x; tsame H
  | |- _ => try apply H
  end.

Ltac tlift := repeat (apply lift_bind; intros ?); first [apply sim_ret | apply sim_lift; intros ?]; intros ? ?.

Section keep.
  Context {A : Type} (W : world A).
  Implicit Types g : temps A.
  Local Notation same := (same W).

  Lemma swap_same x y : same (swap_t x y) (swap_p x y).
  Proof.
    intros g. unfold swap_t, swap_p. apply malloc_bind. intros t Ht.
    apply lift_bind. intros v. apply copy_bind. apply lift_bind. intros _.
    eapply read_bind; [apply also_here|]. apply sim_ret_r. apply lift_bind. intros []. apply destroy_bind. by apply free_last.
  Qed.
  Lemma iter_swap_same x y : same (iter_swap_t x y) (iter_swap_p x y).
  Proof. unfold iter_swap_t, iter_swap_p. tsame swap_same. Qed.
  Lemma swap_range_same a b c : same (swap_range_t a b c) (swap_range_p a b c).
  Proof. unfold swap_range_t, swap_range_p. tsame swap_same. Qed.
  Lemma reverse_same a b : same (reverse_t a b) (reverse_p a b).
  Proof. unfold reverse_t, reverse_p. tsame swap_same. Qed.
  Lemma rotate_step_same a b c : same (rotate_step_t a b c) (rotate_step_p a b c).
  Proof. unfold rotate_step_t, rotate_step_p. tsame iter_swap_same. Qed.
  Lemma rotate_same a b c o : same (rotate_t a b c o) (rotate_p a b c o).
  Proof. unfold rotate_t, rotate_p. tsame rotate_step_same. Qed.
  Lemma shuffle_same a b r : same (random_shuffle_by_t a b r) (random_shuffle_by_p a b r).
  Proof. unfold random_shuffle_by_t, random_shuffle_by_p. tsame iter_swap_same. Qed.
  Lemma partition_same a b o pred : same (partition_t a b o pred) (partition_p a b o pred).
  Proof. unfold partition_t, partition_p. tsame iter_swap_same. Qed.

  Lemma percolate_step_same comp F len hole v : same (percolate_step_t comp F len hole v) (percolate_step_p comp F len hole v).
  Proof. destruct v as [[[h s] l] r]. unfold percolate_step_t, percolate_step_p. tsame iter_swap_same. Qed.
  Lemma percolate_down_same comp F len hole : same (percolate_down_t comp F len hole) (percolate_down_p comp F len hole).
  Proof. unfold percolate_down_t, percolate_down_p. tsame percolate_step_same. Qed.
  Lemma heapify_same comp a b : same (heapify_t comp a b) (heapify_p comp a b).
  Proof. unfold heapify_t, heapify_p. tsame percolate_down_same. Qed.
  Lemma make_heap_same comp a b : same (make_heap_by_t comp a b) (make_heap_by_p comp a b).
  Proof. unfold make_heap_by_t, make_heap_by_p. tsame heapify_same. Qed.
  Lemma pop_heap_step_same comp F l hole v : same (pop_heap_step_t comp F l hole v) (pop_heap_step_p comp F l hole v).
  Proof. destruct v as [[h s] r]. unfold pop_heap_step_t, pop_heap_step_p. tsame iter_swap_same. Qed.
  Lemma pop_heap_same comp a b : same (pop_heap_by_t comp a b) (pop_heap_by_p comp a b).
  Proof.
    unfold pop_heap_by_t, pop_heap_by_p. tsame iter_swap_same. apply pop_heap_step_same.
  Qed.
  Lemma sort_heap_same comp a b : same (sort_heap_by_t comp a b) (sort_heap_by_p comp a b).
  Proof. unfold sort_heap_by_t, sort_heap_by_p. tsame pop_heap_same. Qed.

  (** rules for temporaries that hold some element *)
  Lemma sim_ex {X R} (P : X -> temps A -> Prop) (t : tprog A R) p (J : R -> temps A -> Prop) :
    (forall x, sim W (P x) t p J) -> sim W (fun g => exists x, P x g) t p J.
  Proof. intros H fuel st g [x Hx]. by apply (H x). Qed.
  Definition holds g0 (t : tid) g : Prop := exists v, g = also g0 t (Some v).

  Lemma transform_same dflt a b c op : same (transform_t dflt a b c op) (transform_p a b c op).
  Proof.
    intros g. unfold transform_t, transform_p.
    do 5 (apply lift_bind; intros ?). rename x1 into F, x2 into E, x3 into D.
    apply malloc_bind. intros t Ht. apply copy_bind.
    apply (sim_bind W _ _ _ (fun _ => holds g t)).
    - apply sim_weaken with (holds g t) (fun _ => holds g t); [|intros ? ->; by eexists|done].
      unfold each_t, each_p, TWhileV, WhileV. apply (sim_loop W (fun _ => holds g t)). intros n.
      apply lift_bind. intros [].
      + apply (sim_bind W _ _ _ (fun _ => holds g t)); [|intros y; by tlift].
        apply sim_ex. intros w. apply lift_bind. intros v. apply assign_bind.
        eapply read_bind; [apply also_here|]. apply assign_bind. eapply read_bind; [apply also_here|].
        do 3 (apply lift_bind; intros ?). apply sim_lift. intros r g' ->. by eexists.
      + by tlift.
    - intros n. apply sim_ex. intros v. apply destroy_bind. apply free_bind; [done|]. cbn [lost].
      do 3 (apply lift_bind; intros ?). by tlift.
  Qed.

  (** *** sorting *)
  Context (comp : A -> A -> bool).
  (** the argument [value] of __unguarded_linear_sort_by: the temporary [t] holds [v], or the same iterator *)
  Definition agrees g (x : tid + iid) (y : A + iid) : Prop :=
    match x, y with inl t, inl v => t_obj g !! t = Some (Some v) | inr i, inr j => i = j | _, _ => False end.
  Lemma val_sim {R} g x y (k : A -> tprog A R) k' (J : R -> temps A -> Prop) : agrees g x y ->
    (forall v, sim W (fun g' => g' = g) (k v) (k' v) J) -> sim W (fun g' => g' = g) (TBind (val_t x) k) (Bind (val_p y) k') J.
  Proof.
    intros Hxy H. destruct x as [t|i], y as [v|j]; cbn in Hxy; [|done..|subst j; by apply lift_bind].
    intros fuel st g' ->. specialize (H v fuel st g eq_refl).
    cbn [val_t val_p IterTemp.trun Iter.run fst snd]. unfold element, storage. rewrite Hxy. cbn [rbind]. exact H.
  Qed.
  Lemma unguarded_linear_sim g last x y : agrees g x y ->
    sim W (fun g' => g' = g) (unguarded_linear_t comp last x) (unguarded_linear_p comp last y) (fun _ g' => g' = g).
  Proof.
    intros Hxy. unfold unguarded_linear_t, unguarded_linear_p.
    do 2 (apply lift_bind; intros ?). eapply (sim_bind W _ _ _ (fun _ g' => g' = g)).
    - unfold TWhile, While. apply (sim_loop W (fun _ g' => g' = g)). intros u.
      apply (sim_bind W _ _ _ (fun _ g' => g' = g)).
      + apply val_sim; [done|]. intros v. apply lift_bind. intros z. by tlift.
      + intros []; [|by tlift]. apply (sim_bind W _ _ _ (fun _ g' => g' = g)); [|intros _; by tlift].
        by tlift.
    - intros _. apply val_sim; [done|]. intros v. do 2 (apply lift_bind; intros _). by tlift.
  Qed.
  Lemma linear_sort_same a b : same (linear_sort_t comp a b) (linear_sort_p comp a b).
  Proof.
    intros g. unfold linear_sort_t, linear_sort_p. do 2 (apply lift_bind; intros ?). apply malloc_bind. intros t Ht.
    apply lift_bind. intros v. apply copy_bind. eapply read_bind; [apply also_here|]. apply lift_bind. intros y.
    apply (sim_bind W _ _ _ (fun _ g' => g' = also g t (Some v))).
    - destruct (comp v y).
      + do 2 (apply lift_bind; intros ?). eapply read_bind; [apply also_here|]. apply lift_bind. intros _. by tlift.
      + apply unguarded_linear_sim. cbn. by rewrite lookup_insert.
    - intros _. apply destroy_bind. apply free_bind; [done|]. apply lift_bind. intros _. by tlift.
  Qed.
  Lemma insertion_sort_same a b : same (insertion_sort_t comp a b) (insertion_sort_p comp a b).
  Proof. unfold insertion_sort_t, insertion_sort_p. tsame linear_sort_same. Qed.
  Lemma unguarded_linear_same a i : same (unguarded_linear_t comp a (inr i)) (unguarded_linear_p comp a (inr i)).
  Proof. intros g. by apply unguarded_linear_sim. Qed.
  Lemma unguarded_insertion_same a b : same (unguarded_insertion_t comp a b) (unguarded_insertion_p comp a b).
  Proof. unfold unguarded_insertion_t, unguarded_insertion_p. tsame unguarded_linear_same. Qed.
  Lemma final_insertion_same a b : same (final_insertion_t comp a b) (final_insertion_p comp a b).
  Proof.
    unfold final_insertion_t, final_insertion_p. tsame insertion_sort_same. apply unguarded_insertion_same.
  Qed.

  Lemma partition_round_sim g F E t v : t_obj g !! t = Some (Some v) ->
    sim W (fun g' => g' = g) (partition_round_t comp F E t) (partition_round_p comp F E v) (fun _ g' => g' = g).
  Proof.
    intros Ht. unfold partition_round_t, partition_round_p.
    apply (sim_bind W _ _ _ (fun _ g' => g' = g)).
    { unfold TWhile, While. apply (sim_loop W (fun _ g' => g' = g)). intros u.
      apply (sim_bind W _ _ _ (fun _ g' => g' = g)).
      - apply lift_bind. intros x. eapply read_bind; [by intros ? ->|]. by tlift.
      - intros []; first [by tlift| apply (sim_bind W _ _ _ (fun _ g' => g' = g)); [by tlift|intros _; by tlift]]. }
    intros _. apply lift_bind. intros _.
    apply (sim_bind W _ _ _ (fun _ g' => g' = g)).
    { unfold TWhile, While. apply (sim_loop W (fun _ g' => g' = g)). intros u.
      apply (sim_bind W _ _ _ (fun _ g' => g' = g)).
      - eapply read_bind; [by intros ? ->|]. by tlift.
      - intros []; first [by tlift| apply (sim_bind W _ _ _ (fun _ g' => g' = g)); [by tlift|intros _; by tlift]]. }
    intros _. apply lift_bind. intros l. destruct (negb l); [by tlift|].
    apply same_bind_sim; [apply iter_swap_same|]. intros _. apply lift_bind. intros _. by tlift.
  Qed.
  Lemma partition_by_sim g a b o t v : t_obj g !! t = Some (Some v) ->
    sim W (fun g' => g' = g) (partition_by_t comp a b o t) (partition_by_p comp a b o v) (fun _ g' => g' = g).
  Proof.
    intros Ht. unfold partition_by_t, partition_by_p. do 2 (apply lift_bind; intros ?).
    apply (sim_bind W _ _ _ (fun _ g' => g' = g)).
    - apply (sim_loop W (fun _ g' => g' = g)). intros u.
      apply (sim_bind W _ _ _ (fun _ g' => g' = g)); [by apply partition_round_sim|]. intros []; by tlift.
    - intros _. do 3 (apply lift_bind; intros ?). by tlift.
  Qed.
End keep.
