(** Iter.v — programs over iterator objects.

    Every function of /repo/algorithm works on iterator *objects*: it receives pointers to the
    caller's iterators, makes heap copies of them ("shadows", c_internal.h 141-205), moves the copies
    through the function table (c_def.h 127-183, called by the macros C_ITER_* of c_def.h 294-303),
    stores results through [c_iterator_t**] out parameters and frees the copies.  Here such a function
    is a program of the type [prog] below, run in a [world] that interprets the function table.  The
    store of iterator objects is a finite map from object names to positions. *)
From stdpp Require Import list gmap.
From Verif Require Import Base.
From stdpp Require Import list.

(** names of iterator objects *)
Definition iid := positive.

(** ** The function table (c_def.h 127-183)
    [w_mem] is the memory of the containers, [w_pos] the content of an iterator object (its position
    together with its type and category fields, c_def.h 185-190). *)
Record world (A : Type) := World {
  w_mem : Type;
  w_pos : Type;
  (** iterator_category, c_def.h 41-47: OUTPUT 0, INPUT 1, FORWARD 2, BIDIRECTION 3, RANDOM 4 *)
  w_cat : w_pos -> res nat;
  (** C_ITER_MUTABLE, c_def.h 307: iterator_type < C_ITER_TYPE_NONMUTABLE *)
  w_mutable : w_pos -> res bool;
  (** assign, c_def.h 138-139: new content of the destination [dst] when assigned from [src] *)
  w_assign : w_pos -> w_pos -> res w_pos;
  (** increment, decrement, c_def.h 143-147 *)
  w_inc : w_mem -> w_pos -> res w_pos;
  w_dec : w_mem -> w_pos -> res w_pos;
  (** advance, distance, c_def.h 177-182 *)
  w_adv : w_mem -> w_pos -> Z -> res w_pos;
  w_dist : w_mem -> w_pos -> w_pos -> res Z;
  (** equal, less, c_def.h 165-174 *)
  w_eq : w_pos -> w_pos -> res bool;
  w_less : w_pos -> w_pos -> res bool;
  (** dereference, c_def.h 162: read the element; C_ITER_DEREF_ASSIGN_V, c_def.h 311: write it *)
  w_deref : w_mem -> w_pos -> res A;
  w_write : w_mem -> w_pos -> A -> res w_mem;
}.
Global Arguments w_mem {A} _.
Global Arguments w_pos {A} _.
Global Arguments w_cat {A} _ _.
Global Arguments w_mutable {A} _ _.
Global Arguments w_assign {A} _ _ _.
Global Arguments w_inc {A} _ _ _.
Global Arguments w_dec {A} _ _ _.
Global Arguments w_adv {A} _ _ _ _.
Global Arguments w_dist {A} _ _ _ _.
Global Arguments w_eq {A} _ _ _.
Global Arguments w_less {A} _ _ _.
Global Arguments w_deref {A} _ _ _.
Global Arguments w_write {A} _ _ _ _.

(** ** Programs
    [Loop x body] repeats [body] from the loop variable [x] until it returns [inr]. *)
Inductive prog (A : Type) : Type -> Type :=
| Ret {R : Type} (r : R) : prog A R
| Fail {R : Type} : prog A R
| Bind {X R : Type} (p : prog A X) (k : X -> prog A R) : prog A R
| Loop {X R : Type} (x : X) (body : X -> prog A (X + R)) : prog A R
| New (src : iid) : prog A iid                (* C_ITER_COPY(&v, src) with v == 0, c_def.h 294 *)
| Free (i : iid) : prog A unit                (* __c_free, c_internal.h 112-118 *)
| Assign (dst src : iid) : prog A unit        (* C_ITER_ASSIGN, c_def.h 295 *)
| Inc (i : iid) : prog A unit                 (* C_ITER_INC, c_def.h 296 *)
| Dec (i : iid) : prog A unit                 (* C_ITER_DEC, c_def.h 297 *)
| Adv (i : iid) (n : Z) : prog A unit         (* C_ITER_ADVANCE, c_def.h 302 *)
| Dist (i j : iid) : prog A Z                 (* C_ITER_DISTANCE, c_def.h 303 *)
| Eq (i j : iid) : prog A bool                (* C_ITER_EQ, c_def.h 299 *)
| Less (i j : iid) : prog A bool              (* C_ITER_LESS, c_def.h 301 *)
| Deref (i : iid) : prog A A                  (* C_ITER_DEREF used as a value, c_def.h 298 *)
| Write (i : iid) (v : A) : prog A unit       (* C_ITER_DEREF_ASSIGN_V, c_def.h 311 *)
| Cat (i : iid) : prog A nat                  (* iterator_category, c_def.h 186 *)
| Mutable (i : iid) : prog A bool.            (* C_ITER_MUTABLE, c_def.h 307 *)
Global Arguments Ret {A R} r.
Global Arguments Fail {A R}.
Global Arguments Bind {A X R} p k.
Global Arguments Loop {A X R} x body.
Global Arguments New {A} src.
Global Arguments Free {A} i.
Global Arguments Assign {A} dst src.
Global Arguments Inc {A} i.
Global Arguments Dec {A} i.
Global Arguments Adv {A} i n.
Global Arguments Dist {A} i j.
Global Arguments Eq {A} i j.
Global Arguments Less {A} i j.
Global Arguments Deref {A} i.
Global Arguments Write {A} i v.
Global Arguments Cat {A} i.
Global Arguments Mutable {A} i.

Declare Scope prog_scope.
Delimit Scope prog_scope with prog.
Notation "x <~ p ;; k" := (Bind p (fun x => k))
  (at level 100, p at next level, k at level 200, right associativity) : prog_scope.
Notation "' pat <~ p ;; k" := (Bind p (fun x => match x with pat => k end))
  (at level 100, pat pattern, p at next level, k at level 200, right associativity) : prog_scope.
Notation "p ;;; k" := (Bind p (fun _ => k))
  (at level 100, k at level 200, right associativity) : prog_scope.
Open Scope prog_scope.

(** the state of a run: container memory and iterator objects *)
Definition istate {A} (W : world A) : Type := w_mem W * gmap iid (w_pos W).

Section run.
  Context {A : Type} (W : world A).

  Definition get (s : gmap iid (w_pos W)) (i : iid) : res (w_pos W) :=
    match s !! i with Some p => Ok p | None => UB end.

  (** Meaning of programs; [fuel] bounds the iterations of each loop. *)
  Fixpoint run (fuel : nat) {R : Type} (p : prog A R) (st : istate W) : res (R * istate W) :=
    match p in prog _ R0 return res (R0 * istate W) with
    | Ret r => Ok (r, st)
    | Fail => UB
    | Bind p k => do (x, st') <- run fuel p st; run fuel (k x) st'
    | Loop x body =>
        (fix loop (n : nat) x st :=
           match n with
           | 0 => NoFuel
           | S n' => do (y, st') <- run fuel (body x) st;
                     match y with inl x' => loop n' x' st' | inr r => Ok (r, st') end
           end) fuel x st
    | New src => do p <- get st.2 src;
                 let i := fresh (dom st.2) in Ok (i, (st.1, <[i := p]> st.2))
    | Free i => do _ <- get st.2 i; Ok (tt, (st.1, delete i st.2))
    | Assign d s => do p <- get st.2 d; do q <- get st.2 s; do r <- w_assign W p q;
                    Ok (tt, (st.1, <[d := r]> st.2))
    | Inc i => do p <- get st.2 i; do q <- w_inc W st.1 p; Ok (tt, (st.1, <[i := q]> st.2))
    | Dec i => do p <- get st.2 i; do q <- w_dec W st.1 p; Ok (tt, (st.1, <[i := q]> st.2))
    | Adv i n => do p <- get st.2 i; do q <- w_adv W st.1 p n; Ok (tt, (st.1, <[i := q]> st.2))
    | Dist i j => do p <- get st.2 i; do q <- get st.2 j; do n <- w_dist W st.1 p q; Ok (n, st)
    | Eq i j => do p <- get st.2 i; do q <- get st.2 j; do b <- w_eq W p q; Ok (b, st)
    | Less i j => do p <- get st.2 i; do q <- get st.2 j; do b <- w_less W p q; Ok (b, st)
    | Deref i => do p <- get st.2 i; do v <- w_deref W st.1 p; Ok (v, st)
    | Write i v => do p <- get st.2 i; do m' <- w_write W st.1 p v; Ok (tt, (m', st.2))
    | Cat i => do p <- get st.2 i; do c <- w_cat W p; Ok (c, st)
    | Mutable i => do p <- get st.2 i; do b <- w_mutable W p; Ok (b, st)
    end.

  (** the loop inside [run], named *)
  Fixpoint run_loop (fuel : nat) {X R : Type} (body : X -> prog A (X + R)) (n : nat) (x : X) (st : istate W)
      : res (R * istate W) :=
    match n with
    | 0 => NoFuel
    | S n' => do (y, st') <- run fuel (body x) st;
              match y with inl x' => run_loop fuel body n' x' st' | inr r => Ok (r, st') end
    end.
  Lemma run_Loop fuel {X R : Type} (x : X) (body : X -> prog A (X + R)) st :
    run fuel (Loop x body) st = run_loop fuel body fuel x st.
  Proof.
    cbn [run].
    enough (forall n x st,
      (fix loop (n0 : nat) (x0 : X) (st0 : istate W) {struct n0} : res (R * istate W) :=
         match n0 with
         | 0 => NoFuel
         | S n' => do (y, st') <- run fuel (body x0) st0;
                   match y with inl x' => loop n' x' st' | inr r => Ok (r, st') end
         end) n x st = run_loop fuel body n x st) as H by apply H.
    intros n. induction n as [|n IH]; intros y st'; [done|]. cbn [run_loop].
    destruct (run fuel (body y) st') as [[[x'|r] s]| |]; cbn [rbind]; [apply IH|done..].
  Qed.

  (** [exec p st r st']: started in [st], program [p] ends normally with result [r] in state [st']
      (no undefined behaviour, no failed assertion, and it terminates). *)
  Definition exec {R : Type} (p : prog A R) (st : istate W) (r : R) (st' : istate W) : Prop :=
    exists fuel, run fuel p st = Ok (r, st').

  Lemma run_mono {R : Type} (p : prog A R) : forall n n' st x, n <= n' -> run n p st = Ok x -> run n' p st = Ok x.
  Proof.
    induction p as [R r|R|X R p IHp k IHk|X R x body IH|s|i|d s|i|i|i z|i j|i j|i j|i|i v|i|i];
      intros n n' st y Hn; try (intros H; exact H).
    - cbn [run]. intros [[x st1] [H1 H2]]%rbind_Ok.
      rewrite (IHp n n' st _ Hn H1). cbn [rbind]. by eapply IHk.
    - rewrite !run_Loop.
      enough (forall a a' x st, a <= a' -> run_loop n body a x st = Ok y -> run_loop n' body a' x st = Ok y) as H
        by (apply H; done).
      intros a. induction a as [|a IHa]; intros a' z st0 Ha; [intros [=]|].
      destruct a' as [|a']; [lia|]. cbn [run_loop].
      intros [[w st1] [H1 H2]]%rbind_Ok. rewrite (IH z n n' st0 _ Hn H1). cbn [rbind].
      destruct w as [x'|r]; [|done]. eapply IHa; [lia|done].
  Qed.
  (** a program has at most one outcome *)
  Lemma exec_det {R : Type} (p : prog A R) st r1 st1 r2 st2 :
    exec p st r1 st1 -> exec p st r2 st2 -> r1 = r2 /\ st1 = st2.
  Proof.
    intros [n1 H1] [n2 H2]. apply (run_mono _ _ (max n1 n2)) in H1; [|lia].
    apply (run_mono _ _ (max n1 n2)) in H2; [|lia]. rewrite H1 in H2. by injection H2.
  Qed.
  Lemma exec_Bind {X R : Type} (p : prog A X) (k : X -> prog A R) st x st1 r st2 :
    exec p st x st1 -> exec (k x) st1 r st2 -> exec (Bind p k) st r st2.
  Proof.
    intros [n1 H1] [n2 H2]. exists (max n1 n2). cbn [run].
    rewrite (run_mono _ n1 (max n1 n2) _ _ ltac:(lia) H1). cbn [rbind].
    by rewrite (run_mono _ n2 (max n1 n2) _ _ ltac:(lia) H2).
  Qed.
  Lemma exec_Loop_done {X R : Type} (x : X) (body : X -> prog A (X + R)) st r st' :
    exec (body x) st (inr r) st' -> exec (Loop x body) st r st'.
  Proof.
    intros [n H]. exists (S n). rewrite run_Loop. cbn [run_loop].
    by rewrite (run_mono _ n (S n) _ _ ltac:(lia) H).
  Qed.
  Lemma run_loop_mono {X R : Type} (body : X -> prog A (X + R)) f f' : f <= f' ->
    forall n n' x st y, n <= n' -> run_loop f body n x st = Ok y -> run_loop f' body n' x st = Ok y.
  Proof.
    intros Hf n. induction n as [|n IH]; intros n' x st y Hn; [intros [=]|].
    destruct n' as [|n']; [lia|]. cbn [run_loop].
    intros [[w st1] [H1 H2]]%rbind_Ok. rewrite (run_mono _ f f' _ _ Hf H1). cbn [rbind].
    destruct w as [x'|r]; [|done]. eapply IH; [lia|done].
  Qed.
  Lemma exec_Loop_more {X R : Type} (x x' : X) (body : X -> prog A (X + R)) st st1 r st' :
    exec (body x) st (inl x') st1 -> exec (Loop x' body) st1 r st' -> exec (Loop x body) st r st'.
  Proof.
    intros [n H] [n2 H2]. rewrite run_Loop in H2. exists (S (max n n2)). rewrite run_Loop. cbn [run_loop].
    rewrite (run_mono _ n (S (max n n2)) _ _ ltac:(lia) H). cbn [rbind].
    eapply run_loop_mono; [| |exact H2]; lia.
  Qed.

  (** weakest precondition (total correctness) *)
  Definition wp {R : Type} (p : prog A R) (st : istate W) (Q : R -> istate W -> Prop) : Prop :=
    exists r st', exec p st r st' /\ Q r st'.
  Lemma wp_mono {R : Type} (p : prog A R) st (Q Q' : R -> istate W -> Prop) :
    wp p st Q -> (forall r st', Q r st' -> Q' r st') -> wp p st Q'.
  Proof. intros (r&st'&H&HQ) HQ'. exists r, st'. auto. Qed.
  Lemma wp_ret {R : Type} (r : R) st (Q : R -> istate W -> Prop) : Q r st -> wp (Ret r) st Q.
  Proof. intros H. exists r, st. split; [by exists 0|done]. Qed.
  Lemma wp_bind {X R : Type} (p : prog A X) (k : X -> prog A R) st Q :
    wp p st (fun x st1 => wp (k x) st1 Q) -> wp (Bind p k) st Q.
  Proof.
    intros (x&st1&H1&(r&st2&H2&HQ)). exists r, st2. split; [|done]. by eapply exec_Bind.
  Qed.
  Lemma wp_loop {X R : Type} (x : X) (body : X -> prog A (X + R)) st Q :
    wp (body x) st (fun y st1 => match y with inl x' => wp (Loop x' body) st1 Q | inr r => Q r st1 end) ->
    wp (Loop x body) st Q.
  Proof.
    intros ([x'|r]&st1&H1&H2).
    - destruct H2 as (r&st2&H2&HQ). exists r, st2. split; [|done]. by eapply exec_Loop_more.
    - exists r, st1. split; [|done]. by eapply exec_Loop_done.
  Qed.
  Lemma wp_new src m s p (Q : iid -> istate W -> Prop) :
    s !! src = Some p -> (forall i, s !! i = None -> Q i (m, <[i := p]> s)) -> wp (New src) (m, s) Q.
  Proof.
    intros Hs HQ. exists (fresh (dom s)), (m, <[fresh (dom s) := p]> s). split.
    - exists 0. cbn [run]. unfold get. cbn [fst snd]. by rewrite Hs.
    - apply HQ. apply not_elem_of_dom. apply is_fresh.
  Qed.
  Lemma wp_free i m s p (Q : unit -> istate W -> Prop) :
    s !! i = Some p -> Q tt (m, delete i s) -> wp (Free i) (m, s) Q.
  Proof.
    intros Hs HQ. eexists _, _. split; [|exact HQ]. exists 0. cbn [run]. unfold get. cbn [fst snd]. by rewrite Hs.
  Qed.
  Lemma wp_assign d sr m s p q r (Q : unit -> istate W -> Prop) :
    s !! d = Some p -> s !! sr = Some q -> w_assign W p q = Ok r ->
    Q tt (m, <[d := r]> s) -> wp (Assign d sr) (m, s) Q.
  Proof.
    intros Hd Hs Hr HQ. eexists _, _. split; [|exact HQ]. exists 0. cbn [run]. unfold get. cbn [fst snd].
    rewrite Hd, Hs. cbn [rbind]. by rewrite Hr.
  Qed.
  Lemma wp_inc i m s p q (Q : unit -> istate W -> Prop) :
    s !! i = Some p -> w_inc W m p = Ok q -> Q tt (m, <[i := q]> s) -> wp (Inc i) (m, s) Q.
  Proof.
    intros Hs Hr HQ. eexists _, _. split; [|exact HQ]. exists 0. cbn [run]. unfold get. cbn [fst snd].
    rewrite Hs. cbn [rbind]. by rewrite Hr.
  Qed.
  Lemma wp_dec i m s p q (Q : unit -> istate W -> Prop) :
    s !! i = Some p -> w_dec W m p = Ok q -> Q tt (m, <[i := q]> s) -> wp (Dec i) (m, s) Q.
  Proof.
    intros Hs Hr HQ. eexists _, _. split; [|exact HQ]. exists 0. cbn [run]. unfold get. cbn [fst snd].
    rewrite Hs. cbn [rbind]. by rewrite Hr.
  Qed.
  Lemma wp_adv i n m s p q (Q : unit -> istate W -> Prop) :
    s !! i = Some p -> w_adv W m p n = Ok q -> Q tt (m, <[i := q]> s) -> wp (Adv i n) (m, s) Q.
  Proof.
    intros Hs Hr HQ. eexists _, _. split; [|exact HQ]. exists 0. cbn [run]. unfold get. cbn [fst snd].
    rewrite Hs. cbn [rbind]. by rewrite Hr.
  Qed.
  Lemma wp_dist i j m s p q n (Q : Z -> istate W -> Prop) :
    s !! i = Some p -> s !! j = Some q -> w_dist W m p q = Ok n -> Q n (m, s) -> wp (Dist i j) (m, s) Q.
  Proof.
    intros Hi Hj Hr HQ. eexists _, _. split; [|exact HQ]. exists 0. cbn [run]. unfold get. cbn [fst snd].
    rewrite Hi, Hj. cbn [rbind]. by rewrite Hr.
  Qed.
  Lemma wp_eq i j m s p q b (Q : bool -> istate W -> Prop) :
    s !! i = Some p -> s !! j = Some q -> w_eq W p q = Ok b -> Q b (m, s) -> wp (Eq i j) (m, s) Q.
  Proof.
    intros Hi Hj Hr HQ. eexists _, _. split; [|exact HQ]. exists 0. cbn [run]. unfold get. cbn [fst snd].
    rewrite Hi, Hj. cbn [rbind]. by rewrite Hr.
  Qed.
  Lemma wp_less i j m s p q b (Q : bool -> istate W -> Prop) :
    s !! i = Some p -> s !! j = Some q -> w_less W p q = Ok b -> Q b (m, s) -> wp (Less i j) (m, s) Q.
  Proof.
    intros Hi Hj Hr HQ. eexists _, _. split; [|exact HQ]. exists 0. cbn [run]. unfold get. cbn [fst snd].
    rewrite Hi, Hj. cbn [rbind]. by rewrite Hr.
  Qed.
  Lemma wp_deref i m s p v (Q : A -> istate W -> Prop) :
    s !! i = Some p -> w_deref W m p = Ok v -> Q v (m, s) -> wp (Deref i) (m, s) Q.
  Proof.
    intros Hs Hr HQ. eexists _, _. split; [|exact HQ]. exists 0. cbn [run]. unfold get. cbn [fst snd].
    rewrite Hs. cbn [rbind]. by rewrite Hr.
  Qed.
  Lemma wp_write i v m s p m' (Q : unit -> istate W -> Prop) :
    s !! i = Some p -> w_write W m p v = Ok m' -> Q tt (m', s) -> wp (Write i v) (m, s) Q.
  Proof.
    intros Hs Hr HQ. eexists _, _. split; [|exact HQ]. exists 0. cbn [run]. unfold get. cbn [fst snd].
    rewrite Hs. cbn [rbind]. by rewrite Hr.
  Qed.
  Lemma wp_cat i m s p c (Q : nat -> istate W -> Prop) :
    s !! i = Some p -> w_cat W p = Ok c -> Q c (m, s) -> wp (Cat i) (m, s) Q.
  Proof.
    intros Hs Hr HQ. eexists _, _. split; [|exact HQ]. exists 0. cbn [run]. unfold get. cbn [fst snd].
    rewrite Hs. cbn [rbind]. by rewrite Hr.
  Qed.
  Lemma wp_mutable i m s p b (Q : bool -> istate W -> Prop) :
    s !! i = Some p -> w_mutable W p = Ok b -> Q b (m, s) -> wp (Mutable i) (m, s) Q.
  Proof.
    intros Hs Hr HQ. eexists _, _. split; [|exact HQ]. exists 0. cbn [run]. unfold get. cbn [fst snd].
    rewrite Hs. cbn [rbind]. by rewrite Hr.
  Qed.
End run.

(** ** Idioms of /repo/algorithm *)
Section idioms.
  Context {A : Type}.
  (** assert(cond), c_def.h 31: a failed assertion is no normal outcome *)
  Definition passert (b : bool) : prog A unit := if b then Ret tt else Fail.
  (** assert(C_ITER_AT_LEAST(i, c)), c_def.h 305 *)
  Definition at_least (i : iid) (c : nat) : prog A unit := x <~ Cat i;; passert (c <=? x).
  (** assert(C_ITER_EXACT(i, c)), c_def.h 306 *)
  Definition exactly (i : iid) (c : nat) : prog A unit := x <~ Cat i;; passert (c =? x).
  (** assert(C_ITER_MUTABLE(i)), c_def.h 307 *)
  Definition is_mutable (i : iid) : prog A unit := b <~ Mutable i;; passert b.
  Definition INPUT := 1.
  Definition FORWARD := 2.
  Definition BIDIRECTION := 3.
  Definition RANDOM := 4.
  (** C_ITER_NE, c_def.h 300 *)
  Definition Ne (i j : iid) : prog A bool := b <~ Eq i j;; Ret (negb b).
  (** [p && q] *)
  Definition pand (p q : prog A bool) : prog A bool := b <~ p;; if b then q else Ret false.
  (** [while (cond) body] *)
  Definition While (cond : prog A bool) (body : prog A unit) : prog A unit :=
    Loop tt (fun _ => b <~ cond;; if b then body ;;; Ret (inl tt) else Ret (inr tt)).
  (** [while (cond) body] where the body updates local variables [x] *)
  Definition WhileV {X} (x : X) (cond : X -> prog A bool) (body : X -> prog A X) : prog A X :=
    Loop x (fun x => b <~ cond x;; if b then y <~ body x;; Ret (inl y) else Ret (inr x)).

  (** An out parameter [c_iterator_t** v]: [None] is a null pointer; [Some None] points to a null
      variable; [Some (Some i)] points to a variable holding the iterator object [i]. *)
  Definition out := option (option iid).
  (** assert(v == 0 || *v == 0 || C_ITER_AT_LEAST( *v, c)), c_def.h 305 *)
  Definition out_at_least (o : out) (c : nat) : prog A unit :=
    match o with Some (Some i) => at_least i c | _ => Ret tt end.
  (** __c_iter_copy_or_assign, c_internal.h 78-88; returns the content of the out variable *)
  Definition copy_or_assign (o : out) (src : iid) : prog A (option iid) :=
    match o with
    | None => Ret None
    | Some None => i <~ New src;; Ret (Some i)
    | Some (Some i) => Assign i src;;; Ret (Some i)
    end.
  (** __c_iter_copy_and_move on a null variable, c_internal.h 90-95 *)
  Definition new_and_move (src : iid) (n : Z) : prog A iid := i <~ New src;; Adv i n;;; Ret i.
  (** __c_iter_copy_and_move on a variable holding [i], c_internal.h 90-95 *)
  Definition assign_and_move (i src : iid) (n : Z) : prog A unit := Assign i src;;; Adv i n.
End idioms.
