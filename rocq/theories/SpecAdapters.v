(** SpecAdapters.v — what stacks, queues and priority queues are.  Nothing here refers to the models. *)
From Verif Require Import Base.
From stdpp Require Import list.

(** the container an adapter is built on: c_vector_create_backend, c_deque_create_backend,
    c_list_create_backend *)
Inductive bkind := KVector | KDeque | KList.
Global Instance bkind_eq_dec : EqDecision bkind.
Proof. solve_decision. Defined.

(** the argument of a push: an object of the caller, or the reference returned by front()/back() (top()) of
    adapter [j] *)
Inductive barg (A : Type) := BVal (a : A) | BFront (j : nat) | BBack (j : nat).
Global Arguments BVal {A} a.
Global Arguments BFront {A} j.
Global Arguments BBack {A} j.
(** operations on a client's stacks (queues); adapters are named by their index *)
Inductive aop (A : Type) :=
| ACreate (k : bkind) | APush (i : nat) (v : barg A) | APop (i : nat) | ASwap (i j : nat) | ADestroy (i : nat).
Global Arguments ACreate {A} k.
Global Arguments APush {A} i v.
Global Arguments APop {A} i.
Global Arguments ASwap {A} i j.
Global Arguments ADestroy {A} i.

Section spec.
  Context {A : Type}.
  Notation state := (list (bkind * list A)).
  (** an element reference into the adapter pushed to is allowed only over the list, whose elements do not
      move *)
  Definition own_ok (k : bkind) (i j : nat) : bool := negb (i =? j) || bool_decide (k = KList).

  (** *** Stacks: a sequence whose head is the top *)
  (** the value pushed ([Some None]: the null reference top() returns for an empty stack, which push ignores);
      [None] if the call is outside the contract.  A stack has no front(). *)
  Definition stack_arg (ls : state) (k : bkind) (i : nat) (v : barg A) : option (option A) :=
    match v with
    | BVal a => Some (Some a)
    | BFront _ => None
    | BBack j => if own_ok k i j then (fun t => head t.2) <$> ls !! j else None
    end.
  Definition push_opt (f : A -> list A -> list A) (v : option A) (l : list A) : list A :=
    match v with None => l | Some a => f a l end.
  Definition stack_spec (ls : state) (o : aop A) : option state :=
    match o with
    | ACreate k => Some (ls ++ [(k, [])])
    | APush i v => t ← ls !! i; a ← stack_arg ls t.1 i v; Some (<[i := (t.1, push_opt cons a t.2)]> ls)
    | APop i => t ← ls !! i; Some (<[i := (t.1, tail t.2)]> ls)
    | ASwap i j => t ← ls !! i; u ← ls !! j;
        if bool_decide (t.1 = u.1) then Some (<[j := t]> (<[i := u]> ls)) else None
    | ADestroy i => _ ← ls !! i; Some (delete i ls)
    end.
  Fixpoint stack_hist (ls : state) (os : list (aop A)) : option state :=
    match os with [] => Some ls | o :: os' => ls' ← stack_spec ls o; stack_hist ls' os' end.

  (** *** Queues: a sequence whose head is the front; elements enter at the other end *)
  Definition queue_arg (ls : state) (k : bkind) (i : nat) (v : barg A) : option (option A) :=
    match v with
    | BVal a => Some (Some a)
    | BFront j => if own_ok k i j then (fun t => head t.2) <$> ls !! j else None
    | BBack j => if own_ok k i j then (fun t => last t.2) <$> ls !! j else None
    end.
  (** popping a queue over a vector is outside the contract *)
  Definition queue_spec (ls : state) (o : aop A) : option state :=
    match o with
    | ACreate k => Some (ls ++ [(k, [])])
    | APush i v => t ← ls !! i; a ← queue_arg ls t.1 i v;
        Some (<[i := (t.1, push_opt (fun a l => l ++ [a]) a t.2)]> ls)
    | APop i => t ← ls !! i; if bool_decide (t.1 = KVector) then None else Some (<[i := (t.1, tail t.2)]> ls)
    | ASwap i j => t ← ls !! i; u ← ls !! j;
        if bool_decide (t.1 = u.1) then Some (<[j := t]> (<[i := u]> ls)) else None
    | ADestroy i => _ ← ls !! i; Some (delete i ls)
    end.
  Fixpoint queue_hist (ls : state) (os : list (aop A)) : option state :=
    match os with [] => Some ls | o :: os' => ls' ← queue_spec ls o; queue_hist ls' os' end.
End spec.

(** *** Priority queues *)
(** operations on a client's priority queues; a queue is created over a backend with a comparator *)
Inductive pop (A : Type) :=
| PCreate (k : bkind) (comp : A -> A -> bool) | PPush (i : nat) (v : barg A) | PPop (i : nat)
| PSwap (i j : nat) | PDestroy (i : nat).
Global Arguments PCreate {A} k comp.
Global Arguments PPush {A} i v.
Global Arguments PPop {A} i.
Global Arguments PSwap {A} i j.
Global Arguments PDestroy {A} i.

Section pq.
  Context {A : Type}.
  (** an abstract priority queue: its backend and comparator, and its elements, the head being the one top()
      returns (the order of the others means nothing) *)
  Record apq := Apq { akind : bkind; acomp : A -> A -> bool; aelems : list A }.
  Implicit Types ls : list apq.
  (** the head is a greatest element *)
  Definition top_greatest (comp : A -> A -> bool) (l : list A) : Prop :=
    forall x y, head l = Some x -> y ∈ l -> comp x y = false.
  (** the value pushed; a reference (the result of top()) must come from another queue *)
  Definition pq_arg ls (i : nat) (v : barg A) (a : option A) : Prop :=
    match v with
    | BVal x => a = Some x
    | BFront j => i ≠ j /\ exists q, ls !! j = Some q /\ a = head (aelems q)
    | BBack j => False
    end.
  (** one step, relating the abstract queues before and after.  [G comp l] is what is guaranteed of the elements
      [l] of a queue with comparator [comp] after a push or a pop: [top_greatest] when the comparators are strict
      weak orders.  A swap exchanges the elements; each queue keeps its comparator. *)
  Inductive pq_step (G : (A -> A -> bool) -> list A -> Prop) ls : pop A -> list apq -> Prop :=
  | pq_create k comp : pq_step G ls (PCreate k comp) (ls ++ [Apq k comp []])
  | pq_push i v q a l' : ls !! i = Some q -> pq_arg ls i v (Some a) ->
      l' ≡ₚ a :: aelems q -> G (acomp q) l' ->
      pq_step G ls (PPush i v) (<[i := Apq (akind q) (acomp q) l']> ls)
  | pq_push_null i v : pq_arg ls i v None -> pq_step G ls (PPush i v) ls
  | pq_pop i q l' : ls !! i = Some q -> l' ≡ₚ tail (aelems q) -> G (acomp q) l' ->
      pq_step G ls (PPop i) (<[i := Apq (akind q) (acomp q) l']> ls)
  | pq_swap i j q r : ls !! i = Some q -> ls !! j = Some r ->
      pq_step G ls (PSwap i j)
        (<[j := Apq (akind r) (acomp r) (aelems q)]> (<[i := Apq (akind q) (acomp q) (aelems r)]> ls))
  | pq_destroy i q : ls !! i = Some q -> pq_step G ls (PDestroy i) (delete i ls).
  (** the contract of one call, given the backends and comparators of the queues: the backends are vectors or
      deques, the comparators satisfy [ok], and queues are swapped only if they have the same kind of backend
      and comparators related by [R] *)
  Notation pq_cfg := (list (bkind * (A -> A -> bool))).
  Definition pq_legal1 (ok : (A -> A -> bool) -> Prop) (R : (A -> A -> bool) -> (A -> A -> bool) -> Prop)
      (c : pq_cfg) (o : pop A) (c' : pq_cfg) : Prop :=
    match o with
    | PCreate k comp => k ≠ KList /\ ok comp /\ c' = c ++ [(k, comp)]
    | PPush i v => i < length c /\ c' = c /\
        match v with BVal _ => True | BFront j => i ≠ j /\ j < length c | BBack _ => False end
    | PPop i => i < length c /\ c' = c
    | PSwap i j => (exists p q, c !! i = Some p /\ c !! j = Some q /\ p.1 = q.1 /\ R p.2 q.2) /\ c' = c
    | PDestroy i => i < length c /\ c' = delete i c
    end.
  Fixpoint pq_legal ok R (c : pq_cfg) (os : list (pop A)) : Prop :=
    match os with [] => True | o :: os' => exists c', pq_legal1 ok R c o c' /\ pq_legal ok R c' os' end.
End pq.
Global Arguments apq : clear implicits.
