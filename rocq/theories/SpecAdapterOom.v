(** SpecAdapterOom.v — what running out of memory may do to stacks, queues and priority queues.  Nothing here refers to the
    models. *)
From Verif Require Import Base SpecAdapters.
From stdpp Require Import list.

Section spec.
  Context {A : Type}.
  Notation state := (list (bkind * list A)).
  (** Stacks and queues ([spec] is [stack_spec] or [queue_spec]): an operation is done, or no adapter is created, or nothing is
      pushed. *)
  Inductive adapter_may (spec : state -> aop A -> option state) (ls : state) : aop A -> state -> Prop :=
  | amay_done o ls' : spec ls o = Some ls' -> adapter_may spec ls o ls'
  | amay_no_adapter k : adapter_may spec ls (ACreate k) ls
  | amay_not_pushed i v : adapter_may spec ls (APush i v) ls.
  Inductive ahist_may (spec : state -> aop A -> option state) : state -> list (aop A) -> state -> Prop :=
  | amay_nil ls : ahist_may spec ls [] ls
  | amay_cons ls o ls' os ls'' : adapter_may spec ls o ls' -> ahist_may spec ls' os ls'' -> ahist_may spec ls (o :: os) ls''.

  (** Priority queues: as far as the elements go, push adds the value or nothing, and pop removes one element, any. *)
  Inductive pq_may (ls : list (apq A)) : pop A -> list (apq A) -> Prop :=
  | pmay_done o ls' : pq_step (fun _ _ => True) ls o ls' -> pq_may ls o ls'
  | pmay_no_queue k comp : pq_may ls (PCreate k comp) ls
  | pmay_not_pushed i v q l' : ls !! i = Some q -> l' ≡ₚ aelems q ->
      pq_may ls (PPush i v) (<[i := Apq (akind q) (acomp q) l']> ls)
  | pmay_popped i q x l' : ls !! i = Some q -> x :: l' ≡ₚ aelems q ->
      pq_may ls (PPop i) (<[i := Apq (akind q) (acomp q) l']> ls).
  Inductive phist_may : list (apq A) -> list (pop A) -> list (apq A) -> Prop :=
  | pmay_nil ls : phist_may ls [] ls
  | pmay_cons ls o ls' os ls'' : pq_may ls o ls' -> phist_may ls' os ls'' -> phist_may ls (o :: os) ls''.
End spec.
