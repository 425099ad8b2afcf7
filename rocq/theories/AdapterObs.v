(** AdapterObs.v — what a client observes of the adapters modelled in Adapters.v: used to state the properties. *)
From stdpp Require Import list gmap.
From Verif Require Import Base Spec SpecAdapters DList Adapters.
From stdpp Require Import list.

Section obs.
  Context {A : Type} (dflt : A) (alloc : heap A -> loc).
  (** the observers of the stack [s] show the abstract stack [t] (head = top) *)
  Definition stack_sees (h : heap A) (s : backend A) (t : bkind * list A) : Prop :=
    c_stack_top h s = Ok (head t.2) /\ c_stack_empty h s = Ok (bool_decide (t.2 = [])).
  (** the observers of the queue [q] show the abstract queue [t] (head = front) *)
  Definition queue_sees (h : heap A) (q : backend A) (t : bkind * list A) : Prop :=
    c_queue_front h q = Ok (head t.2) /\ c_queue_back h q = Ok (last t.2) /\
    c_queue_size h q = Ok (length t.2) /\ c_queue_empty h q = Ok (bool_decide (t.2 = [])).
  (** the observers of the priority queue [q] show the abstract one [a] *)
  Definition pq_sees (h : heap A) (q : pqueue A) (a : apq A) : Prop :=
    c_pq_top h q = Ok (head (aelems a)) /\ c_pq_size h q = Ok (length (aelems a)) /\
    c_pq_empty h q = Ok (bool_decide (aelems a = [])).
  (** the client runs the calls [os] from the state [h], [env]: every call returns, each step is one of the
      specification ([pq_step G]), and before and after every call the observers show the abstract queues *)
  Fixpoint pq_path (G : (A -> A -> bool) -> list A -> Prop) (h : heap A) (env : list (pqueue A)) (ls : list (apq A))
      (os : list (pop A)) : Prop :=
    Forall2 (pq_sees h) env ls /\
    match os with
    | [] => True
    | o :: os' => exists h' env' ls', pop_run dflt alloc (h, env) o = Ok (h', env') /\ pq_step G ls o ls' /\
        pq_path G h' env' ls' os'
    end.
End obs.
