(** SpecPair.v — what pairs are.  Nothing here refers to the models. *)
From Verif Require Import Base Spec.
From stdpp Require Import list.

Section lex.
  Context {A B : Type} (lt1 : A -> A -> bool) (lt2 : B -> B -> bool) (eq1 : A -> A -> bool) (eq2 : B -> B -> bool).
  (** lexicographic order: the first components decide unless neither is less *)
  Definition lex (p q : A * B) : bool := if lt1 p.1 q.1 then true else if lt1 q.1 p.1 then false else lt2 p.2 q.2.
  Definition both (p q : A * B) : bool := eq1 p.1 q.1 && eq2 p.2 q.2.
End lex.

(** operations of a client on pairs; pairs are named by their index.  Memory handed to create and copy is zeroed. *)
Inductive pair_op (A : Type) :=
| PCreate | PCopy (i : nat) | PCopyOf (v1 v2 : A) | PAssign (i j : nat) | PAssignOf (i : nat) (v1 v2 : A)
| PSetFirst (i : nat) (v : A) | PSetSecond (i : nat) (v : A) | PDestroy (i : nat).
Global Arguments PCreate {A}.
Global Arguments PCopy {A} i.
Global Arguments PCopyOf {A} v1 v2.
Global Arguments PAssign {A} i j.
Global Arguments PAssignOf {A} i v1 v2.
Global Arguments PSetFirst {A} i v.
Global Arguments PSetSecond {A} i v.
Global Arguments PDestroy {A} i.
Section spec.
  (** pairs are values: changing one changes no other.  [d1], [d2]: the default values of the component types *)
  Context {A : Type} (d1 d2 : A).
  Definition pop_spec (ps : list (A * A)) (o : pair_op A) : option (list (A * A)) :=
    match o with
    | PCreate => Some (ps ++ [(d1, d2)])
    | PCopy i => p ← ps !! i; Some (ps ++ [p])
    | PCopyOf v1 v2 => Some (ps ++ [(v1, v2)])
    | PAssign i j => _ ← ps !! i; p ← ps !! j; Some (<[i := p]> ps)
    | PAssignOf i v1 v2 => _ ← ps !! i; Some (<[i := (v1, v2)]> ps)
    | PSetFirst i v => p ← ps !! i; Some (<[i := (v, p.2)]> ps)
    | PSetSecond i v => p ← ps !! i; Some (<[i := (p.1, v)]> ps)
    | PDestroy i => _ ← ps !! i; Some (delete i ps)
    end.
  Fixpoint phist_spec (ps : list (A * A)) (os : list (pair_op A)) : option (list (A * A)) :=
    match os with [] => Some ps | o :: os' => ps' ← pop_spec ps o; phist_spec ps' os' end.
End spec.
