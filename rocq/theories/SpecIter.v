(** SpecIter.v — what it means that iterator objects point into containers; independent of the
    algorithms. *)
From stdpp Require Import list gmap.
From Verif Require Import Base Spec Iter Vector Deque DList SpecList Slist SpecSlist Tree SpecTree IterWorld VectorProofs DequeProofs.
From stdpp Require Import list.

(** a container, seen in one direction.  [CLoose p]: no container, only an iterator object with
    content [p] about which nothing is known but its kind (it may be stale). *)
Inductive cont :=
| CList (r : bool) (l : positive)               (* list with sentinel [l] *)
| CSlist (l : positive * positive)              (* forward list *)
| CBlk (deque : bool) (r : bool) (v : nat)      (* vector or deque number [v] *)
| CTree (r : bool) (hd : positive)              (* tree, set or map with header [hd] *)
| CLoose (p : cpos).

(** the container itself, whatever the direction *)
Inductive obj := OList (l : positive) | OSlist (e : positive) | OBlk (deque : bool) (v : nat) | OTree (hd : positive) | ONone.
Definition obj_of (c : cont) : obj :=
  match c with
  | CList _ l => OList l | CSlist l => OSlist l.2 | CBlk d _ v => OBlk d v | CTree _ hd => OTree hd | CLoose _ => ONone
  end.

(** several containers with their positions and elements *)
Notation group A := (list (cont * list cpos * list A)).
Section shows.
  Context {A : Type} {CK : Checked}.
  (** read in direction [r] *)
  Definition dir {X} (r : bool) (l : list X) : list X := if r then reverse l else l.
  (** [shows M c ps vs]: in memory [M] the container [c] is well-formed and, read in its direction, has
      the elements [vs]; the iterator positions are [ps], the last one being the end position. *)
  Definition shows (M : cmem A) (c : cont) (ps : list cpos) (vs : list A) : Prop :=
    match c with
    | CList r l => exists cs, is_list (m_list M) l cs /\
        ps = PList r <$> dir r (cs.*1 ++ [l]) /\ vs = dir r (cs.*2)
    | CSlist l => exists cs, is_slist (m_slist M) l cs /\ ps = PSlist <$> cs.*1 ++ [l.2] /\ vs = cs.*2
    | CBlk false r v => exists x us, m_vec M !! v = Some x /\ vrep x us /\
        ps = PBlk false r v <$> dir r (Z.of_nat <$> seq 0 (S (length us))) /\ vs = dir r us
    | CBlk true r v => exists d us, m_deq M !! v = Some d /\ drep d us /\
        ps = PBlk true r v <$> dir r (Z.of_nat <$> seq (dstart d) (S (length us))) /\ vs = dir r us
    | CTree r hd => exists cs, holds (mem (m_tree M)) hd cs /\
        ps = PTree r <$> dir r ((Some <$> cs.*1) ++ [Some hd]) /\ vs = dir r (cs.*2)
    | CLoose p => ps = [p] /\ vs = []
    end.

  (** kind of the iterators of a container *)
  Definition kind_of (c : cont) : nat :=
    match c with
    | CSlist _ => 0 | CList r _ => if r then 2 else 1 | CBlk false r _ => if r then 4 else 3
    | CBlk true r _ => if r then 6 else 5 | CTree r _ => if r then 8 else 7 | CLoose p => ckind p
    end.
  (** category of the iterators of a container *)
  Definition cat_of (c : cont) : nat :=
    match c with CSlist _ => FORWARD | CList _ _ => BIDIRECTION | CBlk _ _ _ => RANDOM | CTree _ _ => BIDIRECTION
    | CLoose p => ccat p end.
  (** its elements may be overwritten through iterators *)
  Definition mutable (c : cont) : bool := match c with CLoose _ => false | _ => kind_of c <? 7 end.

  (** [q] = a container, its positions and its elements: it is in memory *)
  Definition shown (M : cmem A) (q : cont * list cpos * list A) : Prop := shows M q.1.1 q.1.2 q.2.
  (** the iterator object [x] is at position [i] of the container *)
  Definition at_pos (S : gmap iid cpos) (q : cont * list cpos * list A) (x : iid) (i : nat) : Prop :=
    exists p, q.1.2 !! i = Some p /\ S !! x = Some p.
  (** [\[first, last)] is the range of positions [i] to [j] of the container *)
  Definition range_in S q (first last : iid) (i j : nat) : Prop :=
    at_pos S q first i /\ at_pos S q last j /\ i <= j.
  (** what an out parameter must be: null, or a null variable, or a variable holding an iterator object of
      the kind of the container (at any position, even an invalid one) *)
  Definition out_ok (S : gmap iid cpos) (q : cont * list cpos * list A) (o : out) : Prop :=
    match o with Some (Some x) => exists p, S !! x = Some p /\ ckind p = kind_of q.1.1 | _ => True end.
  (** [stored q o k S v S']: position [k] of the container has been stored through the out parameter [o],
      which holds [v] afterwards; no other iterator object has changed *)
  Definition stored (q : cont * list cpos * list A) (o : out) (k : nat) (S : gmap iid cpos) (v : option iid) (S' : gmap iid cpos) : Prop :=
    exists p, q.1.2 !! k = Some p /\
    match o with
    | None => v = None /\ S' = S
    | Some None => exists x, S !! x = None /\ v = Some x /\ S' = <[x := p]> S
    | Some (Some x) => v = Some x /\ S' = <[x := p]> S
    end.

  (** two ranges: an iterator object belongs to one of them only, unless they are in the same container *)
  Definition unmixed (q1 : cont * list cpos * list A) (xs : list iid) (q2 : cont * list cpos * list A) (ys : list iid) : Prop :=
    q1 = q2 \/ forall x, x ∈ xs -> x ∉ ys.
  (** element [k] of [l] matches some element of [pat] *)
  Definition matches_one_of (l : list A) (pred : A -> A -> bool) (pat : list A) (k : nat) : Prop :=
    exists x y, l !! k = Some x /\ y ∈ pat /\ pred x y = true.
  (** [pat] matches, element by element, the elements of [l] from [k] on, before [last] *)
  Definition pattern_at (l : list A) (pred : A -> A -> bool) (last : nat) (pat : list A) (k : nat) : Prop :=
    k + length pat <= last /\ forall d y, pat !! d = Some y -> exists x, l !! (k + d) = Some x /\ pred x y = true.
  (** [becomes M l M']: every container of the list [l] has, at the same positions as before, the elements
      given with it; every container not in [l] is unchanged *)
  Definition becomes (M : cmem A) (l : list (cont * list cpos * list A * list A)) (M' : cmem A) : Prop :=
    (forall q vs', (q, vs') ∈ l -> shows M' q.1.1 q.1.2 vs') /\
    (forall q', (forall q vs', (q, vs') ∈ l -> obj_of q'.1.1 <> obj_of q.1.1) -> shown M q' -> shown M' q').
  (** [q1] and [q2] are the same container (seen in the same direction) or different containers *)
  Definition same_or_apart (q1 q2 : cont * list cpos * list A) : Prop := q1 = q2 \/ obj_of q1.1.1 <> obj_of q2.1.1.
  (** ** What an algorithm that writes does *)
  (** the call returns [v]; in container [q] the elements from [d] on have become [l]; nothing else in memory and no
      iterator object has changed *)
  Definition changes (M : cmem A) (S : gmap iid cpos) (q : cont * list cpos * list A) (d : nat) (l : list A) {R : Type} (p : prog A R) (v : R) : Prop :=
    exists M', exec (cworld A) p (M, S) v (M', S) /\ becomes M [(q, patch q.2 d l)] M'.
  (** the same, and position [k] of the container has been stored through the out parameter [o] *)
  Definition changes_out (M : cmem A) (S : gmap iid cpos) (q : cont * list cpos * list A) (o : out) (d : nat) (l : list A) (k : nat)
      {R : Type} (p : prog A (R * option iid)) (v : R) : Prop :=
    exists w M' S', exec (cworld A) p (M, S) (v, w) (M', S') /\ becomes M [(q, patch q.2 d l)] M' /\ stored q o k S w S'.
  (** the same for a call that returns only the out parameter *)
  Definition changes_o (M : cmem A) (S : gmap iid cpos) (q : cont * list cpos * list A) (o : out) (d : nat) (l : list A) (k : nat)
      (p : prog A (option iid)) : Prop :=
    exists w M' S', exec (cworld A) p (M, S) w (M', S') /\ becomes M [(q, patch q.2 d l)] M' /\ stored q o k S w S'.
  (** a source range [\[i, j)] in container [q1] and a destination position [d] in container [q2], whose elements may be
      overwritten; [q1] and [q2] may be the same container *)
  Definition source_dest (M : cmem A) (S : gmap iid cpos) (q1 q2 : cont * list cpos * list A) (first last d_first : iid) (i j d : nat) : Prop :=
    shown M q1 /\ shown M q2 /\ range_in S q1 first last i j /\ at_pos S q2 d_first d /\ unmixed q1 [first; last] q2 [d_first] /\
    mutable q2.1.1 = true /\ same_or_apart q1 q2.
  (** a range [\[i, j)] in a container whose elements may be overwritten *)
  Definition own_range (M : cmem A) (S : gmap iid cpos) (q : cont * list cpos * list A) (first last : iid) (i j : nat) : Prop :=
    shown M q /\ range_in S q first last i j /\ mutable q.1.1 = true.
End shows.
