(** SpecIterOrd.v — what the theorems about partitioning, searching, comparing and set operations on iterators say;
    independent of the algorithms. *)
From stdpp Require Import list gmap.
From Verif Require Import Base Spec Iter IterWorld SpecIter.
From stdpp Require Import list.

Section spec.
  Context {A : Type} {CK : Checked}.
  Local Notation qc := (cont * list cpos * list A)%type.

  (** the call [p] changes nothing in memory and stores position [k] of the container [q] through the out parameter [o];
      every other iterator object is unchanged *)
  Definition points (M : cmem A) (S : gmap iid cpos) (q : qc) (o : out) (k : nat) (p : prog A (option iid)) : Prop :=
    exists v S', exec (cworld A) p (M, S) v (M, S') /\ stored q o k S v S'.
  (** the same for two out parameters, the first one being stored first *)
  Definition points2 (M : cmem A) (S : gmap iid cpos) (q : qc) (o1 o2 : out) (k1 k2 : nat) (p : prog A (option iid * option iid)) : Prop :=
    exists v1 v2 S1 S', exec (cworld A) p (M, S) (v1, v2) (M, S') /\ stored q o1 k1 S v1 S1 /\ stored q o2 k2 S1 v2 S'.
  (** the call answers [b] and changes nothing *)
  Definition answers (M : cmem A) (S : gmap iid cpos) {R : Type} (p : prog A R) (b : R) : Prop := exec (cworld A) p (M, S) b (M, S).

  (** two ranges to read, [\[i1, j1)] of [q1] and [\[i2, j2)] of [q2]; they may be in the same container *)
  Definition two_ranges (M : cmem A) (S : gmap iid cpos) (q1 q2 : qc) (first1 last1 first2 last2 : iid) (i1 j1 i2 j2 : nat) : Prop :=
    shown M q1 /\ shown M q2 /\ range_in S q1 first1 last1 i1 j1 /\ range_in S q2 first2 last2 i2 j2 /\
    unmixed q1 [first1; last1] q2 [first2; last2].
  (** the same and a destination position [d] of the container [q3], whose elements may be overwritten; [q3] may be [q1] or [q2] *)
  Definition two_sources (M : cmem A) (S : gmap iid cpos) (q1 q2 q3 : qc) (first1 last1 first2 last2 d_first : iid) (i1 j1 i2 j2 d : nat) : Prop :=
    two_ranges M S q1 q2 first1 last1 first2 last2 i1 j1 i2 j2 /\ shown M q3 /\ at_pos S q3 d_first d /\ mutable q3.1.1 = true /\
    unmixed q1 [first1; last1] q3 [d_first] /\ same_or_apart q1 q3 /\ unmixed q2 [first2; last2] q3 [d_first] /\ same_or_apart q2 q3.
  (** [l] written at [d] of [q3] fits there and does not overlap the sources *)
  Definition room (q1 q2 q3 : qc) (i1 j1 i2 j2 d : nat) (l : list A) : Prop :=
    d + length l <= length q3.2 /\ (q1 = q3 -> apart d (d + length l) i1 j1) /\ (q2 = q3 -> apart d (d + length l) i2 j2).

  (** one range to read and two destinations *)
  Definition two_dests (M : cmem A) (S : gmap iid cpos) (q1 q2 q3 : qc) (first last d_first_true d_first_false : iid) (i j dt df : nat) : Prop :=
    shown M q1 /\ shown M q2 /\ shown M q3 /\ range_in S q1 first last i j /\ at_pos S q2 d_first_true dt /\ at_pos S q3 d_first_false df /\
    mutable q2.1.1 = true /\ mutable q3.1.1 = true /\
    unmixed q1 [first; last] q2 [d_first_true] /\ same_or_apart q1 q2 /\ unmixed q1 [first; last] q3 [d_first_false] /\ same_or_apart q1 q3 /\
    unmixed q2 [d_first_true] q3 [d_first_false] /\ same_or_apart q2 q3.
  (** two out parameters do not hold the same iterator object *)
  Definition two_outs (o1 o2 : out) : Prop := forall x, o1 = Some (Some x) -> o2 <> Some (Some x).
End spec.
