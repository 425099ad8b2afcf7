(** SpecDict.v — what sets, maps, multisets and multimaps are.  Nothing here refers to the models. *)
From Verif Require Import Base Spec.
From stdpp Require Import list.

(** operations on a client's containers, all of the same kind; containers are named by their index.  [DInsertHint]
    passes the position lower_bound(k) as the hint, [DEraseFound] erases the position find(k) unless it is end(),
    [DEraseEqual] erases equal_range(k), [DEraseBetween] the range from lower_bound(k) to lower_bound(k'), [DEraseAbove] from
    upper_bound(k) to end(); [DInsertFrom] and [DEraseFrom] pass arrays, in [DEraseFrom] with keys and elements of the same
    size [S sz]. *)
Inductive dop (K V : Type) :=
| DCreate (comp : K -> K -> bool) | DInsert (i : nat) (v : V) | DInsertHint (i : nat) (k : K) (v : V)
| DInsertAll (i : nat) (vs : list V) | DEraseKey (i : nat) (k : K) | DEraseFound (i : nat) (k : K)
| DClear (i : nat) | DSwap (i j : nat) | DDestroy (i : nat)
| DInsertFrom (i : nat) (vs : list V) | DEraseEqual (i : nat) (k : K) | DEraseBetween (i : nat) (k k' : K)
| DEraseAbove (i : nat) (k : K) | DEraseFrom (i : nat) (ks : list K) (sz : nat).
Global Arguments DCreate {K V} comp.
Global Arguments DInsert {K V} i v.
Global Arguments DInsertHint {K V} i k v.
Global Arguments DInsertAll {K V} i vs.
Global Arguments DEraseKey {K V} i k.
Global Arguments DEraseFound {K V} i k.
Global Arguments DClear {K V} i.
Global Arguments DSwap {K V} i j.
Global Arguments DDestroy {K V} i.
Global Arguments DInsertFrom {K V} i vs.
Global Arguments DEraseEqual {K V} i k.
Global Arguments DEraseBetween {K V} i k k'.
Global Arguments DEraseAbove {K V} i k.
Global Arguments DEraseFrom {K V} i ks sz.

(** an abstract container: its order on keys and, for every key, the elements with an equivalent key, in the order
    they were inserted *)
Record dict (K V : Type) := Dict { d_comp : K -> K -> bool; d_at : K -> list V }.
Global Arguments Dict {K V} d_comp d_at.
Global Arguments d_comp {K V} d.
Global Arguments d_at {K V} d.

Section spec.
  (** [multi]: multisets and multimaps, which keep elements with equivalent keys; sets and maps ignore an element
      whose key is present *)
  Context {K V : Type} (key : V -> K) (multi : bool).
  Implicit Types (d : dict K V) (ds : list (dict K V)).
  Definition d_put (v : V) d : dict K V :=
    Dict (d_comp d) (fun k => if equivb (d_comp d) k (key v)
                              then if multi then d_at d k ++ [v] else match d_at d k with [] => [v] | l => l end
                              else d_at d k).
  Definition d_remove (k : K) d : dict K V :=
    Dict (d_comp d) (fun k' => if equivb (d_comp d) k k' then [] else d_at d k').
  (** the elements whose key satisfies [f] leave *)
  Definition d_drop (f : K -> bool) d : dict K V := Dict (d_comp d) (fun k => if f k then [] else d_at d k).
  (** with a hint: a multiset or multimap puts the element before those with an equivalent key if the hint is the first
      of them *)
  Definition d_put_hint (v : V) d : dict K V :=
    if multi then Dict (d_comp d) (fun k => if equivb (d_comp d) k (key v) then v :: d_at d k else d_at d k) else d_put v d.
  (** [None]: no such container, an empty range that is not one (k' < k in [DEraseBetween]) or (hints and positions among equivalent elements of multisets and multimaps) not
      described here *)
  Definition dop_spec ds (o : dop K V) : option (list (dict K V)) :=
    match o with
    | DCreate comp => Some (ds ++ [Dict comp (fun _ => [])])
    | DInsert i v => d ← ds !! i; Some (<[i := d_put v d]> ds)
    | DInsertHint i k v => d ← ds !! i; if multi && negb (equivb (d_comp d) k (key v)) then None else Some (<[i := d_put_hint v d]> ds)
    | DInsertAll i vs => d ← ds !! i; Some (<[i := fold_left (fun d v => d_put v d) vs d]> ds)
    | DEraseKey i k => d ← ds !! i; Some (<[i := d_remove k d]> ds)
    | DEraseFound i k => if multi then None else d ← ds !! i; Some (<[i := d_remove k d]> ds)
    | DClear i => d ← ds !! i; Some (<[i := Dict (d_comp d) (fun _ => [])]> ds)
    | DSwap i j => d ← ds !! i; d' ← ds !! j; Some (<[j := d]> (<[i := d']> ds))
    | DDestroy i => _ ← ds !! i; Some (delete i ds)
    | DInsertFrom i vs => d ← ds !! i; Some (<[i := fold_left (fun d v => d_put v d) vs d]> ds)
    | DEraseEqual i k => d ← ds !! i; Some (<[i := d_remove k d]> ds)
    | DEraseBetween i k k' => d ← ds !! i; if d_comp d k' k then None
        else Some (<[i := d_drop (fun a => negb (d_comp d a k) && d_comp d a k') d]> ds)
    | DEraseAbove i k => d ← ds !! i; Some (<[i := d_drop (fun a => d_comp d k a) d]> ds)
    | DEraseFrom i ks _ => d ← ds !! i; Some (<[i := fold_left (fun d k => d_remove k d) ks d]> ds)
    end.
  Fixpoint dhist_spec ds (os : list (dop K V)) : option (list (dict K V)) :=
    match os with [] => Some ds | o :: os' => ds' ← dop_spec ds o; dhist_spec ds' os' end.
  Definition dop_order (o : dop K V) : Prop := match o with DCreate comp => StrictWeakOrder comp | _ => True end.
End spec.
