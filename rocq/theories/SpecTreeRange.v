(** SpecTreeRange.v — the copies made when a collection that keeps duplicates is given a range of its own elements.  Nothing here
    refers to the models. *)
From Verif Require Import Base Spec SpecSeq SpecListOps SpecTreeOps.
From stdpp Require Import list.

Section ord.
  Context {K V : Type} (comp : K -> K -> bool) (key : V -> K).
  Definition put_one (unique : bool) (a : V) (l : list V) : list V := if unique then put_unique comp key a l else put_equal comp key a l.
  Definition put_all (unique : bool) (vs l : list V) : list V := fold_left (fun l a => put_one unique a l) vs l.
  (** [rs] are the elements of a range from the last to the first, [next] the element after the range: an element that is the last
      with its key is copied twice, the others once *)
  Fixpoint backward_copies (rs : list V) (next : option V) : list V :=
    match rs with
    | [] => []
    | a :: rs => (match next with
                  | Some b => if comp (key a) (key b) then [a; a] else [a]
                  | None => [a; a]
                  end) ++ backward_copies rs (Some a)
    end.
End ord.
