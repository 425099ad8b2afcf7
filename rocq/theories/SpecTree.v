(** SpecTree.v — what it means for a memory to hold a well-formed red-black tree; independent of the tree
    operations. *)
From Verif Require Import Base Spec DList Tree.
From stdpp Require Import list gmap.

(** a binary tree whose nodes carry a colour ([true] is black), a location and a value *)
Inductive tree (V : Type) := Lf | Nd (c : bool) (l : tree V) (x : loc) (v : V) (r : tree V).
Global Arguments Lf {V}.
Global Arguments Nd {V} c l x v r.

Section spec.
  Context {V : Type}.
  Notation M := (gmap loc (tnode V)).
  Implicit Types (m : M) (t : tree V).

  (** the location of the root; null for the empty tree *)
  Definition root t : ptr := match t with Lf => None | Nd _ _ x _ _ => Some x end.
  (** the nodes in order, with the values they hold *)
  Fixpoint cells t : list (loc * V) := match t with Lf => [] | Nd _ l x v r => cells l ++ (x, v) :: cells r end.
  Definition locs t : list loc := (cells t).*1.
  (** the nodes of [t] are in memory, linked to each other in both directions; the root's parent is [par] *)
  Fixpoint rep m (par : loc) t : Prop :=
    match t with
    | Lf => True
    | Nd c l x v r => m !! x = Some (TNode c (Some par) (root l) (root r) (Some v)) /\ rep m x l /\ rep m x r
    end.
  (** the header [hd] designates the root [t]; its left and right fields are [lm] and [rm] *)
  Definition Rep m (hd : loc) (lm rm : ptr) t : Prop :=
    m !! hd = Some (TNode RED (root t) lm rm None) /\ rep m hd t /\ NoDup (hd :: locs t).
  (** the locations of the first and last of the cells, or of the header when there are none *)
  Definition first_loc (hd : loc) (cs : list (loc * V)) : ptr := Some (default hd (fst <$> head cs)).
  Definition last_loc (hd : loc) (cs : list (loc * V)) : ptr := Some (default hd (fst <$> last cs)).
  (** [rbt c n t]: [t] obeys the red-black rules, its root has colour [c] (null links are black), and every
      path from the root down to a null link goes through [n] black nodes *)
  Inductive rbt : bool -> nat -> tree V -> Prop :=
  | rbt_Lf : rbt BLACK 0 Lf
  | rbt_R n l x v r : rbt BLACK n l -> rbt BLACK n r -> rbt RED n (Nd RED l x v r)
  | rbt_B n c1 c2 l x v r : rbt c1 n l -> rbt c2 n r -> rbt BLACK (S n) (Nd BLACK l x v r).
  (** a well-formed tree: linked both ways, leftmost and rightmost recorded, root black, red-black *)
  Definition is_tree m (hd : loc) t : Prop :=
    Rep m hd (first_loc hd (cells t)) (last_loc hd (cells t)) t /\ exists n, rbt BLACK n t.
  (** number of nodes on the longest path *)
  Fixpoint height t : nat := match t with Lf => 0 | Nd _ l _ _ r => S (max (height l) (height r)) end.
  Definition tmalloc_ok (alloc : M -> loc) : Prop := forall m, m !! alloc m = None.
  (** the header [hd] heads a well-formed tree whose nodes, in order, with the values they hold, are [cs] *)
  Definition holds m (hd : loc) (cs : list (loc * V)) : Prop := exists t, is_tree m hd t /\ cells t = cs.
  (** [tstep m m' old new]: the only nodes freed are those in [old] but not in [new], the only nodes
      allocated are those in [new] but not in [old], and no other node is touched *)
  Definition tstep m m' (old new : list loc) : Prop :=
    (forall z, z ∉ old -> z ∉ new -> m' !! z = m !! z) /\
    (forall z, z ∈ old -> z ∉ new -> m' !! z = None) /\
    (forall z, z ∉ old -> z ∈ new -> m !! z = None).
  (** the nodes of a tree *)
  Definition tnodes (hd : loc) (cs : list (loc * V)) : list loc := hd :: cs.*1.
End spec.
Section obj.
  Context {K V : Type}.
  (** the tree object [t] is usable: its comparison is a strict weak order, its header heads a well-formed tree
      with cells [cs] sorted by key, and it has the right element count *)
  Definition is_rbtree (m : gmap loc (tnode V)) (t : tobj K V) (cs : list (loc * V)) : Prop :=
    StrictWeakOrder (kcomp t) /\ holds m (hdr t) cs /\ cnt t = length cs /\ sorted (kcomp t) (kov t <$> cs.*2).
End obj.
Section upd.
  Context {K V : Type}.
  Definition sized (t : tobj K V) (n : nat) : tobj K V := TObj (hdr t) n (kcomp t) (kov t).
  (** [tupd h t cs h' t' cs' gone]: the call turned the tree [t] with cells [cs] into the tree [t'] with cells
      [cs'] (same header, comparison and key function), touching nothing else; [gone] are the values destroyed *)
  Definition tupd (h : theap V) (t : tobj K V) (cs : list (loc * V)) (h' : theap V) (t' : tobj K V) cs' (gone : list V) : Prop :=
    t' = sized t (length cs') /\ is_rbtree (mem h') t' cs' /\
    tstep (mem h) (mem h') (tnodes (hdr t) cs) (tnodes (hdr t) cs') /\ tdead h' = tdead h ++ gone.
End upd.
