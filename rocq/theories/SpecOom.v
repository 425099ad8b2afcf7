(** SpecOom.v — what running out of memory may do to a history of operations. *)
From Verif Require Import Base Spec SpecSeq SpecListOps SpecSlistOps SpecTreeOps.
From stdpp Require Import list.

(** [some_dropped os os']: [os'] are the operations of [os], in order, without some of those marked [false] (those during
    which malloc failed). *)
Inductive some_dropped {O : Type} : list (bool * O) -> list O -> Prop :=
| dropped_nil : some_dropped [] []
| dropped_keep b o os os' : some_dropped os os' -> some_dropped ((b, o) :: os) (o :: os')
| dropped_drop o os os' : some_dropped os os' -> some_dropped ((false, o) :: os) os'.
Lemma none_dropped {O : Type} (os : list (bool * O)) os' : some_dropped os os' -> (forall b o, In (b, o) os -> b = true) -> os' = map snd os.
Proof.
  induction 1 as [|b o os os' H IH|o os os' H IH]; intros Ht; [done| |].
  - cbn. f_equal. apply IH. intros. eapply Ht. by right.
  - exfalso. specialize (Ht false o (or_introl eq_refl)). done.
Qed.

(** ** Lists: what an operation may do when some of its calls of malloc fail.  Either everything, or: creating or copying a
    list may give null, or a list from which some elements are missing; adding an element may do nothing; growing may stop
    early; sorting may do nothing. *)
Section lists.
  Context {A : Type} (dflt : A).
  Inductive lop_may (ls : list (list A)) : lop A -> list (list A) -> list A -> Prop :=
  | may_done o ls' gone : lop_spec dflt ls o = Some (ls', gone) -> lop_may ls o ls' gone
  | may_no_list : lop_may ls LCreate ls []
  | may_no_list_from vs : lop_may ls (LCreateFrom vs) ls []
  | may_from_some vs l : l `sublist_of` vs -> lop_may ls (LCreateFrom vs) (ls ++ [l]) []
  | may_no_copy i : lop_may ls (LCopy i) ls []
  | may_copy_some i l l' : ls !! i = Some l -> l' `sublist_of` l -> lop_may ls (LCopy i) (ls ++ [l']) []
  | may_assign_some i j l l' l'' : i ≠ j -> ls !! i = Some l -> ls !! j = Some l' -> l'' `sublist_of` l' ->
      lop_may ls (LAssign i j) (<[i := l'']> ls) l
  | may_not_push_back i v : lop_may ls (LPushBack i v) ls []
  | may_not_push_front i v : lop_may ls (LPushFront i v) ls []
  | may_not_insert i k v : lop_may ls (LInsert i k v) ls []
  | may_resize_some i n l k : ls !! i = Some l -> length l + k <= n ->
      lop_may ls (LResize i n) (<[i := l ++ replicate k dflt]> ls) []
  | may_resize_with_some i n v a l k : ls !! i = Some l -> larg_val ls v = Some a -> length l + k <= n ->
      lop_may ls (LResizeWith i n v) (<[i := l ++ replicate k a]> ls) []
  | may_not_sort i comp : lop_may ls (LSort i comp) ls [].
  Inductive lhist_may : list (list A) -> list (lop A) -> list (list A) -> list A -> Prop :=
  | may_nil ls : lhist_may ls [] ls []
  | may_cons ls o ls' gone os ls'' gone' : lop_may ls o ls' gone -> lhist_may ls' os ls'' gone' ->
      lhist_may ls (o :: os) ls'' (gone ++ gone').
End lists.

(** ** Search trees: creating one may give null; an element being inserted may be left out. *)
Section trees.
  Context {K V : Type}.
  Implicit Types ts : list (tmod K V).
  Inductive top_may ts : tree_op K V -> list (tmod K V) -> list V -> Prop :=
  | tmay_done o ts' gone : top_spec ts o = Some (ts', gone) -> top_may ts o ts' gone
  | tmay_no_tree comp key : top_may ts (TCreate comp key) ts []
  | tmay_not_unique i v : top_may ts (TInsertUnique i v) ts []
  | tmay_not_equal i v : top_may ts (TInsertEqual i v) ts []
  | tmay_not_unique_at i k v : top_may ts (TInsertUniqueAt i k v) ts []
  | tmay_not_equal_at i k v : top_may ts (TInsertEqualAt i k v) ts []
  | tmay_some_unique i vs vs' ts' : vs' `sublist_of` vs -> top_spec ts (TInsertUniqueAll i vs') = Some (ts', []) ->
      top_may ts (TInsertUniqueAll i vs) ts' []
  | tmay_some_equal i vs vs' ts' : vs' `sublist_of` vs -> top_spec ts (TInsertEqualAll i vs') = Some (ts', []) ->
      top_may ts (TInsertEqualAll i vs) ts' [].
  Inductive thist_may : list (tmod K V) -> list (tree_op K V) -> list (tmod K V) -> list V -> Prop :=
  | tmay_nil ts : thist_may ts [] ts []
  | tmay_cons ts o ts' gone os ts'' gone' : top_may ts o ts' gone -> thist_may ts' os ts'' gone' ->
      thist_may ts (o :: os) ts'' (gone ++ gone').
End trees.

(** ** Forward lists: as for lists. *)
Section slists.
  Context {A : Type} (dflt : A).
  Inductive fop_may (ls : list (list A)) : fop A -> list (list A) -> list A -> Prop :=
  | fmay_done o ls' gone : fop_spec dflt ls o = Some (ls', gone) -> fop_may ls o ls' gone
  | fmay_no_list : fop_may ls FCreate ls []
  | fmay_no_list_from vs : fop_may ls (FCreateFrom vs) ls []
  | fmay_from_some vs l : l `sublist_of` vs -> fop_may ls (FCreateFrom vs) (ls ++ [l]) []
  | fmay_no_copy i : fop_may ls (FCopy i) ls []
  | fmay_copy_some i l l' : ls !! i = Some l -> l' `sublist_of` l -> fop_may ls (FCopy i) (ls ++ [l']) []
  | fmay_assign_some i j l l' l'' : i ≠ j -> ls !! i = Some l -> ls !! j = Some l' -> l'' `sublist_of` l' ->
      fop_may ls (FAssign i j) (<[i := l'']> ls) l
  | fmay_not_push_front i v : fop_may ls (FPushFront i v) ls []
  | fmay_not_insert i k v : fop_may ls (FInsertAfter i k v) ls []
  | fmay_resize_some i n l k : ls !! i = Some l -> length l + k <= n ->
      fop_may ls (FResize i n) (<[i := l ++ replicate k dflt]> ls) []
  | fmay_resize_with_some i n v a l k : ls !! i = Some l -> larg_val ls v = Some a -> length l + k <= n ->
      fop_may ls (FResizeWith i n v) (<[i := l ++ replicate k a]> ls) []
  | fmay_not_sort i comp : fop_may ls (FSort i comp) ls [].
  Inductive fhist_may : list (list A) -> list (fop A) -> list (list A) -> list A -> Prop :=
  | fmay_nil ls : fhist_may ls [] ls []
  | fmay_cons ls o ls' gone os ls'' gone' : fop_may ls o ls' gone -> fhist_may ls' os ls'' gone' ->
      fhist_may ls (o :: os) ls'' (gone ++ gone').
End slists.
