(** PropertiesOomTree.v — running out of memory: the property theorems about /repo/container/c_tree.c when any call of
    malloc may return null (C110).  [r] are the outcomes of the calls of malloc to come (arbitrary). *)
From Verif Require Import Base Spec SpecSeq SpecListOps SpecTreeOps SpecOom Facts DList Tree SpecTree TreeRep TreeInsert TreeErase TreeIter
  TreeUnlink TreeApi TreeOps TreeLookup TreeMod TreeCheck TreeRun TreeRunProofs DListOom DListOomProofs TreeOom TreeOomProofs PropertiesTree.
From stdpp Require Import list gmap.

(** Every history over any number of sets, maps and their multi variants: [thist_may] (SpecOom.v) says what the trees may
    hold when some calls of malloc fail (elements that could not be allocated are missing, trees that could not be created
    absent).  The history runs to its end, or up to an operation on a tree or position that does not exist. *)
Theorem C110_history : forall K V (alloc : gmap loc (tnode V) -> loc), tmalloc_ok alloc ->
  forall (r : list bool) (os : list (tree_op K V)), Forall top_order os ->
  exists n used r' h env ts gone, thist_run_m alloc (r, theap0, []) (take n os) = Ok (r', h, env) /\
    (n = length os \/ exists o, os !! n = Some o /\ top_spec ts o = None) /\
    thist_may [] (take n os) ts gone /\
    (* the trees hold what they should, sorted and balanced *)
    length env = length ts /\
    (forall i tm, ts !! i = Some tm -> exists t cs, env !! i = Some t /\ is_rbtree (mem h) t cs /\
      kcomp t = tm_comp tm /\ kov t = tm_key tm /\ cs.*2 = tm_vals tm /\ tree_reads h t (tm_vals tm)) /\
    (* what was destroyed is what was removed; the memory in use is the elements and headers of the live trees and one
       leaked header per destroyed tree (C75) *)
    tdead h = gone /\ size (mem h) = length (concat (tm_vals <$> ts)) + length ts + destroys (take n os) /\
    (* and if no call failed, everything was done *)
    r = used ++ r' /\ (Forall (eq true) used -> thist_spec [] (take n os) = Some (ts, gone)).
Proof.
  intros K V alloc Ha r os Ho.
  destruct (thist_m_ok alloc Ha os r theap0 [] [] tworld0 Ho) as (n&r'&h&L&G&gone&E&HW&Hm&Hd&HG&Hn&used&Hu&Hs).
  exists n, used, r', h, L.*1, (tmods L), gone. split; [done|]. split; [done|]. split; [done|].
  split; [unfold tmods; by rewrite map_length, fmap_length|]. split.
  { intros i tm (t&cs&Hi&->)%tmods_lookup. exists t, cs. rewrite list_lookup_fmap, Hi. cbn [tm_comp tm_key tm_vals].
    pose proof (tworld_in _ _ _ _ _ _ HW Hi). split; [done|]. split; [done|]. do 3 (split; [done|]). by apply tree_reads_ok. }
  split; [done|]. split; [|done]. destruct HW as (HN&HF&HD). cbn in HG.
  rewrite <- (size_dom (D := gset loc) (mem h)). assert (dom (D := gset loc) (mem h) = list_to_set (tall L ++ G)) as ->.
  { apply set_eq. intros x. by rewrite elem_of_dom, HD, elem_of_list_to_set. }
  rewrite size_list_to_set by done. rewrite app_length, HG. f_equal. unfold tmods, tall. clear. induction L as [|[t cs] L IH]; [done|].
  cbn [map concat fmap list_fmap length fst snd tm_vals]. rewrite !app_length, IH. unfold tnodes at 1. cbn [length]. rewrite !fmap_length. lia.
Qed.
Print Assumptions C110_history.
(** every insertion of one element, on any heap: when it would succeed with enough memory, it does the same, or changes
    neither the tree object nor the heap and returns an iterator with a null node; the latter only if a call of malloc
    failed *)
Theorem C110_insert : forall K V (alloc : gmap loc (tnode V) -> loc) r (t : tobj K V) (h : theap V) v hint,
  let ok fm f := forall h' t' p, f = Ok (h', t', p) ->
    exists used r', r = used ++ r' /\
      (fm = Ok (r', h', t', p) \/ fm = Ok (r', h, t, None) /\ In false used) in
  ok (insert_unique_value_m alloc r t h v) (c_tree_insert_unique_value alloc t h v) /\
  ok (insert_equal_value_m alloc r t h v) (c_tree_insert_equal_value alloc t h v) /\
  ok (insert_unique_m alloc r t h hint v) (c_tree_insert_unique alloc t h hint v) /\
  ok (insert_equal_m alloc r t h hint v) (c_tree_insert_equal alloc t h hint v).
Proof.
  intros K V alloc r t h v hint ok.
  assert (forall fm f, tracks r t h fm f -> ok fm f) as H.
  { intros fm f HT h' t' p E. destruct (HT h' t' p E) as [(r'&E'&used&Hu&_)|(r'&E'&used&Hu&Hf)]; exists used, r'; (split; [done|]); [by left|right].
    split; [done|]. clear -Hf. induction used as [|[] used IH]; [exfalso; by apply Hf|right; apply IH; intros H; apply Hf; by constructor|by left]. }
  split; [apply H, tracks_unique_value|]. split; [apply H, tracks_equal_value|]. split; [apply H, tracks_unique|apply H, tracks_equal].
Qed.
Print Assumptions C110_insert.
(** creating a tree: null when there is no memory for the object or for its header, and then nothing is kept *)
Theorem C110_create : forall K V (alloc : gmap loc (tnode V) -> loc) r (h : theap V) (comp : K -> K -> bool) key,
  tree_create_m alloc (true :: true :: r) h comp key = (let (h', t) := c_tree_create alloc h comp key in (r, h', Some t)) /\
  tree_create_m alloc (false :: r) h comp key = (r, h, None) /\ tree_create_m alloc (true :: false :: r) h comp key = (r, h, None).
Proof. intros K V alloc r h comp key. done. Qed.
Print Assumptions C110_create.
(** a set of which one element could not be allocated, then an insertion for which there is no memory *)
Example C110_example : let os := [TCreate Nat.ltb id; TInsertUniqueAll 0 [5; 3; 8; 3]; TInsertUnique 0 (AVal 9); TInsertUnique 0 (AVal 3)] in
  Forall top_order os /\
  (do (r, h, env) <- thist_run_m ex_talloc (replicate 5 true ++ [false] ++ replicate 5 true ++ [false; true; true], theap0, []) os;
   do t <- thandle env 0; do l <- c_tree_walk t h; Ok (r, l.*2, cnt t, size (mem h))) = Ok ([true; true], [3; 5; 8], 3, 4).
Proof.
  split; [|vm_compute; reflexivity]. repeat (apply Forall_cons; split; [first [exact nat_swo|exact I]|]). by apply Forall_nil.
Qed.
