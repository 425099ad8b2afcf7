(** PropertiesCost.v — logarithmic running time of binary search and heap operations.  A loop of the model whose first
    argument is [n] makes at most [n] iterations ([NoFuel] otherwise); every iteration makes at most two comparisons. *)
From Verif Require Import Base Spec AlgoOrd AlgoHeap AlgoCost.
From stdpp Require Import list.

(** number of halvings of [n] *)
Definition halvings (n : nat) : nat := S (Nat.log2 n).
Lemma halvings_spec n : n < 2 ^ halvings n /\ (0 < n -> halvings n <= n).
Proof.
  unfold halvings. destruct n as [|n]; [cbn; lia|]. pose proof (Nat.log2_spec (S n)). pose proof (Nat.log2_lt_lin (S n)). lia.
Qed.
(** ** C105 *)
(** binary searches: log2 n + 1 probes, then the loop ends; whatever the comparator and the contents *)
Theorem C105_binary_search : forall A (comp : A -> A -> bool) (m : list A) f l v, f <= l <= length m ->
  algo_lower_bound_by comp m f l v = bsearch_loop (S (halvings (l - f))) (fun x => comp x v) m f (l - f) /\
  algo_upper_bound_by comp m f l v = bsearch_loop (S (halvings (l - f))) (fun x => negb (comp v x)) m f (l - f) /\
  algo_lower_bound_by comp m f l v <> NoFuel /\ algo_upper_bound_by comp m f l v <> NoFuel.
Proof.
  intros A comp m f l v Hr. destruct (halvings_spec (l - f)) as [H1 H2].
  assert (forall go, bsearch_loop (S (length m)) go m f (l - f) = bsearch_loop (S (halvings (l - f))) go m f (l - f) /\
    bsearch_loop (S (length m)) go m f (l - f) <> NoFuel) as H.
  { intros go. destruct (decide (l - f = 0)) as [->|]; [done|].
    destruct (bsearch_cost comp go m (halvings (l - f)) (l - f) (S (length m)) f H1) as [-> ?]; [lia|done]. }
  unfold algo_lower_bound_by, algo_upper_bound_by. destruct (H (fun x => comp x v)) as [<- ?]. destruct (H (fun x => negb (comp v x))) as [<- ?]. done.
Qed.
Print Assumptions C105_binary_search.
(** push: the new element moves up at most log2 n + 1 levels *)
Theorem C105_push_heap : forall A (comp : A -> A -> bool) (m : list A) f l v, f < l <= length m ->
  push_heap_loop comp (S (length m)) m f (l - 1 - f) v = push_heap_loop comp (S (halvings (l - f))) m f (l - 1 - f) v /\
  push_heap_loop comp (S (halvings (l - f))) m f (l - 1 - f) v <> NoFuel.
Proof.
  intros A comp m f l v Hr. destruct (halvings_spec (l - f)) as [H1 H2]. 
  apply (push_cost comp m (S (halvings (l - f)))); [rewrite Nat.pow_succ_r'|..]; lia.
Qed.
Print Assumptions C105_push_heap.
(** pop: the element moved to the top moves down at most log2 n + 1 levels; make_heap does this for every inner node *)
Theorem C105_pop_heap : forall A (comp : A -> A -> bool) (m : list A) f len hole, len <= length m ->
  pop_heap_loop comp (S (length m)) m f len hole = pop_heap_loop comp (S (halvings len)) m f len hole /\
  pop_heap_loop comp (S (halvings len)) m f len hole <> NoFuel /\
  percolate_down comp (S (length m)) m f len hole = percolate_down comp (S (halvings len)) m f len hole /\
  percolate_down comp (S (halvings len)) m f len hole <> NoFuel.
Proof.
  intros A comp m f len hole Hr. destruct (decide (len = 0)) as [->|Hl].
  - cbn [pop_heap_loop percolate_down]. unfold get_left, get_right. rewrite !(proj2 (Nat.ltb_ge _ _)) by lia. cbn [rbind]. by rewrite Nat.eqb_refl.
  - destruct (halvings_spec len) as [H1 H2]. assert (len < S hole * 2 ^ halvings len) as Hc by nia.
    destruct (pop_cost comp (halvings len) m (S (length m)) f len hole Hc) as [? ?]; [lia|].
    destruct (perc_cost comp (halvings len) m (S (length m)) f len hole Hc) as [? ?]; [lia|]. done.
Qed.
Print Assumptions C105_pop_heap.
Example C105_example : halvings 1000 = 10 /\ halvings 1000000 = 20.
Proof. split; vm_compute; reflexivity. Qed.
