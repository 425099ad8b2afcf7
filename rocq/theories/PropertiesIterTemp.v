(** PropertiesIterTemp.v — the temporary elements of the algorithms.

    The programs [..._t] of IterTemp.v are the functions of /repo/algorithm with their temporary elements.  They run on the
    memory and the iterator objects of PropertiesIter.v together with [g : temps A]: the storage that has been allocated
    and not freed ([t_obj g]: raw, or holding an element) and the number of elements that were overwritten or freed
    without having been destroyed ([t_lost g]).
    [texec t (st, g) r (st', g')]: the call returns [r] normally and leaves [st'] and [g']; reading, assigning or
    destroying raw storage is no normal outcome, nor is using storage that has been freed.  The outcome is unique
    ([IterTempSort.texec_det]).
    [tidy W t p]: the outcomes of the call [t] are those of [p], the same call with its temporaries taken to be
    values (the programs that the theorems C112 to C126 are about), and each of them leaves the temporaries as they
    were: every temporary was constructed once, used while alive, destroyed exactly once, and its storage freed.
    [neat M S q d l t v]: [changes M S q d l p v] of PropertiesIterMod.v for a call with temporaries: for all temporaries
    [g] of the caller the call returns [v], the elements of [q] from [d] on have become [l], and nothing else has changed,
    [g] included. *)
From stdpp Require Import list gmap.
From Verif Require Import Base Spec Vector Deque VectorProofs DequeProofs Iter IterWorld IterWorldProofs SpecIter SpecIterOrd AlgoSort
  IterNonMod IterMod IterOrd IterHeap IterSort IterModLift IterHeapLift IterSortLift PropertiesAlgo PropertiesIter PropertiesIterMod PropertiesIterOrd
  PropertiesIterSort IterTemp IterTempProofs IterTempSort SortCount IterTempCount.
From stdpp Require Import list.
Local Notation qc A := (cont * list cpos * list A)%type.
#[local] Existing Instance checked_pointers.

Definition tidy {A} (W : world A) {R} (t : tprog A R) (p : prog A R) : Prop :=
  forall st g r st' g', texec W t (st, g) r (st', g') <-> exec W p st r st' /\ g' = g.
Definition neat {A} {CK : Checked} `{Inhabited A} (M : cmem A) (S : gmap iid cpos) (q : qc A) (d : nat) (l : list A) {R : Type} (t : tprog A R) (v : R) : Prop :=
  exists M', (forall g, texec (cworld A) t ((M, S), g) v ((M', S), g)) /\ becomes M [(q, patch q.2 d l)] M'.

(** ** C143: temporaries are destroyed and freed *)
Section C143.
  Context {A : Type} {CK : Checked} `{Inhabited A}.
  Lemma neat_of M S q d l {R} (t : tprog A R) p v : same (cworld A) t p -> changes M S q d l p v -> neat M S q d l t v.
  Proof. intros Hs (M'&He&Hb). exists M'. split; [|done]. intros g. by eapply same_exec. Qed.
  Lemma tidy_of {R} (t : tprog A R) p : same (cworld A) t p -> tidy (cworld A) t p.
  Proof. intros Hs st g r st' g'. by apply same_iff. Qed.
End C143.
(** every call of these functions, whatever the arguments *)
Theorem C143_modifying : forall A {CK : Checked},
  (forall x y, tidy (cworld A) (swap_t x y) (swap_p x y)) /\
  (forall x y, tidy (cworld A) (iter_swap_t x y) (iter_swap_p x y)) /\
  (forall first1 last1 first2, tidy (cworld A) (swap_range_t first1 last1 first2) (swap_range_p first1 last1 first2)) /\
  (forall first last, tidy (cworld A) (reverse_t first last) (reverse_p first last)) /\
  (forall first n_first last o, tidy (cworld A) (rotate_t first n_first last o) (rotate_p first n_first last o)) /\
  (forall first last r, tidy (cworld A) (random_shuffle_by_t first last r) (random_shuffle_by_p first last r)) /\
  (forall first last o pred, tidy (cworld A) (partition_t first last o pred) (partition_p first last o pred)) /\
  (forall dflt first last d_first op, tidy (cworld A) (transform_t dflt first last d_first op) (transform_p first last d_first op)).
Proof.
  intros A CK. split_and!; intros; intros st g r' st' g'; apply same_iff.
  - apply swap_same. - apply iter_swap_same. - apply swap_range_same. - apply reverse_same. - apply rotate_same. - apply shuffle_same.
  - apply partition_same. - apply transform_same.
Qed.
Theorem C143_ordering : forall A {CK : Checked} (comp : A -> A -> bool),
  (forall first last, tidy (cworld A) (make_heap_by_t comp first last) (make_heap_by_p comp first last)) /\
  (forall first last, tidy (cworld A) (pop_heap_by_t comp first last) (pop_heap_by_p comp first last)) /\
  (forall first last, tidy (cworld A) (sort_heap_by_t comp first last) (sort_heap_by_p comp first last)) /\
  (forall first last, tidy (cworld A) (sort_by_t comp first last) (sort_by_p comp first last)).
Proof.
  intros A CK comp. split_and!; intros; intros st g r' st' g'; apply same_iff.
  - apply make_heap_same. - apply pop_heap_same. - apply sort_heap_same. - apply sort_same, cworld_eq_refl.
Qed.
(** together with what the functions do to the containers *)
Theorem C143_reverse : forall A {CK : Checked} `{Inhabited A} M S (q : qc A) first last i j,
  own_range M S q first last i j -> BIDIRECTION <= cat_of q.1.1 ->
  neat M S q i (rev (slice q.2 i j)) (reverse_t first last) (j - i).
Proof. intros. eapply neat_of; [apply reverse_same|]. by apply C118_reverse. Qed.
Theorem C143_shuffle : forall A {CK : Checked} `{Inhabited A} M S (q : qc A) first last i j (r : nat -> nat),
  own_range M S q first last i j -> cat_of q.1.1 = RANDOM -> (forall k, 0 < k < j - i -> r k <= k) ->
  exists l, Permutation (slice q.2 i j) l /\ neat M S q i l (random_shuffle_by_t first last r) tt.
Proof.
  intros. destruct (C118_shuffle A M S q first last i j r) as (l&Hl&Hc); [done..|]. exists l. split; [done|].
  eapply neat_of; [apply shuffle_same|done].
Qed.
Theorem C143_transform : forall A {CK : Checked} `{Inhabited A} M S (q1 q2 : qc A) dflt (op : A -> A) first last d_first i j d,
  source_dest M S q1 q2 first last d_first i j d -> d + (j - i) <= length q2.2 -> (q1 = q2 -> d <= i \/ j <= d) ->
  neat M S q2 d (map op (slice q1.2 i j)) (transform_t dflt first last d_first op) (j - i).
Proof. intros. eapply neat_of; [apply transform_same|]. by apply (C116_transform A M S q1 q2). Qed.
Theorem C143_pop_heap : forall A {CK : Checked} `{Inhabited A} M S (q : qc A) (comp : A -> A -> bool) first last i j,
  StrictWeakOrder comp -> own_range M S q first last i j -> cat_of q.1.1 = RANDOM -> i < j -> max_heap comp (slice q.2 i j) ->
  exists l x, q.2 !! i = Some x /\ Permutation (slice q.2 i j) (l ++ [x]) /\ max_heap comp l /\ (forall y, y ∈ slice q.2 i j -> comp x y = false) /\
    neat M S q i (l ++ [x]) (pop_heap_by_t comp first last) tt.
Proof.
  intros. destruct (C123_pop_heap A M S q comp first last i j) as (l&x&Hx&HP&Hh&Hm&Hc); [done..|]. exists l, x. do 4 (split; [done|]).
  eapply neat_of; [apply pop_heap_same|done].
Qed.
Theorem C143_sort_heap : forall A {CK : Checked} `{Inhabited A} M S (q : qc A) (comp : A -> A -> bool) first last i j,
  StrictWeakOrder comp -> own_range M S q first last i j -> cat_of q.1.1 = RANDOM -> max_heap comp (slice q.2 i j) ->
  exists l, Permutation (slice q.2 i j) l /\ sorted comp l /\ neat M S q i l (sort_heap_by_t comp first last) tt.
Proof.
  intros. destruct (C123_sort_heap A M S q comp first last i j) as (l&HP&Hs&Hc); [done..|]. exists l. do 2 (split; [done|]).
  eapply neat_of; [apply sort_heap_same|done].
Qed.
Theorem C143_sort_512 : forall A {CK : Checked} `{Inhabited A} M S (q : qc A) (comp : A -> A -> bool) first last i j,
  StrictWeakOrder comp -> own_range M S q first last i j -> cat_of q.1.1 = RANDOM -> j - i <= 512 ->
  exists l, stable_rearrangement comp (slice q.2 i j) l /\ sorted comp l /\ neat M S q i l (sort_by_t comp first last) tt.
Proof.
  intros. destruct (C125_sort_512 A M S q comp first last i j) as (l&HP&Hs&Hc); [done..|]. exists l. do 2 (split; [done|]).
  eapply neat_of; [apply sort_same, cworld_eq_refl|done].
Qed.
(** algo_max_by and algo_min_by hand the caller one new element *)
Theorem C143_max_min : forall A (W : world A) (comp : A -> A -> bool) x y st g,
  (exists r, t_obj g !! r = None /\
     texec W (max_by_t comp x y) (st, g) r (st, Temps (<[r := Some (if comp x y then y else x)]> (t_obj g)) (t_lost g))) /\
  (exists r, t_obj g !! r = None /\
     texec W (min_by_t comp x y) (st, g) r (st, Temps (<[r := Some (if comp x y then x else y)]> (t_obj g)) (t_lost g))).
Proof.
  intros A W comp x y st g.
  assert (t_obj g !! fresh (dom (t_obj g)) = None) as Hf by apply not_elem_of_dom, is_fresh.
  split; exists (fresh (dom (t_obj g))); (split; [exact Hf|]); exists 0; cbn [max_by_t min_by_t trun run fst snd rbind]; unfold storage; cbn [t_obj];
    rewrite lookup_insert; cbn [rbind t_obj t_lost losing]; by rewrite insert_insert.
Qed.

(** ** C144: no temporary is lost *)
(** algo_push_heap_by on two or more elements frees the storage of its copy of the new element without destroying it.
    Missing: that nothing is lost. *)
Theorem C144_push_heap_partial : forall A {CK : Checked} `{Inhabited A} M S (q : qc A) (comp : A -> A -> bool) first last i j,
  StrictWeakOrder comp -> own_range M S q first last i j -> cat_of q.1.1 = RANDOM -> max_heap comp (slice q.2 i (j - 1)) ->
  exists l M', Permutation (slice q.2 i j) l /\ max_heap comp l /\ becomes M [(q, patch q.2 i l)] M' /\
    forall g, texec (cworld A) (push_heap_by_t comp first last) ((M, S), g) tt ((M', S), Temps (t_obj g) ((if 2 <=? j - i then 1 else 0) + t_lost g)).
Proof.
  intros A CK HI M S q comp first last i j Hc Hown Hcat Hh.
  destruct (C123_push_heap A M S q comp first last i j Hc Hown Hcat Hh) as (l&HP&Hm&M'&[f Hf]&Hb). exists l, M'. do 3 (split; [done|]).
  intros g. destruct Hown as (Hsh&((p1&Hp1&HS1)&(p2&Hp2&HS2)&Hij)&_). exists f.
  pose proof (s_dist _ _ _ _ (shows_view _ _ _ _ Hsh) _ _ _ _ Hij Hp1 Hp2) as Hd.
  pose proof (push_heap_at (cworld A) comp f (M, S) g first last p1 p2 _ HS1 HS2 Hd) as H. unfold simat in H. rewrite Hf in H.
  destruct H as (g'&H&->). etransitivity; [exact H|]. do 3 f_equal. destruct (Z.ltb_spec (Z.of_nat j - Z.of_nat i) 2), (Nat.leb_spec 2 (j - i)); try lia; [by destruct g|done].
Qed.
(** algo_generate over [n >= 1] elements loses [n - 1]; over an empty range it destroys storage in which nothing was
    constructed.  Missing: that nothing is lost, and the empty range. *)
Theorem C144_generate_partial : forall A {CK : Checked} `{Inhabited A} M S St (q : qc A) first last i j (gen : St -> St * A) x,
  own_range M S q first last i j -> i < j ->
  exists M', becomes M [(q, patch q.2 i (Spec.generated gen x (j - i)).1)] M' /\
    forall g, texec (cworld A) (generate_t first last gen x) ((M, S), g) ((Spec.generated gen x (j - i)).2, j - i) ((M', S), Temps (t_obj g) ((j - i - 1) + t_lost g)).
Proof.
  intros A CK HI M S St q first last i j gen x Hown Hij.
  destruct (C117_generate A M S St q first last i j gen x Hown) as (M'&[f Hf]&Hb). exists M'. split; [done|]. intros g. exists f.
  pose proof (generate_outcome (cworld A) gen f (M, S) g first last x) as H. unfold outcome in H. rewrite Hf in H. cbn [snd] in H.
  destruct (j - i) as [|n] eqn:E; [lia|]. replace (Datatypes.S n - 1) with n by lia. exact H.
Qed.
Theorem C144_generate_empty_partial : forall A {CK : Checked} `{Inhabited A} M S St (q : qc A) first last i (gen : St -> St * A) x g r st',
  own_range M S q first last i i -> ~ texec (cworld A) (generate_t first last gen x) ((M, S), g) r st'.
Proof.
  intros A CK HI M S St q first last i gen x g r st' Hown [f2 H2].
  destruct (C117_generate A M S St q first last i i gen x Hown) as (M'&[f Hf]&Hb). rewrite Nat.sub_diag in Hf.
  apply (run_mono _ _ f (max f f2)) in Hf; [|lia]. apply (trun_mono _ _ f2 (max f f2)) in H2; [|lia].
  pose proof (generate_outcome (cworld A) gen (max f f2) (M, S) g first last x) as H. unfold outcome in H. rewrite Hf in H. cbn [snd] in H.
  pose proof (eq_trans (eq_sym H2) H) as Hx. discriminate Hx.
Qed.
(** algo_generate_n loses [n - 1], and nothing if [n = 0] *)
Theorem C144_generate_n_partial : forall A {CK : Checked} `{Inhabited A} M S St (q : qc A) first i n (gen : St -> St * A) o x,
  shown M q -> at_pos S q first i -> i + n <= length q.2 -> mutable q.1.1 = true -> out_ok S q o ->
  exists w M' S', becomes M [(q, patch q.2 i (Spec.generated gen x n).1)] M' /\ stored q o (i + n) S w S' /\
    forall g, texec (cworld A) (generate_n_t first n gen o x) ((M, S), g) ((Spec.generated gen x n).2, w) ((M', S'), Temps (t_obj g) ((n - 1) + t_lost g)).
Proof.
  intros A CK HI M S St q first i n gen o x H1 H2 H3 H4 H5.
  destruct (C117_generate_n A M S St q first i n gen o x H1 H2 H3 H4 H5) as (w&M'&S'&He&Hb&Hs). exists w, M', S'. do 2 (split; [done|]).
  intros g. destruct (sim_exec (cworld A) _ _ _ _ _ _ _ g (generate_n_sim (cworld A) gen g first n x o) eq_refl He) as (g'&Ht&->). exact Ht.
Qed.
(** algo_partial_sort_by loses an element each time it replaces one of the [k - i] smallest elements seen so far, if these are
    at least two; algo_partial_sort_copy_by likewise.  [SortCount.replacements comp n l] counts the elements of [l] after the
    first [n] that are less than all but fewer than [n] of the elements before them.  Missing: that nothing is lost, and the
    build with checked pointers (see C126). *)
Theorem C144_partial_sort_count_partial : forall A {CK : Checked} `{Inhabited A} M S (q : qc A) (comp : A -> A -> bool) first middle last i k j,
  checked = false -> StrictWeakOrder comp -> own_range M S q first last i j -> at_pos S q middle k -> i <= k <= j -> cat_of q.1.1 = RANDOM ->
  exists l1 l2 M', length l1 = k - i /\ Permutation (slice q.2 i j) (l1 ++ l2) /\ sorted comp l1 /\ (forall x y, x ∈ l1 -> y ∈ l2 -> comp y x = false) /\
    becomes M [(q, patch q.2 i (l1 ++ l2))] M' /\
    forall g, texec (cworld A) (partial_sort_by_t comp first middle last) ((M, S), g) tt
      ((M', S), Temps (t_obj g) ((if 2 <=? k - i then 1 else 0) * replacements comp (k - i) (slice q.2 i j) + t_lost g)).
Proof. intros. by apply partial_sort_count_run. Qed.
Theorem C144_partial_sort_copy_count_partial : forall A {CK : Checked} `{Inhabited A} M S (q1 q2 : qc A) (comp : A -> A -> bool) first last d_first d_last o i j d e,
  checked = false -> StrictWeakOrder comp -> two_ranges M S q1 q2 first last d_first d_last i j d e ->
  mutable q2.1.1 = true -> cat_of q2.1.1 = RANDOM -> same_or_apart q1 q2 -> (q1 = q2 -> apart d e i j) -> out_ok S q2 o ->
  let n := (j - i) `min` (e - d) in
  exists l rest w M' S', length l = n /\ sorted comp l /\ Permutation (slice q1.2 i j) (l ++ rest) /\
    (forall x y, x ∈ l -> y ∈ rest -> comp y x = false) /\ becomes M [(q2, patch q2.2 d l)] M' /\ stored q2 o (d + n) S w S' /\
    forall g, texec (cworld A) (partial_sort_copy_by_t comp first last d_first d_last o) ((M, S), g) (n, w)
      ((M', S'), Temps (t_obj g) ((if 2 <=? n then 1 else 0) * replacements comp n (slice q1.2 i j) + t_lost g)).
Proof. intros A CK HI M S q1 q2 comp first last d_first d_last o i j d e H1 H2 (H3&H4&H5&H6&H7). intros. by apply partial_sort_copy_count_run. Qed.
(** algo_partial_sort_by and algo_partial_sort_copy_by free all their storage and destroy nothing twice; they push into a
    heap for each element they replace, so they may lose elements. Nothing is lost if the middle is the end.
    Missing: that nothing is lost. *)
Theorem C144_partial_sort_partial : forall A {CK : Checked} (comp : A -> A -> bool) first middle last st g r st' g',
  texec (cworld A) (partial_sort_by_t comp first middle last) (st, g) r (st', g') ->
  exec (cworld A) (partial_sort_by_p comp first middle last) st r st' /\ t_obj g' = t_obj g /\ t_lost g <= t_lost g' /\ (middle = last -> t_lost g' = t_lost g).
Proof.
  intros A CK comp first middle last st g r st' g' H. destruct (leaks_iff _ _ _ _ _ _ _ _ (partial_sort_sim (cworld A) comp g first middle last) H) as (He&Ho&Hl).
  do 3 (split; [done|]). intros ->. apply (same_iff _ _ _ _ _ _ _ _ (partial_sort_whole_same (cworld A) cworld_eq_refl comp first last)) in H as [_ ->]. done.
Qed.
Theorem C144_partial_sort_copy_partial : forall A {CK : Checked} (comp : A -> A -> bool) first last d_first d_last o st g r st' g',
  texec (cworld A) (partial_sort_copy_by_t comp first last d_first d_last o) (st, g) r (st', g') ->
  exec (cworld A) (partial_sort_copy_by_p comp first last d_first d_last o) st r st' /\ t_obj g' = t_obj g /\ t_lost g <= t_lost g'.
Proof. intros A CK comp first last d_first d_last o st g r st' g' H. by eapply leaks_iff; [apply partial_sort_copy_sim|]. Qed.
(** and whenever the call with values returns, the call with temporaries does *)
Theorem C144_partial_sort_returns_partial : forall A {CK : Checked} (comp : A -> A -> bool) st r st' g,
  (forall first middle last, exec (cworld A) (partial_sort_by_p comp first middle last) st r st' ->
    exists g', texec (cworld A) (partial_sort_by_t comp first middle last) (st, g) r (st', g')) /\
  (forall first last d_first d_last o w, exec (cworld A) (partial_sort_copy_by_p comp first last d_first d_last o) st w st' ->
    exists g', texec (cworld A) (partial_sort_copy_by_t comp first last d_first d_last o) (st, g) w (st', g')).
Proof.
  intros A CK comp st r st' g. assert (leaks g g) as Hg by (exists 0; by destruct g). split.
  - intros first middle last He. destruct (sim_exec _ _ _ _ _ _ _ _ g (partial_sort_sim (cworld A) comp g first middle last) Hg He) as (g'&Ht&_). eauto.
  - intros first last d_first d_last o w He.
    destruct (sim_exec _ _ _ _ _ _ _ _ g (partial_sort_copy_sim (cworld A) comp g first last d_first d_last o) Hg He) as (g'&Ht&_). eauto.
Qed.

(** what is left of the temporaries after a run *)
Definition left_over {R} (x : res (R * tstate (cworld nat))) : option (nat * list (tid * option nat)) :=
  match x with Ok (_, (_, g)) => Some (t_lost g, map_to_list (t_obj g)) | _ => None end.
Definition no_temps : temps nat := Temps ∅ 0.
(** the vector [9; 4; 5] (a heap [9; 4] and a new element), four generated elements, the two smallest of the vector [5; 7; 6; 1] *)
Theorem C144_refuted :
  (exists M S (q : qc nat) first last, own_range M S q first last 0 3 /\ cat_of q.1.1 = RANDOM /\ max_heap Nat.ltb (slice q.2 0 2) /\
    left_over (trun (cworld nat) 20 (push_heap_by_t Nat.ltb first last) ((M, S), no_temps)) = Some (1, [])) /\
  (exists M S (q : qc nat) first last, own_range M S q first last 0 3 /\
    left_over (trun (cworld nat) 20 (generate_t first last (fun n => (n + 1, n)) 0) ((M, S), no_temps)) = Some (2, [])) /\
  (exists M S (q : qc nat) first last, own_range M S q first last 0 0 /\
    trun (cworld nat) 20 (generate_t first last (fun n => (n + 1, n)) 0) ((M, S), no_temps) = UB) /\
  (exists M S (q : qc nat) first middle last, own_range M S q first last 0 4 /\ at_pos S q middle 2 /\ cat_of q.1.1 = RANDOM /\
    left_over (trun (cworld nat (CK := false)) 20 (partial_sort_by_t Nat.ltb first middle last) ((M, S), no_temps)) = Some (2, [])).
Proof.
  split; [|split; [|split]].
  - exists (full_M [9; 4; 5]), (full_S 3), (full_vec [9; 4; 5]), it1, it2. split; [apply (full_own [9; 4; 5])|]. split; [done|].
    split; [|vm_compute; reflexivity]. intros i' x y Hi Hx Hy. destruct i' as [|[|[|i']]]; cbn in *; try lia; naive_solver.
  - exists (full_M [9; 4; 5]), (full_S 3), (full_vec [9; 4; 5]), it1, it2. split; [apply (full_own [9; 4; 5])|]. vm_compute. reflexivity.
  - exists (full_M []), (full_S 0), (full_vec []), it1, it2. split; [apply (full_own [])|]. vm_compute. reflexivity.
  - exists (full_M [5; 7; 6; 1]), (<[it5 := PBlk false false 0 2%Z]> (full_S 4)), (full_vec [5; 7; 6; 1]), it1, it5, it2.
    split; [|split; [here|split; [done|vm_compute; reflexivity]]].
    destruct (full_own [5; 7; 6; 1]) as (Hsh&((p1&Hp1&HS1)&(p2&Hp2&HS2)&Hij)&Hm). split; [exact Hsh|]. split; [|exact Hm].
    split; [|split; [|lia]]; here.
Qed.

(** ** Examples *)
(** with a temporary of the caller's own alive *)
Definition one_temp : temps nat := Temps {[1%positive := Some 42]} 0.
Example C143_example : own_range ex_M ex_S ex_list it1 it2 0 3 /\ BIDIRECTION <= cat_of ex_list.1.1 /\
  left_over (trun (cworld nat) 9 (reverse_t it1 it2) ((ex_M, ex_S), one_temp)) = Some (0, [(1%positive, Some 42)]) /\
  own_range (full_M [3; 9; 4; 2]) (full_S 4) (full_vec [3; 9; 4; 2]) it1 it2 0 4 /\
  left_over (trun (cworld nat) 20 (sort_by_t Nat.ltb it1 it2) ((full_M [3; 9; 4; 2], full_S 4), one_temp)) = Some (0, [(1%positive, Some 42)]).
Proof.
  split. { refine (conj ex_list_ok (conj (conj _ (conj _ _)) _)); [here|here|lia|done]. } split; [cbn; lia|].
  split; [vm_compute; reflexivity|]. split; [apply (full_own [3; 9; 4; 2])|]. vm_compute. reflexivity.
Qed.

(** 6 and 1 are reached while fewer than two elements before them are not greater: two elements are lost, as computed in
    [C144_refuted] *)
Example C144_example : checked (Checked := false) = false /\ (exists first middle last, own_range (full_M [5; 7; 6; 1]) (<[it5 := PBlk false false 0 2%Z]> (full_S 4)) (full_vec [5; 7; 6; 1]) first last 0 4 /\
    at_pos (<[it5 := PBlk false false 0 2%Z]> (full_S 4)) (full_vec [5; 7; 6; 1]) middle 2) /\
  replacements Nat.ltb 2 [5; 7; 6; 1] = 2 /\ replacements Nat.ltb 2 [5; 7; 8; 6; 6; 1; 9] = 2 /\ replacements Nat.ltb 1 [5; 7; 6; 1] = 1 /\
  replacements Nat.ltb 3 [1; 2; 3; 4; 5] = 0.
Proof.
  split; [done|]. split; [|by vm_compute]. exists it1, it5, it2.
  destruct (full_own [5; 7; 6; 1]) as (Hsh&((p1&Hp1&HS1)&(p2&Hp2&HS2)&Hij)&Hm). split; [|here]. split; [exact Hsh|]. split; [|exact Hm].
  split; [|split; [|lia]]; here.
Qed.

Print Assumptions C143_modifying.
Print Assumptions C143_ordering.
Print Assumptions C143_reverse.
Print Assumptions C143_shuffle.
Print Assumptions C143_transform.
Print Assumptions C143_pop_heap.
Print Assumptions C143_sort_heap.
Print Assumptions C143_sort_512.
Print Assumptions C143_max_min.
Print Assumptions C144_push_heap_partial.
Print Assumptions C144_generate_partial.
Print Assumptions C144_generate_empty_partial.
Print Assumptions C144_generate_n_partial.
Print Assumptions C144_partial_sort_count_partial.
Print Assumptions C144_partial_sort_copy_count_partial.
Print Assumptions C144_partial_sort_partial.
Print Assumptions C144_partial_sort_copy_partial.
Print Assumptions C144_partial_sort_returns_partial.
Print Assumptions C144_refuted.
