(** PropertiesAlgo.v — the property theorems about /repo/algorithm (C31-C53).
    Memory is a list of cells, a range is a pair of cell indices.  Every [Ok] says the call
    terminates and touches nothing outside the memory it was given.  Each theorem is followed by its
    assumptions and by an [Example] showing a concrete case that meets its hypotheses. *)
From Verif Require Import Base Spec Facts AlgoNonMod AlgoNonModProofs AlgoMod AlgoModProofs
  AlgoOrd AlgoOrdProofs AlgoSetProofs AlgoHeap AlgoHeapProofs AlgoSort AlgoSortProofs.
From stdpp Require Import list.

(** A concrete memory and order used by the non-vacuity examples. *)
Definition ex_mem : list nat := [5; 1; 4; 1; 5; 9; 2; 6; 0; 0; 0; 0; 0; 0; 0; 0].
Example ex_range : range ex_mem 0 8 /\ range ex_mem 2 6 /\ range ex_mem 8 16.
Proof. repeat split; cbn; lia. Qed.
Example ex_swo : StrictWeakOrder Nat.ltb.
Proof.
  split.
  - intros x. apply Nat.ltb_irrefl.
  - intros x y z ? ?. rewrite Nat.ltb_lt in *. lia.
  - intros x y z ? ? ? ?. rewrite Nat.ltb_ge in *. lia.
Qed.
(** a strict weak order that is not total: compare by halves, so 4 and 5 are equivalent *)
Definition half_lt (x y : nat) : bool := Nat.ltb (x / 2) (y / 2).
Example ex_swo_half : StrictWeakOrder half_lt.
Proof.
  split.
  - intros x. apply Nat.ltb_irrefl.
  - unfold half_lt. intros x y z ? ?. rewrite Nat.ltb_lt in *. lia.
  - unfold half_lt. intros x y z ? ? ? ?. rewrite Nat.ltb_ge in *. lia.
Qed.

(** ** C31 scans *)
Theorem C31_all_of : forall A (m : list A) f l p, range m f l ->
  exists b, algo_all_of m f l p = Ok b /\ (b = true <-> forall x, x ∈ slice m f l -> p x = true).
Proof. intros A. exact all_of_ok. Qed.
Print Assumptions C31_all_of.
Theorem C31_any_of : forall A (m : list A) f l p, range m f l ->
  exists b, algo_any_of m f l p = Ok b /\ (b = true <-> exists x, x ∈ slice m f l /\ p x = true).
Proof. intros A. exact any_of_ok. Qed.
Print Assumptions C31_any_of.
Theorem C31_none_of : forall A (m : list A) f l p, range m f l ->
  exists b, algo_none_of m f l p = Ok b /\ (b = true <-> forall x, x ∈ slice m f l -> p x = false).
Proof. intros A. exact none_of_ok. Qed.
Print Assumptions C31_none_of.
Theorem C31_count_if : forall A (m : list A) f l p, range m f l ->
  algo_count_if m f l p = Ok (length (List.filter p (slice m f l))).
Proof. intros A. exact count_if_ok. Qed.
Print Assumptions C31_count_if.
Theorem C31_count : forall A eqf (m : list A) f l v, range m f l ->
  algo_count eqf m f l v = Ok (length (List.filter (fun x => eqf x v) (slice m f l))).
Proof. intros A. exact count_ok. Qed.
Print Assumptions C31_count.
Theorem C31_find_by : forall A (m : list A) f l v pred, range m f l ->
  exists r, algo_find_by m f l v pred = Ok r /\ first_position f l (cell m (fun x => pred x v)) r.
Proof. intros A. exact find_by_ok. Qed.
Print Assumptions C31_find_by.
Theorem C31_find_if : forall A (m : list A) f l p, range m f l ->
  exists r, algo_find_if m f l p = Ok r /\ first_position f l (cell m p) r.
Proof. intros A. exact find_if_ok. Qed.
Print Assumptions C31_find_if.
Theorem C31_find_if_not : forall A (m : list A) f l p, range m f l ->
  exists r, algo_find_if_not m f l p = Ok r /\ first_position f l (cell m (fun x => negb (p x))) r.
Proof. intros A. exact find_if_not_ok. Qed.
Print Assumptions C31_find_if_not.
Theorem C31_find_first_of : forall A (m : list A) f l sf sl pred, range m f l -> range m sf sl ->
  exists r, algo_find_first_of_by m f l sf sl pred = Ok r
    /\ first_position f l (matches_any m pred sf sl) r.
Proof. intros A. exact find_first_of_ok. Qed.
Print Assumptions C31_find_first_of.
Theorem C31_adjacent_find : forall A (m : list A) f l pred, range m f l ->
  exists r, algo_adjacent_find_by m f l pred = Ok r /\ first_position f l (adjacent_at m pred l) r.
Proof. intros A. exact adjacent_find_ok. Qed.
Print Assumptions C31_adjacent_find.
Theorem C31_for_each : forall A St (op : St -> A -> St * A) (m : list A) f l st, range m f l ->
  algo_for_each m f l op st
  = Ok (patch m f (visit op st (slice m f l)).1, (visit op st (slice m f l)).2, l - f).
Proof. intros A St. exact for_each_ok. Qed.
Print Assumptions C31_for_each.
Theorem C31_for_each_n : forall A St (op : St -> A -> St * A) (m : list A) f n st, f + n <= length m ->
  algo_for_each_n m f n op st
  = Ok (patch m f (visit op st (slice m f (f + n))).1, (visit op st (slice m f (f + n))).2, f + n).
Proof. intros A St. exact for_each_n_ok. Qed.
Print Assumptions C31_for_each_n.
Example C31_example :
  algo_find_if ex_mem 0 8 (fun x => Nat.even x) = Ok (true, 2) /\
  algo_count Nat.eqb ex_mem 0 8 5 = Ok 2 /\
  algo_find_first_of_by ex_mem 0 8 5 7 Nat.eqb = Ok (true, 5) /\
  algo_adjacent_find_by ex_mem 0 8 Nat.ltb = Ok (true, 1).
Proof. vm_compute. auto. Qed.

(** ** C32 mismatch, equal *)
Theorem C32_mismatch : forall A (m : list A) f1 l1 f2 pred, range m f1 l1 -> f2 + (l1 - f1) <= length m ->
  exists r, algo_mismatch_by m f1 l1 f2 pred = Ok (r, f2 + (r.2 - f1)) /\
    first_position f1 l1
      (fun k => exists x y, m !! k = Some x /\ m !! (f2 + (k - f1)) = Some y /\ pred x y = false) r.
Proof. intros A. exact mismatch_ok. Qed.
Print Assumptions C32_mismatch.
Theorem C32_equal : forall A (m : list A) f1 l1 f2 pred, range m f1 l1 -> f2 + (l1 - f1) <= length m ->
  exists b, algo_equal_by m f1 l1 f2 pred = Ok b /\
    (b = true <-> forall d, d < l1 - f1 ->
       exists x y, m !! (f1 + d) = Some x /\ m !! (f2 + d) = Some y /\ pred x y = true).
Proof. intros A. exact equal_ok. Qed.
Print Assumptions C32_equal.
Example C32_example : range ex_mem 0 4 /\ 4 + (4 - 0) <= length ex_mem /\
  algo_mismatch_by ex_mem 0 4 4 Nat.eqb = Ok ((true, 1), 5) /\ algo_equal_by ex_mem 1 2 3 Nat.eqb = Ok true.
Proof. vm_compute. repeat split; lia. Qed.

(** ** C33 subsequence search *)
Theorem C33_search : forall A (m : list A) f l sf sl pred, range m f l -> range m sf sl ->
  exists r, algo_search_by m f l sf sl pred = Ok r /\ first_position f l (occurs_at m pred l sf sl) r.
Proof. intros A. exact search_ok. Qed.
Print Assumptions C33_search.
Theorem C33_search_last : forall A (m : list A) f l sf sl pred, range m f l -> range m sf sl ->
  exists r, algo_search_last_by m f l sf sl pred = Ok r /\ last_position f l (occurs_at m pred l sf sl) r.
Proof. intros A. exact search_last_ok. Qed.
Print Assumptions C33_search_last.
Theorem C33_search_n : forall A (m : list A) f l n v pred, range m f l -> 0 < n ->
  exists r, algo_search_n_by m f l n v pred = Ok r /\ first_position f l (run_at m pred v l n) r.
Proof. intros A. exact search_n_ok. Qed.
Print Assumptions C33_search_n.
Theorem C33_search_last_n : forall A (m : list A) f l n v pred, range m f l -> 0 < n ->
  exists r, algo_search_last_n_by m f l n v pred = Ok r /\ last_position f l (run_at m pred v l n) r.
Proof. intros A. exact search_last_n_ok. Qed.
Print Assumptions C33_search_last_n.
Theorem C33_find_last_of : forall A (m : list A) f l sf sl pred, range m f l -> range m sf sl ->
  exists r, algo_find_last_of_by m f l sf sl pred = Ok r
    /\ last_position f l (matches_any m pred sf sl) r.
Proof. intros A. exact find_last_of_ok. Qed.
Print Assumptions C33_find_last_of.
Example C33_example :
  algo_search_by ex_mem 0 8 3 5 Nat.eqb = Ok (true, 3) /\
  algo_search_last_by [1;2;1;2;1;2] 0 4 4 6 Nat.eqb = Ok (true, 2) /\
  algo_search_n_by [1;7;7;1;7;7;7] 0 7 3 7 Nat.eqb = Ok (true, 4) /\
  algo_search_last_n_by [1;7;7;1;7;7;7] 0 7 2 7 Nat.eqb = Ok (true, 5).
Proof. vm_compute. auto. Qed.

(** ** C34 copy-like *)
Theorem C34_copy : forall A (m : list A) f l d, range m f l -> d + (l - f) <= length m ->
  (d <= f \/ l <= d) ->
  algo_copy m f l d = Ok (patch m d (slice m f l), d + (l - f), l - f).
Proof. intros A. exact copy_ok. Qed.
Print Assumptions C34_copy.
Theorem C34_copy_if : forall A (m : list A) f l d p, range m f l ->
  let s := List.filter p (slice m f l) in
  d + length s <= length m -> (d <= f \/ l <= d) ->
  algo_copy_if m f l d p = Ok (patch m d s, d + length s, length s).
Proof. intros A. exact copy_if_ok. Qed.
Print Assumptions C34_copy_if.
Theorem C34_copy_backward : forall A (m : list A) f l dl, range m f l -> l - f <= dl <= length m ->
  (l <= dl \/ dl <= f) ->
  algo_copy_backward m f l dl = Ok (patch m (dl - (l - f)) (slice m f l), dl - (l - f), l - f).
Proof. intros A. exact copy_backward_ok. Qed.
Print Assumptions C34_copy_backward.
Theorem C34_transform : forall A (m : list A) f l d op, range m f l -> d + (l - f) <= length m ->
  (d <= f \/ l <= d) ->
  algo_transform m f l d op = Ok (patch m d (map op (slice m f l)), l - f).
Proof. intros A. exact transform_ok. Qed.
Print Assumptions C34_transform.
Theorem C34_fill : forall A (m : list A) f l v, range m f l ->
  algo_fill m f l v = Ok (patch m f (replicate (l - f) v), l - f).
Proof. intros A. exact fill_ok. Qed.
Print Assumptions C34_fill.
Theorem C34_fill_n : forall A (m : list A) f n v, f + n <= length m ->
  algo_fill_n m f n v = Ok (patch m f (replicate n v), f + n).
Proof. intros A. exact fill_n_ok. Qed.
Print Assumptions C34_fill_n.
Theorem C34_generate : forall A St (gen : St -> St * A) (m : list A) f l st, range m f l ->
  algo_generate m f l gen st
  = Ok (patch m f (generated gen st (l - f)).1, (generated gen st (l - f)).2, l - f).
Proof. intros A St. exact generate_ok. Qed.
Print Assumptions C34_generate.
Theorem C34_generate_n : forall A St (gen : St -> St * A) (m : list A) f n st, f + n <= length m ->
  algo_generate_n m f n gen st = Ok (patch m f (generated gen st n).1, (generated gen st n).2, f + n).
Proof. intros A St. exact generate_n_top. Qed.
Print Assumptions C34_generate_n.
Theorem C34_replace_if : forall A (m : list A) f l p new, range m f l ->
  algo_replace_if m f l p new
  = Ok (patch m f (map (fun x => if p x then new else x) (slice m f l)),
        length (List.filter p (slice m f l))).
Proof. intros A. exact replace_if_ok. Qed.
Print Assumptions C34_replace_if.
Theorem C34_replace : forall A eqf (m : list A) f l old new, range m f l ->
  algo_replace eqf m f l old new
  = Ok (patch m f (map (fun x => if eqf x old then new else x) (slice m f l)),
        length (List.filter (fun x => eqf x old) (slice m f l))).
Proof. intros A. exact replace_ok. Qed.
Print Assumptions C34_replace.
Theorem C34_replace_copy_if : forall A (m : list A) f l d p new, range m f l -> d + (l - f) <= length m ->
  (d <= f \/ l <= d) ->
  algo_replace_copy_if m f l d p new
  = Ok (patch m d (map (fun x => if p x then new else x) (slice m f l)), d + (l - f), l - f).
Proof. intros A. exact replace_copy_if_ok. Qed.
Print Assumptions C34_replace_copy_if.
Theorem C34_replace_copy : forall A eqf (m : list A) f l d old new, range m f l -> d + (l - f) <= length m ->
  (d <= f \/ l <= d) ->
  algo_replace_copy eqf m f l d old new
  = Ok (patch m d (map (fun x => if eqf x old then new else x) (slice m f l)), d + (l - f), l - f).
Proof. intros A. exact replace_copy_ok. Qed.
Print Assumptions C34_replace_copy.
Theorem C34_remove_copy_if : forall A (m : list A) f l d p, range m f l ->
  let s := List.filter (fun x => negb (p x)) (slice m f l) in
  d + length s <= length m -> (d <= f \/ l <= d) ->
  algo_remove_copy_if m f l d p = Ok (patch m d s, d + length s, length s).
Proof. intros A. exact remove_copy_if_ok. Qed.
Print Assumptions C34_remove_copy_if.
Theorem C34_remove_copy : forall A eqf (m : list A) f l d v, range m f l ->
  let s := List.filter (fun x => negb (eqf x v)) (slice m f l) in
  d + length s <= length m -> (d <= f \/ l <= d) ->
  algo_remove_copy eqf m f l d v = Ok (patch m d s, d + length s, length s).
Proof. intros A. exact remove_copy_ok. Qed.
Print Assumptions C34_remove_copy.
Theorem C34_reverse_copy : forall A (m : list A) f l d, range m f l -> d + (l - f) <= length m ->
  apart d (d + (l - f)) f l ->
  algo_reverse_copy m f l d = Ok (patch m d (rev (slice m f l)), d + (l - f), l - f).
Proof. intros A. exact reverse_copy_ok. Qed.
Print Assumptions C34_reverse_copy.
Theorem C34_rotate_copy : forall A (m : list A) f nf l d, f <= nf <= l -> l <= length m ->
  d + (l - f) <= length m -> apart d (d + (l - f)) f l ->
  algo_rotate_copy m f nf l d = Ok (patch m d (slice m nf l ++ slice m f nf), d + (l - f), l - f).
Proof. intros A. exact rotate_copy_ok. Qed.
Print Assumptions C34_rotate_copy.
Theorem C34_swap_range : forall A (m : list A) f1 l1 f2, range m f1 l1 -> f2 + (l1 - f1) <= length m ->
  apart f1 l1 f2 (f2 + (l1 - f1)) ->
  algo_swap_range m f1 l1 f2
  = Ok (patch (patch m f1 (slice m f2 (f2 + (l1 - f1)))) f2 (slice m f1 l1), l1 - f1).
Proof. intros A. exact swap_range_ok. Qed.
Print Assumptions C34_swap_range.
Example C34_example : (* overlapping moves in both directions, and the written cells *)
  algo_copy [1;2;3;4;5] 2 5 1 = Ok ([1;3;4;5;5], 4, 3) /\
  algo_copy_backward [1;2;3;4;5] 0 3 4 = Ok ([1;1;2;3;5], 1, 3) /\
  algo_swap_range [1;2;3;4;5] 0 2 3 = Ok ([4;5;3;1;2], 2) /\
  algo_remove_copy_if ex_mem 0 8 8 Nat.even = Ok ([5;1;4;1;5;9;2;6;5;1;1;5;9;0;0;0], 13, 5).
Proof. vm_compute. auto. Qed.

(** ** C35 remove *)
Theorem C35_remove_if : forall A (m : list A) f l p, range m f l ->
  let kept := List.filter (fun x => negb (p x)) (slice m f l) in
  algo_remove_if m f l p = Ok (patch m f kept, f + length kept, length (List.filter p (slice m f l))).
Proof. intros A. exact remove_if_ok. Qed.
Print Assumptions C35_remove_if.
Theorem C35_remove : forall A eqf (m : list A) f l v, range m f l ->
  let kept := List.filter (fun x => negb (eqf x v)) (slice m f l) in
  algo_remove eqf m f l v
  = Ok (patch m f kept, f + length kept, length (List.filter (fun x => eqf x v) (slice m f l))).
Proof. intros A. exact remove_ok. Qed.
Print Assumptions C35_remove.
Example C35_example : algo_remove Nat.eqb [9;1;2;1;3;9] 1 5 1 = Ok ([9;2;3;1;3;9], 3, 2).
Proof. vm_compute. auto. Qed.

(** ** C36 reverse, rotate, shuffle *)
Theorem C36_reverse : forall A (m : list A) f l, range m f l ->
  algo_reverse m f l = Ok (patch m f (rev (slice m f l)), l - f).
Proof. intros A. exact reverse_ok. Qed.
Print Assumptions C36_reverse.
Theorem C36_rotate : forall A (m : list A) f nf l, f <= nf <= l -> l <= length m ->
  algo_rotate m f nf l = Ok (patch m f (slice m nf l ++ slice m f nf), f + (l - nf)).
Proof. intros A. exact rotate_ok. Qed.
Print Assumptions C36_rotate.
Theorem C36_shuffle : forall A (m : list A) f l r, range m f l -> (forall k, 0 < k < l - f -> r k <= k) ->
  exists s', algo_random_shuffle_by m f l r = Ok (patch m f s') /\ Permutation (slice m f l) s'.
Proof. intros A. exact shuffle_ok. Qed.
Print Assumptions C36_shuffle.
Theorem C36_shuffle_all : forall A (m : list A) f l t, range m f l -> Permutation (slice m f l) t ->
  exists r, (forall k, 0 < k < l - f -> r k <= k) /\ algo_random_shuffle_by m f l r = Ok (patch m f t).
Proof. intros A. exact shuffle_surjective. Qed.
Print Assumptions C36_shuffle_all.
(** the library's own random source stays within the bound the shuffle needs *)
Theorem C36_default_source : forall n seed, (0 < n)%Z -> (0 <= seed)%Z -> (0 <= algo_uniform n seed < n)%Z.
Proof. exact algo_uniform_range. Qed.
Print Assumptions C36_default_source.
Example C36_example : algo_rotate [0;1;2;3;4;5;6;7;8] 1 4 8 = Ok ([0;4;5;6;7;1;2;3;8], 5) /\
  algo_reverse [0;1;2;3;4;5] 1 5 = Ok ([0;4;3;2;1;5], 4) /\
  algo_random_shuffle_by [1;2;3;4] 0 4 (fun k => k / 2) = Ok [3;1;4;2].
Proof. vm_compute. auto. Qed.

(** ** C37 unique *)
Theorem C37_unique : forall A (m : list A) f l pred, range m f l ->
  let kept := unique_spec pred (slice m f l) in
  algo_unique_by m f l pred = Ok (patch m f kept, f + length kept, length kept).
Proof. intros A. exact unique_ok. Qed.
Print Assumptions C37_unique.
Theorem C37_unique_copy : forall A (m : list A) f l d pred, range m f l ->
  let kept := unique_spec pred (slice m f l) in
  d + length kept <= length m -> (d <= f \/ l <= d) ->
  algo_unique_copy_by m f l d pred = Ok (patch m d kept, d + length kept, length kept).
Proof. intros A. exact unique_copy_ok. Qed.
Print Assumptions C37_unique_copy.
Example C37_example : algo_unique_by [9;1;1;2;2;2;1;9] 1 7 Nat.eqb = Ok ([9;1;2;1;2;2;1;9], 4, 3).
Proof. vm_compute. auto. Qed.

(** ** C38 partition *)
Theorem C38_partition : forall A (m : list A) f l p, range m f l ->
  exists m' k, algo_partition m f l p = Ok (m', k) /\ boundary m' f l p k /\ permutes m m' f l /\
    slice m' f k = List.filter p (slice m f l).
Proof. intros A. exact partition_full. Qed.
Print Assumptions C38_partition.
Theorem C38_is_partitioned : forall A (m : list A) f l p, range m f l ->
  exists b, algo_is_partitioned m f l p = Ok b /\ (b = true <-> exists k, boundary m f l p k).
Proof. intros A. exact is_partitioned_ok. Qed.
Print Assumptions C38_is_partitioned.
Theorem C38_partition_point : forall A (m : list A) f l p k, range m f l -> boundary m f l p k ->
  algo_partition_point m f l p = Ok k.
Proof. intros A. exact partition_point_ok. Qed.
Print Assumptions C38_partition_point.
Theorem C38_partition_copy : forall A (m : list A) f l dt df p, range m f l ->
  let yes := List.filter p (slice m f l) in
  let no := List.filter (fun x => negb (p x)) (slice m f l) in
  dt + length yes <= length m -> df + length no <= length m ->
  apart dt (dt + length yes) f l -> apart df (df + length no) f l ->
  apart dt (dt + length yes) df (df + length no) ->
  algo_partition_copy m f l dt df p
  = Ok (patch (patch m dt yes) df no, dt + length yes, df + length no, l - f).
Proof. intros A. exact partition_copy_ok. Qed.
Print Assumptions C38_partition_copy.
Example C38_example : algo_partition ex_mem 0 8 Nat.even = Ok ([4;2;6;1;5;9;1;5;0;0;0;0;0;0;0;0], 3) /\
  algo_is_partitioned ex_mem 0 8 Nat.even = Ok false /\
  algo_partition_point [2;4;1;3] 0 4 Nat.even = Ok 2 /\ boundary [2;4;1;3] 0 4 Nat.even 2.
Proof.
  split; [vm_compute; reflexivity|]. split; [vm_compute; reflexivity|]. split; [vm_compute; reflexivity|].
  split; [lia|]. split; intros x Hx; vm_compute in Hx; repeat (apply elem_of_cons in Hx as [->|Hx]; [done|]);
    by apply elem_of_nil in Hx.
Qed.

(** ** C39 sort: refuted; C40: right up to 512 elements *)
Definition sort_witness : list nat := seq 0 511 ++ [512; 511].
Theorem C39_sort_refuted : exists (m m' : list nat), range m 0 513 /\ StrictWeakOrder Nat.ltb /\
  algo_sort_by Nat.ltb m 0 513 = Ok m' /\ ~ Permutation m m'.
Proof.
  exists sort_witness, (seq 0 511 ++ [512; 512]). split; [split; vm_compute; lia|]. split; [exact ex_swo|].
  split; [vm_compute; reflexivity|].
  intros H. assert (511 ∈ seq 0 511 ++ [512; 512]) as Hin.
  { rewrite <- H. unfold sort_witness. apply elem_of_app. right. apply elem_of_cons. right. left. }
  apply elem_of_app in Hin as [Hin|Hin].
  - apply elem_of_seq in Hin. lia.
  - apply elem_of_cons in Hin as [Hin|Hin]; [done|]. apply elem_of_cons in Hin as [Hin|Hin]; [done|].
    by apply elem_of_nil in Hin.
Qed.
Print Assumptions C39_sort_refuted.
(** What holds for every length: the result is sorted, consists of elements of the input, and nothing
    outside the range changes.  Missing: being a permutation (false above 512, see above). *)
Theorem C39_sort_partial : forall A (comp : A -> A -> bool), StrictWeakOrder comp ->
  forall (m : list A) f l, range m f l ->
  exists m', algo_sort_by comp m f l = Ok m' /\ length m' = length m /\
    (forall k, k < f \/ l <= k -> m' !! k = m !! k) /\ sorted comp (slice m' f l) /\
    (forall x, x ∈ slice m' f l -> x ∈ slice m f l).
Proof. intros A. exact sort_any_ok. Qed.
Print Assumptions C39_sort_partial.
Theorem C40_sort_512 : forall A (comp : A -> A -> bool), StrictWeakOrder comp ->
  forall (m : list A) f l, range m f l -> l - f <= 512 ->
  exists m', algo_sort_by comp m f l = Ok m' /\ permutes m m' f l /\ sorted comp (slice m' f l) /\
    stable_rearrangement comp (slice m f l) (slice m' f l).
Proof. intros A. exact sort_small_ok. Qed.
Print Assumptions C40_sort_512.
Example C40_example : algo_sort_by half_lt ex_mem 0 8 = Ok ([1;1;2;5;4;5;6;9;0;0;0;0;0;0;0;0]).
Proof. vm_compute. reflexivity. Qed.

(** ** C41 is_sorted, is_sorted_until *)
Theorem C41_is_sorted : forall A (comp : A -> A -> bool), StrictWeakOrder comp ->
  forall (m : list A) f l, range m f l ->
  exists b, algo_is_sorted_by comp m f l = Ok b /\ (b = true <-> sorted comp (slice m f l)).
Proof. intros A. exact is_sorted_ok. Qed.
Print Assumptions C41_is_sorted.
Theorem C41_is_sorted_until_refuted : exists (m : list nat) f l u, range m f l /\ StrictWeakOrder Nat.ltb /\
  algo_is_sorted_until_by Nat.ltb m f l = Ok u /\ ~ longest_prefix (sorted Nat.ltb) m f l u.
Proof.
  exists [1; 3; 2], 0, 3, 1. split; [split; cbn; lia|]. split; [exact ex_swo|]. split; [vm_compute; reflexivity|].
  intros (_ & _ & H). apply (H 2); [lia|]. intros i j x y Hij Hi Hj.
  destruct i as [|[|i]], j as [|[|j]]; cbn in *; try lia; try done; inversion Hi; inversion Hj; subst; done.
Qed.
Print Assumptions C41_is_sorted_until_refuted.
(** What the code computes: [last] for a sorted range, otherwise one position before the end of the
    longest sorted prefix. *)
Theorem C41_is_sorted_until_partial : forall A (comp : A -> A -> bool), StrictWeakOrder comp ->
  forall (m : list A) f l, range m f l ->
  exists u, algo_is_sorted_until_by comp m f l = Ok u /\ f <= u <= l /\
    (u = l <-> sorted comp (slice m f l)) /\
    (u < l -> S u < l /\ sorted comp (slice m f (S u)) /\ ~ sorted comp (slice m f (S (S u)))).
Proof. intros A. exact is_sorted_until_ok. Qed.
Print Assumptions C41_is_sorted_until_partial.
Example C41_example : algo_is_sorted_by Nat.ltb [1;2;2;4] 0 4 = Ok true /\
  algo_is_sorted_by Nat.ltb ex_mem 0 8 = Ok false.
Proof. vm_compute. auto. Qed.

(** ** C42 partial sorting *)
Theorem C42_partial_sort : forall A (comp : A -> A -> bool), StrictWeakOrder comp ->
  forall (m : list A) f mid l, range m f l -> f <= mid <= l ->
  exists m', algo_partial_sort_by comp m f mid l = Ok m' /\ permutes m m' f l /\
    sorted comp (slice m' f mid) /\
    (forall x y, x ∈ slice m' f mid -> y ∈ slice m' mid l -> comp y x = false).
Proof. intros A. exact partial_sort_ok. Qed.
Print Assumptions C42_partial_sort.
Theorem C42_partial_sort_copy : forall A (comp : A -> A -> bool), StrictWeakOrder comp ->
  forall (m : list A) f l d dl, range m f l -> range m d dl -> apart d dl f l ->
  exists out rest,
    algo_partial_sort_copy_by comp m f l d dl = Ok (patch m d out, d + length out, length out) /\
    length out = (l - f) `min` (dl - d) /\ sorted comp out /\
    Permutation (slice m f l) (out ++ rest) /\ (forall x y, x ∈ out -> y ∈ rest -> comp y x = false).
Proof. intros A. exact partial_sort_copy_ok. Qed.
Print Assumptions C42_partial_sort_copy.
Example C42_example : (exists r, algo_partial_sort_by Nat.ltb ex_mem 0 3 8 = Ok (1 :: 1 :: 2 :: r)) /\
  algo_partial_sort_copy_by Nat.ltb ex_mem 0 8 8 12 = Ok ([5;1;4;1;5;9;2;6;1;1;2;4;0;0;0;0], 12, 4).
Proof. split; [eexists|]; vm_compute; reflexivity. Qed.

(** ** C43 heaps *)
Theorem C43_make_heap : forall A (comp : A -> A -> bool), StrictWeakOrder comp ->
  forall (m : list A) f l, range m f l ->
  exists m', algo_make_heap_by comp m f l = Ok m' /\ permutes m m' f l /\ max_heap comp (slice m' f l).
Proof. intros A. exact make_heap_ok. Qed.
Print Assumptions C43_make_heap.
Theorem C43_push_heap : forall A (comp : A -> A -> bool), StrictWeakOrder comp ->
  forall (m : list A) f l, range m f l -> max_heap comp (slice m f (l - 1)) ->
  exists m', algo_push_heap_by comp m f l = Ok m' /\ permutes m m' f l /\ max_heap comp (slice m' f l).
Proof. intros A. exact push_heap_ok. Qed.
Print Assumptions C43_push_heap.
Theorem C43_pop_heap : forall A (comp : A -> A -> bool), StrictWeakOrder comp ->
  forall (m : list A) f l, range m f l -> f < l -> max_heap comp (slice m f l) ->
  exists m' x, algo_pop_heap_by comp m f l = Ok m' /\ permutes m m' f l /\
    max_heap comp (slice m' f (l - 1)) /\ m !! f = Some x /\ m' !! (l - 1) = Some x /\
    forall y, y ∈ slice m f l -> comp x y = false.
Proof. intros A. exact pop_heap_ok. Qed.
Print Assumptions C43_pop_heap.
Theorem C43_sort_heap : forall A (comp : A -> A -> bool), StrictWeakOrder comp ->
  forall (m : list A) f l, range m f l -> max_heap comp (slice m f l) ->
  exists m', algo_sort_heap_by comp m f l = Ok m' /\ permutes m m' f l /\ sorted comp (slice m' f l).
Proof. intros A. exact sort_heap_ok. Qed.
Print Assumptions C43_sort_heap.
Example C43_example : exists m, algo_make_heap_by Nat.ltb ex_mem 0 8 = Ok m /\
  algo_is_heap_by Nat.ltb m 0 8 = Ok true /\ algo_is_heap_by Nat.ltb ex_mem 0 8 = Ok false /\
  (exists m', algo_sort_heap_by Nat.ltb m 0 8 = Ok m' /\ take 8 m' = [1;1;2;4;5;5;6;9]) /\
  max_heap Nat.ltb (slice m 0 8).
Proof.
  eexists. split; [vm_compute; reflexivity|]. split; [vm_compute; reflexivity|].
  split; [vm_compute; reflexivity|].
  split; [eexists; split; vm_compute; reflexivity|].
  match goal with |- max_heap _ (slice ?m 0 8) => destruct (is_heap_ok Nat.ltb m 0 8) as (b & Hb & Hi) end.
  { split; cbn; lia. }
  vm_compute in Hb. injection Hb as <-. by apply Hi.
Qed.

(** ** C44 is_heap, is_heap_until *)
Theorem C44_is_heap : forall A (comp : A -> A -> bool) (m : list A) f l, range m f l ->
  exists b, algo_is_heap_by comp m f l = Ok b /\ (b = true <-> max_heap comp (slice m f l)).
Proof. intros A. exact is_heap_ok. Qed.
Print Assumptions C44_is_heap.
Theorem C44_is_heap_until_refuted : exists (m : list nat) f l u, range m f l /\ StrictWeakOrder Nat.ltb /\
  algo_is_heap_until_by Nat.ltb m f l = Ok u /\ ~ longest_prefix (max_heap Nat.ltb) m f l u.
Proof.
  exists [5; 4; 6], 0, 3, 0. split; [split; cbn; lia|]. split; [exact ex_swo|]. split; [vm_compute; reflexivity|].
  intros (_ & _ & H). apply (H 2); [lia|]. intros i j x y Hij Hi Hj.
  destruct i as [|[|i]], j as [|[|j]]; cbn in *; try lia; try done; inversion Hi; inversion Hj; subst; done.
Qed.
Print Assumptions C44_is_heap_until_refuted.
(** What the code computes: [last] for a heap, otherwise the position of the first parent smaller than
    one of its children (instead of the position of that child). *)
Theorem C44_is_heap_until_partial : forall A (comp : A -> A -> bool) (m : list A) f l, range m f l ->
  exists u, algo_is_heap_until_by comp m f l = Ok u /\ f <= u <= l /\ max_heap comp (slice m f u) /\
    (u = l <-> max_heap comp (slice m f l)) /\
    (u < l -> exists j x y, (j = 2 * (u - f) + 1 \/ j = 2 * (u - f) + 2) /\ j < l - f /\
       m !! u = Some x /\ m !! (f + j) = Some y /\ comp x y = true).
Proof. intros A. exact is_heap_until_ok. Qed.
Print Assumptions C44_is_heap_until_partial.
Example C44_example : algo_is_heap_by Nat.ltb [9;5;6;1;5;2] 0 6 = Ok true /\
  algo_is_heap_by Nat.ltb [9;5;6;1;7;2] 0 6 = Ok false.
Proof. vm_compute. auto. Qed.

(** ** C45 binary search *)
Theorem C45_lower_bound : forall A comp (m : list A) f l v k, range m f l ->
  boundary m f l (fun x => comp x v) k -> algo_lower_bound_by comp m f l v = Ok k.
Proof. intros A. exact lower_bound_ok. Qed.
Print Assumptions C45_lower_bound.
Theorem C45_upper_bound : forall A comp (m : list A) f l v k, range m f l ->
  boundary m f l (fun x => negb (comp v x)) k -> algo_upper_bound_by comp m f l v = Ok k.
Proof. intros A. exact upper_bound_ok. Qed.
Print Assumptions C45_upper_bound.
Theorem C45_equal_range : forall A comp (m : list A) f l v lo hi, range m f l ->
  boundary m f l (fun x => comp x v) lo -> boundary m f l (fun x => negb (comp v x)) hi ->
  algo_equal_range_by comp m f l v = Ok (lo, hi).
Proof. intros A. exact equal_range_ok. Qed.
Print Assumptions C45_equal_range.
Theorem C45_binary_search : forall A comp (m : list A) f l v lo hi, range m f l ->
  boundary m f l (fun x => comp x v) lo -> boundary m f l (fun x => negb (comp v x)) hi ->
  exists b, algo_binary_search_by comp m f l v = Ok b /\
    (b = true <-> exists x, x ∈ slice m f l /\ equivb comp x v = true).
Proof. intros A. exact binary_search_ok. Qed.
Print Assumptions C45_binary_search.
(** On a sorted range both boundaries exist, so all four functions give the documented answer. *)
Theorem C45_sorted : forall A comp (m : list A) f l v, StrictWeakOrder comp -> range m f l ->
  sorted comp (slice m f l) ->
  exists lo hi, boundary m f l (fun x => comp x v) lo /\ boundary m f l (fun x => negb (comp v x)) hi /\
    algo_lower_bound_by comp m f l v = Ok lo /\ algo_upper_bound_by comp m f l v = Ok hi /\
    algo_equal_range_by comp m f l v = Ok (lo, hi).
Proof.
  intros A comp m f l v HW Hr Hs.
  destruct (sorted_lower comp m f l v HW Hr Hs) as [lo Hlo].
  destruct (sorted_upper comp m f l v HW Hr Hs) as [hi Hhi].
  exists lo, hi. split; [exact Hlo|]. split; [exact Hhi|].
  split; [by apply lower_bound_ok|]. split; [by apply upper_bound_ok|]. by apply equal_range_ok.
Qed.
Print Assumptions C45_sorted.
(** On any data whatever the searches terminate, stay in range and answer a position of the range. *)
Theorem C45_safe : forall A comp (m : list A) f l v, range m f l ->
  exists lo hi b, algo_lower_bound_by comp m f l v = Ok lo /\ f <= lo <= l /\
    algo_upper_bound_by comp m f l v = Ok hi /\ f <= hi <= l /\
    algo_binary_search_by comp m f l v = Ok b.
Proof.
  intros A comp m f l v [H1 H2].
  destruct (bsearch_safe (fun x => comp x v) m (S (length m)) (l - f) f) as (lo & Hlo & Rlo); [lia|lia|].
  destruct (bsearch_safe (fun x => negb (comp v x)) m (S (length m)) (l - f) f) as (hi & Hhi & Rhi); [lia|lia|].
  exists lo, hi. unfold algo_binary_search_by, algo_lower_bound_by, algo_upper_bound_by.
  rewrite Hlo, Hhi. cbn [rbind]. destruct (lo =? l) eqn:E.
  - exists false. repeat split; try done; lia.
  - apply Nat.eqb_neq in E. destruct (lookup_lt_is_Some_2 m lo) as [x Hx]; [lia|].
    rewrite (rd_Ok _ _ _ Hx). eexists. repeat split; try done; lia.
Qed.
Print Assumptions C45_safe.
Example C45_example : algo_equal_range_by half_lt [0;2;4;5;4;7] 0 6 5 = Ok (2, 5) /\
  algo_binary_search_by half_lt [0;2;4;5;4;7] 0 6 5 = Ok true /\ sorted half_lt (slice [0;2;4;5;4;7] 0 6).
Proof.
  split; [vm_compute; reflexivity|]. split; [vm_compute; reflexivity|].
  destruct (is_sorted_ok half_lt ex_swo_half [0;2;4;5;4;7] 0 6) as (b & Hb & Hi).
  { split; cbn; lia. }
  vm_compute in Hb. injection Hb as <-. by apply Hi.
Qed.

(** ** C46-C51 operations on sorted ranges.
    [List.filter (equivb comp x) l] is the sublist of the elements of [l] equivalent to [x], in order,
    so the equations below say how many copies there are, where they come from and in which order;
    together with sortedness they determine the output. *)
Notation class comp x l := (List.filter (equivb comp x) l).

Theorem C46_merge : forall A (comp : A -> A -> bool), StrictWeakOrder comp ->
  forall (m : list A) f1 l1 f2 l2, range m f1 l1 -> range m f2 l2 ->
  sorted comp (slice m f1 l1) -> sorted comp (slice m f2 l2) ->
  exists out, writes (algo_merge_by comp) m f1 l1 f2 l2 out /\ sorted comp out /\
    Permutation (slice m f1 l1 ++ slice m f2 l2) out /\
    forall x, class comp x out = class comp x (slice m f2 l2) ++ class comp x (slice m f1 l1).
Proof.
  intros A comp HW m f1 l1 f2 l2 R1 R2 S1 S2. eexists. split.
  { intros d Hd A1 A2. exact (zip_then_copy_ok _ true true m f1 l1 f2 l2 d R1 R2 Hd A1 A2). }
  split; [by apply zip_sorted, S2; [|apply merge_good|]|].
  split; [apply zip_merge_perm|]. intros x. by apply zip_merge_filter.
Qed.
Print Assumptions C46_merge.
Theorem C47_includes : forall A (comp : A -> A -> bool), StrictWeakOrder comp ->
  forall (m : list A) f1 l1 f2 l2, range m f1 l1 -> range m f2 l2 ->
  sorted comp (slice m f1 l1) -> sorted comp (slice m f2 l2) ->
  exists b, algo_includes_by comp m f1 l1 f2 l2 = Ok b /\
    (b = true <-> forall x, occ comp x (slice m f2 l2) <= occ comp x (slice m f1 l1)).
Proof. intros A. exact includes_ok. Qed.
Print Assumptions C47_includes.
Theorem C48_intersection : forall A (comp : A -> A -> bool), StrictWeakOrder comp ->
  forall (m : list A) f1 l1 f2 l2, range m f1 l1 -> range m f2 l2 ->
  sorted comp (slice m f1 l1) -> sorted comp (slice m f2 l2) ->
  exists out, writes (algo_set_intersection_by comp) m f1 l1 f2 l2 out /\ sorted comp out /\
    forall x, class comp x out = take (occ comp x (slice m f2 l2)) (class comp x (slice m f1 l1)).
Proof.
  intros A comp HW m f1 l1 f2 l2 R1 R2 S1 S2. eexists. split.
  { intros d Hd A1 A2. exact (zip_then_copy_ok _ false false m f1 l1 f2 l2 d R1 R2 Hd A1 A2). }
  split; [by apply zip_sorted, S2; [|apply intersection_good|]|]. intros x. by apply zip_intersection_filter.
Qed.
Print Assumptions C48_intersection.
Theorem C49_union : forall A (comp : A -> A -> bool), StrictWeakOrder comp ->
  forall (m : list A) f1 l1 f2 l2, range m f1 l1 -> range m f2 l2 ->
  sorted comp (slice m f1 l1) -> sorted comp (slice m f2 l2) ->
  exists out, writes (algo_set_union_by comp) m f1 l1 f2 l2 out /\ sorted comp out /\
    forall x, class comp x out
      = class comp x (slice m f1 l1) ++ drop (occ comp x (slice m f1 l1)) (class comp x (slice m f2 l2)).
Proof.
  intros A comp HW m f1 l1 f2 l2 R1 R2 S1 S2. eexists. split.
  { intros d Hd A1 A2. exact (zip_then_copy_ok _ true true m f1 l1 f2 l2 d R1 R2 Hd A1 A2). }
  split; [by apply zip_sorted, S2; [|apply union_good|]|]. intros x. by apply zip_union_filter.
Qed.
Print Assumptions C49_union.
(** [set_difference] loses elements of the first range: {5} \ {1} is empty. *)
Theorem C50_difference_refuted : exists (m : list nat) f1 l1 f2 l2 d m' d',
  StrictWeakOrder Nat.ltb /\ range m f1 l1 /\ range m f2 l2 /\
  sorted Nat.ltb (slice m f1 l1) /\ sorted Nat.ltb (slice m f2 l2) /\
  apart d (length m) f1 l1 /\ apart d (length m) f2 l2 /\
  algo_set_difference_by Nat.ltb m f1 l1 f2 l2 d = Ok (m', d', d' - d) /\
  occ Nat.ltb 5 (slice m' d d') <> occ Nat.ltb 5 (slice m f1 l1) - occ Nat.ltb 5 (slice m f2 l2).
Proof.
  exists [5; 1; 0; 0], 0, 1, 1, 2, 2, [5; 1; 0; 0], 2. split; [exact ex_swo|].
  split; [split; cbn; lia|]. split; [split; cbn; lia|].
  assert (forall x : nat, sorted Nat.ltb [x]) as Hs.
  { intros x i j ? ? Hij Hi Hj. apply lookup_lt_Some in Hj. cbn in Hj. lia. }
  split; [apply Hs|]. split; [apply Hs|]. split; [right; cbn; lia|]. split; [right; cbn; lia|].
  split; [vm_compute; reflexivity|]. vm_compute. lia.
Qed.
Print Assumptions C50_difference_refuted.
(** When every element below some element of the first range occurs in the first range at least as often
    as in the second (in particular when the second range is included in the first) the result is right.
    Missing: all other inputs, where it is wrong as shown above. *)
Theorem C50_difference_partial : forall A (comp : A -> A -> bool), StrictWeakOrder comp ->
  forall (m : list A) f1 l1 f2 l2, range m f1 l1 -> range m f2 l2 ->
  sorted comp (slice m f1 l1) -> sorted comp (slice m f2 l2) ->
  (forall x a, a ∈ slice m f1 l1 -> comp x a = true ->
     occ comp x (slice m f2 l2) <= occ comp x (slice m f1 l1)) ->
  exists out, writes (algo_set_difference_by comp) m f1 l1 f2 l2 out /\ sorted comp out /\
    forall x, class comp x out = drop (occ comp x (slice m f2 l2)) (class comp x (slice m f1 l1)).
Proof.
  intros A comp HW m f1 l1 f2 l2 R1 R2 S1 S2 Hc. eexists. split.
  { intros d Hd A1 A2. exact (zip_then_copy_ok _ true false m f1 l1 f2 l2 d R1 R2 Hd A1 A2). }
  split; [by apply zip_sorted, S2; [|apply difference_good|]|]. intros x. by apply zip_difference_filter.
Qed.
Print Assumptions C50_difference_partial.
(** On every input: no crash, a sorted subsequence of the first range. *)
Theorem C50_difference_safe_partial : forall A (comp : A -> A -> bool), StrictWeakOrder comp ->
  forall (m : list A) f1 l1 f2 l2, range m f1 l1 -> range m f2 l2 ->
  sorted comp (slice m f1 l1) -> sorted comp (slice m f2 l2) ->
  exists out, writes (algo_set_difference_by comp) m f1 l1 f2 l2 out /\ sorted comp out /\
    out `sublist_of` slice m f1 l1.
Proof.
  intros A comp HW m f1 l1 f2 l2 R1 R2 S1 S2. eexists. split.
  { intros d Hd A1 A2. exact (zip_then_copy_ok _ true false m f1 l1 f2 l2 d R1 R2 Hd A1 A2). }
  split; [by apply zip_sorted, S2; [|apply difference_good|]|]. by apply zip_difference_sublist.
Qed.
Print Assumptions C50_difference_safe_partial.
Theorem C51_symmetric_difference : forall A (comp : A -> A -> bool), StrictWeakOrder comp ->
  forall (m : list A) f1 l1 f2 l2, range m f1 l1 -> range m f2 l2 ->
  sorted comp (slice m f1 l1) -> sorted comp (slice m f2 l2) ->
  exists out, writes (algo_set_symmetric_difference_by comp) m f1 l1 f2 l2 out /\ sorted comp out /\
    forall x, class comp x out
      = drop (occ comp x (slice m f2 l2)) (class comp x (slice m f1 l1))
        ++ drop (occ comp x (slice m f1 l1)) (class comp x (slice m f2 l2)).
Proof.
  intros A comp HW m f1 l1 f2 l2 R1 R2 S1 S2. eexists. split.
  { intros d Hd A1 A2. exact (zip_then_copy_ok _ true true m f1 l1 f2 l2 d R1 R2 Hd A1 A2). }
  split; [by apply zip_sorted, S2; [|apply symdiff_good|]|]. intros x. by apply zip_symdiff_filter.
Qed.
Print Assumptions C51_symmetric_difference.
Definition ex_sets : list nat := [1;2;2;5;8; 2;5;5;7; 0;0;0;0;0;0;0;0;0;0].
Lemma ex_sorted (m : list nat) f l : range m f l -> algo_is_sorted_by Nat.ltb m f l = Ok true ->
  sorted Nat.ltb (slice m f l).
Proof.
  intros Hr Hv. destruct (is_sorted_ok Nat.ltb ex_swo m f l Hr) as (b & Hb & Hi).
  rewrite Hv in Hb. injection Hb as <-. by apply Hi.
Qed.
Example C46_51_hypotheses : range ex_sets 0 5 /\ range ex_sets 5 9 /\
  sorted Nat.ltb (slice ex_sets 0 5) /\ sorted Nat.ltb (slice ex_sets 5 9).
Proof.
  assert (range ex_sets 0 5) by (split; cbn; lia). assert (range ex_sets 5 9) by (split; cbn; lia).
  repeat split; try (apply ex_sorted; [done|vm_compute; reflexivity]); cbn; lia.
Qed.
Example C46_51_example :
  algo_merge_by Nat.ltb ex_sets 0 5 5 9 9 = Ok ([1;2;2;5;8;2;5;5;7;1;2;2;2;5;5;5;7;8;0], 18, 9) /\
  algo_includes_by Nat.ltb ex_sets 0 5 5 7 = Ok true /\ algo_includes_by Nat.ltb ex_sets 0 5 5 9 = Ok false /\
  algo_set_intersection_by Nat.ltb ex_sets 0 5 5 9 9 = Ok ([1;2;2;5;8;2;5;5;7;2;5;0;0;0;0;0;0;0;0], 11, 2) /\
  algo_set_union_by Nat.ltb ex_sets 0 5 5 9 9 = Ok ([1;2;2;5;8;2;5;5;7;1;2;2;5;5;7;8;0;0;0], 16, 7) /\
  algo_set_symmetric_difference_by Nat.ltb ex_sets 0 5 5 9 9
    = Ok ([1;2;2;5;8;2;5;5;7;1;2;5;7;8;0;0;0;0;0], 14, 5) /\
  algo_set_difference_by Nat.ltb ex_sets 0 5 5 7 9 = Ok ([1;2;2;5;8;2;5;5;7;1;2;8;0;0;0;0;0;0;0], 12, 3).
Proof. vm_compute. auto 10. Qed.

(** ** C52 min, max *)
Theorem C52_elements : forall A (comp : A -> A -> bool) (m : list A) f l, StrictWeakOrder comp ->
  range m f l -> f < l ->
  exists mn mx, algo_minmax_element_by comp m f l = Ok (mn, mx) /\
    algo_min_element_by comp m f l = Ok mn /\ algo_max_element_by comp m f l = Ok mx /\
    smallest_at comp m f l mn /\ greatest_at comp m f l mx.
Proof. intros A comp. exact (minmax_all comp). Qed.
Print Assumptions C52_elements.
Theorem C52_elements_empty : forall A (comp : A -> A -> bool) (m : list A) f,
  algo_minmax_element_by comp m f f = Ok (f, f) /\
  algo_min_element_by comp m f f = Ok f /\ algo_max_element_by comp m f f = Ok f.
Proof. intros A comp. exact (minmax_empty comp). Qed.
Print Assumptions C52_elements_empty.
Theorem C52_max : forall A (comp : A -> A -> bool) x y, StrictWeakOrder comp ->
  (algo_max_by comp x y = x \/ algo_max_by comp x y = y) /\
  comp (algo_max_by comp x y) x = false /\ comp (algo_max_by comp x y) y = false.
Proof. intros A comp. exact (max_by_ok comp). Qed.
Print Assumptions C52_max.
Theorem C52_min : forall A (comp : A -> A -> bool) x y, StrictWeakOrder comp ->
  (algo_min_by comp x y = x \/ algo_min_by comp x y = y) /\
  comp x (algo_min_by comp x y) = false /\ comp y (algo_min_by comp x y) = false.
Proof. intros A comp. exact (min_by_ok comp). Qed.
Print Assumptions C52_min.
Theorem C52_clamp : forall A (comp : A -> A -> bool) v lo hi, StrictWeakOrder comp -> comp hi lo = false ->
  let r := algo_clamp_by comp v lo hi in
  comp r lo = false /\ comp hi r = false /\
  (comp v lo = false -> comp hi v = false -> equivb comp r v = true) /\
  (comp v lo = true -> r = lo) /\ (comp hi v = true -> r = hi).
Proof. intros A comp. exact (clamp_ok comp). Qed.
Print Assumptions C52_clamp.
Example C52_example : algo_minmax_element_by half_lt ex_mem 0 8 = Ok (1, 5) /\
  algo_clamp_by Nat.ltb 9 2 6 = 6 /\ algo_clamp_by Nat.ltb 4 2 6 = 4 /\ algo_clamp_by Nat.ltb 1 2 6 = 2.
Proof. vm_compute. auto. Qed.

(** ** C53 lexicographical comparison *)
Theorem C53_lexicographical_compare : forall A (comp : A -> A -> bool) (m : list A) f1 l1 f2 l2,
  range m f1 l1 -> range m f2 l2 ->
  exists b, algo_lexicographical_compare_by comp m f1 l1 f2 l2 = Ok b /\
    (b = true <-> lex_less comp (slice m f1 l1) (slice m f2 l2)).
Proof. intros A comp. exact (lexicographical_compare_ok comp). Qed.
Print Assumptions C53_lexicographical_compare.
Theorem C53_strict_order : forall A (comp : A -> A -> bool), StrictWeakOrder comp ->
  (forall l : list A, ~ lex_less comp l l) /\
  (forall l1 l2 l3 : list A, lex_less comp l1 l2 -> lex_less comp l2 l3 -> lex_less comp l1 l3).
Proof. intros A comp. exact (lex_less_strict_order comp). Qed.
Print Assumptions C53_strict_order.
Example C53_example : algo_lexicographical_compare_by Nat.ltb [1;2;1;2;3] 0 2 2 5 = Ok true /\
  algo_lexicographical_compare_by Nat.ltb [1;3;1;2;3] 0 2 2 5 = Ok false.
Proof. vm_compute. auto. Qed.
