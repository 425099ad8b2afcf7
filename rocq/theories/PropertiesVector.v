(** PropertiesVector.v — the property theorems about /repo/container/c_vector.c (C01-C07, C61, C63-C67).
    "The vector [v] holds [l]" is said through the API: [vec_traverse v = Ok l], i.e. walking the
    iterators from begin() to end() and dereferencing each yields [l].  [Ok] means the call terminates
    and touches only initialised slots of blocks it owns; [UB] is an access outside them. *)
From Verif Require Import Base Spec SpecSeq Facts Buffer BufferProofs Vector VectorProofs RandomIter RandomIterProofs.
From stdpp Require Import list.

(** ** C01 every history *)
Theorem C01_history : forall A (dflt : A) (os : list (vec_op A)),
  let l := fold_left (vec_spec dflt) os [] in
  exists v, vec_run dflt vec_create os = Ok v /\
    vec_traverse v = Ok l /\ vec_rtraverse v = Ok (rev l) /\
    vec_size v = length l /\ vec_empty v = (length l =? 0) /\ vec_size v <= vec_capacity v /\
    vec_front v = Ok (head l) /\ vec_back v = Ok (last l) /\
    forall i x, l !! i = Some x -> vec_at v i = Ok x.
Proof.
  intros A dflt os l. destruct (run_ok dflt os _ _ create_ok) as (v & He & Hv). exists v. fold l in Hv.
  destruct (vrep_traverse _ _ Hv). pose proof (vrep_cap _ _ Hv).
  assert (fin v = length l) as Hf by (destruct Hv as (? & ? & ?); done).
  split; [done|]. split; [done|]. split; [done|]. split; [done|]. split; [by unfold vec_empty; rewrite Hf|].
  split; [done|]. split; [by apply vrep_front|]. split; [by apply vrep_back|].
  intros i x Hi. by eapply vrep_at.
Qed.
Print Assumptions C01_history.
(** the same from any vector, whatever its spare capacity *)
Theorem C01_history_from : forall A (dflt : A) (os : list (vec_op A)) (v : vec A) l,
  vec_traverse v = Ok l ->
  exists v', vec_run dflt v os = Ok v' /\ vec_traverse v' = Ok (fold_left (vec_spec dflt) os l) /\
    vec_size v' <= vec_capacity v'.
Proof.
  intros A dflt os v l Hv. apply traverse_vrep in Hv.
  destruct (run_ok dflt os _ _ Hv) as (v' & He & Hv'). exists v'.
  split; [done|]. split; [by apply vrep_traverse|]. by eapply vrep_cap.
Qed.
Print Assumptions C01_history_from.
(** the constructors *)
Theorem C01_create_from_array : forall A (dflt : A) l, l <> [] ->
  exists v, vec_create_from_array dflt l = Ok (Some v) /\ vec_traverse v = Ok l.
Proof.
  intros A dflt l Hl. destruct (create_from_array_ok dflt l Hl) as (v & ? & ?). exists v. split; [done|].
  by apply vrep_traverse.
Qed.
Print Assumptions C01_create_from_array.
Theorem C01_create_n : forall A (dflt : A) n a, 0 < n ->
  exists v, vec_create_n dflt n a = Ok (Some v) /\ vec_traverse v = Ok (replicate n a).
Proof.
  intros A dflt n a Hn. destruct (create_n_ok dflt n a Hn) as (v & ? & ?). exists v. split; [done|].
  by apply vrep_traverse.
Qed.
Print Assumptions C01_create_n.
(** the iterator returned by insert, erase and erase_range *)
Theorem C01_returned_positions : forall A (dflt : A) (v : vec A) l, vec_traverse v = Ok l ->
  (forall i a, i <= length l -> exists v', vec_insert dflt v i (Val a) = Ok (v', i) /\
     vec_traverse v' = Ok (seq_insert i [a] l)) /\
  (forall i, i < length l -> exists v', vec_erase v i = Ok (v', i) /\ vec_traverse v' = Ok (seq_delete i (S i) l)) /\
  (forall i j, i <= j <= length l -> exists v', vec_erase_range v i j = Ok (v', i) /\
     vec_traverse v' = Ok (seq_delete i j l)).
Proof.
  intros A dflt v l Hv. apply traverse_vrep in Hv. repeat split.
  - intros i a Hi. destruct (insert_n_ok dflt v l i 1 a Hv Hi) as (v' & ? & ? & _);
      [by apply insert_fits_one; eapply vrep_cap|]. exists v'. split; [done|]. by apply vrep_traverse.
  - intros i Hi. destruct (lookup_lt_is_Some_2 l i Hi) as [x Hx].
    destruct (erase_ok v l i x Hv Hx) as (v' & ? & ? & _). exists v'. split; [done|]. by apply vrep_traverse.
  - intros i j Hij. destruct (erase_range_ok v l i j Hv Hij) as (v' & ? & ? & _). exists v'. split; [done|].
    by apply vrep_traverse.
Qed.
Print Assumptions C01_returned_positions.
Example C01_example :
  (do v <- vec_run 0 vec_create [VPushBack 1; VPushBack 2; VInsert 1 7; VPushBack 3; VErase 0; VResize 5; VShrinkToFit];
   vec_traverse v) = Ok [7; 2; 3; 0; 0].
Proof. vm_compute. reflexivity. Qed.
(** a vector with spare capacity, used below: size 2, capacity 4 *)
Definition ex_vec : vec nat := Vec [Some 1; Some 2; None; None] 2 3 [].
Example ex_vec_ok : vec_traverse ex_vec = Ok [1; 2] /\ vec_capacity ex_vec = 4 /\
  exists os, (do v <- vec_run 0 vec_create os; Ok (buf v, fin v)) = Ok ([Some 1; Some 2; Some 1; None], 2).
Proof.
  split; [done|]. split; [done|].
  exists [VPushBack 1; VPushBack 2; VPushBack 1; VPopBack]. vm_compute. reflexivity.
Qed.

(** ** C02 insert_n: refuted; C03 the exact condition *)
Theorem C02_insert_n_refuted : exists (v : vec nat) l pos count a,
  vec_traverse v = Ok l /\ pos <= length l /\ vec_insert_n 0 v pos count (Val a) = UB.
Proof. exists ex_vec, [1; 2], 0, 10, 5. split; [done|]. split; [cbn; lia|]. vm_compute. reflexivity. Qed.
Print Assumptions C02_insert_n_refuted.
(** Missing: counts larger than the spare capacity for which the reallocation of c_vector.c 722 (asking
    only for [count - available] more) is too small. *)
Theorem C02_insert_n_partial : forall A (dflt : A) (v : vec A) l pos count a,
  vec_traverse v = Ok l -> pos <= length l ->
  count <= vec_capacity v - length l \/ count <= 2 * vec_capacity v - length l ->
  exists v', vec_insert_n dflt v pos count (Val a) = Ok (v', pos) /\
    vec_traverse v' = Ok (seq_insert pos (replicate count a) l).
Proof.
  intros A dflt v l pos count a Hv Hp Hc. apply traverse_vrep in Hv.
  destruct (insert_n_ok dflt v l pos count a Hv Hp) as (v' & He & Hr & _).
  - assert (fin v = length l) as Hf by (destruct Hv as (? & ? & ?); done).
    unfold insert_fits, vec_capacity in *. rewrite Hf. apply orb_true_iff. rewrite !Nat.leb_le. lia.
  - exists v'. split; [done|]. by apply vrep_traverse.
Qed.
Print Assumptions C02_insert_n_partial.
Theorem C03_insert_n_exact : forall A (dflt : A) (v : vec A) l pos count a,
  vec_traverse v = Ok l -> pos <= length l ->
  let spare := vec_capacity v - length l in
  (count <= spare \/ length l + count <= max (2 * vec_capacity v) (length l + count - spare) ->
   exists v', vec_insert_n dflt v pos count (Val a) = Ok (v', pos) /\
     vec_traverse v' = Ok (seq_insert pos (replicate count a) l)) /\
  (~ (count <= spare \/ length l + count <= max (2 * vec_capacity v) (length l + count - spare)) ->
   vec_insert_n dflt v pos count (Val a) = UB).
Proof.
  intros A dflt v l pos count a Hv Hp spare. apply traverse_vrep in Hv. pose proof (vrep_cap _ _ Hv) as Hc.
  assert (fin v = length l) as Hf by (destruct Hv as (? & ? & ?); done). subst spare. unfold vec_capacity.
  split; intros H.
  - destruct (insert_n_ok dflt v l pos count a Hv Hp) as (v' & He & Hr & _).
    + unfold insert_fits. rewrite Hf. apply orb_true_iff. rewrite !Nat.leb_le. lia.
    + exists v'. split; [done|]. by apply vrep_traverse.
  - apply (insert_n_overflow dflt v l pos count a Hv Hp). unfold insert_fits. rewrite Hf.
    apply orb_false_iff. rewrite !Nat.leb_gt. lia.
Qed.
Print Assumptions C03_insert_n_exact.
Example C03_example : exists v', vec_insert_n 0 ex_vec 1 6 (Val 9) = Ok (v', 1) /\
  vec_traverse v' = Ok [1; 9; 9; 9; 9; 9; 9; 2] /\ vec_insert_n 0 ex_vec 1 7 (Val 9) = UB.
Proof. eexists. vm_compute. auto. Qed.

(** ** C04 reserve, C05 copy, C06 assign: refuted; C61 what they do instead *)
Theorem C04_reserve_refuted : exists (v : vec nat) l n v',
  vec_traverse v = Ok l /\ vec_reserve 0 v n = Ok v' /\ vec_size v' <> length l /\ vec_traverse v' <> Ok l.
Proof. exists ex_vec, [1; 2], 6. eexists. split; [done|]. split; [vm_compute; reflexivity|]. vm_compute. split; congruence. Qed.
Print Assumptions C04_reserve_refuted.
(** Missing: [n] larger than the capacity, where default elements are appended (see C61). *)
Theorem C04_reserve_partial : forall A (dflt : A) (v : vec A) l n, vec_traverse v = Ok l ->
  exists v', vec_reserve dflt v n = Ok v' /\ n <= vec_capacity v' /\
    (exists pad, vec_traverse v' = Ok (l ++ pad)) /\ (n <= vec_capacity v -> v' = v).
Proof.
  intros A dflt v l n Hv. apply traverse_vrep in Hv.
  destruct (reserve_ok dflt v l n Hv) as (v' & He & Hr & Hc & Hx). exists v'. split; [done|]. split; [done|].
  unfold vec_capacity. destruct (Nat.leb_spec n (length (buf v))) as [H|H].
  - split; [|done]. exists []. rewrite app_nil_r. by apply vrep_traverse.
  - split; [|lia]. eexists. by apply vrep_traverse.
Qed.
Print Assumptions C04_reserve_partial.
Theorem C05_copy_refuted : exists (v : vec nat) l v',
  vec_traverse v = Ok l /\ vec_copy 0 v = Ok v' /\ vec_size v' <> length l.
Proof. exists ex_vec, [1; 2]. eexists. split; [done|]. split; [vm_compute; reflexivity|]. vm_compute. congruence. Qed.
Print Assumptions C05_copy_refuted.
(** Missing: vectors with spare capacity, whose copy has extra default elements (see C61). *)
Theorem C05_copy_partial : forall A (dflt : A) (v : vec A) l, vec_traverse v = Ok l ->
  vec_capacity v = vec_size v ->
  exists v', vec_copy dflt v = Ok v' /\ vec_traverse v' = Ok l.
Proof.
  intros A dflt v l Hv Hc. apply traverse_vrep in Hv. destruct (copy_ok dflt v l Hv) as (v' & He & Hr & _).
  exists v'. split; [done|]. apply vrep_traverse in Hr as [Hr _]. rewrite Hr.
  assert (fin v = length l) as Hf by (destruct Hv as (? & ? & ?); done).
  unfold vec_capacity, vec_size in Hc. replace (length (buf v) - length l) with 0 by lia. by rewrite app_nil_r.
Qed.
Print Assumptions C05_copy_partial.
Theorem C06_assign_refuted : exists (self other : vec nat) lo v',
  vec_traverse other = Ok lo /\ lo <> [] /\ vec_assign 0 self other = Ok v' /\ vec_traverse v' = Ok [].
Proof.
  exists ex_vec, ex_vec, [1; 2]. eexists. split; [done|]. split; [done|]. split; vm_compute; reflexivity.
Qed.
Print Assumptions C06_assign_refuted.
(** Missing: targets at least as large as the source, and sources with spare capacity (see C61). *)
Theorem C06_assign_partial : forall A (dflt : A) (self other : vec A) ls lo,
  vec_traverse self = Ok ls -> vec_traverse other = Ok lo ->
  vec_capacity self < vec_capacity other -> vec_capacity other = vec_size other ->
  exists v', vec_assign dflt self other = Ok v' /\ vec_traverse v' = Ok lo.
Proof.
  intros A dflt self other ls lo Hs Ho Hlt Hc. apply traverse_vrep in Hs, Ho.
  destruct (assign_ok dflt self ls other lo Hs Ho) as (v' & He & Hr & _).
  exists v'. split; [done|]. unfold vec_capacity, vec_size in *. rewrite (proj2 (Nat.leb_gt _ _)) in Hr by lia.
  assert (fin other = length lo) as Hf by (destruct Ho as (? & ? & ?); done).
  replace (length (buf other) - length lo) with 0 in Hr by lia. cbn [replicate] in Hr. rewrite app_nil_r in Hr.
  by apply vrep_traverse.
Qed.
Print Assumptions C06_assign_partial.
Theorem C61_reserve : forall A (dflt : A) (v : vec A) l n, vec_traverse v = Ok l ->
  exists v', vec_reserve dflt v n = Ok v' /\ n <= vec_capacity v' /\
    vec_traverse v' = Ok (if n <=? vec_capacity v then l else l ++ replicate (n - length l) dflt).
Proof.
  intros A dflt v l n Hv. apply traverse_vrep in Hv.
  destruct (reserve_ok dflt v l n Hv) as (v' & He & Hr & Hc & _). exists v'. split; [done|]. split; [done|].
  by apply vrep_traverse in Hr as [-> _].
Qed.
Print Assumptions C61_reserve.
Theorem C61_copy : forall A (dflt : A) (v : vec A) l, vec_traverse v = Ok l ->
  exists v', vec_copy dflt v = Ok v' /\
    vec_traverse v' = Ok (l ++ replicate (vec_capacity v - length l) dflt).
Proof.
  intros A dflt v l Hv. apply traverse_vrep in Hv. destruct (copy_ok dflt v l Hv) as (v' & He & Hr & _).
  exists v'. split; [done|]. by apply vrep_traverse.
Qed.
Print Assumptions C61_copy.
Theorem C61_assign : forall A (dflt : A) (self other : vec A) ls lo,
  vec_traverse self = Ok ls -> vec_traverse other = Ok lo ->
  exists v', vec_assign dflt self other = Ok v' /\
    vec_traverse v' = Ok (if vec_capacity other <=? vec_capacity self then []
                          else lo ++ replicate (vec_capacity other - length lo) dflt).
Proof.
  intros A dflt self other ls lo Hs Ho. apply traverse_vrep in Hs, Ho.
  destruct (assign_ok dflt self ls other lo Hs Ho) as (v' & He & Hr & _).
  exists v'. split; [done|]. by apply vrep_traverse in Hr as [-> _].
Qed.
Print Assumptions C61_assign.
Example C61_example : exists v, vec_copy 0 ex_vec = Ok v /\ vec_traverse v = Ok [1; 2; 0; 0].
Proof. eexists. vm_compute. auto. Qed.

(** ** C07 positions survive *)
(** [gen] identifies the block; a position is a slot of it *)
Theorem C07_positions_survive : forall A (dflt : A) (v : vec A) l, vec_traverse v = Ok l ->
  (* push_back and insert with room *)
  (forall a, vec_size v < vec_capacity v -> exists v', vec_push_back v (Val a) = Ok v' /\
     gen v' = gen v /\ vec_capacity v' = vec_capacity v /\ forall k x, l !! k = Some x -> vec_at v' k = Ok x) /\
  (forall pos n a, pos <= length l -> vec_size v + n <= vec_capacity v ->
     exists v', vec_insert_n dflt v pos n (Val a) = Ok (v', pos) /\ gen v' = gen v /\ vec_capacity v' = vec_capacity v /\
       (forall k x, k < pos -> l !! k = Some x -> vec_at v' k = Ok x) /\
       (forall k x, pos <= k -> l !! k = Some x -> vec_at v' (k + n) = Ok x)) /\
  (* removals *)
  (forall i j, i <= j <= length l -> exists v', vec_erase_range v i j = Ok (v', i) /\ gen v' = gen v /\
     vec_capacity v' = vec_capacity v /\
     (forall k x, k < i -> l !! k = Some x -> vec_at v' k = Ok x) /\
     (forall k x, j <= k -> l !! k = Some x -> vec_at v' (k - (j - i)) = Ok x)) /\
  (exists v', vec_pop_back v = Ok v' /\ gen v' = gen v /\ vec_capacity v' = vec_capacity v /\
     forall k x, S k < length l -> l !! k = Some x -> vec_at v' k = Ok x) /\
  (exists v', vec_clear v = Ok v' /\ gen v' = gen v /\ vec_capacity v' = vec_capacity v) /\
  (forall n a, n <= vec_capacity v -> exists v', vec_resize_with_value dflt v n (Some (Val a)) = Ok v' /\ gen v' = gen v /\
     vec_capacity v' = vec_capacity v /\ forall k x, k < n -> l !! k = Some x -> vec_at v' k = Ok x) /\
  (* no room: a fresh block *)
  (forall a, vec_size v = vec_capacity v -> exists v', vec_push_back v (Val a) = Ok v' /\ gen v' = S (gen v)) /\
  (forall pos a, pos <= length l -> vec_size v = vec_capacity v ->
     exists v', vec_insert dflt v pos (Val a) = Ok (v', pos) /\ gen v' = S (gen v)).
Proof.
  intros A dflt v l Ht. apply traverse_vrep in Ht as Hv. pose proof (vrep_cap _ _ Hv) as Hc.
  assert (fin v = length l) as Hf by (destruct Hv as (? & ? & ?); done). unfold vec_size, vec_capacity.
  split; [|split; [|split; [|split; [|split; [|split; [|split]]]]]].
  - intros a H. destruct (push_back_ok v l a Hv) as (v' & He & Hr & Hg). rewrite (proj2 (Nat.ltb_lt _ _)) in Hg by lia.
    destruct Hg as (Hg & _ & Hcap). exists v'. split; [done|]. split; [done|]. split; [done|].
    intros k x Hk. eapply vrep_at; [done|]. rewrite lookup_app_l; [done|by eapply lookup_lt_Some].
  - intros pos n a Hp Hn. destruct (insert_n_ok dflt v l pos n a Hv Hp) as (v' & He & Hr & Hg).
    { unfold insert_fits. rewrite (proj2 (Nat.leb_le n _)) by lia. done. }
    rewrite (proj2 (Nat.leb_le _ _)) in Hg by lia. destruct Hg as (Hg & _ & Hcap). exists v'.
    split; [done|]. split; [done|]. split; [done|]. split; intros k x Hk Hx; eapply vrep_at; try done; unfold seq_insert.
    + rewrite lookup_app_l; [|rewrite take_length; lia]. by rewrite lookup_take.
    + pose proof (lookup_lt_Some _ _ _ Hx). rewrite lookup_app_r; rewrite take_length; [|lia].
      rewrite lookup_app_r; rewrite replicate_length; [|lia]. rewrite lookup_drop. rewrite <- Hx. f_equal. lia.
  - intros i j Hij. destruct (erase_range_ok v l i j Hv Hij) as (v' & He & Hr & Hg & Hcap & _).
    exists v'. split; [done|]. split; [done|]. split; [done|].
    split; intros k x Hk Hx; eapply vrep_at; try done; unfold seq_delete.
    + rewrite lookup_app_l; [|rewrite take_length; lia]. by rewrite lookup_take.
    + pose proof (lookup_lt_Some _ _ _ Hx). rewrite lookup_app_r; rewrite take_length; [|lia].
      rewrite lookup_drop. rewrite <- Hx. f_equal. lia.
  - destruct (pop_back_ok v l Hv) as (v' & He & Hr & Hb & Hg & _). exists v'. split; [done|]. split; [done|].
    split; [by rewrite Hb|]. intros k x Hk Hx. eapply vrep_at; [done|]. rewrite lookup_take; [done|lia].
  - destruct (clear_ok v l Hv) as (v' & He & Hr & Hb & Hg & _). exists v'. by rewrite Hb.
  - intros n a Hn. destruct (resize_ok dflt v l n (Some (Val a)) a Hv) as (v' & He & Hr & Hg); [done|].
    rewrite (proj2 (Nat.leb_le _ _)) in Hg by lia. destruct Hg as (Hg & _ & Hcap). exists v'.
    split; [done|]. split; [done|]. split; [done|]. intros k x Hk Hx. eapply vrep_at; [done|].
    unfold seq_resize. pose proof (lookup_lt_Some _ _ _ Hx). rewrite lookup_app_l; [|rewrite take_length; lia].
    by rewrite lookup_take.
  - intros a H. destruct (push_back_ok v l a Hv) as (v' & He & Hr & Hg). rewrite (proj2 (Nat.ltb_ge _ _)) in Hg by lia.
    destruct Hg. eauto.
  - intros pos a Hp H. destruct (insert_n_ok dflt v l pos 1 a Hv Hp) as (v' & He & Hr & Hg); [by apply insert_fits_one|].
    rewrite (proj2 (Nat.leb_gt _ _)) in Hg by lia. destruct Hg. eauto.
Qed.
Print Assumptions C07_positions_survive.
Example C07_example : vec_traverse ex_vec = Ok [1; 2] /\ vec_size ex_vec < vec_capacity ex_vec.
Proof. split; [done|]. cbn. lia. Qed.

(** ** C63 removing elements destroys exactly those; C64 every element is destroyed exactly once *)
Theorem C63_vector_removals : forall A (v : vec A) l, vec_traverse v = Ok l ->
  (exists v', vec_pop_back v = Ok v' /\ dead v' = dead v ++ drop (length l - 1) l) /\
  (forall i x, l !! i = Some x -> exists v', vec_erase v i = Ok (v', i) /\ dead v' = dead v ++ [x]) /\
  (forall i j, i <= j <= length l -> exists v', vec_erase_range v i j = Ok (v', i) /\
     dead v' = dead v ++ take (j - i) (drop i l)) /\
  (exists v', vec_clear v = Ok v' /\ dead v' = dead v ++ l) /\
  vec_destroy v = Ok (dead v ++ l).
Proof.
  intros A v l Hv. apply traverse_vrep in Hv.
  destruct (clear_ok v l Hv) as (v' & He & _ & _ & _ & Hd).
  split; [|split; [|split; [|split]]].
  - destruct (pop_back_ok v l Hv) as (v1 & ? & _ & _ & _ & ?). eauto.
  - intros i x Hx. destruct (erase_ok v l i x Hv Hx) as (v1 & ? & _ & _ & _ & ?). eauto.
  - intros i j Hij. destruct (erase_range_ok v l i j Hv Hij) as (v1 & ? & _ & _ & _ & ?). eauto.
  - eauto.
  - unfold vec_destroy. rewrite He. cbn [rbind]. by rewrite Hd.
Qed.
Print Assumptions C63_vector_removals.
Theorem C63_vector_shrinking : forall A (dflt : A) (v : vec A) l n value, vec_traverse v = Ok l -> n <= length l ->
  exists v', vec_resize_with_value dflt v n value = Ok v' /\ dead v' = dead v ++ drop n l.
Proof.
  intros A dflt v l n value Hv Hn. apply traverse_vrep in Hv. pose proof (vrep_cap v l Hv) as Hc.
  assert (fin v = length l) as Hf by (destruct Hv as (r&_&?); done).
  assert (vec_resize_with_value dflt v n value = vec_resize_with_value dflt v n None) as ->.
  { unfold vec_resize_with_value. destruct (Nat.ltb_spec (vec_size v) n) as [H|H]; [|done]. unfold vec_size in H. lia. }
  destruct (resize_ok dflt v l n None dflt Hv eq_refl) as (v' & He & _ & Hd).
  destruct (Nat.leb_spec n (length (buf v))); [|lia]. destruct Hd as (_ & Hd & _). eauto.
Qed.
Print Assumptions C63_vector_shrinking.
Theorem C64_vector_destroyed_once_refuted : exists (os : list (vec_op nat)) v ds,
  vec_run 0 vec_create os = Ok v /\ vec_destroy v = Ok ds /\
  ~ ds ≡ₚ vec_all_added 0 [] os.
Proof.
  exists [VPushBack 1; VPushBack 2]. eexists _, _. split; [vm_compute; reflexivity|].
  split; [vm_compute; reflexivity|]. intros H. apply Permutation_length in H. vm_compute in H. lia.
Qed.
Print Assumptions C64_vector_destroyed_once_refuted.
(** What holds: exact accounting of one step — a step that changes the block destroys all current
    elements on top — and so exactly-once for histories that never reallocate (missing: the others). *)
Theorem C64_vector_destroyed_partial : forall A (dflt : A) (v : vec A) l, vec_traverse v = Ok l ->
  (forall o v', vec_step dflt v o = Ok v' ->
    dead v' ++ vec_spec dflt l o ≡ₚ dead v ++ l ++ vec_added dflt l o ++ (if gen v' =? gen v then [] else l)) /\
  (forall os v' ds, vec_run dflt v os = Ok v' -> gen v' = gen v -> vec_destroy v' = Ok ds ->
    ds ≡ₚ dead v ++ l ++ vec_all_added dflt l os).
Proof.
  intros A dflt v l Hv. apply traverse_vrep in Hv. split.
  - intros o v' Ho. by apply step_dead.
  - intros os v' ds Hr Hg Hd. destruct (run_ok dflt os v l Hv) as (v1 & H1 & Hv1). rewrite Hr in H1. injection H1 as <-.
    unfold vec_destroy in Hd. destruct (clear_ok _ _ Hv1) as (v2 & He & _ & _ & _ & Hd2). rewrite He in Hd. cbn [rbind] in Hd.
    injection Hd as <-. rewrite Hd2. by apply (run_dead dflt os v l v' Hv Hr).
Qed.
Print Assumptions C64_vector_destroyed_partial.
Example C64_example : exists v', vec_run 0 ex_vec [VPushBack 5; VErase 0; VInsert 1 4] = Ok v' /\ gen v' = gen ex_vec /\
  vec_destroy v' = Ok [1; 2; 4; 5].
Proof. eexists. vm_compute. auto. Qed.

(** ** C65 adding an element of the vector to the vector itself *)
Theorem C65_vector_self_insert_refuted :
  (exists (v : vec nat) l i x, vec_traverse v = Ok l /\ l !! i = Some x /\ vec_push_back v (Own (gen v) i) = UB) /\
  (exists (v : vec nat) l i x v', vec_traverse v = Ok l /\ l !! i = Some x /\
     vec_insert 0 v 0 (Own (gen v) i) = Ok (v', 0) /\ vec_traverse v' <> Ok (seq_insert 0 [x] l)).
Proof.
  split.
  - exists (Vec [Some 1] 1 1 []), [1], 0, 1. vm_compute. auto.
  - exists ex_vec, [1; 2], 1, 2. eexists. split; [done|]. split; [done|]. split; [vm_compute; reflexivity|].
    vm_compute. congruence.
Qed.
Print Assumptions C65_vector_self_insert_refuted.
(** What the calls do: with spare capacity push_back adds the element; insert adds the element if it lies
    at or before the position, otherwise its predecessor; without spare capacity both read freed memory. *)
Theorem C65_vector_self_insert_partial : forall A (dflt : A) (v : vec A) l i x,
  vec_traverse v = Ok l -> l !! i = Some x ->
  (if vec_size v <? vec_capacity v
   then exists v', vec_push_back v (Own (gen v) i) = Ok v' /\ vec_traverse v' = Ok (l ++ [x])
   else vec_push_back v (Own (gen v) i) = UB) /\
  forall pos, pos <= length l ->
   if vec_size v <? vec_capacity v
   then exists v' y, vec_insert dflt v pos (Own (gen v) i) = Ok (v', pos) /\
          vec_traverse v' = Ok (seq_insert pos [y] l) /\ l !! (if i <=? pos then i else i - 1) = Some y
   else vec_insert dflt v pos (Own (gen v) i) = UB.
Proof.
  intros A dflt v l i x Ht Hx. apply traverse_vrep in Ht as Hv. pose proof (vrep_cap _ _ Hv) as Hc.
  unfold vec_size, vec_capacity. split.
  - rewrite (push_back_own v l i x Hv Hx). destruct (fin v <? length (buf v)) eqn:E; [|done].
    destruct (push_back_ok v l x Hv) as (v' & ? & ? & _). exists v'. split; [done|]. by apply vrep_traverse.
  - intros pos Hp. rewrite (insert_own dflt v l pos i x Hv Hx Hp). destruct (fin v <? length (buf v)) eqn:E; [|done].
    pose proof (lookup_lt_Some _ _ _ Hx).
    assert (exists y, l !! (if i <=? pos then i else i - 1) = Some y) as [y Hy].
    { apply lookup_lt_is_Some_2. destruct (i <=? pos); lia. }
    destruct (insert_n_ok dflt v l pos 1 y Hv Hp) as (v' & He & Hr & _); [by apply insert_fits_one|].
    exists v', y. split; [|split; [by apply vrep_traverse|done]].
    destruct (i <=? pos); rewrite Hy; exact He.
Qed.
Print Assumptions C65_vector_self_insert_partial.
Example C65_example : exists v', vec_push_back ex_vec (Own (gen ex_vec) 0) = Ok v' /\ vec_traverse v' = Ok [1; 2; 1].
Proof. eexists. vm_compute. auto. Qed.

(** ** C66, C67 iterator arithmetic (vector and deque iterators) on machine addresses *)
(** In a block of [cap] elements of [es] bytes at address [base], the iterators of position [i] are the
    addresses [base + i * es]. *)
Theorem C66_iterator_arithmetic : forall base es cap : Z, block_ok base es cap ->
  let at_ i := (base + i * es)%Z in
  (forall i j, at_ i = at_ j -> i = j)%Z /\
  (forall i j, iter_less (at_ i) (at_ j) = (i <? j)%Z /\ riter_less (at_ i) (at_ j) = (j <? i)%Z) /\
  (forall i, 0 <= i < cap -> iter_inc es (at_ i) = at_ (i + 1) /\ riter_dec es (at_ i) = at_ (i + 1))%Z /\
  (forall i, 0 < i <= cap -> iter_dec es (at_ i) = at_ (i - 1) /\ riter_inc es (at_ i) = at_ (i - 1) /\
     riter_deref es (at_ i) = at_ (i - 1))%Z /\
  (forall i n, 0 <= i <= cap -> 0 <= i + n <= cap -> iter_advance es (at_ i) n = at_ (i + n))%Z /\
  (forall i n, 0 <= i <= cap -> 0 <= i - n <= cap -> riter_advance es (at_ i) n = at_ (i - n))%Z /\
  (forall i j, 0 <= i <= j -> j <= cap -> iter_distance es (at_ i) (at_ j) = j - i /\
     riter_distance es (at_ j) (at_ i) = j - i)%Z.
Proof.
  intros base es cap HB at_. split; [|split; [|split; [|split; [|split; [|split]]]]].
  - apply (slot_inj _ _ _ HB).
  - intros i j. split; apply (slot_lt _ _ _ HB).
  - intros i Hi. split; [by apply (iter_inc_ok _ _ _ HB)|by apply (riter_dec_ok _ _ _ HB)].
  - intros i Hi. split; [by apply (iter_dec_ok _ _ _ HB)|]. split; by apply (riter_inc_ok _ _ _ HB).
  - intros i n. by apply (iter_advance_ok _ _ _ HB).
  - intros i n. by apply (riter_advance_ok _ _ _ HB).
  - intros i j Hi Hj. split.
    + etransitivity; [apply (iter_distance_ok _ _ _ HB); lia|]. by rewrite (proj2 (Z.leb_le i j)) by lia.
    + etransitivity; [apply (riter_distance_ok _ _ _ HB); lia|]. by rewrite (proj2 (Z.leb_le i j)) by lia.
Qed.
Print Assumptions C66_iterator_arithmetic.
Example C66_example : block_ok 4096 8 1000.
Proof. unfold block_ok. lia. Qed.
Theorem C67_distance_refuted : exists base es cap i j : Z, block_ok base es cap /\ (0 <= i <= cap)%Z /\ (0 <= j <= cap)%Z /\
  iter_distance es (base + i * es) (base + j * es) <> (j - i)%Z.
Proof.
  exists 4096%Z, 4%Z, 10%Z, 3%Z, 1%Z. split; [unfold block_ok; lia|]. split; [lia|]. split; [lia|]. vm_compute. congruence.
Qed.
Print Assumptions C67_distance_refuted.
(** What is returned: [j - i] when [i <= j] or elements are single bytes, otherwise it is off by
    [2^64 / es].  Missing: backward distances of multi-byte elements. *)
Theorem C67_distance_partial : forall base es cap : Z, block_ok base es cap ->
  forall i j, (0 <= i <= cap -> 0 <= j <= cap ->
  iter_distance es (base + i * es) (base + j * es) =
    (if (i <=? j) || (es =? 1) then j - i else 2 ^ 64 / es + (j - i)) /\
  riter_distance es (base + i * es) (base + j * es) =
    (if (j <=? i) || (es =? 1) then i - j else 2 ^ 64 / es + (i - j)) /\
  (es <> 1 -> j < i -> iter_distance es (base + i * es) (base + j * es) <> j - i))%Z.
Proof.
  intros base es cap HB i j Hi Hj.
  pose proof (iter_distance_ok _ _ _ HB i j Hi Hj) as H1. pose proof (riter_distance_ok _ _ _ HB i j Hi Hj) as H2.
  unfold slot in H1, H2. split; [exact H1|]. split; [exact H2|].
  intros Hes Hlt. rewrite H1. rewrite (proj2 (Z.leb_gt i j)) by lia. rewrite (proj2 (Z.eqb_neq es 1)) by lia. cbn [orb].
  pose proof (quotient_pos _ _ _ HB Hes (i - j)%Z ltac:(lia)). lia.
Qed.
Print Assumptions C67_distance_partial.
