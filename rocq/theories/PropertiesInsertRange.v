(** PropertiesInsertRange.v — inserting a range of another container into a vector or deque (C130).
    [shown M q]: in memory [M] there is a container (list, forward list, vector, deque or tree, read forwards or backwards)
    with positions [q.1.2] and elements [q.2]. *)
From stdpp Require Import list gmap.
From Verif Require Import Base Spec SpecSeq Buffer Vector VectorProofs Deque DequeProofs PropertiesDeque OomSeq DList Slist Tree Iter IterWorld
  SpecIter IterWorldProofs InsertRange InsertRangeProofs IterLift PropertiesIter.
From stdpp Require Import list.

(** ** C130 insert_range inserts the elements of the range, in order, in front of the position *)
(** False, for every vector, deque, valid position and range (even an empty one): the iterators lose their positions on the way *)
Theorem C130_vector_refuted : forall A {CK : Checked} (dflt : A) M oks v l pos first last fuel,
  vec_traverse v = Ok l -> pos <= length l -> vec_insert_range dflt M oks by_value (S fuel) v pos first last = UB.
Proof.
  intros A CK dflt M oks v l pos first last fuel Hv Hp. apply traverse_vrep in Hv as (r & Hb & Hf).
  unfold vec_insert_range. rewrite (proj2 (Nat.leb_le _ _)) by lia. done.
Qed.
Print Assumptions C130_vector_refuted.
Theorem C130_deque_refuted : forall A {CK : Checked} (dflt : A) M oks d l i first last fuel,
  deq_holds d l -> i <= length l -> deq_insert_range dflt M oks by_value (S fuel) d (dstart d + i) first last = UB.
Proof.
  intros A CK dflt M oks d l i first last fuel Hd Hi. apply holds_drep in Hd. destruct (drep_bounds _ _ Hd) as [Hf _].
  unfold deq_insert_range, deq_valid. rewrite !(proj2 (Nat.leb_le _ _)) by lia. done.
Qed.
Print Assumptions C130_deque_refuted.

(** What holds: with an invalid position nothing happens (and end() is returned) ... *)
Theorem C130_invalid_partial : forall A {CK : Checked} (dflt : A) M oks pass fuel first last,
  (forall v l pos, vec_traverse v = Ok l -> length l < pos ->
    vec_insert_range dflt M oks pass fuel v pos first last = Ok (v, vec_size v)) /\
  (forall d l pos, deq_holds d l -> pos < dstart d \/ dstart d + length l < pos ->
    deq_insert_range dflt M oks pass fuel d pos first last = Ok (d, dstart d + length l)).
Proof.
  intros A CK dflt M oks pass fuel first last. split.
  - intros v l pos Hv Hp. apply traverse_vrep in Hv as (r & Hb & Hf). unfold vec_insert_range.
    by rewrite (proj2 (Nat.leb_gt _ _)) by lia.
  - intros d l pos Hd Hp. apply holds_drep in Hd. destruct (drep_bounds _ _ Hd) as [Hf _]. unfold deq_insert_range, deq_valid.
    destruct Hp.
    + rewrite (proj2 (Nat.leb_gt (dstart d) pos)) by lia. cbn [andb negb]. by rewrite Hf.
    + rewrite (proj2 (Nat.leb_gt pos (dfin d))) by lia. rewrite andb_false_r. cbn [negb]. by rewrite Hf.
Qed.
Print Assumptions C130_invalid_partial.
(** ... and if the iterators were passed whole the functions would be right: the whole range is inserted in order and the position
    after it is returned, or malloc fails once the first [n] elements are inserted, and end() is returned *)
Theorem C130_vector_whole_partial : forall A {CK : Checked} (dflt : A) M oks (q : cont * list cpos * list A) v l pos i j first last,
  shown M q -> q.1.2 !! i = Some first -> q.1.2 !! j = Some last -> i <= j ->
  vec_traverse v = Ok l -> pos <= length l ->
  exists fuel n v' r, vec_insert_range dflt M oks whole fuel v pos first last = Ok (v', r) /\
    vec_traverse v' = Ok (take pos l ++ take n (drop i q.2) ++ drop pos l) /\
    (n = j - i /\ r = pos + n \/ n < j - i /\ oks n = false /\ r = length l + n).
Proof.
  intros A CK dflt M oks [[c ps] vs] v l pos i j first last HS Hi Hj Hij Hv Hp. cbn [fst snd] in *. apply traverse_vrep in Hv.
  destruct (vec_loop_ok dflt M oks c ps vs last j (shows_view _ _ _ _ HS) Hj (j - i) 0 v l pos i first ltac:(lia) Hi Hv Hp)
    as (m & v' & r & E & Hv' & HR).
  exists (S (j - i)), m, v', r. split.
  - unfold vec_insert_range. destruct Hv as (r0 & Hb & Hf). by rewrite (proj2 (Nat.leb_le _ _)) by lia.
  - split; [by apply vrep_traverse|]. destruct HR as [[-> ->]|HR]; [by left|by right].
Qed.
Print Assumptions C130_vector_whole_partial.
Theorem C130_deque_whole_partial : forall A {CK : Checked} (dflt : A) M oks (q : cont * list cpos * list A) d l pos i j first last,
  shown M q -> q.1.2 !! i = Some first -> q.1.2 !! j = Some last -> i <= j ->
  deq_holds d l -> pos <= length l ->
  exists fuel n d' r, deq_insert_range dflt M oks whole fuel d (dstart d + pos) first last = Ok (d', dstart d' + r) /\
    deq_holds d' (take pos l ++ take n (drop i q.2) ++ drop pos l) /\
    (n = j - i /\ r = pos + n \/ n < j - i /\ oks n = false /\ r = length l + n).
Proof.
  intros A CK dflt M oks [[c ps] vs] d l pos i j first last HS Hi Hj Hij Hd Hp. cbn [fst snd] in *. apply holds_drep in Hd.
  destruct (deq_loop_ok dflt M oks c ps vs last j (shows_view _ _ _ _ HS) Hj (j - i) 0 d l pos i first ltac:(lia) Hi Hd Hp)
    as (m & d' & r & E & Hd' & HR).
  exists (S (j - i)), m, d', r. split.
  - unfold deq_insert_range, deq_valid. destruct (drep_bounds _ _ Hd) as [Hf _]. by rewrite !(proj2 (Nat.leb_le _ _)) by lia.
  - split; [by apply holds_drep|]. destruct HR as [[-> ->]|HR]; [by left|by right].
Qed.
Print Assumptions C130_deque_whole_partial.

(** all of the list 10 -> 20 -> 30 into the vector 1 2 at position 1; and with malloc failing in the third insertion *)
Example C130_example : forall CK : Checked,
  let v := Vec [Some 1; Some 2] 2 0 [] in
  shown ex_M ex_list /\ ex_list.1.2 !! 0 = Some (PList false 5) /\ ex_list.1.2 !! 3 = Some (PList false 1) /\ vec_traverse v = Ok [1; 2] /\
  (exists v', vec_insert_range 0 ex_M (fun _ => true) whole 4 v 1 (PList false 5) (PList false 1) = Ok (v', 4) /\
    vec_traverse v' = Ok [1; 10; 20; 30; 2]) /\
  (exists v', vec_insert_range 0 ex_M (fun k => k <? 2) whole 4 v 1 (PList false 5) (PList false 1) = Ok (v', 4) /\
    vec_traverse v' = Ok [1; 10; 20; 2]).
Proof.
  intros CK v. split; [exact ex_list_ok|]. split; [done|]. split; [done|]. split; [done|].
  split; (eexists; split; [reflexivity|reflexivity]).
Qed.
