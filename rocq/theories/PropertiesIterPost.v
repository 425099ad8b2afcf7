(** PropertiesIterPost.v — C134: all iterators implement one interface.  The notions used ([shown], [at_pos]) are those of
    SpecIter.v and PropertiesIter.v: [at_pos S q x i] says that iterator object [x] stands at position [i] of the container [q]. *)
From stdpp Require Import list gmap.
From Verif Require Import Base Spec DList SpecList Slist SpecSlist Tree SpecTree Vector Deque VectorProofs DequeProofs
  Iter IterWorld SpecIter IterWorldProofs IterPost PropertiesIter.
From stdpp Require Import list.
#[local] Instance checked_pointers : Checked := true.

(** ** C134: equality is position, less is order, distance is the difference, advance moves by its argument (backwards only
    where the category allows it), dereferencing gives the element; for every container and direction *)
Theorem C134_interface : forall A {CK : Checked} M (q : cont * list cpos * list A), shown M q ->
  length q.1.2 = S (length q.2) /\
  forall i j p p', q.1.2 !! i = Some p -> q.1.2 !! j = Some p' ->
    c_eq p p' = Ok (i =? j) /\
    (cat_of q.1.1 = RANDOM -> c_less p p' = Ok (i <? j)) /\
    (i <= j -> c_dist M p p' = Ok (Z.of_nat j - Z.of_nat i)%Z) /\
    (i <= j \/ cat_of q.1.1 <> FORWARD -> c_adv M p (Z.of_nat j - Z.of_nat i) = Ok p') /\
    (j = S i -> c_inc M p = Ok p' /\ (cat_of q.1.1 <> FORWARD -> c_dec M p' = Ok p)) /\
    (forall v, q.2 !! i = Some v -> c_deref M p = Ok v).
Proof.
  intros A CK M [[c ps] vs] Hq. apply shows_view in Hq. destruct Hq as [h1 h2 h3 h4 h5 h6 h7 h8 h9].
  assert (cat_of c <> FORWARD -> BIDIRECTION <= cat_of c) as Hc.
  { destruct c as [| | | |[]]; cbn; unfold FORWARD, BIDIRECTION, RANDOM; try done; intros; lia. }
  split; [done|]. intros i j p p' Hi Hj. cbn [fst snd] in *. split_and!.
  - eauto.
  - intros E. apply h8; [by rewrite E|done..].
  - eauto.
  - intros [H|H]; eauto.
  - intros ->. split; [eauto|]. intros H. apply (h4 (Hc H) i); done.
  - eauto.
Qed.

(** ** post-increment and post-decrement move the iterator and return an iterator that stays behind.  [tmp] is null (the
    function allocates) or another iterator object of the same kind. *)
Definition tmp_ok {A} (S : gmap iid cpos) (q : cont * list cpos * list A) (x : iid) (tmp : option iid) : Prop :=
  match tmp with None => True | Some t => t <> x /\ exists p, S !! t = Some p /\ ckind p = kind_of q.1.1 end.
Lemma post_ok {A} {CK : Checked} (move : cmem A -> cpos -> res cpos) M S (q : cont * list cpos * list A) x tmp i j p p' :
  shown M q -> q.1.2 !! i = Some p -> S !! x = Some p -> q.1.2 !! j = Some p' -> move M p = Ok p' -> tmp_ok S q x tmp ->
  exists t S', post move M S x tmp true = Ok (Some t, S') /\ t <> x /\ (tmp = Some t \/ tmp = None /\ S !! t = None) /\
    at_pos S' q x j /\ at_pos S' q t i /\ (forall y, y <> x -> y <> t -> S' !! y = S !! y).
Proof.
  intros Hq Hi Hx Hj Hm Ht. pose proof (shows_view _ _ _ _ Hq) as V.
  unfold post. rewrite Hx. destruct tmp as [t|].
  - destruct Ht as (Htx & u & Hu & Hk). rewrite Hu, Hk.
    rewrite (Forall_lookup_1 _ _ _ _ (s_kind _ _ _ _ V) Hi), Nat.eqb_refl. cbn [rbind]. rewrite Hm. cbn [rbind].
    rewrite decide_False by done. eexists t, _. split; [reflexivity|]. split; [done|]. split; [by left|]. split_and!.
    + exists p'. split; [done|]. by rewrite lookup_insert.
    + exists p. split; [done|]. rewrite lookup_insert_ne by done. by rewrite lookup_insert.
    + intros y H1 H2. by rewrite !lookup_insert_ne.
  - cbn [rbind]. rewrite Hm. cbn [rbind]. eexists _, _. split; [reflexivity|].
    assert (S !! fresh (dom S) = None) as Hf by (apply not_elem_of_dom, is_fresh).
    assert (fresh (dom S) <> x) as Hfx by (intros E; rewrite E, Hx in Hf; done).
    split; [done|]. split; [by right|]. split_and!.
    + exists p'. split; [done|]. by rewrite lookup_insert.
    + exists p. split; [done|]. rewrite lookup_insert_ne by done. by rewrite lookup_insert.
    + intros y H1 H2. by rewrite !lookup_insert_ne.
Qed.
Theorem C134_post_increment : forall A {CK : Checked} M S (q : cont * list cpos * list A) x tmp i,
  shown M q -> at_pos S q x i -> i < length q.2 -> tmp_ok S q x tmp ->
  exists t S', post_inc M S x tmp true = Ok (Some t, S') /\ t <> x /\ (tmp = Some t \/ tmp = None /\ S !! t = None) /\
    at_pos S' q x (i + 1) /\ at_pos S' q t i /\ (forall y, y <> x -> y <> t -> S' !! y = S !! y).
Proof.
  intros A CK M S q x tmp i Hq (p&Hi&Hx) Hlt Ht. pose proof (shows_view _ _ _ _ Hq) as V.
  destruct (lookup_lt_is_Some_2 q.1.2 (Datatypes.S i)) as [p' Hj]; [rewrite (s_len _ _ _ _ V); lia|].
  replace (i + 1) with (Datatypes.S i) by lia.
  exact (post_ok c_inc M S q x tmp i (Datatypes.S i) p p' Hq Hi Hx Hj (s_inc _ _ _ _ V i p p' Hi Hj) Ht).
Qed.
Theorem C134_post_decrement : forall A {CK : Checked} M S (q : cont * list cpos * list A) x tmp i,
  shown M q -> cat_of q.1.1 <> FORWARD -> at_pos S q x (i + 1) -> tmp_ok S q x tmp ->
  exists t S', post_dec M S x tmp true = Ok (Some t, S') /\ t <> x /\ (tmp = Some t \/ tmp = None /\ S !! t = None) /\
    at_pos S' q x i /\ at_pos S' q t (i + 1) /\ (forall y, y <> x -> y <> t -> S' !! y = S !! y).
Proof.
  intros A CK M S q x tmp i Hq Hc (p'&Hj&Hx) Ht. pose proof (shows_view _ _ _ _ Hq) as V.
  destruct (lookup_lt_is_Some_2 q.1.2 i) as [p Hi]; [apply lookup_lt_Some in Hj; lia|].
  apply (post_ok c_dec M S q x tmp (i + 1) i p' p Hq Hj Hx Hi); [|done].
  destruct (C134_interface A M q Hq) as [_ H]. replace (i + 1) with (Datatypes.S i) in Hj by lia.
  destruct (H i (Datatypes.S i) p p' Hi Hj) as (_&_&_&_&H5&_). by apply H5.
Qed.
(** without memory: the iterator moves all the same, a null pointer is returned *)
Theorem C134_post_no_memory : forall A {CK : Checked} M S (q : cont * list cpos * list A) x i,
  shown M q -> at_pos S q x i -> i < length q.2 ->
  exists S', post_inc M S x None false = Ok (None, S') /\ at_pos S' q x (i + 1) /\ (forall y, y <> x -> S' !! y = S !! y).
Proof.
  intros A CK M S q x i Hq (p&Hi&Hx) Hlt. pose proof (shows_view _ _ _ _ Hq) as V.
  destruct (lookup_lt_is_Some_2 q.1.2 (Datatypes.S i)) as [p' Hj]; [rewrite (s_len _ _ _ _ V); lia|].
  unfold post_inc, post. rewrite Hx. cbn [rbind]. rewrite (s_inc _ _ _ _ V i p p' Hi Hj). cbn [rbind].
  eexists. split; [reflexivity|]. split.
  - exists p'. replace (i + 1) with (Datatypes.S i) by lia. split; [done|]. by rewrite lookup_insert.
  - intros y Hy. by rewrite lookup_insert_ne.
Qed.
(** the temporary must be another object: handed itself, the function returns the moved iterator *)
Theorem C134_post_self : forall A {CK : Checked} M S (q : cont * list cpos * list A) x i,
  shown M q -> at_pos S q x i -> i < length q.2 ->
  exists S', post_inc M S x (Some x) true = Ok (Some x, S') /\ at_pos S' q x (i + 1).
Proof.
  intros A CK M S q x i Hq (p&Hi&Hx) Hlt. pose proof (shows_view _ _ _ _ Hq) as V.
  destruct (lookup_lt_is_Some_2 q.1.2 (Datatypes.S i)) as [p' Hj]; [rewrite (s_len _ _ _ _ V); lia|].
  unfold post_inc, post. rewrite Hx, Nat.eqb_refl. cbn [rbind]. rewrite (s_inc _ _ _ _ V i p p' Hi Hj). cbn [rbind].
  eexists. split; [reflexivity|]. exists p'. replace (i + 1) with (Datatypes.S i) by lia. split; [done|]. by rewrite lookup_insert.
Qed.
(** reading through the result of post-increment, again and again with one temporary, reads the elements in order *)
Theorem C134_read_all : forall A {CK : Checked} M S (q : cont * list cpos * list A) x i n,
  shown M q -> at_pos S q x i -> i + n <= length q.2 ->
  exists t S', read_post M S x None n = Ok (take n (drop i q.2), t, S') /\ at_pos S' q x (i + n) /\
    (forall y, is_Some (S !! y) -> y <> x -> S' !! y = S !! y) /\ (forall y, is_Some (S' !! y) -> is_Some (S !! y) \/ t = Some y).
Proof.
  intros A CK M S q x i n Hq Hx Hn. pose proof (shows_view _ _ _ _ Hq) as V.
  enough (forall S1 tmp, at_pos S1 q x i -> tmp_ok S1 q x tmp ->
    (forall y, is_Some (S !! y) -> y <> x -> S1 !! y = S !! y /\ tmp <> Some y) ->
    (forall y, is_Some (S1 !! y) -> is_Some (S !! y) \/ tmp = Some y) -> is_Some (S !! x) ->
    exists t S', read_post M S1 x tmp n = Ok (take n (drop i q.2), t, S') /\ at_pos S' q x (i + n) /\
      (forall y, is_Some (S !! y) -> y <> x -> S' !! y = S !! y) /\ (forall y, is_Some (S' !! y) -> is_Some (S !! y) \/ t = Some y)) as H.
  { apply H; [done|done| | |]; [done|auto|]. destruct Hx as (p&_&Hx). eauto. }
  clear Hx. revert i Hn. induction n as [|n IH]; intros i Hn S1 tmp Hx Ht Hfr Hnew HSx.
  - exists tmp, S1. cbn [read_post]. rewrite take_0, Nat.add_0_r. split; [done|]. split; [done|]. split; [|done].
    intros y Hy Hyx. by apply Hfr.
  - destruct (C134_post_increment A M S1 q x tmp i Hq Hx ltac:(lia) Ht) as (t&S2&E&Htx&Htmp&Hx2&Ht2&Hrest).
    cbn [read_post]. rewrite E. cbn [rbind]. destruct Ht2 as (p&Hp&Ht2). rewrite Ht2.
    destruct (lookup_lt_is_Some_2 q.2 i) as [a Ha]; [lia|].
    rewrite (s_deref _ _ _ _ V i p a Hp Ha). cbn [rbind].
    assert (S !! t = None) as HSt.
    { destruct (S !! t) as [u|] eqn:Eu; [|done]. destruct (Hfr t ltac:(eauto) Htx) as [H1 H2].
      destruct Htmp as [->|[_ H3]]; [done|]. by rewrite H1, Eu in H3. }
    destruct (IH (i + 1) ltac:(lia) S2 (Some t)) as (t'&S'&E'&H1&H2&H3); [done| | | |done|].
    + split; [done|]. exists p. split; [done|]. exact (Forall_lookup_1 _ _ _ _ (s_kind _ _ _ _ V) Hp).
    + intros y Hy Hyx. assert (y <> t) as Hyt by (intros ->; rewrite HSt in Hy; by destruct Hy).
      rewrite Hrest by done. split; [by apply Hfr|congruence].
    + intros y Hy. destruct (decide (y = t)) as [->|Hyt]; [by right|]. destruct (decide (y = x)) as [->|Hyx]; [by left|].
      rewrite Hrest in Hy by done. destruct (Hnew y Hy) as [?| ->]; [by left|].
      destruct Htmp as [[= ->]|[? _]]; done.
    + rewrite E'. cbn [rbind]. exists t', S'. replace (i + Datatypes.S n) with (i + 1 + n) by lia. split; [|done].
      rewrite (drop_S _ _ _ Ha). cbn [take]. by replace (i + 1) with (Datatypes.S i) by lia.
Qed.
Example C134_example : shown ex_M ex_rlist /\ at_pos (<[it1 := PList true 1]> ex_S) ex_rlist it1 0 /\
  match read_post ex_M (<[it1 := PList true 1]> ex_S) it1 None 3 with Ok (l, Some t, S') => (l, S' !! it1, S' !! t) | _ => ([], None, None) end
    = ([30; 20; 10], Some (PList true 5), Some (PList true 2)).
Proof. split_and!; [apply ex_rlist_ok|here|vm_compute; reflexivity]. Qed.
