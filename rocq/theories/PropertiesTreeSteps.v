(** PropertiesTreeSteps.v — the cost of walking through a tree with ++ or with -- (C147), /repo/container/c_tree.c.
    [increment_within n] and [decrement_within n] (TreeSteps.v) are ++ and -- of the model with [n] as the bound
    on the iterations of their loop: they give [NoFuel] if the loop needs more. *)
From Verif Require Import Base Spec SpecSeq SpecListOps SpecTreeOps Facts DList Tree SpecTree TreeRep TreeInsert TreeErase TreeIter
  TreeUnlink TreeApi TreeOps TreeLookup TreeMod TreeCheck TreeRun TreeRunProofs TreeVerify TreeSteps PropertiesTree.
From stdpp Require Import list gmap.

(** every step from position [k] to position [k + 1] with ++, and back with --: [fw !! k] and [bw !! k] bound the
    loop iterations of the two steps *)
Definition walk_costs {K V} (h : theap V) (t : tobj K V) (n : nat) (fw bw : list nat) : Prop :=
  length fw = n /\ length bw = n /\
  forall k, k < n -> exists p q f b, tposition h t k = Ok p /\ tposition h t (S k) = Ok q /\ fw !! k = Some f /\ bw !! k = Some b /\
    increment (mem h) p = Ok q /\ increment_within f (mem h) p = Ok q /\
    decrement (mem h) q = Ok p /\ decrement_within b (mem h) q = Ok p.

(** ** C147: over the whole traversal of a tree of [n] elements the loops of ++ run at most [2 n] times together,
    and so do those of --; a single step runs at most [2 log2 (n + 1) + 2] times. *)
Theorem C147_traversal : forall K V (h : theap V) (t : tobj K V) cs, is_rbtree (mem h) t cs ->
  exists fw bw, walk_costs h t (length cs) fw bw /\
    sum_list fw <= 2 * length cs /\ sum_list bw <= 2 * length cs /\
    (forall c, c ∈ fw \/ c ∈ bw -> c <= 2 * Nat.log2 (length cs + 1) + 2).
Proof.
  intros K V h t cs HB. pose proof HB as (HW&(T&HT&HcT)&Hc&HS). pose proof (height_log _ _ _ HT) as Hh. rewrite HcT in Hh.
  assert (T = Lf \/ T <> Lf) as [->|Hne] by (destruct T; [by left|by right]).
  { cbn [cells] in HcT. subst cs. exists [], []. split; [|split; [cbn; lia|split; [cbn; lia|]]].
    - split; [done|]. split; [done|]. intros k Hk. cbn in Hk. lia.
    - intros c [H|H]; by apply elem_of_nil in H. }
  assert (Hcs : length cs = length (cells T)) by by rewrite HcT.
  pose proof (icosts_sum T 2 Hne) as Hi. pose proof (dcosts_sum T 2 Hne) as Hd.
  assert (HsL : 1 <= lspine T /\ 1 <= rspine T) by (destruct T; [done|cbn; lia]).
  pose proof (icosts_length 2 T) as Hil. pose proof (dcosts_length 2 T) as Hdl.
  destruct (dcosts 2 T) as [|d0 ds] eqn:Ed.
  { exfalso. cbn in Hdl. destruct T as [|c l x v r]; [done|]. cbn [cells] in Hdl. rewrite app_length in Hdl. cbn in Hdl. lia. }
  exists (icosts 2 T), (ds ++ [0]). split; [|split; [rewrite Hcs; lia|split]].
  - split; [by rewrite Hil|]. split; [rewrite app_length; cbn [length] in *; lia|]. intros k Hk.
    destruct (lookup_lt_is_Some_2 cs k Hk) as [[x v] Ek]. pose proof (take_drop_middle _ _ _ Ek) as Hm.
    assert (Hlt : length (take k cs) = k) by (rewrite take_length; lia).
    assert (Hp : tposition h t k = Ok (Some x)) by (rewrite (tposition_ok _ _ _ _ HB) by lia; by rewrite (drop_S _ _ _ Ek)).
    assert (Hq : tposition h t (S k) = Ok (first_loc (hdr t) (drop (S k) cs))) by (apply (tposition_ok _ _ _ _ HB); lia).
    destruct (next_tight (mem h) (hdr t) T (take k cs) x v (drop (S k) cs) HT) as (f&Hf&Ef); [by rewrite HcT|]. rewrite Hlt in Hf.
    assert (HI : increment (mem h) (Some x) = Ok (first_loc (hdr t) (drop (S k) cs))) by (eapply next_ok; [exact HT|by rewrite HcT]).
    assert (HD : decrement (mem h) (first_loc (hdr t) (drop (S k) cs)) = Ok (Some x)) by (eapply prev_at; [exact HT|by rewrite HcT]).
    destruct (drop (S k) cs) as [|[y w] rest] eqn:Er.
    + assert (S k = length cs) as Hlast.
      { apply (f_equal length) in Er. rewrite drop_length in Er. cbn in Er. lia. }
      exists (Some x), (Some (hdr t)), f, 0. split; [done|]. split; [done|]. split; [done|]. split.
      { rewrite lookup_app_r by (cbn [length] in *; lia). replace (k - length ds) with 0 by (cbn [length] in *; lia). done. }
      split; [exact HI|]. split; [exact Ef|]. split; [exact HD|].
      rewrite (prev_end_tight _ _ _ HT); [|rewrite HcT; by destruct cs]. f_equal.
      rewrite HcT. rewrite <- Hm at 1. unfold last_loc. by rewrite last_snoc.
    + destruct (prev_tight (mem h) (hdr t) T (take k cs ++ [(x, v)]) y w rest HT) as (b&Hb&Eb).
      { rewrite HcT, <- app_assoc. exact (eq_sym Hm). }
      { intros H. by apply app_nil in H as [_ H]. }
      rewrite app_length, Hlt in Hb. replace (k + length [(x, v)]) with (S k) in Hb by (cbn; lia). rewrite Ed in Hb. cbn [lookup list_lookup] in Hb.
      exists (Some x), (Some y), f, b. split; [done|]. split; [done|]. split; [done|]. split; [by apply lookup_app_l_Some|].
      split; [exact HI|]. split; [exact Ef|]. split; [exact HD|]. rewrite Eb. unfold last_loc. by rewrite last_snoc.
  - rewrite sum_list_with_app. cbn [sum_list_with]. change (sum_list_with id ds) with (sum_list ds) in *. cbn [sum_list_with] in Hd.
    change (sum_list_with id ds) with (sum_list ds) in Hd. unfold id in *. rewrite Hcs. lia.
  - intros c [H|H].
    + apply icosts_each in H. lia.
    + apply elem_of_app in H as [H|H%elem_of_list_singleton]; [|lia].
      assert (c ∈ dcosts 2 T) as H'%dcosts_each by (rewrite Ed; by right). lia.
Qed.
Print Assumptions C147_traversal.
(** the bound is for the functions of the model: ++ and -- there are the bounded ones with a larger bound *)
Theorem C147_bounded_is_model : forall V (m : gmap loc (tnode V)) p,
  increment m p = increment_within (2 * size m + 3) m p /\ decrement m p = decrement_within (2 * size m + 3) m p.
Proof. intros V m p. split; [apply increment_tfuel|apply decrement_tfuel]. Qed.
Print Assumptions C147_bounded_is_model.
(** the same for every tree of every history *)
Theorem C147_history : forall K V (alloc : gmap loc (tnode V) -> loc), tmalloc_ok alloc ->
  forall (os : list (tree_op K V)) ts gone h env, Forall top_order os -> thist_spec [] os = Some (ts, gone) ->
  thist_run alloc (theap0, []) os = Ok (h, env) ->
  forall i t, env !! i = Some t -> exists fw bw, walk_costs h t (c_tree_size t) fw bw /\
    sum_list fw <= 2 * c_tree_size t /\ sum_list bw <= 2 * c_tree_size t /\
    (forall c, c ∈ fw \/ c ∈ bw -> c <= 2 * Nat.log2 (c_tree_size t + 1) + 2).
Proof.
  intros K V alloc Ha os ts gone h env Ho Hs Hr i t Hi. destruct (C21_history K V alloc Ha os ts gone Ho Hs) as (h'&env'&E&Hlen&H).
  rewrite Hr in E. injection E as <- <-. destruct (lookup_lt_is_Some_2 ts i) as [tm Htm]; [rewrite <- Hlen; by eapply lookup_lt_Some|].
  destruct (H i tm Htm) as (t'&cs&Hi'&HB&_). rewrite Hi in Hi'. injection Hi' as <-. pose proof HB as (_&_&Hc&_).
  unfold c_tree_size. rewrite Hc. by apply C147_traversal.
Qed.
Print Assumptions C147_history.
(** a tree with five elements: the first step down from the end needs none, every step has its bound *)
Example C147_example : exists (t : tobj nat nat) cs fw bw, is_rbtree (mem ex_tree.1) t cs /\ length cs = 5 /\
  walk_costs ex_tree.1 t 5 fw bw /\ sum_list fw <= 10 /\ sum_list bw <= 10.
Proof.
  destruct ex_tree_ok as (t&cs&_&HB&Hcs&_). apply (f_equal length) in Hcs. rewrite fmap_length in Hcs. cbn [length] in Hcs.
  destruct (C147_traversal _ _ _ t cs HB) as (fw&bw&HC&Hf&Hb&_). rewrite Hcs in HC, Hf, Hb. exists t, cs, fw, bw. done.
Qed.
