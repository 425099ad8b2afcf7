(** PropertiesSelfMerge.v — merging a list or a forward list with itself (C141, C142).  The C++ containers this
    library imitates give it no effect ([list::merge], [forward_list::merge]: "if x is the same object, does
    nothing"); the code has no such test.  The loop of the merge is a [while] of the C code: [NoFuel] for every
    fuel says that it never ends. *)
From Verif Require Import Base Spec SpecSeq SpecListOps SpecSlistOps Facts MergeFacts DList Path SpecList DListCore DListProofs DListRun DListRunProofs
  Slist SpecSlist SlistCore SlistProofs SlistAlgo SlistRun SlistRunProofs ListSelfProofs SlistSelfProofs.
From Verif Require PropertiesList PropertiesSlist.
From stdpp Require Import list gmap.

(** the loop of [c_list_merge_by l l], and of [c_slist_merge_by l l], as called *)
Definition list_self_merge_runs_for_ever {A} (comp : A -> A -> bool) (h : heap A) (s : loc) : Prop :=
  exists b, position h s 0 = Ok b /\ (forall fuel, merge_loop comp fuel h b s b s = NoFuel) /\ c_list_merge_by comp h s s = NoFuel.
Definition slist_self_merge_runs_for_ever {A} (comp : A -> A -> bool) (h : sheap A) (s : sobj) : Prop :=
  (forall fuel, smerge_loop comp fuel h s.1 s.2 s.1 s.2 = NoFuel) /\ c_slist_merge_by comp h s s = NoFuel.

(** ** C141 a list merged with itself: nothing happens exactly when no two equivalent neighbours are less than the
    last element; otherwise the call never returns *)
Theorem C141_self_merge_exact_partial : forall A comp, StrictWeakOrder comp -> forall (h : heap A) s cs, is_list h s cs -> sorted comp cs.*2 ->
  let twins := exists i x y z, cs.*2 !! i = Some x /\ cs.*2 !! S i = Some y /\ comp x y = false /\ last cs.*2 = Some z /\ comp y z = true in
  (~ twins -> c_list_merge_by comp h s s = Ok h) /\ (twins -> list_self_merge_runs_for_ever comp h s).
Proof.
  intros A comp HW h s cs HL HS twins. split; [intros HT; by apply (merge_self_ok comp HW h s cs)|]. intros HT.
  destruct cs as [|[x a] cs]; [destruct HT as (i&?&?&?&Hi&_); done|]. exists x.
  pose proof (self_never comp HW cs h s [] x a HL HS HT) as HN. split; [|split; [done|]].
  - rewrite (position_ok h s _ 0 HL) by (cbn; lia). done.
  - unfold c_list_merge_by, c_list_empty. rewrite (begin_ok h s _ HL). cbn [rbind fmap list_fmap fst hd].
    rewrite bool_decide_false by (apply (self_ne h s _ x a HL); left). cbn [rbind].
    rewrite HN. done.
Qed.
Print Assumptions C141_self_merge_exact_partial.
(** lists without equivalent elements, and lists of equivalent elements only, are left alone *)
Theorem C141_distinct_partial : forall A comp, StrictWeakOrder comp -> forall (h : heap A) s cs, is_list h s cs ->
  (forall i j x y, i < j -> cs.*2 !! i = Some x -> cs.*2 !! j = Some y -> comp x y = true) ->
  c_list_merge_by comp h s s = Ok h.
Proof.
  intros A comp HW h s cs HL HD. apply (C141_self_merge_exact_partial A comp HW h s cs HL).
  - intros i j x y Hij Hi Hj. destruct (comp y x) eqn:E; [|done]. pose proof (swo_trans _ HW x y x (HD i j x y Hij Hi Hj) E) as H.
    by rewrite (swo_irrefl _ HW) in H.
  - intros (i&x&y&z&Hi&Hj&Hxy&_). rewrite (HD i (S i) x y) in Hxy; [done|lia|done|done].
Qed.
Print Assumptions C141_distinct_partial.
Definition ex_self (l : list nat) : heap nat * list loc :=
  match lhist_run 0 PropertiesList.ex_alloc (heap0, []) [LCreateFrom l] with Ok st => st | _ => (heap0, []) end.
Lemma ex_self_ok l : l <> [] -> exists s cs, (ex_self l).2 = [s] /\ is_list (ex_self l).1 s cs /\ cs.*2 = l.
Proof.
  intros Hl. destruct (PropertiesList.C12_history_lists 0 PropertiesList.ex_alloc PropertiesList.ex_alloc_ok [LCreateFrom l] [l] []) as (h&L&E&HL&HV).
  - by repeat constructor.
  - by destruct l.
  - assert (ex_self l = (h, L.*1)) as Hx by (unfold ex_self; rewrite E; reflexivity). rewrite Hx. clear Hx E.
    destruct L as [|[s cs] [|]]; cbn in HV; try discriminate. injection HV as HV1.
    exists s, cs. split; [done|]. split; [|done]. apply (lists_in h _ (s, cs) HL). left.
Qed.
(** the list of 1, 1, 2 built through the API *)
Theorem C141_self_merge_refuted : exists s, (ex_self [1; 1; 2]).2 = [s] /\ PropertiesList.list_reads (ex_self [1; 1; 2]).1 s [1; 1; 2] /\
  list_self_merge_runs_for_ever Nat.ltb (ex_self [1; 1; 2]).1 s.
Proof.
  destruct (ex_self_ok [1; 1; 2] ltac:(done)) as (s&cs&E&HL&Hv). revert E HL. generalize (ex_self [1; 1; 2]). intros w E HL. exists s. split; [done|]. split.
  { rewrite <- Hv. by apply PropertiesList.reads_ok. }
  apply (C141_self_merge_exact_partial nat Nat.ltb PropertiesList.nat_swo _ s cs HL).
  - rewrite Hv. intros [|[|[|]]] [|[|[|]]] x y Hij Hi Hj; cbn in *; try done; try lia; by simplify_eq.
  - rewrite Hv. by exists 0, 1, 1, 2.
Qed.
Print Assumptions C141_self_merge_refuted.
Example C141_example : (let (h, env) := ex_self [1; 2; 3; 3] in do s <- handle env 0; do h <- c_list_merge_by Nat.ltb h s s; c_list_traverse h s) = Ok [1; 2; 3; 3] /\
  (let (h, env) := ex_self [1; 1; 2] in do s <- handle env 0; do h <- c_list_merge_by Nat.ltb h s s; c_list_traverse h s) = NoFuel.
Proof. split; vm_compute; reflexivity. Qed.

(** ** C142 a forward list merged with itself: when its elements are all equivalent it comes back empty while
    every element is still allocated and not destroyed; otherwise the call never returns *)
Theorem C142_self_merge_exact_partial : forall A comp, StrictWeakOrder comp -> forall (h : sheap A) s cs, is_slist h s cs -> sorted comp cs.*2 ->
  ((forall u v, u ∈ cs.*2 -> v ∈ cs.*2 -> comp u v = false) ->
     exists h', c_slist_merge_by comp h s s = Ok h' /\ is_slist h' s [] /\ PropertiesSlist.slist_reads h' s [] /\
       (forall x a, (x, a) ∈ cs -> svalue h' x = Ok a) /\ svl h' = svl h /\ sdead h' = sdead h) /\
  ((exists u v, u ∈ cs.*2 /\ v ∈ cs.*2 /\ comp u v = true) -> slist_self_merge_runs_for_ever comp h s).
Proof.
  intros A comp HW h s cs HL HS. split.
  - intros HE. destruct (sself_emptied comp h s cs HL HE) as (h'&E&HL'&Hv&Hd&_). exists h'. split; [done|]. split; [done|].
    split; [by apply (PropertiesSlist.sreads_ok h' s [])|]. split; [|done]. intros x a Hx.
    apply svalue_ok. rewrite Hv. apply elem_of_list_split in Hx as (C&R&->). by apply (is_slist_vals h s C x a R).
  - intros HE. pose proof (sself_never comp HW h s cs HL HS HE) as HN. split; [done|]. destruct HE as (u&v&Hu&_).
    unfold c_slist_merge_by. rewrite (sempty_ok h s cs HL). cbn [rbind]. rewrite bool_decide_false by (intros ->; by apply elem_of_nil in Hu).
    by rewrite HN.
Qed.
Print Assumptions C142_self_merge_exact_partial.
Definition ex_sself (l : list nat) : sheap nat * list sobj :=
  match fhist_run 0 PropertiesSlist.ex_salloc (sheap0, []) [FCreateFrom l] with Ok st => st | _ => (sheap0, []) end.
Lemma ex_sself_ok l : l <> [] -> exists s cs, (ex_sself l).2 = [s] /\ is_slist (ex_sself l).1 s cs /\ cs.*2 = l.
Proof.
  intros Hl. destruct (PropertiesSlist.C18_history_lists 0 PropertiesSlist.ex_salloc PropertiesSlist.ex_salloc_ok [FCreateFrom l] [l] []) as (h&L&E&HL&HV).
  - by repeat constructor.
  - by destruct l.
  - assert (ex_sself l = (h, L.*1)) as Hx by (unfold ex_sself; rewrite E; reflexivity). rewrite Hx. clear Hx E.
    destruct L as [|[s cs] [|]]; cbn in HV; try discriminate. injection HV as HV1.
    exists s, cs. split; [done|]. split; [|done]. apply (slists_in h _ (s, cs) HL). left.
Qed.
(** the forward lists of 1, 2 and of 7, 7 built through the API *)
Theorem C142_self_merge_refuted :
  (exists s, (ex_sself [1; 2]).2 = [s] /\ PropertiesSlist.slist_reads (ex_sself [1; 2]).1 s [1; 2] /\
     slist_self_merge_runs_for_ever Nat.ltb (ex_sself [1; 2]).1 s) /\
  (exists s h', (ex_sself [7; 7]).2 = [s] /\ PropertiesSlist.slist_reads (ex_sself [7; 7]).1 s [7; 7] /\
     c_slist_merge_by Nat.ltb (ex_sself [7; 7]).1 s s = Ok h' /\ PropertiesSlist.slist_reads h' s [] /\ svl h' = svl (ex_sself [7; 7]).1).
Proof.
  split.
  - destruct (ex_sself_ok [1; 2] ltac:(done)) as (s&cs&E&HL&Hv). revert E HL. generalize (ex_sself [1; 2]). intros w E HL. exists s. split; [done|]. split.
    { rewrite <- Hv. by apply PropertiesSlist.sreads_ok. }
    apply (C142_self_merge_exact_partial nat Nat.ltb PropertiesList.nat_swo _ s cs HL).
    + rewrite Hv. intros [|[|]] [|[|]] x y Hij Hi Hj; cbn in *; try done; try lia; by simplify_eq.
    + rewrite Hv. exists 1, 2. split; [left|]. split; [right; left|done].
  - destruct (ex_sself_ok [7; 7] ltac:(done)) as (s&cs&E&HL&Hv). revert E HL. generalize (ex_sself [7; 7]). intros w E HL.
    destruct (C142_self_merge_exact_partial nat Nat.ltb PropertiesList.nat_swo _ s cs HL) as [H _].
    + rewrite Hv. intros [|[|]] [|[|]] x y Hij Hi Hj; cbn in *; try done; try lia; by simplify_eq.
    + destruct H as (h'&E'&_&HR&_&Hs&_).
      { rewrite Hv. intros u v Hu Hv'. assert (u = 7) as -> by set_solver. assert (v = 7) as -> by set_solver. done. }
      exists s, h'. split; [done|]. split; [|done]. rewrite <- Hv. by apply PropertiesSlist.sreads_ok.
Qed.
Print Assumptions C142_self_merge_refuted.
Example C142_example : (let (h, env) := ex_sself [7; 7] in do s <- shandle env 0; do h <- c_slist_merge_by Nat.ltb h s s; do l <- c_slist_traverse h s; Ok (l, size (svl h))) = Ok ([], 4) /\
  (let (h, env) := ex_sself [1; 2] in do s <- shandle env 0; do h <- c_slist_merge_by Nat.ltb h s s; c_slist_traverse h s) = NoFuel.
Proof. split; vm_compute; reflexivity. Qed.
