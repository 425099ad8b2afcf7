(** PropertiesOomList.v — running out of memory: the property theorems about /repo/container/c_list.c when any call of
    malloc may return null (C108).  [r] are the outcomes of the calls of malloc to come (arbitrary). *)
From Verif Require Import Base Spec SpecSeq SpecListOps SpecOom Facts MergeFacts SortFacts DList Path SpecList DListCore
  DListProofs DListAlgo DListSort DListRun DListRunProofs DListOom DListOomProofs PropertiesList.
From stdpp Require Import list gmap.

(** Every history over any number of lists.  [lhist_may] (SpecOom.v) says what the lists may hold when some calls of malloc
    fail: an element that could not be allocated is missing, a list that could not be created is absent, a sort that
    could not create its temporaries did nothing.  The history runs to its end, or (a list the client counts on may not
    have been created) up to an operation on a list or position that does not exist. *)
Theorem C108_list_history : forall A (dflt : A) alloc, malloc_ok alloc ->
  forall (r : list bool) (os : list (lop A)), Forall lop_order os ->
  exists n used r' h env ls gone, lhist_run_m dflt alloc (r, heap0, []) (take n os) = Ok (r', h, env) /\
    (n = length os \/ exists o, os !! n = Some o /\ lop_spec dflt ls o = None) /\
    lhist_may dflt [] (take n os) ls gone /\
    (* the lists hold what they should *)
    length env = length ls /\
    (forall i l, ls !! i = Some l -> exists s cs, env !! i = Some s /\ is_list h s cs /\ cs.*2 = l /\ list_reads h s l) /\
    (* nothing is lost: every allocated node belongs to a list, and what was destroyed is what was removed *)
    size (vl h) = length ls + length (concat ls) /\ dead h = gone /\
    (* and if no call failed, everything was done *)
    r = used ++ r' /\ (Forall (eq true) used -> lhist_spec dflt [] (take n os) = Some (ls, gone)).
Proof.
  intros A dflt alloc Ha r os Ho.
  destruct (lhist_m_ok dflt alloc Ha os r heap0 [] world0 Ho) as (n&r'&h&L&gone&E&[HL HD]&Hm&Hd&Hn&used&Hu&Hs).
  exists n, used, r', h, L.*1, (vals L), gone. split; [done|]. split; [done|]. split; [done|].
  split; [unfold vals; by rewrite map_length, fmap_length|]. split.
  { intros i l (s&cs&Hi&->)%vals_lookup. exists s, cs. rewrite list_lookup_fmap, Hi.
    pose proof (world_in _ _ _ _ _ (conj HL HD) Hi). split; [done|]. split; [done|]. split; [done|]. by apply reads_ok. }
  split.
  { rewrite <- (size_dom (D := gset loc) (vl h)). assert (dom (D := gset loc) (vl h) = list_to_set (all_nodes L)) as ->.
    { apply set_eq. intros x. by rewrite elem_of_dom, HD, elem_of_list_to_set. }
    rewrite size_list_to_set by (by destruct HL). unfold vals, all_nodes. clear. induction L as [|[s cs] L IH]; [done|].
    cbn. unfold nodes at 1. rewrite !app_length, IH. cbn [length]. rewrite !fmap_length. lia. }
  split; [done|]. split; [done|]. done.
Qed.
Print Assumptions C108_list_history.
(** one operation at a time on any heap: with every call of malloc failing, adding an element, creating or copying a list and
    sorting change nothing at all; insert returns the position it was given *)
Theorem C108_list_no_memory : forall A (dflt : A) alloc r (h : heap A) s v p,
  push_back_m dflt alloc (false :: r) h s v = Ok (r, h) /\ push_front_m dflt alloc (false :: r) h s v = Ok (r, h) /\
  insert_m dflt alloc (false :: r) h p v = Ok (r, h, p) /\ create_m alloc (false :: r) h = (r, h, None) /\
  copy_m dflt alloc (false :: r) h s = Ok (r, h, None) /\
  (forall comp, match sort_by_m alloc comp (false :: r) h s with
                | Ok (r', h', s') => h' = h /\ s' = s
                | UB => c_list_empty h s = UB \/ c_list_size h s = UB
                | NoFuel => c_list_empty h s = NoFuel \/ c_list_size h s = NoFuel
                end).
Proof.
  intros A dflt alloc r h s v p. split; [done|]. split; [done|]. split; [done|]. split; [done|]. split; [done|].
  intros comp. unfold sort_by_m. destruct (c_list_empty h s) as [[]| |]; cbn [rbind]; [done| |by left|by left].
  destruct (c_list_size h s) as [n| |]; cbn [rbind]; [|by right|by right]. by destruct (n =? 1).
Qed.
Print Assumptions C108_list_no_memory.
(** sorting when the temporaries can be created only in part: what was created is freed again, the list is unchanged, its
    iterators stay valid ([is_list] with the same nodes), and nothing else on the heap is touched *)
Theorem C108_sort : forall A alloc, malloc_ok alloc -> forall comp, StrictWeakOrder comp -> forall r (h : heap A) s cs,
  is_list h s cs -> (Z.of_nat (length cs) < 2 ^ 64)%Z ->
  exists r' h' s', sort_by_m alloc comp r h s = Ok (r', h', s') /\
    (c_list_sort_by alloc comp h s = Ok (h', s') \/
     s' = s /\ is_list h' s cs /\ step h h' (nodes s cs) (nodes s cs) /\ dead h' = dead h).
Proof.
  intros A alloc Ha comp Hc r h s cs HL Hlen. destruct (sort_m_ok alloc Ha comp Hc r h s cs HL Hlen) as (r'&h'&s'&E&H).
  exists r', h', s'. split; [done|]. destruct H as [[H _]|(->&(H1&H2&H3)&_)]; [by left|right]. by rewrite H3, app_nil_r.
Qed.
Print Assumptions C108_sort.
(** two lists, the second a copy made while memory is short: its middle element is missing; then a sort for which there is
    no memory *)
Example C108_example : let os := [LCreateFrom [5; 3; 8]; LCopy 0; LPushBack 0 (AVal 9); LSort 0 Nat.ltb] in
  Forall lop_order os /\
  (do (r, h, env) <- lhist_run_m 0 ex_alloc (replicate 12 true ++ [false] ++ replicate 6 true ++ [false], heap0, []) os;
   do a <- handle env 0; do b <- handle env 1; do l <- c_list_traverse h a; do l' <- c_list_traverse h b; Ok (r, l, l', size (vl h))) =
  Ok ([], [5; 3; 8; 9], [5; 8], 8).
Proof.
  split; [|vm_compute; reflexivity]. repeat (apply Forall_cons; split; [first [exact nat_swo|exact I]|]). by apply Forall_nil.
Qed.
