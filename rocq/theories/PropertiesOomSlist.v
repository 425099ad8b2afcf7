(** PropertiesOomSlist.v — running out of memory: the property theorems about /repo/container/c_forward_list.c when any
    call of malloc may return null (C109).  [r] are the outcomes of the calls of malloc to come (arbitrary). *)
From Verif Require Import Base Spec SpecSeq SpecListOps SpecSlistOps SpecOom Facts MergeFacts SortFacts DList Path Slist SpecSlist
  SlistCore SlistProofs SlistAlgo SlistSort SlistRun SlistRunProofs DListOom DListOomProofs SlistOom SlistOomProofs PropertiesSlist.
From stdpp Require Import list gmap.

(** Every history over any number of forward lists, as C108_list_history: [fhist_may] (SpecOom.v) says what the lists may
    hold when some calls of malloc fail. *)
Theorem C109_history : forall A (dflt : A) alloc, smalloc_ok alloc ->
  forall (r : list bool) (os : list (fop A)), Forall fop_order os ->
  exists n used r' h env ls gone, fhist_run_m dflt alloc (r, sheap0, []) (take n os) = Ok (r', h, env) /\
    (n = length os \/ exists o, os !! n = Some o /\ fop_spec dflt ls o = None) /\
    fhist_may dflt [] (take n os) ls gone /\
    (* the lists hold what they should *)
    length env = length ls /\
    (forall i l, ls !! i = Some l -> exists s cs, env !! i = Some s /\ is_slist h s cs /\ cs.*2 = l /\ slist_reads h s l) /\
    (* nothing is lost: every allocated node belongs to a list (two besides its elements), and what was destroyed is what
       was removed *)
    size (svl h) = 2 * length ls + length (concat ls) /\ sdead h = gone /\
    (* and if no call failed, everything was done *)
    r = used ++ r' /\ (Forall (eq true) used -> fhist_spec dflt [] (take n os) = Some (ls, gone)).
Proof.
  intros A dflt alloc Ha r os Ho.
  destruct (fhist_m_ok dflt alloc Ha os r sheap0 [] world0 Ho) as (n&r'&h&L&gone&E&[HL HD]&Hm&Hd&Hn&used&Hu&Hs).
  exists n, used, r', h, L.*1, (vals L), gone. split; [done|]. split; [done|]. split; [done|].
  split; [unfold vals; by rewrite map_length, fmap_length|]. split.
  { intros i l (s&cs&Hi&->)%vals_lookup. exists s, cs. rewrite list_lookup_fmap, Hi.
    pose proof (world_in _ _ _ _ _ (conj HL HD) Hi). split; [done|]. split; [done|]. split; [done|]. by apply sreads_ok. }
  split.
  { rewrite <- (size_dom (D := gset loc) (svl h)). assert (dom (D := gset loc) (svl h) = list_to_set (all_snodes L)) as ->.
    { apply set_eq. intros x. by rewrite elem_of_dom, HD, elem_of_list_to_set. }
    rewrite size_list_to_set by (by destruct HL). unfold vals, all_snodes. clear. induction L as [|[s cs] L IH]; [done|].
    cbn. unfold snodes at 1. rewrite !app_length, IH. cbn [length]. rewrite !fmap_length. lia. }
  split; [done|]. split; [done|]. done.
Qed.
Print Assumptions C109_history.
(** one operation at a time on any heap: with every call of malloc failing, adding an element, creating or copying a list and
    sorting change nothing at all; insert_after returns the position it was given *)
Theorem C109_no_memory : forall A (dflt : A) alloc r (h : sheap A) s v p,
  spush_front_m dflt alloc (false :: r) h s v = Ok (r, h) /\ insert_after_m dflt alloc (false :: r) h p v = Ok (r, h, p) /\
  screate_m alloc (false :: r) h = (r, h, None) /\ scopy_m dflt alloc (false :: r) h s = Ok (r, h, None) /\
  (forall comp, match ssort_by_m alloc comp (false :: r) h s with
                | Ok (r', h', s') => h' = h /\ s' = s
                | UB => short h s = UB
                | NoFuel => short h s = NoFuel
                end).
Proof.
  intros A dflt alloc r h s v p. split; [done|]. split; [done|]. split; [done|]. split; [done|].
  intros comp. unfold ssort_by_m. by destruct (short h s) as [[]| |].
Qed.
Print Assumptions C109_no_memory.
(** creating a list when only the first one or two of its three blocks can be had: null, and nothing is kept *)
Theorem C109_create : forall A alloc, smalloc_ok alloc -> forall r (h : sheap A),
  screate_m alloc (true :: true :: true :: r) h = (let (h', s) := c_slist_create alloc h in (r, h', Some s)) /\
  screate_m alloc (true :: false :: r) h = (r, h, None) /\ screate_m alloc (true :: true :: false :: r) h = (r, h, None).
Proof. intros A alloc Ha r h. done. Qed.
Print Assumptions C109_create.
(** sorting when the temporaries can be created only in part: what was created is freed again, the list is unchanged, its
    iterators stay valid ([is_slist] with the same nodes), and nothing else on the heap is touched *)
Theorem C109_sort : forall A alloc, smalloc_ok alloc -> forall comp, StrictWeakOrder comp -> forall r (h : sheap A) s cs,
  is_slist h s cs -> (Z.of_nat (length cs) < 2 ^ 64)%Z ->
  exists r' h' s', ssort_by_m alloc comp r h s = Ok (r', h', s') /\
    (c_slist_sort_by alloc comp h s = Ok (h', s') \/
     s' = s /\ is_slist h' s cs /\ sstep h h' (snodes s cs) (snodes s cs) /\ sdead h' = sdead h).
Proof.
  intros A alloc Ha comp Hc r h s cs HL Hlen. destruct (sort_m_ok alloc Ha comp Hc r h s cs HL Hlen) as (r'&h'&s'&E&H).
  exists r', h', s'. split; [done|]. destruct H as [[H _]|(->&(H1&H2&H3)&_)]; [by left|right]. by rewrite H3, app_nil_r.
Qed.
Print Assumptions C109_sort.
(** inserting while memory may be short: the element is there, or nothing has changed; the result is the position of the new
    element, or the position given; every other iterator stays valid *)
Theorem C109_insert_after : forall A (dflt : A) alloc, smalloc_ok alloc -> forall r (h : sheap A) s cs k v a,
  is_slist h s cs -> k <= length cs -> sderef h v = Ok a ->
  exists r' h' p q new, sposition h s k = Ok p /\ insert_after_m dflt alloc r h p v = Ok (r', h', q) /\
    is_slist h' s (seq_insert k new cs) /\ (new = [] /\ q = p \/ new = [(q, a)]) /\
    sstep h h' (snodes s cs) (snodes s (seq_insert k new cs)) /\ sdead h' = sdead h.
Proof.
  intros A dflt alloc Ha r h s cs k v a HL Hk Hv.
  destruct (insert_after_m_ok dflt alloc Ha r h s (take k cs) (drop k cs) v a) as (r'&h'&new&q&E&(H1&H2&H3)&->&_&Hn&_); [by rewrite take_drop|done|].
  rewrite take_drop in H2. rewrite app_nil_r in H3. eexists r', h', _, _, new. split; [by apply sposition_ok|]. split; [exact E|].
  split; [done|]. split; [|done]. destruct Hn as [->|Hn]; [left; by rewrite app_nil_r|right].
  destruct new as [|[x b] [|]]; [done| |done]. injection Hn as ->. by rewrite fmap_app, lst_app.
Qed.
Print Assumptions C109_insert_after.
(** two lists, the second a copy made while memory is short: its middle element is missing; then a sort for which there is
    no memory *)
Example C109_example : let os := [FCreateFrom [5; 3; 8]; FCopy 0; FPushFront 0 (AVal 9); FSort 0 Nat.ltb] in
  Forall fop_order os /\
  (do (r, h, env) <- fhist_run_m 0 ex_salloc (replicate 14 true ++ [false] ++ replicate 7 true ++ [false], sheap0, []) os;
   do a <- shandle env 0; do b <- shandle env 1; do l <- c_slist_traverse h a; do l' <- c_slist_traverse h b; Ok (r, l, l', size (svl h))) =
  Ok ([], [9; 5; 3; 8], [5; 8], 10).
Proof.
  split; [|vm_compute; reflexivity]. repeat (apply Forall_cons; split; [first [exact snat_swo|exact I]|]). by apply Forall_nil.
Qed.
