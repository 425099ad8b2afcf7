(** PropertiesSlist.v — the property theorems about /repo/container/c_forward_list.c (C18-C20, C80-C89).
    Every theorem quantifies over the allocator: [smalloc_ok alloc] says only that malloc returns a location not
    in use.  [is_slist h s cs] (SpecSlist.v) says the list object [s] = (before-begin node, end node) is a
    well-formed chain whose element nodes, with the values they hold, are [cs]; an iterator is the node it
    points to, so [cs] lists the iterators from begin() to end() with the elements they dereference to.
    [sposition h s k] is before_begin() advanced [k] times: the place after the first [k] elements.  [Ok] means
    the call terminates and follows only links of allocated nodes. *)
From Verif Require Import Base Spec SpecSeq SpecListOps SpecSlistOps Facts MergeFacts SortFacts DList Path Slist SpecSlist
  SlistCore SlistProofs SlistAlgo SlistSort SlistRun SlistRunProofs.
From stdpp Require Import list gmap.

(** all the ways of reading a forward list give the sequence [l] *)
Definition slist_reads {A} (h : sheap A) (s : sobj) (l : list A) : Prop :=
  c_slist_traverse h s = Ok l /\ c_slist_empty h s = Ok (length l =? 0) /\ c_slist_front h s = Ok (head l) /\
  sposition h s (S (length l)) = Ok s.2 /\
  forall k x, l !! k = Some x -> exists p, sposition h s (S k) = Ok p /\ svalue h p = Ok x.
Lemma sreads_ok {A} (h : sheap A) s cs : is_slist h s cs -> slist_reads h s cs.*2.
Proof.
  intros HL. refine (conj _ (conj _ (conj _ (conj _ _)))).
  - by apply straverse_ok.
  - rewrite (sempty_ok _ _ _ HL). by destruct cs.
  - by apply sfront_ok.
  - rewrite fmap_length, (selem_ok h s cs _ HL) by done. by rewrite drop_ge.
  - intros k x Hk. rewrite list_lookup_fmap in Hk. destruct (cs !! k) as [[p b]|] eqn:E; [|done]. injection Hk as ->.
    exists p. rewrite (selem_ok h s cs k HL) by (apply lookup_lt_Some in E; lia). rewrite (drop_S _ _ _ E). split; [done|].
    apply (svalue_in h s cs); [done|]. by eapply elem_of_list_lookup_2.
Qed.
(** an allocator for the examples *)
Definition ex_salloc {A} (h : sheap A) : loc := infinite_fresh (map fst (map_to_list (svl h))).
Lemma ex_salloc_ok {A} : smalloc_ok (A := A) ex_salloc.
Proof.
  intros h. destruct (svl h !! ex_salloc h) as [v|] eqn:E; [|done]. exfalso.
  apply (infinite_is_fresh (map fst (map_to_list (svl h)))). apply elem_of_list_fmap.
  exists (ex_salloc h, v). split; [done|]. by apply elem_of_map_to_list.
Qed.
Lemma snat_swo : StrictWeakOrder Nat.ltb.
Proof. split; intros *; rewrite ?Nat.ltb_lt, ?Nat.ltb_ge; lia. Qed.
(** splitting a list of cells at two positions *)
Lemma sseg {A} (l : list A) m n : m <= n -> l = take m l ++ take (n - m) (drop m l) ++ drop n l.
Proof.
  intros H. rewrite <- (take_drop m l) at 1. f_equal. rewrite <- (take_drop (n - m) (drop m l)) at 1. f_equal.
  rewrite drop_drop. f_equal. lia.
Qed.

(** ** C18 every history.  [fhist_spec] (SpecSlistOps.v) is the meaning of a history on mathematical sequences;
    it is [None] when a position or list does not exist. *)
Theorem C18_history : forall A (dflt : A) alloc, smalloc_ok alloc ->
  forall (os : list (fop A)) ls gone, Forall fop_order os -> fhist_spec dflt [] os = Some (ls, gone) ->
  exists h env, fhist_run dflt alloc (sheap0, []) os = Ok (h, env) /\ length env = length ls /\
    forall i l, ls !! i = Some l -> exists s cs, env !! i = Some s /\ is_slist h s cs /\ cs.*2 = l /\ slist_reads h s l.
Proof.
  intros A dflt alloc Ha os ls gone Ho Hs. destruct (fhist_ok dflt alloc Ha os sheap0 [] ls gone world0 Ho Hs) as (h&L&E&HW&<-&Hd).
  exists h, L.*1. split; [done|]. split; [unfold vals; by rewrite map_length, fmap_length|].
  intros i l (s&cs&Hi&->)%vals_lookup. exists s, cs. rewrite list_lookup_fmap, Hi.
  pose proof (world_in _ _ _ _ _ HW Hi). split; [done|]. split; [done|]. split; [done|]. by apply sreads_ok.
Qed.
Print Assumptions C18_history.
(** the single-list operations, one at a time, from any heap holding a well-formed list: contents, returned
    positions, elements destroyed, and no effect on anything else ([sstep]) *)
Theorem C18_operations : forall A (dflt : A) alloc, smalloc_ok alloc -> forall (h : sheap A) s cs, is_slist h s cs ->
  (* insert_after returns the position of the new element *)
  (forall k v a, k <= length cs -> sderef h v = Ok a -> exists p h' x, sposition h s k = Ok p /\
     c_slist_insert_after dflt alloc h p v = Ok (h', x) /\ sposition h' s (S k) = Ok x /\
     is_slist h' s (seq_insert k [(x, a)] cs) /\ sstep h h' (snodes s cs) (snodes s (seq_insert k [(x, a)] cs)) /\ sdead h' = sdead h) /\
  (* erase_after returns the position of the element that followed the erased one *)
  (forall k c, cs !! k = Some c -> exists p h' q, sposition h s k = Ok p /\
     c_slist_erase_after h s p = Ok (h', q) /\ sposition h' s (S k) = Ok q /\
     is_slist h' s (seq_delete k (S k) cs) /\ sstep h h' (snodes s cs) (snodes s (seq_delete k (S k) cs)) /\ sdead h' = sdead h ++ [c.2]) /\
  (* erase_after_range erases the elements strictly between the two iterators and returns the second *)
  (forall k m, k <= m <= length cs -> exists p r h', sposition h s k = Ok p /\ sposition h s (S m) = Ok r /\
     c_slist_erase_after_range h s p r = Ok (h', r) /\ sposition h' s (S k) = Ok r /\
     is_slist h' s (seq_delete k m cs) /\ sstep h h' (snodes s cs) (snodes s (seq_delete k m cs)) /\
     sdead h' = sdead h ++ (take (m - k) (drop k cs)).*2) /\
  (* nothing follows the last element, nor end(): erase_after does nothing and returns end() *)
  (exists p, sposition h s (length cs) = Ok p /\ c_slist_erase_after h s p = Ok (h, s.2)) /\
  (c_slist_erase_after h s s.2 = Ok (h, s.2)).
Proof.
  intros A dflt alloc Ha h s cs HL. refine (conj _ (conj _ (conj _ (conj _ _)))).
  - intros k v a Hk Hv. assert (is_slist h s (take k cs ++ drop k cs)) as HL' by (by rewrite take_drop).
    pose proof (insert_after_ok dflt alloc Ha h s (take k cs) (drop k cs) v a HL' Hv) as E.
    pose proof (linked_ok alloc Ha h s (take k cs) (drop k cs) a HL') as (H1&H2&H3).
    rewrite take_drop in H2. rewrite app_nil_r in H3.
    eexists (lst s.1 (take k cs).*1), _, (alloc h). split; [by apply sposition_ok|]. split; [done|].
    split; [|by split_and!]. rewrite (selem_ok _ _ _ k H1) by (rewrite app_length, take_length; lia).
    rewrite drop_app_ge by (rewrite take_length; lia). rewrite take_length. replace (k - k `min` length cs) with 0 by lia. done.
  - intros k [x a] Hk. pose proof (take_drop_middle _ _ _ Hk) as Hcs. pose proof (lookup_lt_Some _ _ _ Hk).
    destruct (pop_after_ok h s (take k cs) x a (drop (S k) cs)) as (h'&E&H1&H2&H3); [by rewrite Hcs|]. rewrite Hcs in H2.
    exists (lst s.1 (take k cs).*1), h', (hd s.2 (drop (S k) cs).*1). split; [apply sposition_ok; [done|lia]|].
    split; [done|]. split; [|by split_and!].
    rewrite (selem_ok _ _ _ k H1) by (rewrite app_length, take_length; lia).
    rewrite drop_app_ge by (rewrite take_length; lia). rewrite take_length. by replace (k - k `min` length cs) with 0 by lia.
  - intros k m Hkm. pose proof (sseg cs k m ltac:(lia)) as E1.
    destruct (erase_after_range_ok h s (take k cs) (take (m - k) (drop k cs)) (drop m cs)) as (h'&E&H1&H2&H3); [by rewrite <- E1|].
    rewrite <- E1 in H2. exists (lst s.1 (take k cs).*1), (hd s.2 (drop m cs).*1), h'.
    split; [apply sposition_ok; [done|lia]|]. split; [apply selem_ok; [done|lia]|]. split; [done|].
    split; [|by split_and!].
    rewrite (selem_ok _ _ _ k H1) by (rewrite app_length, take_length; lia).
    rewrite drop_app_ge by (rewrite take_length; lia). rewrite take_length. by replace (k - k `min` length cs) with 0 by lia.
  - exists (lst s.1 cs.*1). rewrite (sposition_ok h s cs _ HL) by done. rewrite take_ge by done. split; [done|].
    by apply pop_after_last.
  - apply pop_after_end.
Qed.
Print Assumptions C18_operations.
Definition ex_fhist : list (fop nat) :=
  [FCreate; FPushFront 0 (AVal 3); FPushFront 0 (AVal 5); FCreateFrom [1; 8; 9]; FInsertAfter 0 1 (AElem 1 2); FSpliceRange 0 3 1 0 2;
   FSort 0 Nat.ltb; FCopy 0; FEraseAfter 0 1; FMerge 0 1 Nat.ltb; FPushFront 0 (AElem 0 0); FReverse 2; FResize 1 2; FEraseAfterRange 2 0 2;
   FUnique 2 (fun x y => Nat.leb (x - y) 2); FAssign 1 2; FSwap 0 1; FRemove 1 Nat.eqb (AVal 1); FPopFront 0; FEraseAfter 1 1; FClear 0].
Example C18_example_spec : fhist_spec 0 [] ex_fhist = Some ([[]; [5; 9; 9]; [5; 1]], [3; 9; 8; 3; 0; 0; 1; 1; 5; 8; 1]).
Proof. vm_compute. reflexivity. Qed.
Example C18_example_run :
  (do (h, env) <- fhist_run 0 ex_salloc (sheap0, []) ex_fhist;
   do s <- shandle env 1; do t <- shandle env 2; do f <- c_slist_traverse h s; do b <- c_slist_traverse h t;
   Ok (f, b, length env, size (svl h))) = Ok ([5; 9; 9], [5; 1], 3, 11).
Proof. vm_compute. reflexivity. Qed.
Example C18_example_order : Forall fop_order ex_fhist.
Proof. repeat (apply Forall_cons; split; [first [exact snat_swo|exact I]|]). by apply Forall_nil. Qed.

Lemma C18_history_lists {A} (dflt : A) alloc : smalloc_ok alloc ->
  forall (os : list (fop A)) ls gone, Forall fop_order os -> fhist_spec dflt [] os = Some (ls, gone) ->
  exists h L, fhist_run dflt alloc (sheap0, []) os = Ok (h, L.*1) /\ slists h L /\ vals L = ls.
Proof.
  intros Ha os ls gone Ho Hs. destruct (fhist_ok dflt alloc Ha os sheap0 [] ls gone world0 Ho Hs) as (h&L&E&HW&HV&Hd).
  exists h, L. split; [done|]. split; [apply HW|done].
Qed.
(** two lists built through the API, meeting the hypotheses of the theorems below *)
Definition ex_stwo_hist : list (fop nat) := [FCreateFrom [1; 4; 6]; FCreateFrom [2; 3; 9]].
Definition ex_stwo : sheap nat * list sobj :=
  match fhist_run 0 ex_salloc (sheap0, []) ex_stwo_hist with Ok st => st | _ => (sheap0, []) end.
Example ex_stwo_ok : exists s t cs ds, ex_stwo.2 = [s; t] /\ slists ex_stwo.1 [(s, cs); (t, ds)] /\ cs.*2 = [1; 4; 6] /\ ds.*2 = [2; 3; 9].
Proof.
  destruct (C18_history_lists 0 ex_salloc ex_salloc_ok ex_stwo_hist [[1; 4; 6]; [2; 3; 9]] []) as (h&L&E&HL&HV).
  - by repeat constructor.
  - reflexivity.
  - assert (ex_stwo = (h, L.*1)) as Hx by (unfold ex_stwo; rewrite E; reflexivity). rewrite Hx. clear Hx E.
    destruct L as [|[s cs] [|[t ds] [|]]]; cbn in HV; try discriminate. injection HV as HV1 HV2.
    exists s, t, cs, ds. exact (conj eq_refl (conj HL (conj HV1 HV2))).
Qed.

(** ** C19 sort (2^64 is past any list that fits in memory) and merge *)
Theorem C19_sort : forall A alloc, smalloc_ok alloc -> forall comp, StrictWeakOrder comp -> forall (h : sheap A) s cs,
  is_slist h s cs -> (Z.of_nat (length cs) < 2 ^ 64)%Z ->
  exists h' s' cs', c_slist_sort_by alloc comp h s = Ok (h', s') /\ is_slist h' s' cs' /\ slist_reads h' s' cs'.*2 /\
    sorted comp cs'.*2 /\ stable_rearrangement comp cs.*2 cs'.*2 /\ cs ≡ₚ cs' /\
    sstep h h' (snodes s cs) (snodes s' cs') /\ sdead h' = sdead h.
Proof.
  intros A alloc Ha comp HW h s cs HL Hlen. destruct (ssort_ok alloc Ha comp HW h s cs HL Hlen) as (h'&s'&cs'&E&H1&H2&H3&H4&H5&_).
  exists h', s', cs'. split; [done|]. split; [done|]. split; [by apply sreads_ok|]. split; [by apply on2_sorted|].
  split; [by apply on2_stable|]. split; [apply H3|]. done.
Qed.
Print Assumptions C19_sort.
Theorem C19_merge : forall A comp, StrictWeakOrder comp -> forall (h : sheap A) s cs t ds,
  slists h [(s, cs); (t, ds)] -> sorted comp cs.*2 -> sorted comp ds.*2 ->
  exists h' cs', c_slist_merge_by comp h s t = Ok h' /\ slists h' [(s, cs'); (t, [])] /\
    slist_reads h' s cs'.*2 /\ sorted comp cs'.*2 /\ stable_rearrangement comp (cs.*2 ++ ds.*2) cs'.*2 /\
    sstep h h' (snodes s cs ++ snodes t ds) (snodes s cs' ++ [t.1; t.2]) /\ sdead h' = sdead h.
Proof.
  intros A comp HW h s cs t ds HL H1 H2. destruct (smerge_ok comp h s cs t ds HL) as (h'&E&HL'&Hs&Hd); [by apply on2_sorted|].
  exists h', (seq_merge (on2 comp) cs ds). rewrite mrg_snd. split; [done|]. split; [done|].
  split; [rewrite <- mrg_snd; apply sreads_ok; by apply slists_two in HL' as (?&_)|].
  split; [by apply mrg_sorted|]. split; [by apply mrg_stable|]. split; [done|]. apply Hd.
Qed.
Print Assumptions C19_merge.
Example C19_example : (do (h, env) <- fhist_run 0 ex_salloc ex_stwo [FMerge 0 1 Nat.ltb; FCreateFrom [5; 3; 8; 1; 9; 2; 7]; FSort 2 (fun x y => Nat.ltb (x / 4) (y / 4))];
  do s <- shandle env 0; do a <- c_slist_traverse h s; do t <- shandle env 2; do b <- c_slist_traverse h t; Ok (a, b))
  = Ok ([1; 2; 3; 4; 6; 9], [3; 1; 2; 5; 7; 8; 9]).
Proof. vm_compute. reflexivity. Qed.
Example C19_example_sorted : sorted Nat.ltb [1; 4; 6] /\ sorted Nat.ltb [2; 3; 9].
Proof. split; intros [|[|[|]]] [|[|[|]]] x y Hij Hi Hj; cbn in *; try done; try lia; by simplify_eq. Qed.

(** ** C20 splice, reverse, remove_if, remove, unique.  [q] and [r] delimit the moved elements, both exclusive. *)
Theorem C20_splice : forall A (h : sheap A) s cs t ds k p, slists h [(s, cs); (t, ds)] -> k <= length cs -> sposition h s k = Ok p ->
  (* the whole other list *)
  (exists h', c_slist_splice_after h p t = Ok h' /\ slists h' [(s, take k cs ++ ds ++ drop k cs); (t, [])] /\ sdead h' = sdead h /\
     sstep h h' (snodes s cs ++ snodes t ds) (snodes s (take k cs ++ ds ++ drop k cs) ++ [t.1; t.2])) /\
  (* everything after a position *)
  (forall m q, m <= length ds -> sposition h t m = Ok q ->
     exists h', c_slist_splice_after_from h p t q = Ok h' /\
     slists h' [(s, take k cs ++ drop m ds ++ drop k cs); (t, take m ds)] /\ sdead h' = sdead h /\
     sstep h h' (snodes s cs ++ snodes t ds) (snodes s (take k cs ++ drop m ds ++ drop k cs) ++ snodes t (take m ds))) /\
  (* a range *)
  (forall m n q r, m <= n <= length ds -> sposition h t m = Ok q -> sposition h t (S n) = Ok r ->
     exists h', c_slist_splice_after_range h p t q r = Ok h' /\
       slists h' [(s, take k cs ++ take (n - m) (drop m ds) ++ drop k cs); (t, take m ds ++ drop n ds)] /\ sdead h' = sdead h /\
       sstep h h' (snodes s cs ++ snodes t ds)
         (snodes s (take k cs ++ take (n - m) (drop m ds) ++ drop k cs) ++ snodes t (take m ds ++ drop n ds))).
Proof.
  intros A h s cs t ds k p HL Hk Hp. pose proof HL as (HLs&HLt&_)%slists_two.
  rewrite (sposition_ok _ _ _ _ HLs Hk) in Hp. injection Hp as <-. refine (conj _ (conj _ _)).
  - destruct (ssplice_ok h s (take k cs) (drop k cs) t ds) as (h'&E&H1&H2&H3); [by rewrite take_drop|]. rewrite take_drop in H2.
    exists h'. split; [done|]. split; [done|]. split; [apply H3|done].
  - intros m q Hm Hq. rewrite (sposition_ok _ _ _ _ HLt Hm) in Hq. injection Hq as <-.
    destruct (ssplice_from_ok h s (take k cs) (drop k cs) t (take m ds) (drop m ds)) as (h'&E&H1&H2&H3); [by rewrite !take_drop|].
    rewrite !take_drop in H2. exists h'. split; [done|]. split; [done|]. split; [apply H3|done].
  - intros m n q r Hmn Hq Hr. rewrite (sposition_ok _ _ _ m HLt) in Hq by lia. injection Hq as <-.
    rewrite (selem_ok _ _ _ n HLt) in Hr by lia. injection Hr as <-. pose proof (sseg ds m n ltac:(lia)) as E1.
    destruct (ssplice_range_ok h s (take k cs) (drop k cs) t (take m ds) (take (n - m) (drop m ds)) (drop n ds)) as (h'&E&H1&H2&H3).
    { rewrite take_drop, <- E1. done. }
    rewrite take_drop, <- E1 in H2. exists h'. split; [done|]. split; [done|]. split; [apply H3|done].
Qed.
Print Assumptions C20_splice.
(** moving a range within one list, to a position not after its start or after the first element that follows it *)
Theorem C20_splice_within : forall A (h : sheap A) s cs k m n p q r, is_slist h s cs -> m <= n <= length cs ->
  sposition h s k = Ok p -> sposition h s m = Ok q -> sposition h s (S n) = Ok r ->
  (k <= m -> exists h', c_slist_splice_after_range h p s q r = Ok h' /\ sdead h' = sdead h /\
     is_slist h' s (take k cs ++ take (n - m) (drop m cs) ++ take (m - k) (drop k cs) ++ drop n cs)) /\
  (n < k <= length cs -> exists h', c_slist_splice_after_range h p s q r = Ok h' /\ sdead h' = sdead h /\
     is_slist h' s (take m cs ++ take (k - n) (drop n cs) ++ take (n - m) (drop m cs) ++ drop k cs)).
Proof.
  intros A h s cs k m n p q r HL Hmn Hp Hq Hr.
  rewrite (sposition_ok _ _ _ m HL) in Hq by lia. injection Hq as <-. rewrite (selem_ok _ _ _ n HL) in Hr by lia. injection Hr as <-.
  split; intros Hk; rewrite (sposition_ok _ _ _ k HL) in Hp by lia; injection Hp as <-.
  - pose proof (seg2 cs k m ltac:(lia)) as E1. rewrite (seg cs m n) in E1 by lia.
    destruct (ssplice_front h s (take k cs) (take (m - k) (drop k cs)) (take (n - m) (drop m cs)) (drop n cs)) as (h'&E&H1&_&H3).
    { by rewrite <- E1. }
    assert (take k cs ++ take (m - k) (drop k cs) = take m cs) as Et.
    { rewrite <- (take_drop k (take m cs)). rewrite take_take, Nat.min_l by lia. f_equal. by rewrite skipn_firstn_comm. }
    rewrite Et in E. exists h'. rewrite app_nil_r in H3. done.
  - pose proof (seg2 cs m n ltac:(lia)) as E1. rewrite (seg cs n k ltac:(lia)) in E1.
    destruct (ssplice_back h s (take m cs) (take (n - m) (drop m cs)) (take (k - n) (drop n cs)) (drop k cs)) as (h'&E&H1&_&H3).
    { by rewrite <- E1. }
    { intros Hnil. apply (f_equal length) in Hnil. rewrite take_length, drop_length in Hnil. cbn in Hnil. lia. }
    assert (take m cs ++ take (n - m) (drop m cs) ++ take (k - n) (drop n cs) = take k cs) as Et.
    { rewrite <- (take_drop m (take k cs)). rewrite take_take, Nat.min_l by lia. f_equal. rewrite skipn_firstn_comm.
      rewrite <- (take_drop (n - m) (take (k - m) (drop m cs))). rewrite take_take, Nat.min_l by lia. f_equal.
      rewrite skipn_firstn_comm, drop_drop. f_equal; [lia|]. f_equal. lia. }
    rewrite Et in E. rewrite <- (seg cs n k) in E by lia. exists h'. rewrite app_nil_r in H3. done.
Qed.
Print Assumptions C20_splice_within.
Theorem C20_reverse_remove_unique : forall A (h : sheap A) s cs, is_slist h s cs ->
  (exists h', c_slist_reverse h s = Ok h' /\ slist_reads h' s (rev cs.*2) /\ sdead h' = sdead h /\
     is_slist h' s (rev cs) /\ sstep h h' (snodes s cs) (snodes s (rev cs))) /\
  (forall p, exists h' cs', c_slist_remove_if p h s = Ok h' /\ slist_reads h' s (List.filter (fun x => negb (p x)) cs.*2) /\
     sdead h' = sdead h ++ List.filter p cs.*2 /\ is_slist h' s cs' /\ sstep h h' (snodes s cs) (snodes s cs')) /\
  (forall eqb v a, sderef h v = Ok a -> match v with LVal _ => True | LNode x => x ∉ snodes s cs end ->
     exists h' cs', c_slist_remove eqb h s v = Ok h' /\ slist_reads h' s (List.filter (fun x => negb (eqb x a)) cs.*2) /\
     sdead h' = sdead h ++ List.filter (fun x => eqb x a) cs.*2 /\ is_slist h' s cs' /\ sstep h h' (snodes s cs) (snodes s cs')) /\
  (forall pred, exists h' cs', c_slist_unique_if pred h s = Ok h' /\ slist_reads h' s (unique_spec pred cs.*2) /\
     sdead h' = sdead h ++ seq_unique_gone pred cs.*2 /\ is_slist h' s cs' /\ sstep h h' (snodes s cs) (snodes s cs')).
Proof.
  intros A h s cs HL. refine (conj _ (conj _ (conj _ _))).
  - destruct (sreverse_ok h s cs HL) as (h'&E&H1&H2&H3). exists h'. split; [done|]. rewrite app_nil_r in H3.
    split; [|done]. pose proof (sreads_ok _ _ _ H1) as Hr. exact (eq_ind _ (slist_reads h' s) Hr _ (map_rev snd cs)).
  - intros p. destruct (sremove_if_ok p h s cs HL) as (h'&E&H1&H2&H3). eexists h', _. split; [done|].
    split; [|done]. rewrite (filter_snd (fun x => negb (p x))). by apply sreads_ok.
  - intros eqb v a Hv Hx. destruct (sremove_ok eqb h s cs v a HL Hv Hx) as (h'&E&H1&H2&H3). eexists h', _. split; [done|].
    split; [|done]. rewrite (filter_snd (fun x => negb (eqb x a))). by apply sreads_ok.
  - intros pred. destruct (sunique_if_ok pred h s cs HL) as (h'&E&H1&H2&H3). eexists h', _. split; [done|].
    split; [|done]. rewrite <- unique_snd. by apply sreads_ok.
Qed.
Print Assumptions C20_reverse_remove_unique.
Example C20_example : (do (h, env) <- fhist_run 0 ex_salloc ex_stwo [FSpliceRange 0 1 1 1 3; FSpliceRange 0 4 0 1 2];
  do s <- shandle env 0; do t <- shandle env 1; do a <- c_slist_traverse h s; do b <- c_slist_traverse h t; Ok (a, b))
  = Ok ([1; 9; 4; 3; 6], [2]).
Proof. vm_compute. reflexivity. Qed.
Example C20_example_remove : (do (h, env) <- fhist_run 0 ex_salloc ex_stwo [FReverse 0; FRemoveIf 0 Nat.odd; FUnique 1 (fun x y => Nat.ltb y (x + 5))];
  do s <- shandle env 0; do t <- shandle env 1; do a <- c_slist_traverse h s; do b <- c_slist_traverse h t; Ok (a, b)) = Ok ([6; 4], [2; 9]).
Proof. vm_compute. reflexivity. Qed.

(** ** C80 ownership: after any history every allocated node belongs to exactly one live list (two per list besides
    its elements), every element created is in a live list or was destroyed exactly once, and destroying all the
    lists frees everything *)
Theorem C80_ownership : forall A (dflt : A) alloc, smalloc_ok alloc ->
  forall (os : list (fop A)) ls gone, Forall fop_order os -> fhist_spec dflt [] os = Some (ls, gone) ->
  exists h L, fhist_run dflt alloc (sheap0, []) os = Ok (h, L.*1) /\ slists h L /\ map (fun l => l.2.*2) L = ls /\
    (forall x, is_Some (svl h !! x) <-> exists s cs, (s, cs) ∈ L /\ x ∈ snodes s cs) /\
    size (svl h) = 2 * length ls + length (concat ls) /\
    sdead h = gone /\ fhist_added dflt [] os ≡ₚ concat ls ++ sdead h.
Proof.
  intros A dflt alloc Ha os ls gone Ho Hs. destruct (fhist_ok dflt alloc Ha os sheap0 [] ls gone world0 Ho Hs) as (h&L&E&[HL HD]&<-&Hd).
  exists h, L. split; [done|]. split; [done|]. split; [done|]. split.
  { intros x. rewrite HD, all_snodes_in. split; [intros ([s cs]&?&?); by exists s, cs|intros (s&cs&?&?); by exists (s, cs)]. }
  split.
  { rewrite <- (size_dom (D := gset loc) (svl h)). assert (dom (D := gset loc) (svl h) = list_to_set (all_snodes L)) as ->.
    { apply set_eq. intros x. by rewrite elem_of_dom, HD, elem_of_list_to_set. }
    rewrite size_list_to_set by (by destruct HL). unfold vals, all_snodes. clear. induction L as [|[s cs] L IH]; [done|].
    cbn. unfold snodes at 1. rewrite !app_length, IH. cbn [length]. rewrite !fmap_length. lia. }
  split; [done|]. rewrite Hd. cbn. pose proof (fhist_conserve dflt os [] _ _ Ho Hs) as Hc. done.
Qed.
Print Assumptions C80_ownership.
Theorem C80_no_leak : forall A (dflt : A) alloc, smalloc_ok alloc ->
  forall (os : list (fop A)) gone, Forall fop_order os -> fhist_spec dflt [] os = Some ([], gone) ->
  exists h, fhist_run dflt alloc (sheap0, []) os = Ok (h, []) /\ svl h = ∅ /\ sdead h ≡ₚ fhist_added dflt [] os.
Proof.
  intros A dflt alloc Ha os gone Ho Hs. destruct (C80_ownership A dflt alloc Ha os [] gone Ho Hs) as (h&L&E&_&HL&_&Hz&Hd&Hp).
  exists h. destruct L; [|done]. split; [done|]. split; [by apply map_size_empty_inv|]. by rewrite Hp.
Qed.
Print Assumptions C80_no_leak.
Example C80_example : fhist_spec 0 [] (ex_fhist ++ [FDestroy 0; FDestroy 1; FDestroy 0]) =
  Some ([], [3; 9; 8; 3; 0; 0; 1; 1; 5; 8; 1; 5; 1; 5; 9; 9]).
Proof. vm_compute. reflexivity. Qed.

(** ** C81 iterators to other elements stay valid: [cs] pairs each iterator with its element, and every operation
    only inserts or removes pairs *)
Theorem C81_iterators_stay_valid : forall A (dflt : A) alloc, smalloc_ok alloc -> forall (h : sheap A) s cs, is_slist h s cs ->
  (* insert_after: every iterator still dereferences to the same element *)
  (forall k p v a, k <= length cs -> sposition h s k = Ok p -> sderef h v = Ok a -> exists h' x,
     c_slist_insert_after dflt alloc h p v = Ok (h', x) /\ c_slist_walk h' s = Ok (take k cs ++ [(x, a)] ++ drop k cs) /\
     (forall y b, (y, b) ∈ cs -> svalue h y = Ok b /\ svalue h' y = Ok b) /\ x ∉ cs.*1) /\
  (* erase_after: so does every iterator but the erased one *)
  (forall k x a p, cs !! k = Some (x, a) -> sposition h s k = Ok p -> exists h' q,
     c_slist_erase_after h s p = Ok (h', q) /\ c_slist_walk h' s = Ok (take k cs ++ drop (S k) cs) /\
     (forall y b, (y, b) ∈ cs -> y <> x -> svalue h' y = Ok b)) /\
  (* splice from another list: iterators follow their elements into this list *)
  (forall t ds k m n p q r, slists h [(s, cs); (t, ds)] -> k <= length cs -> m <= n <= length ds ->
     sposition h s k = Ok p -> sposition h t m = Ok q -> sposition h t (S n) = Ok r ->
     exists h', c_slist_splice_after_range h p t q r = Ok h' /\
       c_slist_walk h' s = Ok (take k cs ++ take (n - m) (drop m ds) ++ drop k cs) /\
       c_slist_walk h' t = Ok (take m ds ++ drop n ds) /\
       (forall y b, (y, b) ∈ cs ++ ds -> svalue h' y = Ok b)) /\
  (* merge *)
  (forall t ds comp, slists h [(s, cs); (t, ds)] -> exists h' cs', c_slist_merge_by comp h s t = Ok h' /\
     c_slist_walk h' s = Ok cs' /\ cs' ≡ₚ cs ++ ds /\ (forall y b, (y, b) ∈ cs ++ ds -> svalue h' y = Ok b)) /\
  (* reverse *)
  (exists h', c_slist_reverse h s = Ok h' /\ c_slist_walk h' s = Ok (rev cs)) /\
  (* remove_if *)
  (forall p, exists h', c_slist_remove_if p h s = Ok h' /\
     c_slist_walk h' s = Ok (List.filter (fun c => negb (p c.2)) cs) /\
     (forall y b, (y, b) ∈ cs -> p b = false -> svalue h' y = Ok b)).
Proof.
  intros A dflt alloc Ha h s cs HL. refine (conj _ (conj _ (conj _ (conj _ (conj _ _))))).
  - intros k p v a Hk Hp Hv. rewrite (sposition_ok _ _ _ _ HL Hk) in Hp. injection Hp as <-.
    assert (is_slist h s (take k cs ++ drop k cs)) as HL' by (by rewrite take_drop).
    pose proof (insert_after_ok dflt alloc Ha h s (take k cs) (drop k cs) v a HL' Hv) as E.
    pose proof (linked_ok alloc Ha h s (take k cs) (drop k cs) a HL') as (H1&H2&H3).
    eexists _, (alloc h). split; [done|]. split; [by apply slist_walk_ok|]. split.
    + intros y b Hy. split; [exact (svalue_in _ _ _ _ _ HL Hy)|]. apply (svalue_in _ _ _ _ _ H1). rewrite <- (take_drop k cs) in Hy.
      apply elem_of_app in Hy as [?|?]; apply elem_of_app; [by left|right; by right].
    + intros ((y&b)&Heq&Hb)%elem_of_list_fmap. cbn in Heq. subst y. pose proof (svalue_in _ _ _ _ _ HL Hb) as Hx. unfold svalue in Hx.
      by rewrite Ha in Hx.
  - intros k x a p Hk Hp. pose proof (take_drop_middle _ _ _ Hk) as Hcs. pose proof (lookup_lt_Some _ _ _ Hk).
    rewrite (sposition_ok _ _ _ k HL) in Hp by lia. injection Hp as <-.
    destruct (pop_after_ok h s (take k cs) x a (drop (S k) cs)) as (h'&E&H1&H2&H3); [by rewrite Hcs|].
    exists h', (hd s.2 (drop (S k) cs).*1). split; [done|]. split; [by apply slist_walk_ok|].
    intros y b Hy Hne. apply (svalue_in _ _ _ _ _ H1). rewrite <- Hcs in Hy.
    apply elem_of_app in Hy as [?|[?|?]%elem_of_cons]; apply elem_of_app; [by left|congruence|by right].
  - intros t ds k m n p q r HL2 Hk Hmn Hp Hq Hr.
    destruct (C20_splice A h s cs t ds k p HL2 Hk Hp) as (_&_&HS). destruct (HS m n q r Hmn Hq Hr) as (h'&E&H1&_&_).
    exists h'. split; [done|]. apply slists_two in H1 as (H1&H1'&_).
    split; [by apply slist_walk_ok|]. split; [by apply slist_walk_ok|].
    intros y b Hy. apply elem_of_app in Hy as [Hy|Hy].
    + apply (svalue_in _ _ _ _ _ H1). rewrite <- (take_drop k cs) in Hy. apply elem_of_app in Hy as [?|?]; rewrite !elem_of_app; auto.
    + rewrite (sseg ds m n) in Hy by lia. apply elem_of_app in Hy as [?|[?|?]%elem_of_app].
      * apply (svalue_in _ _ _ _ _ H1'). apply elem_of_app. by left.
      * apply (svalue_in _ _ _ _ _ H1). rewrite !elem_of_app. auto.
      * apply (svalue_in _ _ _ _ _ H1'). apply elem_of_app. by right.
  - intros t ds comp HL2. destruct (smerge_any_ok comp h s cs t ds HL2) as (h'&E&H1&H2&H3). apply slists_two in H1 as (H1&_).
    exists h', (seq_merge_into (on2 comp) ds cs). split; [done|]. split; [by apply slist_walk_ok|].
    assert (seq_merge_into (on2 comp) ds cs ≡ₚ cs ++ ds) as Hp by apply mi_perm. split; [done|].
    intros y b Hy. apply (svalue_in _ _ _ _ _ H1). by rewrite Hp.
  - destruct (sreverse_ok h s cs HL) as (h'&E&H1&_). exists h'. split; [done|]. by apply slist_walk_ok.
  - intros p. destruct (sremove_if_ok p h s cs HL) as (h'&E&H1&_). exists h'. split; [done|]. split; [by apply slist_walk_ok|].
    intros y b Hy Hp. apply (svalue_in _ _ _ _ _ H1). apply elem_of_list_In, filter_In. split; [by apply elem_of_list_In|]. cbn. by rewrite Hp.
Qed.
Print Assumptions C81_iterators_stay_valid.
Example C81_example : (do s <- shandle ex_stwo.2 0; do t <- shandle ex_stwo.2 1; do p <- sposition ex_stwo.1 s 2;
  do q <- sposition ex_stwo.1 t 1; do h <- c_slist_splice_after ex_stwo.1 p t; do a <- svalue h p; do b <- svalue h q;
  do n <- snext h p; Ok (a, b, bool_decide (n = q))) = Ok (4, 2, true).
Proof. vm_compute. reflexivity. Qed.

(** ** C82 iterator arithmetic.  Position 0 is before_begin(), position [length cs + 1] is end(). *)
Theorem C82_iterators : forall A (h : sheap A) s cs, is_slist h s cs ->
  sposition h s 0 = Ok s.1 /\ sposition h s (S (length cs)) = Ok s.2 /\
  (forall i j p, i <= S (length cs) -> j <= S (length cs) -> sposition h s i = Ok p -> sposition h s j = Ok p -> i = j) /\
  (forall i p n, i <= S (length cs) -> sposition h s i = Ok p -> i + n <= S (length cs) ->
     siter_advance h p (Z.of_nat n) = sposition h s (i + n)) /\
  (forall p n, siter_advance h p (- Z.of_nat n) = Ok p) /\
  (forall i p x, sposition h s (S i) = Ok p -> cs.*2 !! i = Some x -> svalue h p = Ok x) /\
  (forall i j p q, i <= j <= S (length cs) -> sposition h s i = Ok p -> sposition h s j = Ok q ->
     sdistance (sfuel h) h p q = Ok (j - i)).
Proof.
  intros A h s cs HL. pose proof (is_slist_length _ _ _ HL) as Hf.
  set (xs := s.1 :: cs.*1).
  assert (length xs = S (length cs)) as Hxl by (unfold xs; cbn; by rewrite fmap_length).
  assert (forall i, i <= S (length cs) -> sposition h s i = Ok (hd s.2 (drop i xs))) as HP.
  { intros [|i] Hi; [done|]. rewrite (selem_ok h s cs i HL) by lia. by rewrite fmap_drop. }
  assert (NoDup (xs ++ [s.2])) as Hnd.
  { destruct HL as (Hnd&_). unfold snodes in Hnd. unfold xs. cbn. eapply NoDup_Permutation_proper; [|exact Hnd].
    by rewrite <- Permutation_cons_append. }
  assert (forall i, i <= S (length cs) -> (xs ++ [s.2]) !! i = Some (hd s.2 (drop i xs))) as Hlk.
  { intros i Hi. destruct (decide (i < length xs)).
    - rewrite lookup_app_l by lia. destruct (xs !! i) as [x|] eqn:E; [|apply lookup_ge_None in E; lia].
      by rewrite (drop_S _ _ _ E).
    - rewrite lookup_app_r by lia. rewrite drop_ge by lia. by replace (i - length xs) with 0 by lia. }
  assert (path (snx h) xs s.2) as Hpath by apply HL.
  refine (conj _ (conj _ (conj _ (conj _ (conj _ (conj _ _)))))).
  - done.
  - rewrite HP by done. by rewrite drop_ge by lia.
  - intros i j p Hi Hj Hpi Hpj. rewrite HP in Hpi, Hpj by done. injection Hpi as Hpi. injection Hpj as Hpj.
    eapply (NoDup_lookup (xs ++ [s.2])); [done|by rewrite Hlk, Hpi|by rewrite Hlk, Hpj].
  - intros i p n Hi Hp Hn. unfold sposition, siter_advance in Hp |- *. rewrite !Nat2Z.id in *.
    clear -Hp. revert Hp. generalize s.1. induction i as [|i IH]; intros y Hp; cbn in *.
    + by injection Hp as ->.
    + destruct (snext h y); [|done..]. cbn in *. by apply IH.
  - intros p n. unfold siter_advance. by replace (Z.to_nat (- Z.of_nat n)) with 0 by lia.
  - intros i p x Hp Hx. apply sreads_ok in HL as (_&_&_&_&Hr). destruct (Hr i x Hx) as (p'&Hp'&Hv). rewrite Hp in Hp'. by injection Hp' as <-.
  - intros i j p q Hij Hp Hq. rewrite HP in Hp, Hq by lia. injection Hp as <-. injection Hq as <-.
    destruct (decide (i = j)) as [<-|Hne].
    { unfold sfuel. cbn [sdistance]. rewrite decide_True by done. by rewrite Nat.sub_diag. }
    assert (drop i xs = take (j - i) (drop i xs) ++ drop j xs) as Hd.
    { rewrite <- (take_drop (j - i) (drop i xs)) at 1. f_equal. rewrite drop_drop. f_equal. lia. }
    assert (length (take (j - i) (drop i xs)) = j - i) as Hlen.
    { rewrite take_length, drop_length. lia. }
    rewrite Hd. assert (take (j - i) (drop i xs) <> []) as Hne2. { intros Hn. rewrite Hn in Hlen. cbn in Hlen. lia. }
    rewrite <- Hlen at 2.
    assert (hd s.2 (take (j - i) (drop i xs) ++ drop j xs) = hd (hd s.2 (drop j xs)) (take (j - i) (drop i xs))) as ->.
    { by destruct (take (j - i) (drop i xs)). }
    apply sdistance_path.
    + rewrite <- (take_drop i xs), Hd in Hpath. apply path_app in Hpath as [_ Hpath]. by apply path_app in Hpath as [Hpath _].
    + intros Hin. pose proof (Hlk j ltac:(lia)) as Hj. apply elem_of_list_lookup in Hin as [k Hk].
      pose proof (lookup_lt_Some _ _ _ Hk) as Hkl. rewrite lookup_take in Hk by lia. rewrite lookup_drop in Hk.
      assert ((xs ++ [s.2]) !! (i + k) = Some (hd s.2 (drop j xs))) as Hk2 by (rewrite lookup_app_l by lia; done).
      pose proof (NoDup_lookup _ _ _ _ Hnd Hk2 Hj). lia.
    + unfold sfuel. lia.
Qed.
Print Assumptions C82_iterators.
Example C82_example : (do s <- shandle ex_stwo.2 0; do p <- sposition ex_stwo.1 s 1; do q <- siter_advance ex_stwo.1 p 3;
  do d <- sdistance 10 ex_stwo.1 p q; do r <- siter_advance ex_stwo.1 p (-1); do a <- svalue ex_stwo.1 r; Ok (a, d, bool_decide (q = s.2)))
  = Ok (1, 3, true).
Proof. vm_compute. reflexivity. Qed.

(** ** C83, C84 removing an element by reference to itself: refuted, and what happens exactly *)
Theorem C83_remove_own_refuted : exists (h : sheap nat) s cs x, is_slist h s cs /\ x ∈ cs.*1 /\
  c_slist_remove Nat.eqb h s (LNode x) = UB.
Proof.
  destruct ex_stwo_ok as (s&t&cs&ds&_&(HL&_)%slists_two&Hv&_).
  destruct cs as [|[x a] cs]; [done|]. exists ex_stwo.1, s, ((x, a) :: cs), x. split; [done|]. split; [cbn; left|].
  pose proof (sremove_own Nat.eqb ex_stwo.1 s [] x a cs (Nat.eqb_refl a) HL) as Hr. by destruct cs.
Qed.
Print Assumptions C83_remove_own_refuted.
(** Missing: references to any element but the last. *)
Theorem C83_remove_own_partial : forall A (eqb : A -> A -> bool) (h : sheap A) s cs x a, eqb a a = true ->
  is_slist h s (cs ++ [(x, a)]) ->
  exists h', c_slist_remove eqb h s (LNode x) = Ok h' /\
    slist_reads h' s (List.filter (fun y => negb (eqb y a)) (cs.*2 ++ [a])).
Proof.
  intros A eqb h s cs x a Hr HL. pose proof (sremove_own eqb h s cs x a [] Hr HL) as (h'&E&H1&_). exists h'. split; [done|].
  apply sreads_ok in H1. rewrite <- (filter_snd (fun y => negb (eqb y a))) in H1. by rewrite fmap_app in H1.
Qed.
Print Assumptions C83_remove_own_partial.
Theorem C84_remove_own_exact : forall A (eqb : A -> A -> bool) (h : sheap A) s cs k x a, eqb a a = true ->
  is_slist h s cs -> cs !! k = Some (x, a) ->
  if S k =? length cs then exists h', c_slist_remove eqb h s (LNode x) = Ok h' /\
    slist_reads h' s (List.filter (fun y => negb (eqb y a)) cs.*2)
  else c_slist_remove eqb h s (LNode x) = UB.
Proof.
  intros A eqb h s cs k x a Hr HL Hk. pose proof (take_drop_middle _ _ _ Hk) as Hcs. rewrite <- Hcs in HL.
  pose proof (sremove_own eqb h s (take k cs) x a (drop (S k) cs) Hr HL) as Ho.
  pose proof (drop_length cs (S k)) as Hd. pose proof (lookup_lt_Some _ _ _ Hk).
  destruct (drop (S k) cs) as [|c r] eqn:Ed; cbn in Hd.
  - assert ((S k =? length cs) = true) as -> by (apply Nat.eqb_eq; lia). destruct Ho as (h'&E&H1&_). exists h'. split; [done|].
    apply sreads_ok in H1. rewrite <- (filter_snd (fun y => negb (eqb y a))) in H1. by rewrite Hcs in H1.
  - assert ((S k =? length cs) = false) as -> by (apply Nat.eqb_neq; lia). done.
Qed.
Print Assumptions C84_remove_own_exact.
Example C84_example : (do s <- shandle ex_stwo.2 0; do p <- sposition ex_stwo.1 s 3; do h <- c_slist_remove Nat.eqb ex_stwo.1 s (LNode p);
  c_slist_traverse h s) = Ok [1; 4] /\
  (do s <- shandle ex_stwo.2 0; do p <- sposition ex_stwo.1 s 2; c_slist_remove Nat.eqb ex_stwo.1 s (LNode p)) = UB.
Proof. split; vm_compute; reflexivity. Qed.

(** ** C85, C86 sort keeps iterators valid: true of the elements, refuted for before_begin() and end() *)
Theorem C85_sort_ends_refuted : exists (h : sheap nat) s cs h' s', is_slist h s cs /\
  c_slist_sort_by ex_salloc Nat.ltb h s = Ok (h', s') /\ svl h' !! s.1 = None /\ svl h' !! s.2 = None.
Proof.
  destruct ex_stwo_ok as (s&t&cs&ds&_&(HL&_)%slists_two&Hv&_).
  assert (length cs = 3) as Hlen by (apply (f_equal length) in Hv; by rewrite fmap_length in Hv).
  destruct (ssort_ok ex_salloc ex_salloc_ok Nat.ltb snat_swo ex_stwo.1 s cs HL) as (h'&s'&cs'&E&H1&_&_&_&_&_&H2); [rewrite Hlen; lia|].
  exists ex_stwo.1, s, cs, h', s'. split; [done|]. split; [done|]. apply H2. lia.
Qed.
Print Assumptions C85_sort_ends_refuted.
(** Missing: before_begin() and end() (refuted). *)
Theorem C85_sort_elements_partial : forall A alloc, smalloc_ok alloc -> forall comp, StrictWeakOrder comp -> forall (h : sheap A) s cs,
  is_slist h s cs -> (Z.of_nat (length cs) < 2 ^ 64)%Z ->
  exists h' s', c_slist_sort_by alloc comp h s = Ok (h', s') /\
    forall y b, (y, b) ∈ cs -> svalue h y = Ok b /\ svalue h' y = Ok b.
Proof.
  intros A alloc Ha comp HW h s cs HL Hlen. destruct (ssort_ok alloc Ha comp HW h s cs HL Hlen) as (h'&s'&cs'&E&H1&H2&H3&_).
  exists h', s'. split; [done|]. intros y b Hy. split; [exact (svalue_in _ _ _ _ _ HL Hy)|]. apply (svalue_in _ _ _ _ _ H1). by rewrite <- (proj1 H3).
Qed.
Print Assumptions C85_sort_elements_partial.
(** exactly: lists of at least two elements get new before_begin() and end() nodes and the old ones are freed; shorter
    lists are untouched *)
Theorem C86_sort_ends_exact : forall A alloc, smalloc_ok alloc -> forall comp, StrictWeakOrder comp -> forall (h : sheap A) s cs,
  is_slist h s cs -> (Z.of_nat (length cs) < 2 ^ 64)%Z ->
  exists h' s', c_slist_sort_by alloc comp h s = Ok (h', s') /\
    if 2 <=? length cs then s'.1 <> s.1 /\ s'.2 <> s.2 /\ svl h' !! s.1 = None /\ svl h' !! s.2 = None else s' = s.
Proof.
  intros A alloc Ha comp HW h s cs HL Hlen. destruct (ssort_ok alloc Ha comp HW h s cs HL Hlen) as (h'&s'&cs'&E&H1&_&_&_&_&H2&H3).
  exists h', s'. split; [done|]. destruct (2 <=? length cs) eqn:El.
  - apply Nat.leb_le in El. destruct (H3 El) as [H4 H5]. destruct H1 as (_&_&H1&H1'&_). split_and!; [congruence..|done|done].
  - apply Nat.leb_gt in El. apply H2. lia.
Qed.
Print Assumptions C86_sort_ends_exact.
Example C86_example : (do (h, env) <- fhist_run 0 ex_salloc (sheap0, []) [FCreateFrom [7]; FSort 0 Nat.ltb];
  do s <- shandle env 0; do a <- c_slist_traverse h s; Ok (a, s)) = (do (h, env) <- fhist_run 0 ex_salloc (sheap0, []) [FCreateFrom [7]];
  do s <- shandle env 0; do a <- c_slist_traverse h s; Ok (a, s)).
Proof. vm_compute. reflexivity. Qed.

(** ** C87 merging lists that need not be sorted: nothing is lost, and the result is exactly [seq_merge_into] *)
Theorem C87_merge_any : forall A comp (h : sheap A) s cs t ds, slists h [(s, cs); (t, ds)] ->
  exists h' cs', c_slist_merge_by comp h s t = Ok h' /\ slists h' [(s, cs'); (t, [])] /\ cs' ≡ₚ cs ++ ds /\
    cs' = seq_merge_into (fun x y => comp x.2 y.2) ds cs /\ sdead h' = sdead h /\
    sstep h h' (snodes s cs ++ snodes t ds) (snodes s cs' ++ [t.1; t.2]).
Proof.
  intros A comp h s cs t ds HL. destruct (smerge_any_ok comp h s cs t ds HL) as (h'&E&HL'&Hs&Hd).
  exists h', (seq_merge_into (on2 comp) ds cs). split; [done|]. split; [done|]. split; [apply mi_perm|]. split; [done|]. split; [apply Hd|done].
Qed.
Print Assumptions C87_merge_any.
(** ... which is the stable merge when [d] is sorted *)
Theorem C87_merge_into_sorted : forall A (comp : A -> A -> bool), StrictWeakOrder comp -> forall c d, sorted comp d ->
  seq_merge_into comp d c = seq_merge comp c d.
Proof. intros A comp HW c d Hd. apply mi_sorted. done. Qed.
Print Assumptions C87_merge_into_sorted.
(** ... and may differ from it otherwise *)
Example C87_example : seq_merge_into Nat.ltb [5; 1] [3; 7] = [3; 1; 5; 7] /\ seq_merge Nat.ltb [3; 7] [5; 1] = [3; 5; 1; 7].
Proof. split; vm_compute; reflexivity. Qed.

(** ** C88, C89 erase_after_range over an empty range, given as (first, first): refuted, and what happens exactly:
    everything after [first] is erased and the call never returns *)
Theorem C89_erase_after_same : forall A (h : sheap A) s cs k p, is_slist h s cs -> k <= length cs -> sposition h s k = Ok p ->
  exists h', is_slist h' s (take k cs) /\ sdead h' = sdead h ++ (drop k cs).*2 /\
    sstep h h' (snodes s cs) (snodes s (take k cs)) /\
    forall n, exists f, snext h p = Ok f /\
      (* [n] more iterations after the [length cs - k] that erase change nothing and do not finish *)
      serase_loop (length (drop k cs) + n) h s p f p = serase_loop n h' s p s.2 p /\ serase_loop n h' s p s.2 p = NoFuel.
Proof.
  intros A h s cs k p HL Hk Hp. rewrite (sposition_ok _ _ _ _ HL Hk) in Hp. injection Hp as <-.
  assert (forall (d c : list (loc * A)) h, is_slist h s (c ++ d) -> exists h', supd h h' s (c ++ d) c d.*2 /\
    forall n, serase_loop (length d + n) h s (lst s.1 c.*1) (hd s.2 d.*1) (lst s.1 c.*1) = serase_loop n h' s (lst s.1 c.*1) s.2 (lst s.1 c.*1)) as Hloop.
  { clear. induction d as [|[x a] d IH]; intros c h HL.
    - exists h. rewrite app_nil_r in *. split; [by apply supd_refl|done].
    - destruct (pop_after_ok h s c x a d HL) as (h1&E1&HU1). destruct (IH c h1) as (h2&HU2&HE2); [apply HU1|].
      exists h2. split; [exact (supd_trans _ _ _ _ _ _ _ _ _ HU1 HU2)|].
      intros n. cbn [length Nat.add serase_loop]. rewrite decide_False; [|].
      + unfold c_slist_erase_after. rewrite E1. cbn [rbind]. apply HE2.
      + cbn. intros Heq. destruct HL as (Hnd&_). unfold snodes in Hnd. apply NoDup_cons in Hnd as [Hn1 Hnd].
        apply NoDup_cons in Hnd as [Hn2 Hnd]. rewrite fmap_app in *. cbn in *.
        pose proof (lst_in s.1 c.*1) as Hin. rewrite <- Heq in Hin. apply elem_of_cons in Hin as [->|Hin].
        * apply Hn1. right. apply elem_of_app. right. left.
        * apply NoDup_app in Hnd as (_&Hnd&_). apply (Hnd x); [done|left]. }
  destruct (Hloop (drop k cs) (take k cs) h) as (h'&HU&HE); [by rewrite take_drop|]. rewrite take_drop in HU.
  exists h'. destruct HU as (H1&H2&H3). split; [done|]. split; [done|]. split; [done|]. intros n. exists (hd s.2 (drop k cs).*1).
  split; [apply snext_pos; by rewrite take_drop|]. split; [apply HE|].
  assert (s.2 <> lst s.1 (take k cs).*1) as Hne.
  { intros Heq. apply (pos_not_end h' s (take k cs) []); [by rewrite app_nil_r|done]. }
  clear HE. induction n as [|n IH]; [done|]. cbn [serase_loop]. rewrite decide_False by done.
  unfold c_slist_erase_after. rewrite pop_after_last by done. cbn [rbind]. done.
Qed.
Print Assumptions C89_erase_after_same.
Theorem C88_erase_empty_range_refuted : exists (h : sheap nat) s cs p, is_slist h s cs /\ sposition h s 1 = Ok p /\
  c_slist_erase_after_range h s p p = NoFuel.
Proof.
  destruct ex_stwo_ok as (s&t&cs&ds&_&(HL&_)%slists_two&Hv&_).
  assert (length cs = 3) as Hlen by (apply (f_equal length) in Hv; by rewrite fmap_length in Hv).
  exists ex_stwo.1, s, cs, (lst s.1 (take 1 cs).*1). split; [done|].
  pose proof (sposition_ok _ _ _ 1 HL ltac:(lia)) as Hp. split; [done|].
  destruct (C89_erase_after_same _ _ _ _ 1 _ HL ltac:(lia) Hp) as (h'&H1&_&_&HE).
  pose proof (is_slist_length _ _ _ HL) as Hf. unfold c_slist_erase_after_range.
  destruct (HE (sfuel ex_stwo.1 - length (drop 1 cs))) as (f&E1&E2&E3). rewrite E1. cbn [rbind].
  rewrite E3 in E2. rewrite <- E2. f_equal. rewrite drop_length. unfold sfuel. lia.
Qed.
Print Assumptions C88_erase_empty_range_refuted.
(** Missing: the empty range written (first, first) (refuted).  Written (first, next(first)) it erases nothing. *)
Theorem C88_erase_empty_range_partial : forall A (h : sheap A) s cs k p q, is_slist h s cs -> k <= length cs ->
  sposition h s k = Ok p -> sposition h s (S k) = Ok q -> c_slist_erase_after_range h s p q = Ok (h, q).
Proof.
  intros A h s cs k p q HL Hk Hp Hq. rewrite (sposition_ok _ _ _ _ HL Hk) in Hp. injection Hp as <-.
  rewrite (selem_ok _ _ _ _ HL Hk) in Hq. injection Hq as <-. unfold c_slist_erase_after_range.
  rewrite (snext_pos h s (take k cs) (drop k cs)) by (by rewrite take_drop). cbn [rbind]. unfold sfuel. cbn [serase_loop]. by rewrite decide_True.
Qed.
Print Assumptions C88_erase_empty_range_partial.
