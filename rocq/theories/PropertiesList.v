(** PropertiesList.v — the property theorems about /repo/container/c_list.c (C12-C17, C68-C71).
    Every theorem quantifies over the allocator: [malloc_ok alloc] says only that malloc returns a location not
    in use.  [is_list h s cs] (SpecList.v) says the list object with sentinel [s] is a well-formed circular
    doubly linked list whose nodes, with the values they hold, are [cs]; an iterator is the node it points to,
    so [cs] lists the iterators from begin() to end() with the elements they dereference to.  [Ok] means the call
    terminates and follows only links of allocated nodes. *)
From Verif Require Import Base Spec SpecSeq SpecListOps Facts MergeFacts SortFacts DList Path SpecList DListCore
  DListProofs DListAlgo DListSort DListRun DListRunProofs.
From stdpp Require Import list gmap.

(** all the ways of reading a list give the sequence [l] *)
Definition list_reads {A} (h : heap A) (s : loc) (l : list A) : Prop :=
  c_list_traverse h s = Ok l /\ c_list_rtraverse h s = Ok (rev l) /\ c_list_size h s = Ok (length l) /\
  c_list_empty h s = Ok (length l =? 0) /\ c_list_front h s = Ok (head l) /\ c_list_back h s = Ok (last l) /\
  forall k x, l !! k = Some x -> exists p, position h s k = Ok p /\ value h p = Ok x.
Lemma reads_ok {A} (h : heap A) s cs : is_list h s cs -> list_reads h s cs.*2.
Proof.
  intros HL. refine (conj _ (conj _ (conj _ (conj _ (conj _ (conj _ _)))))).
  - by apply traverse_ok.
  - by apply rtraverse_ok.
  - rewrite fmap_length. by apply size_ok.
  - rewrite (empty_ok _ _ _ HL). by destruct cs.
  - by apply front_ok.
  - by apply back_ok.
  - intros k x Hk. rewrite list_lookup_fmap in Hk. destruct (cs !! k) as [[p b]|] eqn:E; [|done]. injection Hk as ->.
    exists p. rewrite (position_ok h s cs k HL) by (apply lookup_lt_Some in E; lia). rewrite (drop_S _ _ _ E). split; [done|].
    apply (value_in h s cs); [done|]. by eapply elem_of_list_lookup_2.
Qed.
(** an allocator for the examples: one more than the largest location in use *)
Definition ex_alloc {A} (h : heap A) : loc := infinite_fresh (map fst (map_to_list (vl h))).
Lemma ex_alloc_ok {A} : malloc_ok (A := A) ex_alloc.
Proof.
  intros h. destruct (vl h !! ex_alloc h) as [v|] eqn:E; [|done]. exfalso.
  apply (infinite_is_fresh (map fst (map_to_list (vl h)))). apply elem_of_list_fmap.
  exists (ex_alloc h, v). split; [done|]. by apply elem_of_map_to_list.
Qed.

(** ** C12 every history.  [lhist_spec] (SpecListOps.v) is the meaning of a history on mathematical sequences;
    it is [None] when a position or list does not exist. *)
Theorem C12_history : forall A (dflt : A) alloc, malloc_ok alloc ->
  forall (os : list (lop A)) ls gone, Forall lop_order os -> lhist_spec dflt [] os = Some (ls, gone) ->
  exists h env, lhist_run dflt alloc (heap0, []) os = Ok (h, env) /\ length env = length ls /\
    forall i l, ls !! i = Some l -> exists s cs, env !! i = Some s /\ is_list h s cs /\ cs.*2 = l /\ list_reads h s l.
Proof.
  intros A dflt alloc Ha os ls gone Ho Hs. destruct (lhist_ok dflt alloc Ha os heap0 [] ls gone world0 Ho Hs) as (h&L&E&HW&<-&Hd).
  exists h, L.*1. split; [done|]. split; [unfold vals; by rewrite map_length, fmap_length|].
  intros i l (s&cs&Hi&->)%vals_lookup. exists s, cs. rewrite list_lookup_fmap, Hi.
  pose proof (world_in _ _ _ _ _ HW Hi). split; [done|]. split; [done|]. split; [done|]. by apply reads_ok.
Qed.
Print Assumptions C12_history.
(** the single-list operations, one at a time, from any heap holding a well-formed list: contents, returned
    positions, elements destroyed, and no effect on anything else ([step]) *)
Theorem C12_operations : forall A (dflt : A) alloc, malloc_ok alloc -> forall (h : heap A) s cs, is_list h s cs ->
  (forall k v a, k <= length cs -> deref h v = Ok a -> exists p h' x, position h s k = Ok p /\
     c_list_insert dflt alloc h p v = Ok (h', x) /\ position h' s k = Ok x /\
     is_list h' s (seq_insert k [(x, a)] cs) /\ step h h' (nodes s cs) (nodes s (seq_insert k [(x, a)] cs)) /\ dead h' = dead h) /\
  (forall k c, cs !! k = Some c -> exists h' q,
     c_list_erase h s c.1 = Ok (h', q) /\ position h' s k = Ok q /\
     is_list h' s (seq_delete k (S k) cs) /\ step h h' (nodes s cs) (nodes s (seq_delete k (S k) cs)) /\ dead h' = dead h ++ [c.2]) /\
  (forall k m, k <= m <= length cs -> exists p r h', position h s k = Ok p /\ position h s m = Ok r /\
     c_list_erase_range h s p r = Ok (h', r) /\ position h' s k = Ok r /\
     is_list h' s (seq_delete k m cs) /\ step h h' (nodes s cs) (nodes s (seq_delete k m cs)) /\
     dead h' = dead h ++ (take (m - k) (drop k cs)).*2) /\
  (c_list_erase h s s = Ok (h, s)).
Proof.
  intros A dflt alloc Ha h s cs HL. refine (conj _ (conj _ (conj _ _))).
  - intros k v a Hk Hv. destruct (insert_ok dflt alloc Ha h s (take k cs) (drop k cs) v a) as (h'&E&H1&H2&H3); [by rewrite take_drop|done|].
    rewrite take_drop in H2. rewrite app_nil_r in H3.
    exists (hd s (drop k cs).*1), h', (alloc h). split; [by apply position_ok|]. split; [done|].
    split; [|by split_and!]. rewrite (position_ok _ _ _ k H1) by (rewrite app_length, take_length; lia).
    rewrite drop_app_ge by (rewrite take_length; lia). rewrite take_length. replace (k - k `min` length cs) with 0 by lia. done.
  - intros k [x a] Hk. pose proof (take_drop_middle _ _ _ Hk) as Hcs. pose proof (lookup_lt_Some _ _ _ Hk).
    destruct (erase_ok h s (take k cs) x a (drop (S k) cs)) as (h'&E&H1&H2&H3); [by rewrite Hcs|]. rewrite Hcs in H2.
    exists h', (hd s (drop (S k) cs).*1). split; [done|]. split; [|by split_and!].
    rewrite (position_ok _ _ _ k H1) by (rewrite app_length, take_length; lia).
    rewrite drop_app_ge by (rewrite take_length; lia). rewrite take_length. by replace (k - k `min` length cs) with 0 by lia.
  - intros k m Hkm. destruct (pos_split cs k m Hkm) as (E1&E2&E3).
    destruct (erase_range_ok h s (take k cs) (take (m - k) (drop k cs)) (drop m cs)) as (h'&E&H1&H2&H3); [by rewrite <- E1|].
    rewrite <- E1 in H2. rewrite <- E2 in E. exists (hd s (drop k cs).*1), (hd s (drop m cs).*1), h'.
    split; [apply position_ok; [done|lia]|]. split; [apply position_ok; [done|lia]|]. split; [done|].
    split; [|by split_and!].
    rewrite (position_ok _ _ _ k H1) by (rewrite app_length, take_length; lia).
    rewrite drop_app_ge by (rewrite take_length; lia). rewrite take_length. by replace (k - k `min` length cs) with 0 by lia.
  - unfold c_list_erase, pop_node. by rewrite decide_True.
Qed.
Print Assumptions C12_operations.
Definition ex_hist : list (lop nat) :=
  [LCreate; LPushBack 0 (AVal 3); LPushFront 0 (AVal 5); LCreateFrom [1; 8; 9]; LInsert 0 1 (AElem 1 2); LSpliceRange 0 3 1 0 2;
   LSort 0 Nat.ltb; LCopy 0; LErase 0 1; LMerge 0 1 Nat.ltb; LPushBack 0 (AElem 0 0); LReverse 2; LResize 1 2; LEraseRange 2 0 2;
   LUnique 2 (fun x y => Nat.leb (x - y) 2); LAssign 1 2; LSwap 0 1; LRemove 1 Nat.eqb (AVal 1); LPopBack 0; LClear 1].
Example C12_example_spec : lhist_spec 0 [] ex_hist = Some ([[5]; []; [5; 1]], [3; 9; 8; 3; 0; 0; 1; 1; 1; 5; 8; 9; 9]) .
Proof. vm_compute. reflexivity. Qed.
Example C12_example_run :
  (do (h, env) <- lhist_run 0 ex_alloc (heap0, []) ex_hist;
   do s <- handle env 2; do f <- c_list_traverse h s; do b <- c_list_rtraverse h s; Ok (f, b, length env, size (vl h)))
  = Ok ([5; 1], [1; 5], 3, 6).
Proof. vm_compute. reflexivity. Qed.
Lemma nat_swo : StrictWeakOrder Nat.ltb.
Proof. split; intros *; rewrite ?Nat.ltb_lt, ?Nat.ltb_ge; lia. Qed.
Example C12_example_order : Forall lop_order ex_hist.
Proof. repeat (apply Forall_cons; split; [first [exact nat_swo|exact I]|]). by apply Forall_nil. Qed.

(** ** C13 iterators to other elements stay valid: [cs] pairs each iterator with its element, and every
    operation only inserts or removes pairs *)
Theorem C13_iterators_stay_valid : forall A (dflt : A) alloc, malloc_ok alloc -> forall (h : heap A) s cs, is_list h s cs ->
  (* insert: every iterator still dereferences to the same element *)
  (forall k p v a, k <= length cs -> position h s k = Ok p -> deref h v = Ok a -> exists h' x,
     c_list_insert dflt alloc h p v = Ok (h', x) /\ c_list_walk h' s = Ok (take k cs ++ [(x, a)] ++ drop k cs) /\
     (forall y b, (y, b) ∈ cs -> value h y = Ok b /\ value h' y = Ok b) /\ x ∉ cs.*1) /\
  (* erase: so does every iterator but the erased one *)
  (forall k x a, cs !! k = Some (x, a) -> exists h' q,
     c_list_erase h s x = Ok (h', q) /\ c_list_walk h' s = Ok (take k cs ++ drop (S k) cs) /\
     (forall y b, (y, b) ∈ cs -> y <> x -> value h' y = Ok b)) /\
  (* splice from another list: iterators follow their elements into this list *)
  (forall t ds k m n p q r, lists h [(s, cs); (t, ds)] -> k <= length cs -> m <= n <= length ds ->
     position h s k = Ok p -> position h t m = Ok q -> position h t n = Ok r ->
     exists h', c_list_splice_range h p t q r = Ok h' /\
       c_list_walk h' s = Ok (take k cs ++ take (n - m) (drop m ds) ++ drop k cs) /\
       c_list_walk h' t = Ok (take m ds ++ drop n ds) /\
       (forall y b, (y, b) ∈ cs ++ ds -> value h' y = Ok b)) /\
  (* merge *)
  (forall t ds comp, lists h [(s, cs); (t, ds)] -> exists h' cs', c_list_merge_by comp h s t = Ok h' /\
     c_list_walk h' s = Ok cs' /\ cs' ≡ₚ cs ++ ds /\ (forall y b, (y, b) ∈ cs ++ ds -> value h' y = Ok b)) /\
  (* reverse *)
  (exists h', c_list_reverse h s = Ok h' /\ c_list_walk h' s = Ok (rev cs)) /\
  (* remove_if *)
  (forall p, exists h', c_list_remove_if p h s = Ok h' /\
     c_list_walk h' s = Ok (List.filter (fun c => negb (p c.2)) cs) /\
     (forall y b, (y, b) ∈ cs -> p b = false -> value h' y = Ok b)).
Proof.
  intros A dflt alloc Ha h s cs HL. refine (conj _ (conj _ (conj _ (conj _ (conj _ _))))).
  - intros k p v a Hk Hp Hv. rewrite (position_ok _ _ _ _ HL Hk) in Hp. injection Hp as <-.
    destruct (insert_ok dflt alloc Ha h s (take k cs) (drop k cs) v a) as (h'&E&H1&H2&H3); [by rewrite take_drop|done|].
    exists h', (alloc h). split; [done|]. split; [by apply list_walk_ok|]. split.
    + intros y b Hy. split; [by eapply value_in|]. apply (value_in _ _ _ _ _ H1). rewrite <- (take_drop k cs) in Hy.
      apply elem_of_app in Hy as [?|?]; apply elem_of_app; [by left|right; by right].
    + intros ((y&b)&Heq&Hb)%elem_of_list_fmap. cbn in Heq. subst y. pose proof (value_in _ _ _ _ _ HL Hb) as Hx. unfold value in Hx.
      by rewrite Ha in Hx.
  - intros k x a Hk. pose proof (take_drop_middle _ _ _ Hk) as Hcs.
    destruct (erase_ok h s (take k cs) x a (drop (S k) cs)) as (h'&E&H1&H2&H3); [by rewrite Hcs|].
    exists h', (hd s (drop (S k) cs).*1). split; [done|]. split; [by apply list_walk_ok|].
    intros y b Hy Hne. apply (value_in _ _ _ _ _ H1). rewrite <- Hcs in Hy.
    apply elem_of_app in Hy as [?|[?|?]%elem_of_cons]; apply elem_of_app; [by left|congruence|by right].
  - intros t ds k m n p q r HL2 Hk Hmn Hp Hq Hr. pose proof HL2 as (_&HLt&_)%lists_two.
    rewrite (position_ok _ _ _ _ HL Hk) in Hp. injection Hp as <-.
    rewrite (position_ok _ _ _ m HLt) in Hq by lia. injection Hq as <-.
    rewrite (position_ok _ _ _ n HLt) in Hr by lia. injection Hr as <-.
    destruct (pos_split ds m n Hmn) as (E1&E2&E3).
    destruct (splice_range_ok h s (take k cs) (drop k cs) t (take m ds) (take (n - m) (drop m ds)) (drop n ds)) as (h'&E&H1&H2&H3).
    { rewrite take_drop, <- E1. done. }
    rewrite <- E2 in E. exists h'. split; [done|]. apply lists_two in H1 as (H1&H1'&_).
    split; [by apply list_walk_ok|]. split; [by apply list_walk_ok|].
    intros y b Hy. apply elem_of_app in Hy as [Hy|Hy].
    + apply (value_in _ _ _ _ _ H1). rewrite <- (take_drop k cs) in Hy. apply elem_of_app in Hy as [?|?]; rewrite !elem_of_app; auto.
    + rewrite E1 in Hy. apply elem_of_app in Hy as [?|[?|?]%elem_of_app].
      * apply (value_in _ _ _ _ _ H1'). apply elem_of_app. by left.
      * apply (value_in _ _ _ _ _ H1). rewrite !elem_of_app. auto.
      * apply (value_in _ _ _ _ _ H1'). apply elem_of_app. by right.
  - intros t ds comp HL2. destruct (merge_ok comp h s cs t ds HL2) as (h'&E&H1&H2&H3). apply lists_two in H1 as (H1&_).
    exists h', (seq_merge (on2 comp) cs ds). split; [done|]. split; [by apply list_walk_ok|]. split; [apply mrg_perm|].
    intros y b Hy. apply (value_in _ _ _ _ _ H1). by rewrite mrg_perm.
  - destruct (reverse_ok h s cs HL) as (h'&E&H1&_). exists h'. split; [done|]. by apply list_walk_ok.
  - intros p. destruct (remove_if_ok p h s cs HL) as (h'&E&H1&_). exists h'. split; [done|]. split; [by apply list_walk_ok|].
    intros y b Hy Hp. apply (value_in _ _ _ _ _ H1). apply elem_of_list_In, filter_In. split; [by apply elem_of_list_In|]. cbn. by rewrite Hp.
Qed.
Print Assumptions C13_iterators_stay_valid.
Lemma C12_history_lists {A} (dflt : A) alloc : malloc_ok alloc ->
  forall (os : list (lop A)) ls gone, Forall lop_order os -> lhist_spec dflt [] os = Some (ls, gone) ->
  exists h L, lhist_run dflt alloc (heap0, []) os = Ok (h, L.*1) /\ lists h L /\ vals L = ls.
Proof.
  intros Ha os ls gone Ho Hs. destruct (lhist_ok dflt alloc Ha os heap0 [] ls gone world0 Ho Hs) as (h&L&E&HW&HV&Hd).
  exists h, L. split; [done|]. split; [apply HW|done].
Qed.
(** hypotheses met: two lists built through the API *)
Definition ex_two_hist : list (lop nat) := [LCreateFrom [1; 4; 6]; LCreateFrom [2; 3; 9]].
Definition ex_two : heap nat * list loc :=
  match lhist_run 0 ex_alloc (heap0, []) ex_two_hist with Ok st => st | _ => (heap0, []) end.
Example ex_two_ok : exists s t cs ds, ex_two.2 = [s; t] /\ lists ex_two.1 [(s, cs); (t, ds)] /\ cs.*2 = [1; 4; 6] /\ ds.*2 = [2; 3; 9].
Proof.
  destruct (C12_history_lists 0 ex_alloc ex_alloc_ok ex_two_hist [[1; 4; 6]; [2; 3; 9]] []) as (h&L&E&HL&HV).
  - by repeat constructor.
  - reflexivity.
  - assert (ex_two = (h, L.*1)) as Hx by (unfold ex_two; rewrite E; reflexivity). rewrite Hx. clear Hx E.
    destruct L as [|[s cs] [|[t ds] [|]]]; cbn in HV; try discriminate. injection HV as HV1 HV2.
    exists s, t, cs, ds. exact (conj eq_refl (conj HL (conj HV1 HV2))).
Qed.

(** ** C14 splice *)
Theorem C14_splice : forall A (h : heap A) s cs t ds k p, lists h [(s, cs); (t, ds)] -> k <= length cs -> position h s k = Ok p ->
  (* the whole other list *)
  (exists h', c_list_splice h p t = Ok h' /\ lists h' [(s, take k cs ++ ds ++ drop k cs); (t, [])] /\ dead h' = dead h /\
     step h h' (nodes s cs ++ nodes t ds) (nodes s (take k cs ++ ds ++ drop k cs) ++ [t])) /\
  (* from a position to the end *)
  (forall m q, m <= length ds -> position h t m = Ok q ->
     exists h', c_list_splice_from h p t q = Ok h' /\ lists h' [(s, take k cs ++ drop m ds ++ drop k cs); (t, take m ds)] /\ dead h' = dead h /\
     step h h' (nodes s cs ++ nodes t ds) (nodes s (take k cs ++ drop m ds ++ drop k cs) ++ nodes t (take m ds))) /\
  (* a range *)
  (forall m n q r, m <= n <= length ds -> position h t m = Ok q -> position h t n = Ok r ->
     exists h', c_list_splice_range h p t q r = Ok h' /\
       lists h' [(s, take k cs ++ take (n - m) (drop m ds) ++ drop k cs); (t, take m ds ++ drop n ds)] /\ dead h' = dead h /\
       step h h' (nodes s cs ++ nodes t ds)
         (nodes s (take k cs ++ take (n - m) (drop m ds) ++ drop k cs) ++ nodes t (take m ds ++ drop n ds))).
Proof.
  intros A h s cs t ds k p HL Hk Hp. pose proof HL as (HLs&HLt&_)%lists_two.
  rewrite (position_ok _ _ _ _ HLs Hk) in Hp. injection Hp as <-. refine (conj _ (conj _ _)).
  - destruct (splice_ok h s (take k cs) (drop k cs) t ds) as (h'&E&H1&H2&H3); [by rewrite take_drop|]. rewrite take_drop in H2.
    exists h'. split; [done|]. split; [done|]. split; [apply H3|done].
  - intros m q Hm Hq. rewrite (position_ok _ _ _ _ HLt Hm) in Hq. injection Hq as <-.
    destruct (splice_from_ok h s (take k cs) (drop k cs) t (take m ds) (drop m ds)) as (h'&E&H1&H2&H3); [by rewrite !take_drop|].
    rewrite !take_drop in H2. exists h'. split; [done|]. split; [done|]. split; [apply H3|done].
  - intros m n q r Hmn Hq Hr. rewrite (position_ok _ _ _ m HLt) in Hq by lia. injection Hq as <-.
    rewrite (position_ok _ _ _ n HLt) in Hr by lia. injection Hr as <-. destruct (pos_split ds m n Hmn) as (E1&E2&E3).
    destruct (splice_range_ok h s (take k cs) (drop k cs) t (take m ds) (take (n - m) (drop m ds)) (drop n ds)) as (h'&E&H1&H2&H3).
    { rewrite take_drop, <- E1. done. }
    rewrite <- E2 in E. rewrite take_drop, <- E1 in H2. exists h'. split; [done|]. split; [done|]. split; [apply H3|done].
Qed.
Print Assumptions C14_splice.
(** moving a range within one list, to a position before it or not before its end *)
Theorem C14_splice_within : forall A (h : heap A) s cs k m n p q r, is_list h s cs -> m <= n <= length cs ->
  position h s k = Ok p -> position h s m = Ok q -> position h s n = Ok r ->
  (k < m -> exists h', c_list_splice_range h p s q r = Ok h' /\ dead h' = dead h /\
     is_list h' s (take k cs ++ take (n - m) (drop m cs) ++ take (m - k) (drop k cs) ++ drop n cs)) /\
  (n <= k <= length cs -> exists h', c_list_splice_range h p s q r = Ok h' /\ dead h' = dead h /\
     is_list h' s (take m cs ++ take (k - n) (drop n cs) ++ take (n - m) (drop m cs) ++ drop k cs)).
Proof.
  intros A h s cs k m n p q r HL Hmn Hp Hq Hr.
  rewrite (position_ok _ _ _ m HL) in Hq by lia. injection Hq as <-. rewrite (position_ok _ _ _ n HL) in Hr by lia. injection Hr as <-.
  split; intros Hk; rewrite (position_ok _ _ _ k HL) in Hp by lia; injection Hp as <-.
  - destruct (pos_split cs k m ltac:(lia)) as (E1&E2&E3). destruct (pos_split cs m n Hmn) as (F1&F2&F3).
    destruct (splice_front h s (take k cs) (take (m - k) (drop k cs)) (take (n - m) (drop m cs)) (drop n cs)) as (h'&E&H1&_&H3).
    { rewrite <- F2, <- E1. done. }
    { intros Hnil. rewrite Hnil in E3. cbn in E3. lia. }
    rewrite <- F2, <- E2 in E. exists h'. rewrite app_nil_r in H3. done.
  - destruct (pos_split cs n k ltac:(lia)) as (E1&E2&E3). destruct (pos_split cs m n Hmn) as (F1&F2&F3).
    destruct (splice_back h s (take m cs) (take (n - m) (drop m cs)) (take (k - n) (drop n cs)) (drop k cs)) as (h'&E&H1&_&H3).
    { rewrite <- E2, <- F1. done. }
    rewrite <- E2, <- F2 in E. exists h'. rewrite app_nil_r in H3. done.
Qed.
Print Assumptions C14_splice_within.
Example C14_example : (do (h, env) <- lhist_run 0 ex_alloc ex_two [LSpliceRange 0 1 1 1 3; LSpliceRange 0 4 0 1 2];
  do s <- handle env 0; do t <- handle env 1; do a <- c_list_traverse h s; do b <- c_list_rtraverse h t; Ok (a, b))
  = Ok ([1; 9; 4; 3; 6], [2]).
Proof. vm_compute. reflexivity. Qed.

(** ** C15 merge *)
Theorem C15_merge : forall A comp, StrictWeakOrder comp -> forall (h : heap A) s cs t ds,
  lists h [(s, cs); (t, ds)] -> sorted comp cs.*2 -> sorted comp ds.*2 ->
  exists h' cs', c_list_merge_by comp h s t = Ok h' /\ lists h' [(s, cs'); (t, [])] /\
    list_reads h' s cs'.*2 /\ sorted comp cs'.*2 /\ stable_rearrangement comp (cs.*2 ++ ds.*2) cs'.*2 /\
    step h h' (nodes s cs ++ nodes t ds) (nodes s cs' ++ [t]) /\ dead h' = dead h.
Proof.
  intros A comp HW h s cs t ds HL H1 H2. destruct (merge_ok comp h s cs t ds HL) as (h'&E&HL'&Hs&Hd).
  exists h', (seq_merge (on2 comp) cs ds). rewrite mrg_snd. split; [done|]. split; [done|].
  split; [rewrite <- mrg_snd; apply reads_ok; by apply lists_two in HL' as (?&_)|].
  split; [by apply mrg_sorted|]. split; [by apply mrg_stable|]. split; [done|]. apply Hd.
Qed.
Print Assumptions C15_merge.
(** without the sortedness hypotheses it still merges (as [seq_merge] does) and loses nothing *)
Theorem C15_merge_any : forall A comp (h : heap A) s cs t ds, lists h [(s, cs); (t, ds)] ->
  exists h' cs', c_list_merge_by comp h s t = Ok h' /\ lists h' [(s, cs'); (t, [])] /\ cs' ≡ₚ cs ++ ds /\
    cs'.*2 = seq_merge comp cs.*2 ds.*2 /\ dead h' = dead h.
Proof.
  intros A comp h s cs t ds HL. destruct (merge_ok comp h s cs t ds HL) as (h'&E&HL'&Hs&Hd).
  exists h', (seq_merge (on2 comp) cs ds). split; [done|]. split; [done|]. split; [apply mrg_perm|]. split; [apply mrg_snd|apply Hd].
Qed.
Print Assumptions C15_merge_any.
Example C15_example : (do (h, env) <- lhist_run 0 ex_alloc ex_two [LMerge 0 1 Nat.ltb];
  do s <- handle env 0; do a <- c_list_traverse h s; Ok a) = Ok [1; 2; 3; 4; 6; 9].
Proof. vm_compute. reflexivity. Qed.
Example C15_example_sorted : sorted Nat.ltb [1; 4; 6] /\ sorted Nat.ltb [2; 3; 9].
Proof. split; intros [|[|[|]]] [|[|[|]]] x y Hij Hi Hj; cbn in *; try done; try lia; by simplify_eq. Qed.

(** ** C16 sort (2^64 is past any list that fits in memory) *)
Theorem C16_sort : forall A alloc, malloc_ok alloc -> forall comp, StrictWeakOrder comp -> forall (h : heap A) s cs,
  is_list h s cs -> (Z.of_nat (length cs) < 2 ^ 64)%Z ->
  exists h' s' cs', c_list_sort_by alloc comp h s = Ok (h', s') /\ is_list h' s' cs' /\ list_reads h' s' cs'.*2 /\
    sorted comp cs'.*2 /\ stable_rearrangement comp cs.*2 cs'.*2 /\ cs ≡ₚ cs' /\
    step h h' (nodes s cs) (nodes s' cs') /\ dead h' = dead h.
Proof.
  intros A alloc Ha comp HW h s cs HL Hlen. destruct (sort_ok alloc Ha comp HW h s cs HL Hlen) as (h'&s'&cs'&E&H1&H2&H3&H4&H5&_).
  exists h', s', cs'. split; [done|]. split; [done|]. split; [by apply reads_ok|]. split; [by apply on2_sorted|].
  split; [by apply on2_stable|]. split; [apply H3|]. done.
Qed.
Print Assumptions C16_sort.
Example C16_example : (do (h, env) <- lhist_run 0 ex_alloc (heap0, []) [LCreateFrom [5; 3; 8; 1; 9; 2; 7]; LSort 0 (fun x y => Nat.ltb (x / 4) (y / 4))];
  do s <- handle env 0; do a <- c_list_traverse h s; Ok a) = Ok [3; 1; 2; 5; 7; 8; 9].
Proof. vm_compute. reflexivity. Qed.

(** ** C17 reverse, remove_if, remove, unique *)
Theorem C17_reverse_remove_unique : forall A (h : heap A) s cs, is_list h s cs ->
  (exists h', c_list_reverse h s = Ok h' /\ list_reads h' s (rev cs.*2) /\ dead h' = dead h /\
     is_list h' s (rev cs) /\ step h h' (nodes s cs) (nodes s (rev cs))) /\
  (forall p, exists h' cs', c_list_remove_if p h s = Ok h' /\ list_reads h' s (List.filter (fun x => negb (p x)) cs.*2) /\
     dead h' = dead h ++ List.filter p cs.*2 /\ is_list h' s cs' /\ step h h' (nodes s cs) (nodes s cs')) /\
  (forall eqb v a, deref h v = Ok a -> match v with LVal _ => True | LNode x => x ∉ nodes s cs end ->
     exists h' cs', c_list_remove eqb h s v = Ok h' /\ list_reads h' s (List.filter (fun x => negb (eqb x a)) cs.*2) /\
     dead h' = dead h ++ List.filter (fun x => eqb x a) cs.*2 /\ is_list h' s cs' /\ step h h' (nodes s cs) (nodes s cs')) /\
  (forall pred, exists h' cs', c_list_unique_if pred h s = Ok h' /\ list_reads h' s (unique_spec pred cs.*2) /\
     dead h' = dead h ++ seq_unique_gone pred cs.*2 /\ is_list h' s cs' /\ step h h' (nodes s cs) (nodes s cs')).
Proof.
  intros A h s cs HL. refine (conj _ (conj _ (conj _ _))).
  - destruct (reverse_ok h s cs HL) as (h'&E&H1&H2&H3). exists h'. split; [done|]. rewrite app_nil_r in H3.
    split; [|done]. pose proof (reads_ok _ _ _ H1) as Hr. exact (eq_ind _ (list_reads h' s) Hr _ (map_rev snd cs)).
  - intros p. destruct (remove_if_ok p h s cs HL) as (h'&E&H1&H2&H3). eexists h', _. split; [done|].
    split; [|done]. rewrite (filter_snd (fun x => negb (p x))). by apply reads_ok.
  - intros eqb v a Hv Hx. destruct (remove_ok eqb h s cs v a HL Hv Hx) as (h'&E&H1&H2&H3). eexists h', _. split; [done|].
    split; [|done]. rewrite (filter_snd (fun x => negb (eqb x a))). by apply reads_ok.
  - intros pred. destruct (unique_if_ok pred h s cs HL) as (h'&E&H1&H2&H3). eexists h', _. split; [done|].
    split; [|done]. rewrite <- unique_snd. by apply reads_ok.
Qed.
Print Assumptions C17_reverse_remove_unique.
Example C17_example : (do (h, env) <- lhist_run 0 ex_alloc ex_two [LReverse 0; LRemoveIf 0 Nat.odd; LUnique 1 (fun x y => Nat.ltb y (x + 5))];
  do s <- handle env 0; do t <- handle env 1; do a <- c_list_traverse h s; do b <- c_list_traverse h t; Ok (a, b)) = Ok ([6; 4], [2; 9]).
Proof. vm_compute. reflexivity. Qed.

(** ** C68 ownership: after any history every allocated node belongs to exactly one live list, every element
    created is in a live list or was destroyed exactly once, and destroying all the lists frees everything *)
Theorem C68_ownership : forall A (dflt : A) alloc, malloc_ok alloc ->
  forall (os : list (lop A)) ls gone, Forall lop_order os -> lhist_spec dflt [] os = Some (ls, gone) ->
  exists h L, lhist_run dflt alloc (heap0, []) os = Ok (h, L.*1) /\ lists h L /\ map (fun l => l.2.*2) L = ls /\
    (forall x, is_Some (vl h !! x) <-> exists s cs, (s, cs) ∈ L /\ x ∈ nodes s cs) /\
    size (vl h) = length ls + length (concat ls) /\
    dead h = gone /\ lhist_added dflt [] os ≡ₚ concat ls ++ dead h.
Proof.
  intros A dflt alloc Ha os ls gone Ho Hs. destruct (lhist_ok dflt alloc Ha os heap0 [] ls gone world0 Ho Hs) as (h&L&E&[HL HD]&<-&Hd).
  exists h, L. split; [done|]. split; [done|]. split; [done|]. split.
  { intros x. rewrite HD, all_nodes_in. split; [intros ([s cs]&?&?); by exists s, cs|intros (s&cs&?&?); by exists (s, cs)]. }
  split.
  { rewrite <- (size_dom (D := gset loc) (vl h)). assert (dom (D := gset loc) (vl h) = list_to_set (all_nodes L)) as ->.
    { apply set_eq. intros x. by rewrite elem_of_dom, HD, elem_of_list_to_set. }
    rewrite size_list_to_set by (by destruct HL). unfold vals, all_nodes. clear. induction L as [|[s cs] L IH]; [done|].
    cbn. unfold nodes at 1. rewrite !app_length, IH. cbn [length]. rewrite !fmap_length. lia. }
  split; [done|]. rewrite Hd. cbn. pose proof (lhist_conserve dflt os [] _ _ Ho Hs) as Hc. done.
Qed.
Print Assumptions C68_ownership.
(** the empty heap is what is left when every list has been destroyed *)
Theorem C68_no_leak : forall A (dflt : A) alloc, malloc_ok alloc ->
  forall (os : list (lop A)) gone, Forall lop_order os -> lhist_spec dflt [] os = Some ([], gone) ->
  exists h, lhist_run dflt alloc (heap0, []) os = Ok (h, []) /\ vl h = ∅ /\ dead h ≡ₚ lhist_added dflt [] os.
Proof.
  intros A dflt alloc Ha os gone Ho Hs. destruct (C68_ownership A dflt alloc Ha os [] gone Ho Hs) as (h&L&E&_&HL&_&Hz&Hd&Hp).
  exists h. destruct L; [|done]. split; [done|]. split; [by apply map_size_empty_inv|]. by rewrite Hp.
Qed.
Print Assumptions C68_no_leak.
Example C68_example : lhist_spec 0 [] (ex_hist ++ [LDestroy 0; LDestroy 1; LDestroy 0]) =
  Some ([], [3; 9; 8; 3; 0; 0; 1; 1; 1; 5; 8; 9; 9; 5; 5; 1]).
Proof. vm_compute. reflexivity. Qed.

(** ** C69 removing an element by reference to itself: refuted, and what happens exactly *)
Theorem C69_remove_own_refuted : exists (h : heap nat) s cs x, is_list h s cs /\ x ∈ cs.*1 /\
  c_list_remove Nat.eqb h s (LNode x) = UB.
Proof.
  destruct ex_two_ok as (s&t&cs&ds&_&(HL&_)%lists_two&Hv&_).
  destruct cs as [|[x a] cs]; [done|]. exists ex_two.1, s, ((x, a) :: cs), x. split; [done|]. split; [cbn; left|].
  pose proof (remove_own Nat.eqb ex_two.1 s [] x a cs (Nat.eqb_refl a) HL) as Hr. by destruct cs.
Qed.
Print Assumptions C69_remove_own_refuted.
(** Missing: references to any element but the last. *)
Theorem C69_remove_own_partial : forall A (eqb : A -> A -> bool) (h : heap A) s cs x a, eqb a a = true ->
  is_list h s (cs ++ [(x, a)]) ->
  exists h', c_list_remove eqb h s (LNode x) = Ok h' /\
    list_reads h' s (List.filter (fun y => negb (eqb y a)) (cs.*2 ++ [a])).
Proof.
  intros A eqb h s cs x a Hr HL. pose proof (remove_own eqb h s cs x a [] Hr HL) as (h'&E&H1&_). exists h'. split; [done|].
  apply reads_ok in H1. rewrite <- (filter_snd (fun y => negb (eqb y a))) in H1. by rewrite fmap_app in H1.
Qed.
Print Assumptions C69_remove_own_partial.
Theorem C70_remove_own_exact : forall A (eqb : A -> A -> bool) (h : heap A) s cs k x a, eqb a a = true ->
  is_list h s cs -> cs !! k = Some (x, a) ->
  if S k =? length cs then exists h', c_list_remove eqb h s (LNode x) = Ok h' /\
    list_reads h' s (List.filter (fun y => negb (eqb y a)) cs.*2)
  else c_list_remove eqb h s (LNode x) = UB.
Proof.
  intros A eqb h s cs k x a Hr HL Hk. pose proof (take_drop_middle _ _ _ Hk) as Hcs. rewrite <- Hcs in HL.
  pose proof (remove_own eqb h s (take k cs) x a (drop (S k) cs) Hr HL) as Ho.
  pose proof (drop_length cs (S k)) as Hd. pose proof (lookup_lt_Some _ _ _ Hk).
  destruct (drop (S k) cs) as [|c r] eqn:Ed; cbn in Hd.
  - assert ((S k =? length cs) = true) as -> by (apply Nat.eqb_eq; lia). destruct Ho as (h'&E&H1&_). exists h'. split; [done|].
    apply reads_ok in H1. rewrite <- (filter_snd (fun y => negb (eqb y a))) in H1. by rewrite Hcs in H1.
  - assert ((S k =? length cs) = false) as -> by (apply Nat.eqb_neq; lia). done.
Qed.
Print Assumptions C70_remove_own_exact.
Example C70_example : (do s <- handle ex_two.2 0; do p <- position ex_two.1 s 2; do h <- c_list_remove Nat.eqb ex_two.1 s (LNode p);
  c_list_traverse h s) = Ok [1; 4] /\
  (do s <- handle ex_two.2 0; do p <- position ex_two.1 s 1; c_list_remove Nat.eqb ex_two.1 s (LNode p)) = UB.
Proof. split; vm_compute; reflexivity. Qed.

(** ** C71 sort keeps iterators valid: true of the elements, refuted for end(), whose node is freed *)
Theorem C71_sort_end_refuted : exists (h : heap nat) s cs h' s', is_list h s cs /\
  c_list_sort_by ex_alloc Nat.ltb h s = Ok (h', s') /\ s' <> s /\ vl h' !! s = None.
Proof.
  destruct ex_two_ok as (s&t&cs&ds&_&(HL&_)%lists_two&Hv&_).
  assert (length cs = 3) as Hlen by (apply (f_equal length) in Hv; by rewrite fmap_length in Hv).
  destruct (sort_ok ex_alloc ex_alloc_ok Nat.ltb nat_swo ex_two.1 s cs HL) as (h'&s'&cs'&E&H1&_&_&_&_&_&H2); [rewrite Hlen; lia|].
  exists ex_two.1, s, cs, h', s'. split; [done|]. split; [done|]. specialize (H2 ltac:(lia)). split; [|done].
  intros ->. destruct H1 as (_&_&H1&_). congruence.
Qed.
Print Assumptions C71_sort_end_refuted.
(** Missing: end() (refuted). *)
Theorem C71_sort_elements_partial : forall A alloc, malloc_ok alloc -> forall comp, StrictWeakOrder comp -> forall (h : heap A) s cs,
  is_list h s cs -> (Z.of_nat (length cs) < 2 ^ 64)%Z ->
  exists h' s', c_list_sort_by alloc comp h s = Ok (h', s') /\
    forall y b, (y, b) ∈ cs -> value h y = Ok b /\ value h' y = Ok b.
Proof.
  intros A alloc Ha comp HW h s cs HL Hlen. destruct (sort_ok alloc Ha comp HW h s cs HL Hlen) as (h'&s'&cs'&E&H1&H2&H3&_).
  exists h', s'. split; [done|]. intros y b Hy. split; [by eapply value_in|]. apply (value_in _ _ _ _ _ H1). by rewrite <- (proj1 H3).
Qed.
Print Assumptions C71_sort_elements_partial.
(** exactly: lists of at least two elements get a new end() node and the old one is freed; shorter lists are untouched *)
Theorem C72_sort_end_exact : forall A alloc, malloc_ok alloc -> forall comp, StrictWeakOrder comp -> forall (h : heap A) s cs,
  is_list h s cs -> (Z.of_nat (length cs) < 2 ^ 64)%Z ->
  exists h' s', c_list_sort_by alloc comp h s = Ok (h', s') /\
    if 2 <=? length cs then s' <> s /\ vl h' !! s = None else s' = s.
Proof.
  intros A alloc Ha comp HW h s cs HL Hlen. destruct (sort_ok alloc Ha comp HW h s cs HL Hlen) as (h'&s'&cs'&E&H1&_&_&_&_&H2&H3).
  exists h', s'. split; [done|]. destruct (2 <=? length cs) eqn:El.
  - apply Nat.leb_le in El. specialize (H3 El). split; [|done]. intros ->. destruct H1 as (_&_&H1&_). congruence.
  - apply Nat.leb_gt in El. apply H2. lia.
Qed.
Print Assumptions C72_sort_end_exact.

(** ** C73 iterator arithmetic.  The iterator with index [i] is begin() advanced by [i]; end() has index [length cs]. *)
Theorem C73_iterators : forall A (h : heap A) s cs, is_list h s cs ->
  position h s (length cs) = Ok s /\
  (forall i j p, i <= length cs -> j <= length cs -> position h s i = Ok p -> position h s j = Ok p -> i = j) /\
  (forall i p n, i <= length cs -> position h s i = Ok p -> (0 <= Z.of_nat i + n <= Z.of_nat (length cs))%Z ->
     iter_advance h p n = position h s (Z.to_nat (Z.of_nat i + n))) /\
  (forall i p n, i <= length cs -> position h s i = Ok p -> (0 <= Z.of_nat i - n <= Z.of_nat (length cs))%Z ->
     reverse_iter_advance h p n = position h s (Z.to_nat (Z.of_nat i - n))) /\
  (forall i p q, S i <= length cs -> position h s i = Ok p -> position h s (S i) = Ok q ->
     next h p = Ok q /\ prev h q = Ok p /\ value h p = reverse_iter_dereference h q /\
     (exists a, cs.*2 !! i = Some a /\ value h p = Ok a)) /\
  (forall i j p q, i <= length cs -> j <= length cs -> position h s i = Ok p -> position h s j = Ok q ->
     distance (fuel_of h) h p q = Ok (if i <=? j then j - i else S (length cs) - (i - j)) /\
     (i <= j -> reverse_distance (fuel_of h) h q p = Ok (j - i))).
Proof.
  intros A h s cs HL. pose proof (fuel_enough _ _ _ HL) as Hf.
  assert (forall i p, i <= length cs -> position h s i = Ok p -> p = hd s (drop i cs).*1) as HP.
  { intros i p Hi Hp. rewrite (position_ok _ _ _ _ HL Hi) in Hp. by injection Hp. }
  assert (forall i j, i < j <= length cs -> hd s (drop i cs).*1 <> hd s (drop j cs).*1) as Hinj.
  { intros i j Hij Heq. destruct (pos_split cs i j ltac:(lia)) as (E1&E2&E3). rewrite E2 in Heq.
    apply (pos_inj h s (take i cs)) in Heq; [rewrite Heq in E3; cbn in E3; lia|]. by rewrite <- E1. }
  refine (conj _ (conj _ (conj _ (conj _ (conj _ _))))).
  - rewrite (position_ok _ _ _ _ HL) by done. by rewrite drop_ge.
  - intros i j p Hi Hj H1 H2. apply HP in H1, H2; [|done..]. destruct (Nat.lt_trichotomy i j) as [H|[H|H]]; [|done|].
    + exfalso. eapply (Hinj i j); [lia|congruence].
    + exfalso. eapply (Hinj j i); [lia|congruence].
  - intros i p n Hi Hp Hn. rewrite (HP _ _ Hi Hp). rewrite (advance_ok h s cs i n HL Hi Hn). by rewrite (position_ok h s cs _ HL) by lia.
  - intros i p n Hi Hp Hn. rewrite (HP _ _ Hi Hp). rewrite (reverse_advance_ok h s cs i n HL Hi Hn). by rewrite (position_ok h s cs _ HL) by lia.
  - intros i p q Hi Hp Hq. rewrite (HP i p ltac:(lia) Hp), (HP _ _ Hi Hq).
    pose proof (nexts_pos h s cs i (S i) HL ltac:(lia)) as H1. pose proof (prevs_pos h s cs i (S i) HL ltac:(lia)) as H2.
    replace (S i - i) with 1 in * by lia. cbn in H1, H2.
    assert (next h (hd s (drop i cs).*1) = Ok (hd s (drop (S i) cs).*1)) as H1' by (by destruct (next h _)).
    assert (prev h (hd s (drop (S i) cs).*1) = Ok (hd s (drop i cs).*1)) as H2' by (by destruct (prev h _)).
    split; [done|]. split; [done|]. unfold reverse_iter_dereference. rewrite H2'. split; [done|].
    destruct (lookup_lt_is_Some_2 cs i) as [[x a] Hx]; [lia|]. exists a. rewrite list_lookup_fmap, Hx. split; [done|].
    rewrite (drop_S _ _ _ Hx). apply (value_in h s cs); [done|]. by eapply elem_of_list_lookup_2.
  - intros i j p q Hi Hj Hp Hq. rewrite (HP _ _ Hi Hp), (HP _ _ Hj Hq). split.
    + destruct (i <=? j) eqn:E; [apply Nat.leb_le in E; apply distance_pos; [done|lia..]|].
      apply Nat.leb_gt in E. by apply distance_wrap.
    + intros Hij. apply reverse_distance_pos; [done|lia..].
Qed.
Print Assumptions C73_iterators.
Example C73_example : (do s <- handle ex_two.2 0; do p <- position ex_two.1 s 2; do q <- iter_advance ex_two.1 p (-1);
  do d <- distance 10 ex_two.1 p q; do r <- reverse_iter_advance ex_two.1 q (-2); do a <- value ex_two.1 q; Ok (a, d, bool_decide (r = s)))
  = Ok (4, 3, true).
Proof. vm_compute. reflexivity. Qed.
