(** IterOomProofs.v — which algorithms of /repo/algorithm survive a failed allocation of their first iterator copy: none.
    The tactics below walk through a program (IterNonMod.v, IterMod.v, IterOrd.v, IterHeap.v, IterSort.v) with the rules of
    IterOom.v. *)
From stdpp Require Import list gmap.
From Verif Require Import Base DListOom Iter IterNonMod IterMod IterOrd IterHeap IterSort AlgoSort IterOom.
From stdpp Require Import list.

Ltac head_of t := lazymatch t with ?f _ => head_of f | _ => t end.
Ltac nul_base := first
  [apply nul_New|apply nul_Assign|apply nul_Inc|apply nul_Dec|apply nul_Adv|apply nul_Dist|apply nul_Eq|apply nul_Less
  |apply nul_Deref|apply nul_Write|apply nul_Cat|apply nul_Mutable|apply nul_Fail].
Ltac quiet_go := first
  [apply quiet_at_least|apply quiet_exactly|apply quiet_is_mutable|apply quiet_out_at_least|apply quiet_out_exactly
  |apply quiet_Ret|apply quiet_passert
  |lazymatch goal with |- quiet _ (Bind _ _) => apply quiet_bind; [quiet_go|intros ?; quiet_go]
                     | |- quiet _ ?p => let h := head_of p in unfold h; quiet_go end].
Ltac kept_base := first
  [apply kept_New|by apply kept_Free|apply kept_Assign|apply kept_Inc|apply kept_Dec|apply kept_Adv|apply kept_Eq
  |apply kept_Deref|apply kept_Write|apply kept_Cat|apply kept_Mutable|apply kept_Fail|by apply kept_Ret].
Ltac kept_go := first
  [kept_base
  |lazymatch goal with
   | |- kept _ _ (Bind _ _) _ => first [eapply kept_bind; [kept_base|cbv beta; intros ? ?; kept_go]
                                       |apply (kept_bind _ _ _ _ (fun _ => True)); [kept_go|intros ? ?; kept_go]]
   | |- kept _ _ (Loop _ _) (fun _ => True) => apply kept_loop; intros ?; kept_go
   | |- kept _ _ (if ?b then _ else _) _ => destruct b; kept_go
   | |- kept _ _ (match ?b with _ => _ end) _ => destruct b; kept_go
   | |- kept _ _ ?p _ => let h := head_of p in unfold h; kept_go
   end].
Ltac nul_go := first
  [nul_base
  |lazymatch goal with
   | |- nul _ _ (Bind (Ret _) _) => apply nul_ret; cbn [negb Nat.eqb]; nul_go
   | |- nul _ _ (Bind _ _) => first [apply nul_head; nul_go|apply nul_new; intros ? ?; nul_go
       |apply (nul_bind _ _ _ _ (fun _ => True)); [kept_go|intros ? _; nul_go]]
   | |- nul _ _ (Loop _ _) => apply nul_loop; cbv beta iota; nul_go
   | |- nul _ _ (if ?b then _ else _) => destruct b; nul_go
   | |- nul _ _ ?p => let h := head_of p in unfold h; nul_go
   end].
Ltac fatal_go := lazymatch goal with
  | |- fatal _ _ _ (Bind (New _) _) => apply fatal_new; intros ?; try nul_go
  | |- fatal _ _ _ (Bind (Eq _ _) _) => first [apply fatal_eq; [assumption|cbv iota beta; fatal_go]|idtac]
  | |- fatal _ _ _ (Bind (Dist _ _) _) => first [eapply fatal_dist; [eassumption|intros ? ?; fatal_go]|idtac]
  | |- fatal _ _ _ (Bind _ _) => apply fatal_quiet; [quiet_go|intros ?; fatal_go]
  | |- fatal _ _ _ (if (?d <? ?n)%Z then _ else _) => destruct (Z.ltb_spec d n); [lia|fatal_go]
  | |- fatal _ _ _ (if (?d =? ?n)%nat then _ else _) => destruct (Nat.eqb_spec d n); [lia|fatal_go]
  | |- fatal _ _ _ ?p => let h := head_of p in unfold h; fatal_go
  end.

Section algorithms.
  Context {A : Type} (W : world A).
  Implicit Types (a b c d e f i : iid) (o : out) (m : w_mem W) (s : gmap iid (w_pos W)).
  Lemma f_all_of m s a b P : fatal W m s (all_of_p a b P). Proof. fatal_go. Qed.
  Lemma f_any_of m s a b P : fatal W m s (any_of_p a b P). Proof. fatal_go. Qed.
  Lemma f_none_of m s a b P : fatal W m s (none_of_p a b P). Proof. fatal_go. Qed.
  Lemma f_for_each {St} m s a b op (st : St) : fatal W m s (for_each_p a b op st). Proof. fatal_go. Qed.
  Lemma f_for_each_n {St} m s a n o op (st : St) : n <> 0 -> fatal W m s (for_each_n_p a n o op st).
  Proof. intros Hn. destruct n as [|n]; [done|]. fatal_go. Qed.
  Lemma f_count m s eqf a b v : fatal W m s (count_p eqf a b v). Proof. fatal_go. Qed.
  Lemma f_count_if m s a b P : fatal W m s (count_if_p a b P). Proof. fatal_go. Qed.
  Lemma f_mismatch m s a b c o o' P : fatal W m s (mismatch_by_p a b c o o' P). Proof. fatal_go. Qed.
  Lemma f_equal_by m s a b c P : fatal W m s (equal_by_p a b c P). Proof. fatal_go. Qed.
  Lemma f_find m s a b o v P : fatal W m s (find_by_p a b o v P). Proof. fatal_go. Qed.
  Lemma f_find_if m s a b o P : fatal W m s (find_if_p a b o P). Proof. fatal_go. Qed.
  Lemma f_find_if_not m s a b o P : fatal W m s (find_if_not_p a b o P). Proof. fatal_go. Qed.
  Lemma f_find_first_of m s a b c d o P : fatal W m s (find_first_of_by_p a b c d o P). Proof. fatal_go. Qed.
  Lemma f_find_last_of m s a b c d o P : fatal W m s (find_last_of_by_p a b c d o P). Proof. fatal_go. Qed.
  Lemma f_adjacent_find m s a b o P : apart W s a b -> fatal W m s (adjacent_find_by_p a b o P). Proof. intros ?. fatal_go. Qed.
  Lemma f_search m s a b c d o P : fatal W m s (search_by_p a b c d o P). Proof. fatal_go. Qed.
  Lemma f_search_last m s a b c d o P : fatal W m s (search_last_by_p a b c d o P). Proof. fatal_go. Qed.
  Lemma f_search_n m s a b n v o P : n <> 0 -> fatal W m s (search_n_by_p a b n v o P). Proof. intros ?. fatal_go. Qed.
  Lemma f_search_last_n m s a b n v o P : n <> 0 -> fatal W m s (search_last_n_by_p a b n v o P). Proof. intros ?. fatal_go. Qed.

  Lemma f_copy m s a b c o : fatal W m s (copy_p a b c o). Proof. fatal_go. Qed.
  Lemma f_copy_if m s a b c o P : fatal W m s (copy_if_p a b c o P). Proof. fatal_go. Qed.
  Lemma f_remove_copy m s eqf a b c v o : fatal W m s (remove_copy_p eqf a b c v o). Proof. fatal_go. Qed.
  Lemma f_remove_copy_if m s a b c o P : fatal W m s (remove_copy_if_p a b c o P). Proof. fatal_go. Qed.
  Lemma f_replace_copy m s eqf a b c v w o : fatal W m s (replace_copy_p eqf a b c v w o). Proof. fatal_go. Qed.
  Lemma f_replace_copy_if m s a b c P w o : fatal W m s (replace_copy_if_p a b c P w o). Proof. fatal_go. Qed.
  Lemma f_transform m s a b c op : fatal W m s (transform_p a b c op). Proof. fatal_go. Qed.
  Lemma f_copy_backward m s a b c o : fatal W m s (copy_backward_p a b c o).
  Proof.
    do 4 (apply fatal_quiet; [quiet_go|intros []]). apply fatal_new. intros F. do 2 (apply nul_new; intros ? ?).
    apply nul_head, nul_forever. intros n. eapply kept_bind.
    { unfold Ne. eapply kept_bind; [apply kept_Eq_null|]. intros b' ->. apply (kept_Ret _ _ _ (fun z : bool => z = true)). done. }
    intros b' ->. apply (kept_bind _ _ _ _ (fun _ => True)); [kept_go|]. intros y _. apply kept_Ret. eauto.
  Qed.
  Lemma f_reverse_copy m s a b c o : fatal W m s (reverse_copy_p a b c o). Proof. fatal_go. Qed.
  Lemma f_rotate_copy m s a n b c o : fatal W m s (rotate_copy_p a n b c o).
  Proof.
    do 5 (apply fatal_quiet; [quiet_go|intros []]). apply fatal_new. intros F. do 3 (apply nul_new; intros ? ?).
    apply (nul_bind _ _ _ _ (fun _ => True)); [|intros ? _; nul_go]. kept_go.
  Qed.
  Lemma f_unique_copy m s a b c o P : apart W s a b -> o <> None -> fatal W m s (unique_copy_by_p a b c o P).
  Proof. intros ? ?. destruct o; [|done]. unfold unique_copy_by_p. fatal_go. Qed.
  Lemma f_fill m s a b v : fatal W m s (fill_p a b v). Proof. fatal_go. Qed.
  Lemma f_fill_n m s a n v o : n <> 0 -> fatal W m s (fill_n_p a n v o).
  Proof. intros Hn. destruct n as [|n]; [done|]. fatal_go. Qed.
  Lemma f_generate {St} m s a b g (st : St) : fatal W m s (generate_p a b g st). Proof. fatal_go. Qed.
  Lemma f_generate_n {St} m s a n g o (st : St) : n <> 0 -> fatal W m s (generate_n_p a n g o st).
  Proof. intros Hn. destruct n as [|n]; [done|]. unfold generate_n_p. cbn [Nat.eqb]. fatal_go. Qed.
  Lemma f_remove m s eqf a b v o : fatal W m s (remove_p eqf a b v o). Proof. fatal_go. Qed.
  Lemma f_remove_if m s a b o P : fatal W m s (remove_if_p a b o P). Proof. fatal_go. Qed.
  Lemma f_replace m s eqf a b v w : fatal W m s (replace_p eqf a b v w). Proof. fatal_go. Qed.
  Lemma f_replace_if m s a b P w : fatal W m s (replace_if_p a b P w). Proof. fatal_go. Qed.
  Lemma f_unique m s a b o P : apart W s a b -> fatal W m s (unique_by_p a b o P). Proof. intros ?. fatal_go. Qed.
  Lemma f_swap_range m s a b c : fatal W m s (swap_range_p a b c). Proof. fatal_go. Qed.
  Lemma f_reverse m s a b : fatal W m s (reverse_p a b). Proof. fatal_go. Qed.
  Lemma f_rotate m s a n b o : apart W s a n -> apart W s n b -> fatal W m s (rotate_p a n b o). Proof. intros ? ?. fatal_go. Qed.
  Lemma f_random_shuffle m s a b g : fatal W m s (random_shuffle_by_p a b g). Proof. fatal_go. Qed.

  Lemma f_is_partitioned m s a b P : apart W s a b -> fatal W m s (is_partitioned_p a b P). Proof. intros ?. fatal_go. Qed.
  Lemma f_partition m s a b o P : fatal W m s (partition_p a b o P). Proof. fatal_go. Qed.
  Lemma f_partition_copy m s a b c d o o' P : fatal W m s (partition_copy_p a b c d o o' P). Proof. fatal_go. Qed.
  Lemma f_partition_point m s a b o P : fatal W m s (partition_point_p a b o P). Proof. fatal_go. Qed.
  Lemma f_lower_bound m s comp a b v o : fatal W m s (lower_bound_by_p comp a b v o). Proof. fatal_go. Qed.
  Lemma f_upper_bound m s comp a b v o : fatal W m s (upper_bound_by_p comp a b v o). Proof. fatal_go. Qed.
  Lemma f_binary_search m s comp a b v : fatal W m s (binary_search_by_p comp a b v). Proof. fatal_go. Qed.
  Lemma f_equal_range m s comp a b v o o' : o <> None -> o' <> None -> fatal W m s (equal_range_by_p comp a b v o o').
  Proof. intros ? ?. destruct o, o'; try done. unfold equal_range_by_p. fatal_go. Qed.
  Lemma f_max_element m s comp a b o : fatal W m s (max_element_by_p comp a b o). Proof. fatal_go. Qed.
  Lemma f_min_element m s comp a b o : fatal W m s (min_element_by_p comp a b o). Proof. fatal_go. Qed.
  Lemma f_minmax_element m s comp a b o o' : o <> None -> o' <> None -> fatal W m s (minmax_element_by_p comp a b o o').
  Proof. intros ? ?. destruct o, o'; try done. unfold minmax_element_by_p. fatal_go. Qed.
  Lemma f_lexicographical m s comp a b c d : fatal W m s (lexicographical_compare_by_p comp a b c d). Proof. fatal_go. Qed.
  Lemma f_merge m s comp a b c d e o : fatal W m s (merge_by_p comp a b c d e o). Proof. fatal_go. Qed.
  Lemma f_difference m s comp a b c d e o : fatal W m s (set_difference_by_p comp a b c d e o). Proof. fatal_go. Qed.
  Lemma f_intersection m s comp a b c d e o : fatal W m s (set_intersection_by_p comp a b c d e o). Proof. fatal_go. Qed.
  Lemma f_symdiff m s comp a b c d e o : fatal W m s (set_symmetric_difference_by_p comp a b c d e o). Proof. fatal_go. Qed.
  Lemma f_union m s comp a b c d e o : fatal W m s (set_union_by_p comp a b c d e o). Proof. fatal_go. Qed.
  Lemma f_includes m s comp a b c d : apart W s c d -> fatal W m s (includes_by_p comp a b c d). Proof. intros ?. fatal_go. Qed.
  Lemma f_is_sorted_until m s comp a b o : apart W s a b -> fatal W m s (is_sorted_until_by_p comp a b o).
  Proof. intros ?. fatal_go. Qed.
  Lemma f_is_sorted m s comp a b : fatal W m s (is_sorted_by_p comp a b). Proof. fatal_go. Qed.

  Lemma f_make_heap m s comp a b : room W m s a b 2 -> fatal W m s (make_heap_by_p comp a b). Proof. intros ?. fatal_go. Qed.
  Lemma f_is_heap_until m s comp a b o : o <> None -> fatal W m s (is_heap_until_by_p comp a b o).
  Proof. intros ?. destruct o; [|done]. unfold is_heap_until_by_p. fatal_go. Qed.
  Lemma f_is_heap m s comp a b : fatal W m s (is_heap_by_p comp a b). Proof. fatal_go. Qed.
  Lemma f_push_heap m s comp a b : room W m s a b 2 -> fatal W m s (push_heap_by_p comp a b). Proof. intros ?. fatal_go. Qed.
  Lemma f_pop_heap m s comp a b : room W m s a b 2 -> fatal W m s (pop_heap_by_p comp a b). Proof. intros ?. fatal_go. Qed.
  Lemma f_sort_heap m s comp a b : room W m s a b 2 -> fatal W m s (sort_heap_by_p comp a b). Proof. intros ?. fatal_go. Qed.
  Lemma f_sort m s comp a b : apart W s a b -> fatal W m s (sort_by_p comp a b). Proof. intros ?. fatal_go. Qed.
  Lemma f_partial_sort m s comp a n b : apart W s a n -> fatal W m s (partial_sort_by_p comp a n b). Proof. intros ?. fatal_go. Qed.
  Lemma f_partial_sort_copy m s comp a b c d o : apart W s a b -> apart W s c d ->
    fatal W m s (partial_sort_copy_by_p comp a b c d o).
  Proof.
    intros Hab Hcd. do 6 (apply fatal_quiet; [quiet_go|intros []]).
    intros r x st' (fuel & r' & H). cbn [run_m] in H. apply rbind_Ok in H as ([[y r1] st1] & H1 & H2).
    cbn [run_m] in H1. apply rbind_Ok in H1 as ([[z r2] st2] & H0 & H1).
    destruct (run_m_Eq W fuel (false :: r) m s a b (z, r2) st2 Hab H0) as (Hy&Hr&->). cbn in Hy, Hr. subst z r2.
    destruct (run_m_Eq W fuel (false :: r) m s c d (y, r1) st1 Hcd H1) as (Hy&Hr&->). cbn in Hy, Hr. subst y r1.
    revert r H0 H1 H2. enough (fatal W m s (
      F <~ New a;; E <~ New b;; DF <~ New c;; DE <~ New d;;
      i <~ New F;; d <~ New DF;;
      n <~ WhileV 0 (fun _ => b <~ Ne i E;; if (b : bool) then Ne d DE else Ret false)
        (fun n => DerefAssign d i;;; Inc d;;; Inc i;;; Ret (S n));;
      p <~ copy_and_move None d (-1)%Z;;
      make_heap_by_p comp DF d;;;
      While (Ne i E) (
        x <~ Deref i;; y <~ Deref DF;;
        (if comp x y then pop_heap_by_p comp DF d;;; DerefAssign p i;;; push_heap_by_p comp DF d else Ret tt);;;
        Inc i);;;
      sort_heap_by_p comp DF d;;;
      v <~ copy_or_assign o d;;
      Free p;;; Free d;;; Free i;;;
      Free F;;; Free E;;; Free DF;;; Free DE;;; Ret (n, v))) as Hf; [|fatal_go].
    intros r _ _ H2. apply (Hf r x st'). by exists fuel, r'.
  Qed.
End algorithms.
