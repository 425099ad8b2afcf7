(** AdapterPQ.v — proofs about the priority queue of Adapters.v. *)
From stdpp Require Import list gmap.
From Verif Require Import Base Spec SpecSeq SpecAdapters Facts Buffer BufferProofs AlgoHeap AlgoHeapProofs AlgoHeapAny Vector VectorProofs
  Deque DequeProofs DList SpecList Path DListCore DListProofs DListRunProofs Adapters AdapterObs AdapterProofs.
From stdpp Require Import list.

Section pq.
  Context {A : Type} (dflt : A) (alloc : heap A -> loc) (HA : malloc_ok alloc).
  Implicit Types h : heap A.
  Implicit Types b : backend A.
  Implicit Types l : list A.

  Lemma slots_ok l : forall (p r : list (option A)) i n, i = length p -> n = length l ->
    slots n (p ++ map Some l ++ r) i = Ok l.
  Proof.
    induction l as [|a l IH]; intros p r i n -> ->; [done|]. cbn [length slots map app].
    rewrite get_at by done. cbn [rbind].
    replace (p ++ Some a :: map Some l ++ r) with ((p ++ [Some a]) ++ map Some l ++ r) by (by applist).
    rewrite IH by (rewrite ?app_length; cbn; lia). done.
  Qed.
  Lemma be_algo_ok h b k l g f l' : brep h b k l g -> k ≠ KList -> f l 0 (length l) = Ok l' -> length l' = length l ->
    exists b', be_algo b f = Ok b' /\ brep h b' k l' g.
  Proof.
    intros H Hk Hf Hl. destruct (brep_inv _ _ _ _ _ H) as [(v&->&->&HV&->)|[(d&->&->&HD&->)|(s&cs&->&->&HL&->&->)]]; [| |done];
      cbn [be_algo bops bimpl].
    - destruct HV as (r&Hb&Hn). rewrite Hb, Hn. rewrite (slots_ok l [] r 0) by done. cbn [rbind]. rewrite Hf. cbn [rbind].
      pose proof (mcpy_seg0 (map Some l) r (map Some l') [] (length l')) as Hm. rewrite app_nil_r in Hm.
      rewrite Hm by (by rewrite ?map_length). cbn [rbind]. eexists. split; [done|]. apply brep_vec. rewrite <- Hl. apply vrep_intro.
    - pose proof HD as (p&r&Hb&Hs&Hn). rewrite Hb, Hs, Hn. replace (length p + length l - length p) with (length l) by lia.
      rewrite (slots_ok l p r) by done. cbn [rbind]. rewrite Hf. cbn [rbind].
      pose proof (mcpy_seg p (map Some l) r [] (map Some l') [] (length p) 0 (length l')) as Hm. rewrite app_nil_r in Hm. cbn in Hm.
      rewrite Hm by (by rewrite ?map_length). cbn [rbind]. eexists. split; [done|]. apply brep_deq. apply drep_intro; [done|lia].
  Qed.
  Lemma be_algo_list h b l g f : brep h b KList l g -> be_algo b f = UB.
  Proof. intros H. by destruct (brep_inv _ _ _ _ _ H) as [(v&->&[=]&_)|[(d&->&[=]&_)|(s&cs&->&_)]]. Qed.
  Lemma slice_all l : slice l 0 (length l) = l.
  Proof. unfold slice. rewrite drop_0, Nat.sub_0_r. by rewrite take_ge. Qed.
  Lemma permutes_all l l' : permutes l l' 0 (length l) -> l ≡ₚ l' /\ length l' = length l.
  Proof. intros (H1&_&H3). split; [|done]. rewrite slice_all in H3. rewrite <- H1, slice_all in H3. done. Qed.

  (** [I comp l]: the invariant of the elements [l] (in storage order) of a queue with comparator [comp] *)
  Record pq_inv (ok : (A -> A -> bool) -> Prop) (R : (A -> A -> bool) -> (A -> A -> bool) -> Prop)
      (G I : (A -> A -> bool) -> list A -> Prop) : Prop := {
    inv_nil : forall comp, ok comp -> I comp [];
    inv_push : forall comp l a, I comp l -> exists l',
      algo_push_heap_by comp (l ++ [a]) 0 (length (l ++ [a])) = Ok l' /\ length l' = length (l ++ [a]) /\ l' ≡ₚ a :: l /\ I comp l';
    inv_pop : forall comp l, I comp l -> exists l',
      algo_pop_heap_by comp l 0 (length l) = Ok l' /\ length l' = length l /\
      take (length l' - 1) l' ≡ₚ tail l /\ I comp (take (length l' - 1) l');
    inv_good : forall comp l, I comp l -> G comp l;
    inv_swap : forall c d l, R c d -> (I c l -> I d l) /\ (I d l -> I c l) }.
  Section order.
    Context (comp : A -> A -> bool) (HW : StrictWeakOrder comp).
    Lemma heap_greatest l : max_heap comp l -> top_greatest comp l.
    Proof.
      intros Hm x y Hx (k&Hk)%elem_of_list_lookup. destruct l as [|z l]; [done|]. injection Hx as ->.
      pose proof (heap_in_max_heap comp (x :: l) 0 (length (x :: l)) ltac:(unfold range; lia)) as [_ Hin].
      rewrite slice_all in Hin. specialize (Hin Hm). rewrite Nat.sub_0_r in Hin.
      apply (heap_root_greatest comp HW (x :: l) 0 (length (x :: l)) ltac:(done) Hin k); [by eapply lookup_lt_Some|done|done].
    Qed.
    Lemma push_step l a : max_heap comp l -> exists l',
      algo_push_heap_by comp (l ++ [a]) 0 (length (l ++ [a])) = Ok l' /\ length l' = length (l ++ [a]) /\ l' ≡ₚ a :: l /\ max_heap comp l'.
    Proof.
      intros Hm. destruct (push_heap_ok comp HW (l ++ [a]) 0 (length (l ++ [a]))) as (l'&Hp&Hpm&Hh).
      - unfold range. lia.
      - replace (length (l ++ [a]) - 1) with (length l) by (rewrite app_length; cbn; lia).
        unfold slice. rewrite drop_0, Nat.sub_0_r, take_app. done.
      - apply permutes_all in Hpm as [Hpm Hl]. exists l'. split; [done|]. split; [done|]. split.
        + rewrite <- Hpm. by rewrite Permutation_app_comm.
        + rewrite <- Hl, slice_all in Hh. done.
    Qed.
    Lemma pop_step l : max_heap comp l -> exists l',
      algo_pop_heap_by comp l 0 (length l) = Ok l' /\ length l' = length l /\
      take (length l' - 1) l' ≡ₚ tail l /\ max_heap comp (take (length l' - 1) l').
    Proof.
      intros Hm. destruct l as [|x l]; [by exists []|].
      destruct (pop_heap_ok comp HW (x :: l) 0 (length (x :: l))) as (l'&z&Hp&Hpm&Hh&Hz&Hz'&_).
      - unfold range. lia.
      - cbn; lia.
      - by rewrite slice_all.
      - injection Hz as <-. apply permutes_all in Hpm as [Hpm Hl]. exists l'. split; [done|]. split; [done|].
        unfold slice in Hh. rewrite drop_0, Nat.sub_0_r, <- Hl in Hh. split; [|done].
        cbn [tail]. apply (Permutation_cons_inv (a := x)). rewrite Hpm. rewrite <- Hl in Hz'.
        assert (l' = take (length l' - 1) l' ++ [x]) as E.
        { rewrite <- (take_drop_middle _ _ _ Hz') at 1. f_equal. f_equal.
          rewrite drop_ge; [done|]. apply lookup_lt_Some in Hz'. lia. }
        transitivity (take (length l' - 1) l' ++ [x]); [apply Permutation_cons_append|by rewrite <- E].
    Qed.
  End order.


  Lemma inv_ordered : pq_inv StrictWeakOrder eq top_greatest (fun comp l => StrictWeakOrder comp /\ max_heap comp l).
  Proof.
    split.
    - intros comp Hc. split; [done|]. intros i j x y _ Hx. by rewrite lookup_nil in Hx.
    - intros comp l a [Hc Hm]. destruct (push_step comp Hc l a Hm) as (l'&?&?&?&?). by exists l'.
    - intros comp l [Hc Hm]. destruct (pop_step comp Hc l Hm) as (l'&?&?&?&?). by exists l'.
    - intros comp l [Hc Hm]. by apply heap_greatest.
    - by intros c d l <-.
  Qed.
  Lemma inv_any : pq_inv (fun _ => True) (fun _ _ => True) (fun _ _ => True) (fun _ _ => True).
  Proof.
    split; [done| | |done|done].
    - intros comp l a _. destruct (push_heap_any comp (l ++ [a]) 0 (length (l ++ [a]))) as (l'&Hp&Hpm); [unfold range; lia|].
      apply permutes_all in Hpm as [Hpm Hl]. exists l'. split; [done|]. split; [done|]. split; [|done].
      rewrite <- Hpm. by rewrite Permutation_app_comm.
    - intros comp l _. destruct l as [|x l]; [by exists []|].
      destruct (pop_heap_any comp (x :: l) 0 (length (x :: l))) as (l'&z&Hp&Hpm&Hz&Hz'); [unfold range; lia|cbn; lia|].
      injection Hz as <-. apply permutes_all in Hpm as [Hpm Hl]. exists l'. split; [done|]. split; [done|]. split; [|done].
      cbn [tail]. apply (Permutation_cons_inv (a := x)). rewrite Hpm. rewrite <- Hl in Hz'.
      assert (l' = take (length l' - 1) l' ++ [x]) as E.
      { rewrite <- (take_drop_middle _ _ _ Hz') at 1. f_equal. f_equal.
        rewrite drop_ge; [done|]. apply lookup_lt_Some in Hz'. lia. }
      transitivity (take (length l' - 1) l' ++ [x]); [apply Permutation_cons_append|by rewrite <- E].
  Qed.

  Notation item := (backend A * (bkind * list A * list loc))%type.
  Notation pitem := (item * (A -> A -> bool))%type.
  Implicit Types P : list pitem.
  Definition pqs P : list (pqueue A) := map (fun p => PQueue p.1.1 p.2) P.
  Definition apqs P : list (apq A) := map (fun p => Apq (ikind p.1) p.2 (ielems p.1)) P.
  Definition cfg P : list (bkind * (A -> A -> bool)) := map (fun p => (ikind p.1, p.2)) P.
  Section inv.
  Context {ok : (A -> A -> bool) -> Prop} {R : (A -> A -> bool) -> (A -> A -> bool) -> Prop}
    {G I : (A -> A -> bool) -> list A -> Prop} (HI : pq_inv ok R G I).
  Definition pgood (p : pitem) : Prop := ikind p.1 ≠ KList /\ I p.2 (ielems p.1).
  Definition pworld h P : Prop := bworld h P.*1 /\ Forall pgood P.
  Lemma pqs_at P i p : P !! i = Some p -> nth_res (pqs P) i = Ok (PQueue p.1.1 p.2).
  Proof. intros H. unfold nth_res, pqs. change (map ?f P) with (f <$> P). by rewrite list_lookup_fmap, H. Qed.
  Lemma pqs_pqb P : map pqb (pqs P) = P.*1.*1.
  Proof. unfold pqs. rewrite map_map. change (map ?f P) with (f <$> P). rewrite <- list_fmap_compose. done. Qed.
  Lemma cfg_at P i : i < length (cfg P) -> exists p, P !! i = Some p.
  Proof. unfold cfg. rewrite map_length. intros H%lookup_lt_is_Some_2. done. Qed.
  Lemma pworld_at h P i p : pworld h P -> P !! i = Some p ->
    brep h p.1.1 (ikind p.1) (ielems p.1) (inodes p.1) /\ pgood p /\ P.*1 !! i = Some p.1.
  Proof.
    intros [HB HF] Hi. assert (P.*1 !! i = Some p.1) as Hi' by (by rewrite list_lookup_fmap, Hi).
    split; [by apply (bworld_at _ _ _ _ HB Hi')|]. split; [by eapply Forall_lookup_1 in HF|done].
  Qed.
  (** replacing the backend and elements of one queue *)
  Lemma pworld_upd h h' P i p b' l' : pworld h P -> P !! i = Some p ->
    bupd h h' p.1.1 b' (ikind p.1) (ielems p.1) l' (inodes p.1) -> I p.2 l' ->
    exists P', pworld h' P' /\ pqs P' = <[i := PQueue b' p.2]> (pqs P) /\
      apqs P' = <[i := Apq (ikind p.1) p.2 l']> (apqs P) /\ cfg P' = cfg P.
  Proof.
    intros HW Hi Hu Hm. destruct (pworld_at _ _ _ _ HW Hi) as (_&(Hk&_)&Hi'). destruct HW as [HB HF].
    destruct (bworld_upd h h' P.*1 i p.1 b' l' HB Hi' Hu) as (g'&HB').
    exists (<[i := ((b', (ikind p.1, l', g')), p.2)]> P). split; [split|split; [|split]].
    - by rewrite list_fmap_insert.
    - apply Forall_insert; [done|]. done.
    - unfold pqs. change (map ?f ?l) with (f <$> l). by rewrite list_fmap_insert.
    - unfold apqs. change (map ?f ?l) with (f <$> l). by rewrite list_fmap_insert.
    - unfold cfg. change (map ?f ?l) with (f <$> l). rewrite list_fmap_insert. cbn. apply list_insert_id.
      by rewrite list_lookup_fmap, Hi.
  Qed.

  Lemma pq_step_ok h P o c' : pworld h P -> pq_legal1 ok R (cfg P) o c' ->
    exists h' P', pop_run dflt alloc (h, pqs P) o = Ok (h', pqs P') /\ pworld h' P' /\ cfg P' = c' /\
      pq_step G (apqs P) o (apqs P').
  Proof.
    intros HW Hl. destruct o as [k comp|i v|i|i j|i]; cbn [pq_legal1] in Hl.
    - destruct Hl as (Hk&Hc&->). destruct HW as [HB HF]. cbn [pop_run]. unfold c_pq_create.
      pose proof (create_backend_ok alloc HA h k) as Hcr. destruct (create_backend alloc h k) as [h' b]. destruct Hcr as (g&Hb&Hst).
      exists h', (P ++ [((b, (k, [], g)), comp)]). split; [unfold pqs; by rewrite map_app|]. split; [split|split].
      + rewrite fmap_app. by eapply bworld_new.
      + apply Forall_app. split; [done|]. apply Forall_cons. split; [|constructor]. split; [done|]. by apply (inv_nil _ _ _ _ HI).
      + unfold cfg. by rewrite map_app.
      + unfold apqs. rewrite map_app. cbn. constructor.
    - destruct Hl as (Hi&->&Hv). destruct (cfg_at _ _ Hi) as (p&Hp). destruct (pworld_at _ _ _ _ HW Hp) as (Hb&(Hk&Hm)&Hp').
      assert (exists a, denotes P.*1 (ikind p.1) i v a /\ pq_arg (apqs P) i v a) as (a&Hd&Ha).
      { destruct v as [x|j|j]; [by exists (Some x)| |done]. destruct Hv as [Hij Hj]. destruct (cfg_at _ _ Hj) as (u&Hu).
        exists (head (ielems u.1)). split; (split; [|]).
        - unfold own_ok. by rewrite (proj2 (Nat.eqb_neq i j)).
        - exists u.1. by rewrite list_lookup_fmap, Hu.
        - done.
        - exists (Apq (ikind u.1) u.2 (ielems u.1)). unfold apqs. change (map ?f ?l) with (f <$> l). by rewrite list_lookup_fmap, Hu. }
      destruct HW as [HB HF].
      destruct (resolve_ok h P.*1 i p.1 v a HB Hp' Hd) as (r&Hr&Hra).
      cbn [pop_run]. rewrite (pqs_at _ _ _ Hp). cbn [rbind]. rewrite pqs_pqb, Hr. cbn [rbind]. unfold c_pq_push. cbn [pqb pqcomp].
      destruct a as [a|].
      + destruct Hra as (r'&->&Hg).
        destruct (be_push_back_ok dflt alloc HA _ _ _ _ _ _ _ Hb Hg) as (h'&b'&Hpb&g'&Hb'&Hst). rewrite Hpb. cbn [rbind].
        destruct (inv_push _ _ _ _ HI p.2 (ielems p.1) a Hm) as (l'&Hal&Hlen&Hperm&Hm').
        destruct (be_algo_ok h' b' _ _ _ _ l' Hb' Hk Hal Hlen) as (b''&Hbe&Hb''). rewrite Hbe. cbn [rbind].
        destruct (pworld_upd h h' P i p b'' l' (conj HB HF) Hp) as (P'&HP'&E1&E2&E3); [by exists g'|done|].
        exists h', P'. split; [by rewrite E1|]. split; [done|]. split; [done|]. rewrite E2.
        apply (pq_push _ _ i v (Apq (ikind p.1) p.2 (ielems p.1)) a l'); [|done|done|by apply (inv_good _ _ _ _ HI)].
        unfold apqs. change (map ?f ?l) with (f <$> l). by rewrite list_lookup_fmap, Hp.
      + subst r. cbn [rbind]. exists h, P. split; [|split; [done|split; [done|by apply pq_push_null]]].
        f_equal. f_equal. apply list_insert_id. unfold pqs. change (map ?f ?l) with (f <$> l). by rewrite list_lookup_fmap, Hp.
    - destruct Hl as (Hi&->). destruct (cfg_at _ _ Hi) as (p&Hp). destruct (pworld_at _ _ _ _ HW Hp) as (Hb&(Hk&Hm)&Hp').
      cbn [pop_run]. rewrite (pqs_at _ _ _ Hp). cbn [rbind]. unfold c_pq_pop. cbn [pqb pqcomp].
      destruct (inv_pop _ _ _ _ HI p.2 (ielems p.1) Hm) as (l'&Hal&Hlen&Hperm&Hm').
      destruct (be_algo_ok h _ _ _ _ _ l' Hb Hk Hal Hlen) as (b'&Hbe&Hb'). rewrite Hbe. cbn [rbind].
      destruct (be_pop_back_ok _ _ _ _ _ Hb') as (h'&b''&Hpb&Hu). rewrite Hpb. cbn [rbind].
      destruct (pworld_upd h h' P i p b'' (take (length l' - 1) l') HW Hp) as (P'&HP'&E1&E2&E3); [done|done|].
      exists h', P'. split; [by rewrite E1|]. split; [done|]. split; [done|]. rewrite E2.
      apply (pq_pop _ _ i (Apq (ikind p.1) p.2 (ielems p.1))); [|done|by apply (inv_good _ _ _ _ HI)].
      unfold apqs. change (map ?f ?l) with (f <$> l). by rewrite list_lookup_fmap, Hp.
    - destruct Hl as ((cp&cq&Hi&Hj&Hk&HR)&->).
      assert (exists p, P !! i = Some p /\ cp = (ikind p.1, p.2)) as (p&Hp&->).
      { unfold cfg in Hi. change (map ?f ?l) with (f <$> l) in Hi. rewrite list_lookup_fmap in Hi.
        destruct (P !! i) as [p|]; [|done]. injection Hi as <-. by exists p. }
      assert (exists q, P !! j = Some q /\ cq = (ikind q.1, q.2)) as (q&Hq&->).
      { unfold cfg in Hj. change (map ?f ?l) with (f <$> l) in Hj. rewrite list_lookup_fmap in Hj.
        destruct (P !! j) as [q|]; [|done]. injection Hj as <-. by exists q. }
      cbn [fst snd] in Hk, HR.
      destruct (pworld_at _ _ _ _ HW Hp) as (Hb&Hgp&Hp'). destruct (pworld_at _ _ _ _ HW Hq) as (Hb'&Hgq&Hq').
      cbn [pop_run]. rewrite (pqs_at _ _ _ Hp). cbn [rbind]. rewrite (pqs_at _ _ _ Hq). cbn [rbind]. unfold c_pq_swap. cbn [pqb pqcomp].
      rewrite <- Hk in Hb'. rewrite (be_swap_ok _ _ _ _ _ _ _ _ Hb Hb'). cbn [rbind].
      exists h, (<[j := (p.1, q.2)]> (<[i := (q.1, p.2)]> P)). destruct HW as [HB HF]. split; [|split; [split|split]].
      + unfold pqs. change (map ?f ?l) with (f <$> l). by rewrite !list_fmap_insert.
      + rewrite !list_fmap_insert. by apply bworld_swap.
      + destruct Hgp as [Hk1 Hm1], Hgq as [Hk2 Hm2].
        apply Forall_insert; [apply Forall_insert; [done|]|]; (split; [done|]); cbn; by apply (inv_swap _ _ _ _ HI p.2 q.2).
      + unfold cfg. change (map ?f ?l) with (f <$> l). rewrite !list_fmap_insert. cbn.
        rewrite (list_insert_id (_ <$> P) i); [|rewrite list_lookup_fmap, Hp; cbn; by rewrite Hk].
        apply list_insert_id. rewrite list_lookup_fmap, Hq. cbn. by rewrite Hk.
      + unfold apqs. change (map ?f ?l) with (f <$> l). rewrite !list_fmap_insert. cbn.
        pose proof (pq_swap G (apqs P) i j (Apq (ikind p.1) p.2 (ielems p.1)) (Apq (ikind q.1) q.2 (ielems q.1))) as Hsw.
        cbn [akind acomp aelems] in Hsw. rewrite <- Hk in Hsw |- *. apply Hsw.
        * unfold apqs. change (map ?f ?l) with (f <$> l). by rewrite list_lookup_fmap, Hp.
        * unfold apqs. change (map ?f ?l) with (f <$> l). rewrite list_lookup_fmap, Hq. cbn. by rewrite Hk.
    - destruct Hl as (Hi&->). destruct (cfg_at _ _ Hi) as (p&Hp). destruct (pworld_at _ _ _ _ HW Hp) as (Hb&(Hk&Hm)&Hp').
      cbn [pop_run]. rewrite (pqs_at _ _ _ Hp). cbn [rbind]. unfold c_pq_destroy. cbn [pqb].
      destruct (be_destroy_ok _ _ _ _ _ Hb) as (h'&Hd&Hst). rewrite Hd. cbn [rbind]. destruct HW as [HB HF].
      exists h', (delete i P). split; [|split; [split|split]].
      + unfold pqs. change (map ?f ?l) with (f <$> l). by rewrite list_fmap_delete.
      + rewrite list_fmap_delete. by eapply bworld_del.
      + by apply Forall_delete.
      + unfold cfg. change (map ?f ?l) with (f <$> l). by rewrite list_fmap_delete.
      + unfold apqs. change (map ?f ?l) with (f <$> l). rewrite list_fmap_delete.
        eapply pq_destroy. by rewrite list_lookup_fmap, Hp.
  Qed.

  Lemma pq_sees_ok h P : pworld h P -> Forall2 (pq_sees h) (pqs P) (apqs P).
  Proof.
    intros HW. apply Forall2_same_length_lookup_2; [unfold pqs, apqs; by rewrite !map_length|].
    intros i q a Hq Ha. unfold pqs, apqs in *. change (map ?f ?l) with (f <$> l) in Hq. change (map ?f ?l) with (f <$> l) in Ha. rewrite list_lookup_fmap in Hq. rewrite list_lookup_fmap in Ha.
    destruct (P !! i) as [p|] eqn:Hp; [|done]. injection Hq as <-. injection Ha as <-.
    destruct (pworld_at _ _ _ _ HW Hp) as (Hb&_). unfold pq_sees, c_pq_top, c_pq_size, c_pq_empty. cbn [pqb aelems].
    rewrite (be_front_ok _ _ _ _ _ Hb), (be_size_ok _ _ _ _ _ Hb), (be_empty_ok _ _ _ _ _ Hb). split; [done|]. split; [done|].
    by destruct (ielems p.1).
  Qed.
  Lemma pq_path_ok os : forall h P, pworld h P -> pq_legal ok R (cfg P) os -> pq_path dflt alloc G h (pqs P) (apqs P) os.
  Proof.
    induction os as [|o os IH]; intros h P HW Hl; (split; [by apply pq_sees_ok|]); [done|].
    cbn [pq_legal] in Hl. destruct Hl as (c'&H1&H2). destruct (pq_step_ok h P o c' HW H1) as (h'&P'&Hr&HW'&<-&Hs).
    exists h', (pqs P'), (apqs P'). split; [done|]. split; [done|]. by apply IH.
  Qed.
  Lemma pq_hist_ok os : forall h P, pworld h P -> pq_legal ok R (cfg P) os ->
    exists h' P', phist_run dflt alloc (h, pqs P) os = Ok (h', pqs P') /\ pworld h' P'.
  Proof.
    induction os as [|o os IH]; intros h P HW Hl; [by exists h, P|].
    cbn [pq_legal] in Hl. destruct Hl as (c'&H1&H2). destruct (pq_step_ok h P o c' HW H1) as (h'&P'&Hr&HW'&<-&Hs).
    destruct (IH h' P' HW' H2) as (h2&P2&Hr2&HW2). exists h2, P2. split; [|done]. cbn [phist_run]. rewrite Hr. done.
  Qed.
  Lemma pworld_nil : pworld DListRun.heap0 [].
  Proof. split; [apply bworld_nil|constructor]. Qed.
  End inv.
End pq.
