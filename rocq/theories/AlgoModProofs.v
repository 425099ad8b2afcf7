(** AlgoModProofs.v — proofs about AlgoMod.v *)
From Verif Require Import Base Spec Facts AlgoNonMod AlgoNonModProofs AlgoMod.
From stdpp Require Import list.

Section proofs.
  Context {A : Type}.
  Implicit Types m : list A.

  (** ** forward copying *)
  Lemma omap_cons_eq (emit : A -> option A) x s :
    omap emit (x :: s) = match emit x with Some y => y :: omap emit s | None => omap emit s end.
  Proof. done. Qed.
  Lemma emit_loop_ok emit m0 d0 last : last <= length m0 ->
    forall fuel i acc, i <= last -> last - i < fuel ->
      d0 + length (acc ++ omap emit (slice m0 i last)) <= length m0 ->
      (d0 + length acc <= i \/ last <= d0) ->
      emit_loop fuel emit (patch m0 d0 acc) i last (d0 + length acc) (length acc)
      = Ok (patch m0 d0 (acc ++ omap emit (slice m0 i last)),
            d0 + length (acc ++ omap emit (slice m0 i last)),
            length (acc ++ omap emit (slice m0 i last))).
  Proof.
    intros Hl fuel. induction fuel as [|fuel IH]; intros i acc Hi Hf Hd Hov; [lia|]. cbn [emit_loop].
    destruct (i =? last) eqn:E.
    - apply Nat.eqb_eq in E as ->. rewrite slice_nil. change (omap emit []) with (@nil A). by rewrite app_nil_r.
    - rewrite app_length in Hd. destruct (lookup_lt_is_Some_2 m0 i) as [x Hx]; [lia|].
      rewrite (rd_Ok _ i x) by (rewrite patch_lookup_out by lia; done). cbn [rbind].
      rewrite (slice_cons m0 i last x) in * by (done || lia). rewrite omap_cons_eq in *.
      destruct (emit x) as [y|].
      + cbn [length] in Hd. rewrite wr_Ok by (rewrite patch_length; lia). cbn [rbind].
        rewrite patch_snoc by lia.
        specialize (IH (S i) (acc ++ [y])). rewrite (app_length acc [y]) in IH. cbn [length] in IH.
        replace (length acc + 1) with (S (length acc)) in IH by lia.
        rewrite <- Nat.add_succ_r. rewrite IH; [|lia|lia| |lia].
        * by rewrite <- !app_assoc.
        * rewrite !app_length. cbn [length]. lia.
      + apply IH; [lia|lia| |lia]. rewrite app_length. exact Hd.
  Qed.
  Lemma emit_ok emit m f l d : range m f l -> d + length (omap emit (slice m f l)) <= length m ->
    (d <= f \/ l <= d) ->
    emit_loop (S (length m)) emit m f l d 0
    = Ok (patch m d (omap emit (slice m f l)), d + length (omap emit (slice m f l)), length (omap emit (slice m f l))).
  Proof.
    intros [H1 H2] Hd Hov. pose proof (emit_loop_ok emit m d l H2 (S (length m)) f []) as H.
    cbn [length app] in H. rewrite patch_nil, Nat.add_0_r in H. apply H; lia.
  Qed.
  Lemma omap_some (g : A -> A) (s : list A) : omap (fun x => Some (g x)) s = map g s.
  Proof. induction s as [|x s IH]; [done|]. cbn. by f_equal. Qed.
  Lemma omap_id (s : list A) : omap (@Some A) s = s.
  Proof. rewrite (omap_some (fun x => x)). apply map_id. Qed.
  Lemma omap_filter (p : A -> bool) (s : list A) : omap (fun x => if p x then Some x else None) s = List.filter p s.
  Proof. induction s as [|x s IH]; [done|]. cbn. destruct (p x); [f_equal|]; exact IH. Qed.

  Lemma copy_ok m f l d : range m f l -> d + (l - f) <= length m -> (d <= f \/ l <= d) ->
    algo_copy m f l d = Ok (patch m d (slice m f l), d + (l - f), l - f).
  Proof.
    intros H Hd Hov. unfold algo_copy. pose proof (slice_length m f l H) as Hs.
    rewrite emit_ok; rewrite ?omap_id, ?Hs; done.
  Qed.
  Lemma copy_if_ok m f l d p : range m f l ->
    let s := List.filter p (slice m f l) in
    d + length s <= length m -> (d <= f \/ l <= d) ->
    algo_copy_if m f l d p = Ok (patch m d s, d + length s, length s).
  Proof. intros H s Hd Hov. unfold algo_copy_if. rewrite emit_ok; rewrite ?omap_filter; done. Qed.
  Lemma transform_ok m f l d op : range m f l -> d + (l - f) <= length m -> (d <= f \/ l <= d) ->
    algo_transform m f l d op = Ok (patch m d (map op (slice m f l)), l - f).
  Proof.
    intros H Hd Hov. unfold algo_transform. pose proof (slice_length m f l H) as Hs.
    rewrite emit_ok; rewrite ?omap_some, ?map_length, ?Hs; done.
  Qed.
  Lemma remove_copy_if_ok m f l d p : range m f l ->
    let s := List.filter (fun x => negb (p x)) (slice m f l) in
    d + length s <= length m -> (d <= f \/ l <= d) ->
    algo_remove_copy_if m f l d p = Ok (patch m d s, d + length s, length s).
  Proof. intros H s Hd Hov. unfold algo_remove_copy_if. rewrite emit_ok; rewrite ?(omap_filter (fun x => negb (p x))); done. Qed.
  Lemma remove_copy_ok eqf m f l d v : range m f l ->
    let s := List.filter (fun x => negb (eqf x v)) (slice m f l) in
    d + length s <= length m -> (d <= f \/ l <= d) ->
    algo_remove_copy eqf m f l d v = Ok (patch m d s, d + length s, length s).
  Proof. intros H s Hd Hov. unfold algo_remove_copy. rewrite emit_ok; rewrite ?(omap_filter (fun x => negb (eqf x v))); done. Qed.
  Lemma replace_copy_if_ok m f l d p new : range m f l -> d + (l - f) <= length m -> (d <= f \/ l <= d) ->
    algo_replace_copy_if m f l d p new
    = Ok (patch m d (map (fun x => if p x then new else x) (slice m f l)), d + (l - f), l - f).
  Proof.
    intros H Hd Hov. unfold algo_replace_copy_if. pose proof (slice_length m f l H) as Hs.
    rewrite emit_ok; rewrite ?(omap_some (fun x => if p x then new else x)), ?map_length, ?Hs; done.
  Qed.
  Lemma replace_copy_ok eqf m f l d old new : range m f l -> d + (l - f) <= length m -> (d <= f \/ l <= d) ->
    algo_replace_copy eqf m f l d old new
    = Ok (patch m d (map (fun x => if eqf x old then new else x) (slice m f l)), d + (l - f), l - f).
  Proof.
    intros H Hd Hov. unfold algo_replace_copy. pose proof (slice_length m f l H) as Hs.
    rewrite emit_ok; rewrite ?(omap_some (fun x => if eqf x old then new else x)), ?map_length, ?Hs; done.
  Qed.

  (** ** backward copying *)
  Lemma copy_backward_loop_ok m0 first : forall fuel k acc d, 
      first + k <= length m0 -> k < fuel -> k <= d -> d + length acc <= length m0 ->
      (first + k <= d \/ d + length acc <= first) ->
      copy_backward_loop fuel (patch m0 d acc) first (first + k) d (length acc)
      = Ok (patch m0 (d - k) (slice m0 first (first + k) ++ acc), d - k, k + length acc).
  Proof.
    induction fuel as [|fuel IH]; intros k acc d Hk Hf Hd Hb Hov; [lia|]. cbn [copy_backward_loop].
    destruct k as [|k].
    - rewrite Nat.add_0_r, Nat.eqb_refl, slice_nil, Nat.sub_0_r. done.
    - destruct (first + S k =? first) eqn:E; [lia|]. rewrite Nat.add_succ_r in *.
      destruct d as [|d]; [lia|].
      destruct (lookup_lt_is_Some_2 m0 (first + k)) as [x Hx]; [lia|].
      rewrite (rd_Ok _ _ x) by (rewrite patch_lookup_out by lia; done). cbn [rbind].
      rewrite wr_Ok by (rewrite patch_length; lia). cbn [rbind].
      rewrite patch_cons by lia. specialize (IH k (x :: acc) d). cbn [length] in IH.
      rewrite IH by lia. rewrite (slice_snoc m0 first (first + k) x) by (done || lia).
      rewrite <- app_assoc. cbn [app]. f_equal. f_equal. lia.
  Qed.
  Lemma copy_backward_ok m f l dl : range m f l -> l - f <= dl <= length m -> (l <= dl \/ dl <= f) ->
    algo_copy_backward m f l dl = Ok (patch m (dl - (l - f)) (slice m f l), dl - (l - f), l - f).
  Proof.
    intros [H1 H2] Hd Hov. unfold algo_copy_backward.
    pose proof (copy_backward_loop_ok m f (S (length m)) (l - f) [] dl) as H.
    cbn [length] in H. rewrite patch_nil, app_nil_r in H. replace (f + (l - f)) with l in H by lia.
    rewrite H by lia. f_equal. f_equal. lia.
  Qed.

  (** ** algo_generate / algo_fill *)
  Lemma generated_length {St} (gen : St -> St * A) n : forall st, length (generated gen st n).1 = n.
  Proof.
    induction n as [|n IH]; intros st; [done|]. cbn. destruct (gen st) as [st' v].
    specialize (IH st'). destruct (generated gen st' n). cbn in *. lia.
  Qed.
  Lemma gen_loop_ok {St} (gen : St -> St * A) m0 f0 : forall k fuel acc st,
    f0 + length acc + k <= length m0 -> k < fuel ->
    gen_loop fuel gen (patch m0 f0 acc) st (f0 + length acc) (f0 + length acc + k) (length acc)
    = Ok (patch m0 f0 (acc ++ (generated gen st k).1), (generated gen st k).2, length acc + k).
  Proof.
    induction k as [|k IH]; intros fuel acc st Hk Hf; (destruct fuel as [|fuel]; [lia|]); cbn [gen_loop].
    - rewrite (proj2 (Nat.eqb_eq _ _)) by lia. cbn. rewrite app_nil_r, Nat.add_0_r. done.
    - destruct (_ =? _) eqn:E; [lia|]. cbn [generated]. destruct (gen st) as [st' v].
      rewrite wr_Ok by (rewrite patch_length; lia). cbn [rbind]. rewrite patch_snoc by lia.
      specialize (IH fuel (acc ++ [v]) st'). rewrite app_length in IH. cbn [length] in IH.
      replace (f0 + (length acc + 1)) with (S (f0 + length acc)) in IH by lia.
      replace (length acc + 1) with (S (length acc)) in IH by lia.
      replace (f0 + length acc + S k) with (S (f0 + length acc) + k) by lia.
      rewrite IH by lia. destruct (generated gen st' k) as [r st'']. cbn.
      rewrite <- app_assoc. cbn. f_equal. f_equal. lia.
  Qed.
  Lemma generate_ok {St} (gen : St -> St * A) m f l st : range m f l ->
    algo_generate m f l gen st
    = Ok (patch m f (generated gen st (l - f)).1, (generated gen st (l - f)).2, l - f).
  Proof.
    intros [H1 H2]. unfold algo_generate.
    pose proof (gen_loop_ok gen m f (l - f) (S (length m)) [] st) as H.
    cbn [length app] in H. rewrite patch_nil, Nat.add_0_r in H.
    replace (f + (l - f)) with l in H by lia. rewrite H by lia. done.
  Qed.
  Lemma generated_const (v : A) n : (generated (fun u : unit => (u, v)) tt n).1 = replicate n v.
  Proof. induction n as [|n IH]; [done|]. cbn. destruct (generated _ _ _) as [r u]. cbn in *. by rewrite IH. Qed.
  Lemma fill_ok m f l v : range m f l ->
    algo_fill m f l v = Ok (patch m f (replicate (l - f) v), l - f).
  Proof.
    intros H. unfold algo_fill. pose proof (generate_ok (fun u : unit => (u, v)) m f l tt H) as Hg.
    unfold algo_generate in Hg. rewrite Hg. cbn [rbind fst snd]. by rewrite generated_const.
  Qed.
  Lemma generate_n_ok {St} (gen : St -> St * A) m0 f0 : forall n acc st,
    f0 + length acc + n <= length m0 ->
    algo_generate_n (patch m0 f0 acc) (f0 + length acc) n gen st
    = Ok (patch m0 f0 (acc ++ (generated gen st n).1), (generated gen st n).2, f0 + length acc + n).
  Proof.
    induction n as [|n IH]; intros acc st Hn; cbn [algo_generate_n generated].
    - cbn. rewrite app_nil_r, Nat.add_0_r. done.
    - destruct (gen st) as [st' v]. rewrite wr_Ok by (rewrite patch_length; lia). cbn [rbind].
      rewrite patch_snoc by lia. specialize (IH (acc ++ [v]) st'). rewrite app_length in IH. cbn [length] in IH.
      replace (f0 + (length acc + 1)) with (S (f0 + length acc)) in IH by lia.
      rewrite IH by lia. destruct (generated gen st' n) as [r st'']. cbn.
      rewrite <- app_assoc. cbn. f_equal. f_equal. lia.
  Qed.
  Lemma fill_n_ok m f n v : f + n <= length m ->
    algo_fill_n m f n v = Ok (patch m f (replicate n v), f + n).
  Proof.
    intros H. unfold algo_fill_n. pose proof (generate_n_ok (fun u : unit => (u, v)) m f n [] tt) as Hg.
    cbn [length app] in Hg. rewrite patch_nil, Nat.add_0_r in Hg. rewrite Hg by lia.
    cbn [rbind fst snd]. by rewrite generated_const.
  Qed.
  Lemma generate_n_top {St} (gen : St -> St * A) m f n st : f + n <= length m ->
    algo_generate_n m f n gen st = Ok (patch m f (generated gen st n).1, (generated gen st n).2, f + n).
  Proof.
    intros H. pose proof (generate_n_ok gen m f n [] st) as Hg.
    cbn [length app] in Hg. rewrite patch_nil, Nat.add_0_r in Hg. by apply Hg.
  Qed.

  (** ** algo_remove *)
  Lemma filter_length_split (p : A -> bool) s :
    length (List.filter p s) + length (List.filter (fun x => negb (p x)) s) = length s.
  Proof. induction s as [|x s IH]; [done|]. cbn. destruct (p x); cbn; lia. Qed.
  Lemma remove_loop_ok p m0 f0 last : last <= length m0 ->
    forall fuel i acc n, i <= last -> last - i < fuel -> f0 + length acc < i ->
      remove_loop fuel p (patch m0 f0 acc) (f0 + length acc) i last n
      = Ok (patch m0 f0 (acc ++ List.filter (fun x => negb (p x)) (slice m0 i last)),
            f0 + length (acc ++ List.filter (fun x => negb (p x)) (slice m0 i last)),
            n + length (List.filter p (slice m0 i last))).
  Proof.
    intros Hl fuel. induction fuel as [|fuel IH]; intros i acc n Hi Hf Hd; [lia|]. cbn [remove_loop].
    destruct (i =? last) eqn:E.
    - apply Nat.eqb_eq in E as ->. rewrite slice_nil. cbn. by rewrite app_nil_r, Nat.add_0_r.
    - destruct (lookup_lt_is_Some_2 m0 i) as [x Hx]; [lia|].
      rewrite (rd_Ok _ i x) by (rewrite patch_lookup_out by lia; done). cbn [rbind].
      rewrite (slice_cons m0 i last x) in * by (done || lia). cbn [List.filter].
      destruct (p x) eqn:Hp; cbn [negb].
      + rewrite IH by lia. cbn [length]. f_equal. f_equal. lia.
      + rewrite wr_Ok by (rewrite patch_length; lia). cbn [rbind]. rewrite patch_snoc by lia.
        specialize (IH (S i) (acc ++ [x]) n). rewrite (app_length acc [x]) in IH. cbn [length] in IH.
        replace (f0 + (length acc + 1)) with (S (f0 + length acc)) in IH by lia.
        rewrite IH by lia. rewrite <- !app_assoc. done.
  Qed.
  Lemma remove_core p m f l r : range m f l -> first_position f l (cell m p) r ->
    (if r.2 =? l then Ok (m, r.2, 0) else remove_loop (S (length m)) p m r.2 (S r.2) l 1)
    = Ok (patch m f (List.filter (fun x => negb (p x)) (slice m f l)),
          f + length (List.filter (fun x => negb (p x)) (slice m f l)),
          length (List.filter p (slice m f l))).
  Proof.
    intros [H1 H2] Hr.
    assert (Hfil : forall j, f <= j <= l -> (forall k, f <= k < j -> ~ cell m p k) ->
      List.filter (fun x => negb (p x)) (slice m f j) = slice m f j /\ List.filter p (slice m f j) = []).
    { intros j Hj Hno. assert (Hall : forall x, x ∈ slice m f j -> p x = false).
      { intros x Hx. apply elem_of_slice in Hx as [k [Hk1 Hk2]]. destruct (p x) eqn:E; [|done].
        exfalso. apply (Hno k Hk1). by exists x. }
      clear Hno. induction (slice m f j) as [|x s IH]; [done|]. cbn.
      assert (p x = false) as -> by (apply Hall; set_solver). cbn.
      destruct IH as [-> ->]; [|done]. intros y Hy. apply Hall. set_solver. }
    destruct r as [[] j]; cbn [fst snd]; cbn in Hr.
    - destruct Hr as [Hj [[x [Hx Hpx]] Hno]]. destruct (Hfil j) as [Hf1 Hf2]; [lia|done|].
      destruct (j =? l) eqn:E; [lia|].
      pose proof (remove_loop_ok p m j l H2 (S (length m)) (S j) [] 1) as Hloop.
      cbn [length app] in Hloop. rewrite patch_nil, Nat.add_0_r in Hloop. rewrite Hloop by lia.
      rewrite (slice_app_slice m f j l) by lia. rewrite (slice_cons m j l x) by (done || lia).
      rewrite !List.filter_app. cbn [List.filter]. rewrite Hpx, Hf1, Hf2. cbn [negb app length].
      pose proof (filter_length_split p (slice m (S j) l)) as Hlen.
      rewrite slice_length in Hlen by (split; lia).
      rewrite <- patch_slice by lia. rewrite app_length, slice_length by (split; lia).
      f_equal. f_equal. f_equal. lia.
    - destruct Hr as [-> Hno]. destruct (Hfil l) as [Hf1 Hf2]; [lia|done|].
      rewrite Nat.eqb_refl, Hf1, Hf2. rewrite patch_self by (split; lia).
      rewrite slice_length by (split; lia). cbn. f_equal. f_equal. f_equal. lia.
  Qed.
  Lemma remove_if_ok m f l p : range m f l ->
    let kept := List.filter (fun x => negb (p x)) (slice m f l) in
    algo_remove_if m f l p = Ok (patch m f kept, f + length kept, length (List.filter p (slice m f l))).
  Proof.
    intros H. unfold algo_remove_if. destruct (find_if_ok m f l p H) as [r [-> Hr]]. cbn [rbind].
    destruct r as [b j]. exact (remove_core p m f l (b, j) H Hr).
  Qed.
  Lemma remove_ok eqf m f l v : range m f l ->
    let kept := List.filter (fun x => negb (eqf x v)) (slice m f l) in
    algo_remove eqf m f l v = Ok (patch m f kept, f + length kept, length (List.filter (fun x => eqf x v) (slice m f l))).
  Proof.
    intros H. unfold algo_remove. destruct (find_by_ok m f l v eqf H) as [r [-> Hr]]. cbn [rbind].
    destruct r as [b j]. exact (remove_core (fun x => eqf x v) m f l (b, j) H Hr).
  Qed.

  (** ** replace *)
  Lemma replace_loop_ok p new : forall (s pre post : list A) fuel n, length s < fuel ->
    replace_loop fuel p new (pre ++ s ++ post) (length pre) (length pre + length s) n
    = Ok (pre ++ map (fun x => if p x then new else x) s ++ post, n + length (List.filter p s)).
  Proof.
    induction s as [|x s IH]; intros pre post fuel n Hf; (destruct fuel as [|fuel]; [cbn in *; lia|]); cbn [replace_loop].
    - rewrite (proj2 (Nat.eqb_eq _ _)) by (cbn; lia). cbn. by rewrite Nat.add_0_r.
    - cbn [length] in *. destruct (_ =? _) eqn:E; [lia|]. cbn [app]. rewrite rd_at by done. cbn [rbind].
      cbn [map List.filter].
      assert (IH' : forall y n', replace_loop fuel p new (pre ++ y :: s ++ post) (S (length pre)) (length pre + S (length s)) n' =
         Ok (pre ++ y :: map (fun x0 => if p x0 then new else x0) s ++ post, n' + length (List.filter p s))).
      { intros y n'. specialize (IH (pre ++ [y]) post fuel n').
        rewrite <- !app_assoc in IH. cbn [app] in IH. rewrite app_length in IH. cbn [length] in IH.
        replace (length pre + 1) with (S (length pre)) in IH by lia.
        replace (length pre + S (length s)) with (S (length pre) + length s) by lia. apply IH. lia. }
      destruct (p x).
      + rewrite wr_at by done. cbn [rbind]. rewrite IH'. cbn [length app]. f_equal. f_equal. lia.
      + rewrite IH'. done.
  Qed.
  Lemma replace_core p new m f l r : range m f l -> first_position f l (cell m p) r ->
    replace_loop (S (length m)) p new m r.2 l 0
    = Ok (patch m f (map (fun x => if p x then new else x) (slice m f l)), length (List.filter p (slice m f l))).
  Proof.
    intros [H1 H2] Hr.
    assert (Hj : f <= r.2 <= l /\ forall k, f <= k < r.2 -> ~ cell m p k).
    { destruct r as [[] j]; cbn in *; [destruct Hr as [? [_ ?]]|destruct Hr as [-> ?]]; (split; [lia|done]). }
    destruct r as [b j]. cbn [snd] in *. clear Hr. destruct Hj as [Hj Hno].
    assert (Hpre : map (fun x => if p x then new else x) (slice m f j) = slice m f j /\ List.filter p (slice m f j) = []).
    { assert (Hall : forall x, x ∈ slice m f j -> p x = false).
      { intros x Hx. apply elem_of_slice in Hx as [k [Hk1 Hk2]]. destruct (p x) eqn:E; [|done].
        exfalso. apply (Hno k Hk1). by exists x. }
      clear Hno. induction (slice m f j) as [|x s IH]; [done|]. cbn.
      assert (p x = false) as -> by (apply Hall; set_solver). cbn.
      destruct IH as [-> ->]; [|done]. intros y Hy. apply Hall. set_solver. }
    destruct Hpre as [Hp1 Hp2].
    rewrite (slice_app_slice m f j l) by lia. rewrite map_app, List.filter_app, Hp1, Hp2. cbn [app].
    rewrite <- patch_slice by (rewrite ?map_length, ?slice_length by (split; lia); lia).
    destruct (range_split m j l) as (pre & s & post & Hm & Hpj & Hpl & Hsl & Ht & Hdr); [split; lia|].
    rewrite Hsl. rewrite Hm, Hpj, Hpl.
    rewrite replace_loop_ok by (rewrite !app_length; lia).
    rewrite patch_app by (by rewrite map_length). done.
  Qed.
  Lemma replace_if_ok m f l p new : range m f l ->
    algo_replace_if m f l p new
    = Ok (patch m f (map (fun x => if p x then new else x) (slice m f l)), length (List.filter p (slice m f l))).
  Proof.
    intros H. unfold algo_replace_if. destruct (find_if_ok m f l p H) as [r [-> Hr]]. cbn [rbind].
    destruct r as [b j]. exact (replace_core p new m f l (b, j) H Hr).
  Qed.
  Lemma replace_ok eqf m f l old new : range m f l ->
    algo_replace eqf m f l old new
    = Ok (patch m f (map (fun x => if eqf x old then new else x) (slice m f l)),
          length (List.filter (fun x => eqf x old) (slice m f l))).
  Proof.
    intros H. unfold algo_replace. destruct (find_by_ok m f l old eqf H) as [r [-> Hr]]. cbn [rbind].
    destruct r as [b j]. exact (replace_core (fun x => eqf x old) new m f l (b, j) H Hr).
  Qed.

  (** ** algo_swap_range *)
  Lemma swap_range_loop_ok : forall (s1 s2 pre mid post : list A) fuel n, length s1 = length s2 -> length s1 < fuel ->
    forall pre2, 
    swap_range_loop fuel (pre ++ s1 ++ mid ++ pre2 ++ s2 ++ post) (length pre) (length pre + length s1)
       (length pre + length s1 + length mid + length pre2) n
    = Ok (pre ++ s2 ++ mid ++ pre2 ++ s1 ++ post, n + length s1).
  Proof.
    induction s1 as [|x s1 IH]; intros s2 pre mid post fuel n Hlen Hf pre2; (destruct fuel as [|fuel]; [cbn in *; lia|]); cbn [swap_range_loop].
    - rewrite (proj2 (Nat.eqb_eq _ _)) by (cbn; lia). destruct s2; [|done]. cbn. f_equal. f_equal. lia.
    - destruct s2 as [|y s2]; [done|]. cbn [length] in *. destruct (_ =? _) eqn:E; [lia|].
      replace (pre ++ (x :: s1) ++ mid ++ pre2 ++ (y :: s2) ++ post)
        with (pre ++ x :: (s1 ++ mid ++ pre2) ++ y :: s2 ++ post) by (cbn; by rewrite <- !app_assoc).
      rewrite swp_at; [|done|rewrite !app_length; lia]. cbn [rbind].
      specialize (IH s2 (pre ++ [y]) mid post fuel (S n)).
      specialize (IH ltac:(lia) ltac:(lia) (pre2 ++ [x])).
      rewrite !app_length in IH. cbn [length] in IH.
      replace (pre ++ y :: (s1 ++ mid ++ pre2) ++ x :: s2 ++ post)
        with ((pre ++ [y]) ++ s1 ++ mid ++ (pre2 ++ [x]) ++ s2 ++ post) by (rewrite <- !app_assoc; done).
      replace (S (length pre)) with (length pre + 1) by lia.
      replace (length pre + S (length s1)) with (length pre + 1 + length s1) by lia.
      replace (S (length pre + 1 + length s1 + length mid + length pre2)) with
        (length pre + 1 + length s1 + length mid + (length pre2 + 1)) by lia.
      rewrite IH. rewrite <- !app_assoc. cbn. f_equal. f_equal. lia.
  Qed.
  (** the symmetric layout: the second range lies before the first *)
  Lemma swap_range_loop_ok2 : forall (s1 s2 pre mid post : list A) fuel n, length s1 = length s2 -> length s1 < fuel ->
    forall pre1,
    swap_range_loop fuel (pre ++ s2 ++ mid ++ pre1 ++ s1 ++ post)
       (length pre + length s2 + length mid + length pre1)
       (length pre + length s2 + length mid + length pre1 + length s1) (length pre) n
    = Ok (pre ++ s1 ++ mid ++ pre1 ++ s2 ++ post, n + length s1).
  Proof.
    induction s1 as [|x s1 IH]; intros s2 pre mid post fuel n Hlen Hf pre1; (destruct fuel as [|fuel]; [cbn in *; lia|]); cbn [swap_range_loop].
    - rewrite (proj2 (Nat.eqb_eq _ _)) by (cbn; lia). destruct s2; [|done]. cbn. f_equal. f_equal. lia.
    - destruct s2 as [|y s2]; [done|]. cbn [length] in *. destruct (_ =? _) eqn:E; [lia|].
      assert (Hsw : swp (pre ++ (y :: s2) ++ mid ++ pre1 ++ (x :: s1) ++ post)
         (length pre + S (length s2) + length mid + length pre1) (length pre)
         = Ok (pre ++ x :: (s2 ++ mid ++ pre1) ++ y :: s1 ++ post)).
      { pose proof (swp_at pre y (s2 ++ mid ++ pre1) x (s1 ++ post) (length pre) (length pre + S (length s2) + length mid + length pre1)) as Hs.
        replace (pre ++ (y :: s2) ++ mid ++ pre1 ++ (x :: s1) ++ post)
          with (pre ++ y :: (s2 ++ mid ++ pre1) ++ x :: s1 ++ post) by (cbn; by rewrite <- !app_assoc).
        specialize (Hs eq_refl ltac:(rewrite !app_length; lia)).
        unfold swp in Hs |- *.
        assert (Hy : (pre ++ y :: (s2 ++ mid ++ pre1) ++ x :: s1 ++ post) !! length pre = Some y).
        { rewrite lookup_app_r by lia. by rewrite Nat.sub_diag. }
        assert (Hx : (pre ++ y :: (s2 ++ mid ++ pre1) ++ x :: s1 ++ post) !! (length pre + S (length s2) + length mid + length pre1) = Some x).
        { replace (pre ++ y :: (s2 ++ mid ++ pre1) ++ x :: s1 ++ post)
            with ((pre ++ y :: s2 ++ mid ++ pre1) ++ x :: s1 ++ post) by (by applist).
          apply list_lookup_middle. rewrite !app_length. cbn [length]. rewrite !app_length. lia. }
        rewrite (rd_Ok _ _ _ Hx), (rd_Ok _ _ _ Hy) in *. cbn [rbind] in *.
        rewrite wr_Ok in * by (eapply lookup_lt_Some; eauto). cbn [rbind] in *.
        rewrite wr_Ok in * by (rewrite insert_length; eapply lookup_lt_Some; eauto).
        rewrite <- Hs. f_equal. apply list_insert_commute. lia. }
      rewrite Hsw. cbn [rbind].
      specialize (IH s2 (pre ++ [x]) mid post fuel (S n) ltac:(lia) ltac:(lia) (pre1 ++ [y])).
      rewrite !app_length in IH. cbn [length] in IH.
      replace (pre ++ x :: (s2 ++ mid ++ pre1) ++ y :: s1 ++ post)
        with ((pre ++ [x]) ++ s2 ++ mid ++ (pre1 ++ [y]) ++ s1 ++ post) by (rewrite <- !app_assoc; done).
      replace (S (length pre)) with (length pre + 1) by lia.
      replace (S (length pre + S (length s2) + length mid + length pre1)) with
         (length pre + 1 + length s2 + length mid + (length pre1 + 1)) by lia.
      replace (length pre + S (length s2) + length mid + length pre1 + S (length s1)) with
         (length pre + 1 + length s2 + length mid + (length pre1 + 1) + length s1) by lia.
      rewrite IH. rewrite <- !app_assoc. cbn. f_equal. f_equal. lia.
  Qed.
  Lemma patch_two (pre s1 mid s2 post : list A) : length s1 = length s2 ->
    patch (patch (pre ++ s1 ++ mid ++ s2 ++ post) (length pre) s2) (length pre + length s1 + length mid) s1
    = pre ++ s2 ++ mid ++ s1 ++ post.
  Proof.
    intros H. rewrite patch_app by done.
    replace (pre ++ s2 ++ mid ++ s2 ++ post) with ((pre ++ s2 ++ mid) ++ s2 ++ post) by (by rewrite <- !app_assoc).
    replace (length pre + length s1 + length mid) with (length (pre ++ s2 ++ mid)) by (rewrite !app_length; lia).
    rewrite patch_app by done. by rewrite <- !app_assoc.
  Qed.
  Lemma patch_two' (pre s1 mid s2 post : list A) : length s1 = length s2 ->
    patch (patch (pre ++ s2 ++ mid ++ s1 ++ post) (length pre + length s2 + length mid) s2) (length pre) s1
    = pre ++ s1 ++ mid ++ s2 ++ post.
  Proof.
    intros H.
    replace (pre ++ s2 ++ mid ++ s1 ++ post) with ((pre ++ s2 ++ mid) ++ s1 ++ post) by (by rewrite <- !app_assoc).
    replace (length pre + length s2 + length mid) with (length (pre ++ s2 ++ mid)) by (rewrite !app_length; lia).
    rewrite patch_app by done. rewrite <- !app_assoc. by rewrite patch_app.
  Qed.
  Lemma swap_range_ok m f1 l1 f2 : range m f1 l1 -> f2 + (l1 - f1) <= length m ->
    (l1 <= f2 \/ f2 + (l1 - f1) <= f1) ->
    algo_swap_range m f1 l1 f2
    = Ok (patch (patch m f1 (slice m f2 (f2 + (l1 - f1)))) f2 (slice m f1 l1), l1 - f1).
  Proof.
    intros [H1 H2] H3 [Hd|Hd]; unfold algo_swap_range.
    - destruct (range_split m f1 l1) as (pre & s1 & rest & Hm & Hf & Hl & Hs1 & _ & Hr); [split; lia|].
      destruct (range_split rest (f2 - l1) (f2 - l1 + (l1 - f1))) as (mid & s2 & post & Hm2 & Hf2 & Hl2 & _ & _ & _).
      { apply (f_equal length) in Hm. rewrite !app_length in Hm. split; lia. }
      rewrite Hs1. rewrite Hm2 in Hm. clear Hm2 Hr Hs1.
      assert (length s1 = length s2) as Hlen by lia.
      assert (slice m f2 (f2 + (l1 - f1)) = s2) as ->.
      { rewrite Hm. replace (pre ++ s1 ++ mid ++ s2 ++ post) with ((pre ++ s1 ++ mid) ++ s2 ++ post) by (by rewrite <- !app_assoc).
        replace f2 with (length (pre ++ s1 ++ mid)) by (rewrite !app_length; lia).
        replace (l1 - f1) with (length s2) by lia. apply slice_app. }
      subst m. pose proof (swap_range_loop_ok s1 s2 pre mid post (S (length (pre ++ s1 ++ mid ++ s2 ++ post))) 0 Hlen
         ltac:(rewrite !app_length; lia) []) as H.
      cbn [app length] in H. rewrite Nat.add_0_r in H.
      rewrite Hf, Hl. replace f2 with (length pre + length s1 + length mid) by lia.
      rewrite H. rewrite patch_two by done. f_equal. f_equal. lia.
    - destruct (range_split m f2 (f2 + (l1 - f1))) as (pre & s2 & rest & Hm & Hf & Hl & Hs2 & _ & Hr); [split; lia|].
      destruct (range_split rest (f1 - (f2 + (l1 - f1))) (f1 - (f2 + (l1 - f1)) + (l1 - f1))) as (mid & s1 & post & Hm2 & Hf2 & Hl2 & _ & _ & _).
      { apply (f_equal length) in Hm. rewrite !app_length in Hm. split; lia. }
      rewrite Hs2. rewrite Hm2 in Hm. clear Hm2 Hr Hs2.
      assert (length s1 = length s2) as Hlen by lia.
      assert (slice m f1 l1 = s1) as ->.
      { rewrite Hm. replace (pre ++ s2 ++ mid ++ s1 ++ post) with ((pre ++ s2 ++ mid) ++ s1 ++ post) by (by rewrite <- !app_assoc).
        replace f1 with (length (pre ++ s2 ++ mid)) by (rewrite !app_length; lia).
        replace l1 with (length (pre ++ s2 ++ mid) + length s1) by (rewrite !app_length; lia). apply slice_app. }
      subst m. pose proof (swap_range_loop_ok2 s1 s2 pre mid post (S (length (pre ++ s2 ++ mid ++ s1 ++ post))) 0 Hlen
         ltac:(rewrite !app_length; lia) []) as H.
      cbn [app length] in H. rewrite Nat.add_0_r in H.
      replace l1 with (length pre + length s2 + length mid + length s1) by lia.
      replace f1 with (length pre + length s2 + length mid) by lia. rewrite Hf.
      rewrite H. rewrite patch_two' by done. f_equal. f_equal. lia.
  Qed.

  (** ** algo_reverse *)
  Lemma reverse_loop_ok : forall k (s pre post : list A) fuel n, length s <= k -> length s < fuel ->
    reverse_loop fuel (pre ++ s ++ post) (length pre) (length pre + length s) n
    = Ok (pre ++ rev s ++ post, n + length s).
  Proof.
    induction k as [|k IH]; intros s pre post fuel n Hk Hf; (destruct fuel as [|fuel]; [lia|]); cbn [reverse_loop].
    - destruct s; cbn in *; [|lia]. rewrite (proj2 (Nat.eqb_eq _ _)) by lia. f_equal. f_equal. lia.
    - destruct s as [|x s].
      { cbn. rewrite (proj2 (Nat.eqb_eq _ _)) by lia. f_equal. f_equal. lia. }
      cbn [length] in *. destruct (length pre =? _) eqn:E; [lia|]. clear E. rewrite Nat.add_succ_r.
      destruct s as [|y s] using rev_ind.
      { cbn [length]. rewrite (proj2 (Nat.eqb_eq _ _)) by lia. destruct fuel as [|fuel]; [cbn in *; lia|].
        cbn [reverse_loop]. rewrite (proj2 (Nat.eqb_eq _ _)) by lia. cbn. f_equal. f_equal. lia. }
      clear IHs. rewrite app_length in *. cbn [length] in *.
      destruct (length pre =? _) eqn:E2; [lia|].
      cbn [app]. rewrite <- app_assoc. cbn [app]. rewrite swp_at by lia. cbn [rbind].
      specialize (IH s (pre ++ [y]) (x :: post) fuel (S (S n))). rewrite app_length in IH. cbn [length] in IH.
      rewrite <- app_assoc in IH. cbn [app] in IH.
      replace (S (length pre)) with (length pre + 1) by lia.
      replace (length pre + (length s + 1)) with (length pre + 1 + length s) by lia.
      rewrite IH by lia. cbn [rev]. rewrite rev_app_distr. cbn [rev app]. rewrite <- !app_assoc. cbn.
      f_equal. f_equal. lia.
  Qed.
  Lemma reverse_ok m f l : range m f l ->
    algo_reverse m f l = Ok (patch m f (rev (slice m f l)), l - f).
  Proof.
    intros H. destruct (range_split m f l H) as (pre & s & post & -> & -> & -> & _ & _ & _).
    unfold algo_reverse. rewrite slice_app, (reverse_loop_ok (length s)) by (rewrite ?app_length; lia).
    rewrite patch_app by apply rev_length. f_equal. f_equal. lia.
  Qed.

  Lemma reverse_copy_loop_ok m0 first d0 : forall fuel k acc,
      first + k <= length m0 -> k < fuel -> d0 + length acc + k <= length m0 ->
      (d0 + length acc + k <= first \/ first + k <= d0) ->
      reverse_copy_loop fuel (patch m0 d0 acc) first (first + k) (d0 + length acc) (length acc)
      = Ok (patch m0 d0 (acc ++ rev (slice m0 first (first + k))), d0 + length acc + k, length acc + k).
  Proof.
    induction fuel as [|fuel IH]; intros k acc Hk Hf Hb Hov; [lia|]. cbn [reverse_copy_loop].
    destruct k as [|k].
    - rewrite Nat.add_0_r, Nat.eqb_refl, slice_nil. cbn. by rewrite app_nil_r, !Nat.add_0_r.
    - destruct (first =? first + S k) eqn:E; [lia|]. rewrite !Nat.add_succ_r in *.
      destruct (lookup_lt_is_Some_2 m0 (first + k)) as [x Hx]; [lia|].
      rewrite (rd_Ok _ _ x) by (rewrite patch_lookup_out by lia; done). cbn [rbind].
      rewrite wr_Ok by (rewrite patch_length; lia). cbn [rbind].
      rewrite patch_snoc by lia. specialize (IH k (acc ++ [x])). rewrite app_length in IH. cbn [length] in IH.
      replace (d0 + (length acc + 1)) with (S (d0 + length acc)) in IH by lia.
      replace (length acc + 1) with (S (length acc)) in IH by lia.
      rewrite IH by lia. rewrite (slice_snoc m0 first (first + k) x) by (done || lia).
      rewrite rev_app_distr. cbn [rev app]. rewrite <- app_assoc. cbn [app]. done.
  Qed.
  Lemma reverse_copy_ok m f l d : range m f l -> d + (l - f) <= length m ->
    (d + (l - f) <= f \/ l <= d) ->
    algo_reverse_copy m f l d = Ok (patch m d (rev (slice m f l)), d + (l - f), l - f).
  Proof.
    intros [H1 H2] Hd Hov. unfold algo_reverse_copy.
    pose proof (reverse_copy_loop_ok m f d (S (length m)) (l - f) []) as H.
    cbn [length app] in H. rewrite patch_nil, Nat.add_0_r in H. replace (f + (l - f)) with l in H by lia.
    rewrite H by lia. done.
  Qed.

  (** ** algo_rotate *)
  Lemma rotate_loop1_ok : forall (r pre p q post : list A) fuel, r <> [] -> p <> [] -> length r <= fuel ->
    exists p' q', q' ++ p' = q ++ p /\ p' <> [] /\
    rotate_loop1 fuel (pre ++ p ++ q ++ r ++ post) (length pre) (length pre + length p)
      (length pre + length p + length q) (length pre + length p + length q + length r)
    = Ok (pre ++ r ++ p' ++ q' ++ post, length pre + length r, length pre + length r + length p').
  Proof.
    induction r as [|x r IH]; intros pre p q post fuel Hr Hp Hf; [done|].
    destruct p as [|a p]; [done|]. destruct fuel as [|fuel]; [cbn in *; lia|]. cbn [rotate_loop1 length].
    replace (pre ++ (a :: p) ++ q ++ (x :: r) ++ post) with (pre ++ a :: (p ++ q) ++ x :: r ++ post)
      by (cbn; by rewrite <- app_assoc).
    rewrite swp_at; [|done|rewrite app_length; lia]. cbn [rbind].
    set (nf := if S (length pre) =? length pre + S (length p) then S (length pre + S (length p) + length q) else length pre + S (length p)).
    assert (Hst : exists p1 q1, q1 ++ p1 = (q ++ [a]) ++ p /\ p1 <> [] /\ p1 ++ q1 = p ++ q ++ [a] /\
        nf = S (length pre) + length p1).
    { subst nf. destruct p as [|b p].
      - exists (q ++ [a]), []. rewrite !app_nil_r. repeat split; [by destruct q|].
        cbn [length]. rewrite (proj2 (Nat.eqb_eq _ _)) by lia. rewrite app_length. cbn. lia.
      - exists (b :: p), (q ++ [a]). repeat split; [done|].
        destruct (_ =? _) eqn:E; cbn [length] in *; lia. }
    destruct Hst as (p1 & q1 & H1 & H2 & H3 & H4). rewrite H4. clear H4. clear nf.
    assert (Hl : length p1 + length q1 = length p + length q + 1).
    { rewrite <- app_length, H3, !app_length. cbn. lia. }
    replace (pre ++ x :: (p ++ q) ++ a :: r ++ post) with ((pre ++ [x]) ++ p1 ++ q1 ++ r ++ post).
    2:{ rewrite (app_assoc p1), H3, <- !app_assoc. done. }
    destruct r as [|y r].
    - cbn [length]. rewrite (proj2 (Nat.eqb_eq _ _)) by lia.
      exists p1, q1. split; [rewrite H1, <- app_assoc; done|]. split; [done|].
      cbn. rewrite <- !app_assoc. cbn. f_equal. f_equal; [f_equal; lia|lia].
    - destruct (_ =? _) eqn:E; [cbn [length] in *; lia|].
      destruct (IH (pre ++ [x]) p1 q1 post fuel) as (p' & q' & G1 & G2 & G3); [done|done|cbn in *; lia|].
      exists p', q'. split; [rewrite G1, H1, <- app_assoc; done|]. split; [done|].
      rewrite app_length in G3. cbn [length] in *.
      replace (S (length pre)) with (length pre + 1) by lia.
      replace (S (length pre + S (length p) + length q)) with (length pre + 1 + length p1 + length q1) by lia.
      replace (length pre + S (length p) + length q + S (S (length r))) with (length pre + 1 + length p1 + length q1 + S (length r)) by lia.
      rewrite G3. rewrite <- !app_assoc. cbn. f_equal. f_equal; [f_equal; lia|lia].
  Qed.
  Lemma rotate_loop2_ok : forall k (pre p q r post : list A) fuel,
    length p + length q + length r <= k -> length p + length q + length r < fuel ->
    (p <> [] \/ (q = [] /\ r = [])) -> (r <> [] \/ q = []) ->
    rotate_loop2 fuel (pre ++ p ++ q ++ r ++ post) (length pre) (length pre + length p)
      (length pre + length p + length q) (length pre + length p + length q + length r)
    = Ok (pre ++ r ++ q ++ p ++ post).
  Proof.
    induction k as [|k IH]; intros pre p q r post fuel Hk Hf Hp Hr.
    { destruct p, q, r; cbn in *; try lia. destruct fuel; [lia|]. cbn [rotate_loop2].
      rewrite (proj2 (Nat.eqb_eq _ _)) by lia. done. }
    destruct fuel as [|fuel]; [lia|]. cbn [rotate_loop2].
    destruct r as [|x r].
    { destruct Hr as [? | -> ]; [done|]. cbn [length]. rewrite (proj2 (Nat.eqb_eq _ _)) by lia.
      cbn. done. }
    destruct Hp as [Hp|[_ ?]]; [|done]. destruct p as [|a p]; [done|]. cbn [length] in *.
    destruct (_ =? _) eqn:E; [lia|]. clear E.
    replace (pre ++ (a :: p) ++ q ++ (x :: r) ++ post) with (pre ++ a :: (p ++ q) ++ x :: r ++ post)
      by (cbn; by rewrite <- app_assoc).
    rewrite swp_at; [|done|rewrite app_length; lia]. cbn [rbind].
    set (nf := if S (length pre) =? length pre + S (length p) then S (length pre + S (length p) + length q) else length pre + S (length p)).
    assert (Hst : exists p1 q1, q1 ++ p1 = (q ++ [a]) ++ p /\ p1 <> [] /\ p1 ++ q1 = p ++ q ++ [a] /\
        nf = S (length pre) + length p1).
    { subst nf. destruct p as [|b p].
      - exists (q ++ [a]), []. rewrite !app_nil_r. repeat split; [by destruct q|].
        cbn [length]. rewrite (proj2 (Nat.eqb_eq _ _)) by lia. rewrite app_length. cbn. lia.
      - exists (b :: p), (q ++ [a]). repeat split; [done|].
        destruct (_ =? _) eqn:E; cbn [length] in *; lia. }
    destruct Hst as (p1 & q1 & H1 & H2 & H3 & H4). rewrite H4. clear H4. clear nf.
    assert (Hl : length p1 + length q1 = length p + length q + 1).
    { rewrite <- app_length, H3, !app_length. cbn. lia. }
    replace (pre ++ x :: (p ++ q) ++ a :: r ++ post) with ((pre ++ [x]) ++ p1 ++ q1 ++ r ++ post).
    2:{ rewrite (app_assoc p1), H3, <- !app_assoc. done. }
    replace (S (length pre)) with (length (pre ++ [x])) by (rewrite app_length; cbn; lia).
    destruct r as [|y r].
    - cbn [length]. rewrite (proj2 (Nat.eqb_eq _ _)) by lia. cbn [app].
      specialize (IH (pre ++ [x]) p1 [] q1 post fuel). cbn [length app] in IH.
      rewrite (Nat.add_0_r (length (pre ++ [x]) + length p1)) in IH.
      replace (length pre + S (length p) + length q + 1) with (length (pre ++ [x]) + length p1 + length q1)
        by (rewrite app_length; cbn [length]; lia).
      rewrite IH; [|cbn in *; lia|cbn in *; lia|by left|destruct q1; [by right|by left]].
      rewrite <- !app_assoc. cbn. f_equal. f_equal. f_equal.
      rewrite (app_assoc q1), H1, <- !app_assoc. done.
    - destruct (_ =? _) eqn:E; [cbn [length] in *; lia|]. clear E.
      replace (S (length pre + S (length p) + length q)) with (length (pre ++ [x]) + length p1 + length q1) by (rewrite app_length; cbn; lia).
      replace (length pre + S (length p) + length q + S (length (y :: r))) with (length (pre ++ [x]) + length p1 + length q1 + length (y :: r)) by (rewrite app_length; cbn; lia).
      rewrite IH; [|cbn in *; lia|cbn in *; lia|by left|by left].
      rewrite <- !app_assoc. cbn. f_equal. f_equal. f_equal. f_equal. f_equal.
      rewrite (app_assoc q1), H1, <- !app_assoc. done.
  Qed.
  Lemma rotate_ok m f nf l : f <= nf <= l -> l <= length m ->
    algo_rotate m f nf l = Ok (patch m f (slice m nf l ++ slice m f nf), f + (l - nf)).
  Proof.
    intros [H1 H2] H3. unfold algo_rotate.
    destruct (f =? nf) eqn:E1.
    { assert (f = nf) as -> by lia. rewrite slice_nil, app_nil_r, patch_self by (split; lia). f_equal. f_equal. lia. }
    destruct (nf =? l) eqn:E2.
    { assert (nf = l) as -> by lia. rewrite slice_nil. cbn. rewrite patch_self by (split; lia). f_equal. f_equal. lia. }
    destruct (range_split m f l) as (pre & s & post & Hm & Hf & Hl & _ & _ & _); [split; lia|].
    assert (exists p r, s = p ++ r /\ length p = nf - f) as (p & r & -> & Hlp).
    { exists (take (nf - f) s), (drop (nf - f) s). rewrite take_drop, take_length. split; [done|lia]. }
    rewrite app_length in Hl. rewrite <- app_assoc in Hm.
    assert (Hn : nf = length pre + length p) by lia.
    assert (slice m f nf = p) as -> by (rewrite Hm, Hf, Hn; apply slice_app).
    assert (slice m nf l = r) as ->.
    { rewrite Hm, (app_assoc pre p). replace nf with (length (pre ++ p)) by (rewrite app_length; lia).
      replace l with (length (pre ++ p) + length r) by (rewrite app_length; lia). apply slice_app. }
    assert (Hp0 : p <> []) by (destruct p; [cbn in *; lia|done]).
    assert (Hr0 : r <> []) by (destruct r; [cbn in *; lia|done]).
    subst m.
    destruct (rotate_loop1_ok r pre p [] post (S (length (pre ++ p ++ r ++ post)))) as (p' & q' & G1 & G2 & G3);
      [done|done|rewrite !app_length; lia|].
    cbn [length app] in G3. rewrite Nat.add_0_r in G3. rewrite Hf in *. rewrite Hn in *.
    replace l with (length pre + length p + length r) by lia. rewrite G3. cbn [rbind fst snd].
    assert (Hlen : length q' + length p' = length p) by (rewrite <- app_length, G1; done).
    pose proof (rotate_loop2_ok (length p' + length q') (pre ++ r) p' [] q' post (S (length (pre ++ p ++ r ++ post)))) as G.
    cbn [length app] in G. rewrite (app_length pre r), (Nat.add_0_r (length pre + length r + length p')) in G.
    rewrite <- !app_assoc in G.
    replace (length pre + length p + length r) with (length pre + length r + length p' + length q') by lia.
    rewrite G; [|lia|rewrite !app_length; lia|by left|destruct q'; [by right|by left]]. cbn [rbind].
    rewrite (app_assoc p r). rewrite patch_app by (rewrite !app_length; lia).
    cbn in G1. rewrite <- G1. rewrite <- !app_assoc.
    f_equal. f_equal. rewrite app_length. lia.
  Qed.
  Lemma rotate_copy_ok m f nf l d : f <= nf <= l -> l <= length m -> d + (l - f) <= length m ->
    (d + (l - f) <= f \/ l <= d) ->
    algo_rotate_copy m f nf l d = Ok (patch m d (slice m nf l ++ slice m f nf), d + (l - f), l - f).
  Proof.
    intros [H1 H2] H3 Hd Hov. unfold algo_rotate_copy.
    rewrite copy_ok; [|split; lia|lia|lia]. cbn [rbind fst snd].
    assert (Hs1 : length (slice m nf l) = l - nf) by (apply slice_length; split; lia).
    assert (Hs2 : length (slice m f nf) = nf - f) by (apply slice_length; split; lia).
    rewrite copy_ok; [|split; rewrite ?patch_length; lia|rewrite patch_length; lia|lia]. cbn [rbind fst snd].
    assert (slice (patch m d (slice m nf l)) f nf = slice m f nf) as ->.
    { apply list_eq. intros k. destruct (decide (k < nf - f)).
      - rewrite !slice_lookup by done. apply patch_lookup_out; lia.
      - rewrite !lookup_ge_None_2; [done| |].
        + rewrite Hs2. lia.
        + rewrite slice_length by (split; [|rewrite patch_length]; lia). lia. }
    assert (patch (patch m d (slice m nf l)) (d + (l - nf)) (slice m f nf) = patch m d (slice m nf l ++ slice m f nf)) as ->.
    { apply list_eq. intros k. rewrite patch_lookup by (rewrite patch_length; lia).
      rewrite !patch_lookup by (rewrite ?app_length; lia). rewrite app_length, Hs1, Hs2.
      destruct (decide (d + (l - nf) <= k < d + (l - nf) + (nf - f))).
      - rewrite decide_True by lia. rewrite lookup_app_r by lia. f_equal. lia.
      - destruct (decide (d <= k < d + (l - nf))).
        + rewrite decide_True by lia. by rewrite lookup_app_l by lia.
        + by rewrite decide_False by lia. }
    f_equal. f_equal; [f_equal|]; lia.
  Qed.

  (** ** unique *)
  Lemma keep_runs_length (p : A -> A -> bool) s : forall c, length (keep_runs p c s) <= length s.
  Proof. induction s as [|x s IH]; intros c; [done|]. cbn. destruct (p c x); cbn; [pose proof (IH c)|pose proof (IH x)]; lia. Qed.
  Lemma unique_loop_ok pred m0 d0 last : last <= length m0 ->
    forall fuel i acc cur n, i <= last -> last - i < fuel ->
      (d0 + length acc < i \/ last <= d0) ->
      d0 + length acc + S (length (keep_runs pred cur (slice m0 i last))) <= length m0 ->
      let kept := keep_runs pred cur (slice m0 i last) in
      unique_loop fuel pred (patch m0 d0 (acc ++ [cur])) (d0 + length acc) i last n
      = Ok (patch m0 d0 (acc ++ cur :: kept), d0 + length acc + length kept, n + length kept).
  Proof.
    intros Hl fuel. induction fuel as [|fuel IH]; intros i acc cur n Hi Hf Hd Hb; [lia|]. cbn [unique_loop].
    assert (Hbb : d0 + length (acc ++ [cur]) <= length m0) by (rewrite app_length; cbn; lia).
    destruct (i =? last) eqn:E.
    - apply Nat.eqb_eq in E as ->. rewrite slice_nil. cbn. by rewrite !Nat.add_0_r.
    - destruct (lookup_lt_is_Some_2 m0 i) as [y Hy]; [lia|].
      rewrite (rd_Ok _ (d0 + length acc) cur).
      2:{ rewrite patch_lookup by done. rewrite decide_True by (rewrite app_length; cbn; lia).
          rewrite lookup_app_r by lia. by replace (d0 + length acc - d0 - length acc) with 0 by lia. }
      cbn [rbind].
      rewrite (rd_Ok _ i y) by (rewrite patch_lookup_out; [done|done|rewrite app_length; cbn; lia]). cbn [rbind].
      rewrite (slice_cons m0 i last y) in * by (done || lia). cbn [keep_runs] in *.
      destruct (pred cur y); cbn [negb].
      + apply IH; lia.
      + cbn [length] in Hb. rewrite wr_Ok by (rewrite patch_length by done; lia). cbn [rbind].
        replace (S (d0 + length acc)) with (d0 + length (acc ++ [cur])) at 1 by (rewrite app_length; cbn; lia).
        rewrite patch_snoc by (rewrite app_length; cbn; lia).
        specialize (IH (S i) (acc ++ [cur]) y (S n)). rewrite (app_length acc [cur]) in IH. cbn [length] in IH.
        replace (d0 + (length acc + 1)) with (S (d0 + length acc)) in IH by lia.
        rewrite IH by lia. rewrite <- app_assoc. cbn [app length]. f_equal. f_equal; [f_equal; lia|lia].
  Qed.
  Lemma unique_ok m f l pred : range m f l ->
    let kept := unique_spec pred (slice m f l) in
    algo_unique_by m f l pred = Ok (patch m f kept, f + length kept, length kept).
  Proof.
    intros [H1 H2]. unfold algo_unique_by. destruct (f =? l) eqn:E.
    - assert (f = l) as -> by lia. rewrite slice_nil. cbn. rewrite patch_nil, Nat.add_0_r. done.
    - destruct (lookup_lt_is_Some_2 m f) as [x Hx]; [lia|].
      rewrite (slice_cons m f l x) by (done || lia). cbn [unique_spec length].
      pose proof (keep_runs_length pred (slice m (S f) l) x) as Hk. rewrite slice_length in Hk by (split; lia).
      pose proof (unique_loop_ok pred m f l H2 (S (length m)) (S f) [] x 1) as H.
      cbn [app length] in H. rewrite Nat.add_0_r in H.
      replace (patch m f [x]) with m in H.
      2:{ rewrite <- insert_patch by lia. by rewrite list_insert_id. }
      rewrite H by lia. cbn [rbind fst snd]. f_equal. f_equal. f_equal. lia.
  Qed.
  Lemma unique_copy_ok m f l d pred : range m f l ->
    let kept := unique_spec pred (slice m f l) in
    d + length kept <= length m -> (d <= f \/ l <= d) ->
    algo_unique_copy_by m f l d pred = Ok (patch m d kept, d + length kept, length kept).
  Proof.
    intros [H1 H2] kept Hd Hov. subst kept. unfold algo_unique_copy_by. destruct (f =? l) eqn:E.
    - assert (f = l) as -> by lia. rewrite slice_nil. cbn. rewrite patch_nil, Nat.add_0_r. done.
    - destruct (lookup_lt_is_Some_2 m f) as [x Hx]; [lia|].
      rewrite (slice_cons m f l x) in * by (done || lia). cbn [unique_spec length] in *.
      rewrite (rd_Ok _ _ _ Hx). cbn [rbind]. rewrite wr_Ok by lia. cbn [rbind]. rewrite insert_patch by lia.
      pose proof (unique_loop_ok pred m d l H2 (S (length m)) (S f) [] x 1) as H.
      cbn [app length] in H. rewrite Nat.add_0_r in H.
      rewrite H by lia. cbn [rbind fst snd]. f_equal. f_equal. f_equal. lia.
  Qed.

  (** ** shuffle *)
  Lemma shuffle_loop_perm (pre post : list A) r : forall i s, i < length s -> (forall k, 0 < k <= i -> r k <= k) ->
    exists s', shuffle_loop (pre ++ s ++ post) (length pre) i r = Ok (pre ++ s' ++ post) /\ Permutation s s'.
  Proof.
    induction i as [|i IH]; intros s Hi Hr.
    - exists s. done.
    - cbn [shuffle_loop].
      destruct (lookup_lt_is_Some_2 s (S i)) as [x Hx]; [lia|].
      destruct (lookup_lt_is_Some_2 s (r (S i))) as [y Hy]; [pose proof (Hr (S i)); lia|].
      assert (Hl : forall k, k < length s -> (pre ++ s ++ post) !! (length pre + k) = s !! k).
      { intros k Hk. rewrite lookup_app_r by lia. rewrite lookup_app_l by lia. f_equal. lia. }
      rewrite (swp_Ok _ _ _ x y) by (rewrite Hl; [done|eapply lookup_lt_Some; eauto]).
      cbn [rbind].
      assert (<[length pre + r (S i):=x]> (<[length pre + S i:=y]> (pre ++ s ++ post))
         = pre ++ <[r (S i) := x]> (<[S i := y]> s) ++ post) as ->.
      { rewrite !insert_app_r_alt by lia. rewrite insert_app_l.
        2:{ replace (length pre + S i - length pre) with (S i) by lia. done. }
        f_equal. rewrite insert_app_l.
        2:{ rewrite insert_length. apply lookup_lt_Some in Hy. lia. }
        f_equal. f_equal; [lia|]. f_equal. lia. }
      destruct (IH (<[r (S i) := x]> (<[S i := y]> s))) as (s' & Hs' & Hp).
      { rewrite !insert_length. lia. }
      { intros k Hk. apply Hr. lia. }
      exists s'. split; [done|]. rewrite <- Hp. by apply swap_perm.
  Qed.
  Lemma shuffle_ok m f l r : range m f l -> (forall k, 0 < k < l - f -> r k <= k) ->
    exists s', algo_random_shuffle_by m f l r = Ok (patch m f s') /\ Permutation (slice m f l) s'.
  Proof.
    intros H Hr. destruct (range_split m f l H) as (pre & s & post & -> & -> & -> & _ & _ & _).
    rewrite slice_app. unfold algo_random_shuffle_by.
    destruct s as [|x s].
    - exists []. cbn [length]. rewrite Nat.add_0_r, Nat.sub_diag. cbn. rewrite patch_nil. done.
    - destruct (shuffle_loop_perm pre post r (length pre + length (x :: s) - length pre - 1) (x :: s)) as (s' & Hs & Hp).
      { cbn. lia. }
      { intros k Hk. apply Hr. lia. }
      exists s'. split; [|done]. rewrite Hs. by rewrite patch_app by (by rewrite Hp).
  Qed.
  (** every rearrangement can be produced *)
  Lemma shuffle_loop_surj (pre post : list A) : forall i s t, i < length s -> Permutation (take (S i) s) (take (S i) t) ->
    drop (S i) s = drop (S i) t -> length s = length t ->
    exists r, (forall k, 0 < k <= i -> r k <= k) /\
      shuffle_loop (pre ++ s ++ post) (length pre) i r = Ok (pre ++ t ++ post).
  Proof.
    induction i as [|i IH]; intros s t Hi Hp Hd Hlen.
    - exists (fun _ => 0). split; [intros; lia|]. cbn [shuffle_loop]. f_equal. f_equal. f_equal.
      rewrite <- (take_drop 1 s), <- (take_drop 1 t), Hd. f_equal.
      destruct s as [|x s]; [cbn in *; lia|]. destruct t as [|y t]; [cbn in *; lia|]. cbn in *.
      rewrite !take_0 in *. by apply Permutation_singleton_inj in Hp as ->.
    - destruct (lookup_lt_is_Some_2 s (S i)) as [x Hx]; [lia|].
      destruct (lookup_lt_is_Some_2 t (S i)) as [y Hy]; [lia|].
      assert (Hin : y ∈ take (S (S i)) s).
      { rewrite Hp. apply elem_of_list_lookup. exists (S i). by rewrite lookup_take by lia. }
      apply elem_of_list_lookup in Hin as [j Hj]. apply lookup_take_Some in Hj as [Hj Hjlt].
      set (s1 := <[j := x]> (<[S i := y]> s)).
      assert (Hsw : Permutation (take (S (S i)) s) (take (S (S i)) s1)).
      { unfold s1. rewrite !take_insert_lt by lia.
        apply swap_perm; by rewrite lookup_take by lia. }
      destruct (IH s1 t) as (r & Hr & Hrun).
      { unfold s1. rewrite !insert_length. lia. }
      { assert (Hs1 : take (S (S i)) s1 = take (S i) s1 ++ [y]).
        { apply take_S_r. unfold s1. destruct (decide (j = S i)) as [->|].
          - rewrite list_lookup_insert by (rewrite insert_length; lia). congruence.
          - rewrite list_lookup_insert_ne by done. apply list_lookup_insert. lia. }
        assert (Ht1 : take (S (S i)) t = take (S i) t ++ [y]) by (by apply take_S_r).
        rewrite Hs1, <- Hp, Ht1 in Hsw || (rewrite Hp, Hs1, Ht1 in Hsw).
        symmetry. eapply Permutation_app_inv_r. exact Hsw. }
      { assert (Hs1y : s1 !! S i = Some y).
        { unfold s1. destruct (decide (j = S i)) as [->|].
          - rewrite list_lookup_insert by (rewrite insert_length; lia). congruence.
          - rewrite list_lookup_insert_ne by done. apply list_lookup_insert. lia. }
        rewrite (drop_S _ _ _ Hs1y), (drop_S _ _ _ Hy). f_equal. rewrite <- Hd.
        unfold s1. rewrite !drop_insert_gt by lia. done. }
      { unfold s1. by rewrite !insert_length. }
      exists (fun k => if k =? S i then j else r k). split.
      { intros k Hk. destruct (k =? S i) eqn:E; [lia|]. apply Hr. lia. }
      cbn [shuffle_loop]. rewrite Nat.eqb_refl.
      assert (Hl : forall k, k < length s -> (pre ++ s ++ post) !! (length pre + k) = s !! k).
      { intros k Hk. rewrite lookup_app_r by lia. rewrite lookup_app_l by lia. f_equal. lia. }
      rewrite (swp_Ok _ _ _ x y) by (rewrite Hl; [done|eapply lookup_lt_Some; eauto]).
      cbn [rbind].
      assert (<[length pre + j:=x]> (<[length pre + S i:=y]> (pre ++ s ++ post))
         = pre ++ s1 ++ post) as ->.
      { rewrite !insert_app_r_alt by lia. rewrite insert_app_l.
        2:{ replace (length pre + S i - length pre) with (S i) by lia. done. }
        f_equal. rewrite insert_app_l.
        2:{ rewrite insert_length. apply lookup_lt_Some in Hj. lia. }
        f_equal. unfold s1. f_equal; [lia|]. f_equal. lia. }
      rewrite <- Hrun. clear. generalize (pre ++ s1 ++ post) as m. assert (H : i <= i) by lia.
      revert H. generalize i at 1 3 5 as n. induction n as [|n IHn]; intros Hn m; [done|]. cbn [shuffle_loop].
      rewrite (proj2 (Nat.eqb_neq (S n) (S i))) by lia.
      destruct (swp _ _ _) as [m'| |]; [|done|done]. cbn [rbind]. apply IHn. lia.
  Qed.
  Lemma shuffle_surjective m f l t : range m f l -> Permutation (slice m f l) t ->
    exists r, (forall k, 0 < k < l - f -> r k <= k) /\ algo_random_shuffle_by m f l r = Ok (patch m f t).
  Proof.
    intros H Hp. destruct (range_split m f l H) as (pre & s & post & -> & -> & -> & _ & _ & _).
    rewrite slice_app in Hp. unfold algo_random_shuffle_by.
    pose proof (Permutation_length Hp) as Hlen.
    rewrite patch_app by done. destruct s as [|x s].
    - exists (fun _ => 0). split; [intros; cbn in *; lia|]. destruct t; [|done].
      cbn [length]. rewrite Nat.add_0_r, Nat.sub_diag. cbn. done.
    - destruct (shuffle_loop_surj pre post (length pre + length (x :: s) - length pre - 1) (x :: s) t) as (r & Hr & Hrun).
      + cbn. lia.
      + rewrite !take_ge; [done|lia|cbn; lia].
      + rewrite !drop_ge; [done|lia|cbn; lia].
      + done.
      + exists r. split; [|done]. intros k Hk. apply Hr. lia.
  Qed.
End proofs.

Lemma algo_uniform_range n seed : (0 < n -> 0 <= seed -> 0 <= algo_uniform n seed < n)%Z.
Proof.
  intros Hn Hs. unfold algo_uniform.
  set (s := (2045 * seed + 1 - (2045 * seed + 1) / 1048576 * 1048576)%Z).
  assert (0 <= s < 1048576)%Z.
  { unfold s. pose proof (Z.div_mod (2045 * seed + 1) 1048576 ltac:(lia)).
    pose proof (Z.mod_pos_bound (2045 * seed + 1) 1048576 ltac:(lia)). lia. }
  split.
  - apply Z.div_pos; nia.
  - apply Z.div_lt_upper_bound; nia.
Qed.
