(** TreeErase.v — rebalancing after an erasure. *)
From Verif Require Import Base DList Tree SpecTree TreeRep TreeInsert.
From stdpp Require Import list gmap.

Section erase.
  Context {V : Type}.
  Notation M := (gmap loc (tnode V)).
  Notation ctx := (list (frame V)).
  Implicit Types (m : M) (t : tree V) (k : ctx).

  Lemma R_left_black m hd lm rm k c a s vs b : Rep m hd lm rm (plug k (Nd c a s vs b)) -> left_black m (Some s) = Ok (col a).
  Proof.
    intros HR. unfold left_black, has_left. rewrite (R_left _ _ _ _ _ _ _ _ _ _ HR). cbn [rbind]. destruct a as [|ca al ax av ar]; [done|].
    cbn [root]. rewrite bool_decide_true by done. cbn [negb rbind]. exact (R_black _ _ _ _ (FL c s vs b :: k) (Nd ca al ax av ar) HR).
  Qed.
  Lemma R_right_black m hd lm rm k c a s vs b : Rep m hd lm rm (plug k (Nd c a s vs b)) -> right_black m (Some s) = Ok (col b).
  Proof.
    intros HR. unfold right_black, has_right. rewrite (R_right _ _ _ _ _ _ _ _ _ _ HR). cbn [rbind]. destruct b as [|ca al ax av ar]; [done|].
    cbn [root]. rewrite bool_decide_true by done. cbn [negb rbind]. exact (R_black _ _ _ _ (FR c a s vs :: k) (Nd ca al ax av ar) HR).
  Qed.
  Lemma R_both m hd lm rm k c a s vs b : Rep m hd lm rm (plug k (Nd c a s vs b)) ->
    (do lb <- left_black m (Some s); (if lb : bool then right_black m (Some s) else Ok false)) = Ok (col a && col b).
  Proof.
    intros HR. rewrite (R_left_black _ _ _ _ _ _ _ _ _ _ HR). cbn [rbind]. destruct (col a); [|done].
    by rewrite (R_right_black _ _ _ _ _ _ _ _ _ _ HR).
  Qed.
  Lemma rbind_assoc {A B C} (x : res A) (f : A -> res B) (g : B -> res C) :
    rbind (rbind x f) g = rbind x (fun a => rbind (f a) g).
  Proof. by destruct x. Qed.
  (** the context's hole is one black node short when filled with [t] *)
  Definition deficient (n : nat) t : Prop :=
    rbt BLACK n t \/ exists c1 c2 l x v r, t = Nd RED l x v r /\ rbt c1 n l /\ rbt c2 n r.
  (** what the loop leaves: blackening the node it stopped at makes the tree red-black *)
  Definition almost (m m' : M) hd lm rm T (q : ptr) : Prop :=
    exists k1 t1, q = root t1 /\ Upd m m' hd lm rm T (plug k1 t1) /\ cells (plug k1 t1) = cells T /\
      exists n', rbt BLACK n' (plug k1 (blacken t1)).
  Lemma almost_trans m m' m'' hd lm rm T T' q : Upd m m' hd lm rm T T' -> cells T' = cells T ->
    almost m' m'' hd lm rm T' q -> almost m m'' hd lm rm T q.
  Proof.
    intros H1 H2 (k1&t1&Hq&H3&H4&H5). exists k1, t1. split; [done|]. split; [by eapply Upd_trans|]. split; [by rewrite H4|done].
  Qed.
  Lemma blacken_black c n t : rbt c n t -> c = BLACK -> blacken t = t.
  Proof. by destruct 1. Qed.
  Lemma crt_not_none f k (q : ptr) : crt (f :: k) q <> None.
  Proof.
    assert (forall (k : ctx) x, crt k (Some x) <> None) as H. { clear. intros k1. induction k1 as [|[] k1 IH]; intros x1; cbn [crt]; [done|apply IH..]. }
    destruct f; cbn [crt]; apply H.
  Qed.
  Lemma erase_root m hd lm rm t n f rp : Rep m hd lm rm t -> deficient n t ->
    exists m', erase_loop (S f) m hd (root t) rp = Ok (m', root t) /\ almost m m' hd lm rm t (root t).
  Proof.
    intros HR Hd. exists m. cbn [erase_loop]. rewrite (Rep_root _ _ _ _ _ HR). cbn [rbind]. rewrite decide_True by done. split; [done|].
    exists [], t. split; [done|]. split; [by apply Upd_refl|]. split; [done|]. destruct Hd as [Hd|(c1&c2&l&x&v&r&->&H1&H2)].
    - exists n. by rewrite (blacken_black _ _ _ Hd).
    - exists (S n). by econstructor.
  Qed.
  Lemma erase_red m hd lm rm k l x v r c1 c2 n f rp : Rep m hd lm rm (plug k (Nd RED l x v r)) -> rbt c1 n l -> rbt c2 n r ->
    rbk BLACK (S n) k ->
    exists m', erase_loop (S f) m hd (Some x) rp = Ok (m', Some x) /\ almost m m' hd lm rm (plug k (Nd RED l x v r)) (Some x).
  Proof.
    intros HR Hl Hr Hk. exists m. split.
    - cbn [erase_loop]. rewrite (Rep_root _ _ _ _ _ HR). cbn [rbind]. destruct (decide _); [done|].
      pose proof (R_black _ _ _ _ _ (Nd RED l x v r) HR) as Eb. cbn [root col] in Eb. rewrite Eb. done.
    - exists k, (Nd RED l x v r). split; [done|]. split; [by apply Upd_refl|]. split; [done|]. cbn [blacken].
      eapply rbk_plug; [|done]. by econstructor.
  Qed.

  (** the second half of an iteration, [t] being the left child and its sibling [s] black *)
  Definition stage_left (f : nat) (m : M) (hd : loc) (rn rp rs : ptr) : res (M * ptr) :=
    do rb <- (do lb <- left_black m rs; (if lb : bool then right_black m rs else Ok false));
    if rb then
      do m <- set_color m rs RED;
      do rp' <- parent m rp; erase_loop f m hd rp rp'
    else
      do rb <- right_black m rs;
      do (m, rs) <-
        (if rb : bool then
           do hl <- has_left m rs;
           do m <- (if hl : bool then do l <- left m rs; set_color m l BLACK else Ok m);
           do m <- set_color m rs RED;
           do r <- root_of m hd; do m <- rotate_right m rs r;
           do rs <- right m rp; Ok (m, rs)
         else Ok (m, rs));
      do c <- color m rp; do m <- set_color m rs c;
      do m <- set_color m rp BLACK;
      do hr <- has_right m rs;
      do m <- (if hr : bool then do x <- right m rs; set_color m x BLACK else Ok m);
      do r <- root_of m hd; do m <- rotate_left m rp r;
      Ok (m, rn).
  Lemma stage_left_both f m hd lm rm k t cp p vp a s vs b rn :
    Rep m hd lm rm (plug (FL cp p vp (Nd BLACK a s vs b) :: k) t) -> col a = BLACK -> col b = BLACK ->
    exists m', stage_left f m hd rn (Some p) (Some s) = erase_loop f m' hd (Some p) (Some (cpar hd k)) /\
      Upd m m' hd lm rm (plug (FL cp p vp (Nd BLACK a s vs b) :: k) t) (plug k (Nd cp t p vp (Nd RED a s vs b))).
  Proof.
    intros HR Ha Hb. unfold stage_left. rewrite (R_both _ _ _ _ (FR cp t p vp :: k) _ _ _ _ _ HR), Ha, Hb. cbn [rbind andb].
    destruct (recolor_ok _ _ _ _ (FR cp t p vp :: k) _ RED _ _ _ _ HR) as (m1&E1&HU1). rewrite E1. cbn [rbind].
    rewrite (R_parent _ _ _ _ k _ _ _ _ _ (proj1 HU1)). cbn [rbind]. exists m1. split; [done|]. exact HU1.
  Qed.
  (** the final rotation, the sibling's outer child being red *)
  Lemma stage_left_final (f : nat) m hd lm rm k t cp p vp cs a s vs b rn : 
    Rep m hd lm rm (plug (FL cp p vp (Nd cs a s vs b) :: k) t) -> col b = RED -> 
    exists m', (do c <- color m (Some p); do m <- set_color m (Some s) c;
      do m <- set_color m (Some p) BLACK;
      do hr <- has_right m (Some s);
      do m <- (if hr : bool then do x <- right m (Some s); set_color m x BLACK else Ok m);
      do r <- root_of m hd; do m <- rotate_left m (Some p) r;
      Ok (m, rn : ptr)) = Ok (m', rn) /\
      Upd m m' hd lm rm (plug (FL cp p vp (Nd cs a s vs b) :: k) t) (plug k (Nd cp (Nd BLACK t p vp a) s vs (blacken b))).
  Proof.
    intros HR Hb. rewrite (R_color _ _ _ _ k _ _ _ _ _ HR). cbn [rbind].
    destruct (recolor_ok _ _ _ _ (FR cp t p vp :: k) _ cp _ _ _ _ HR) as (m1&E1&HU1). rewrite E1. cbn [rbind].
    destruct (recolor_ok _ _ _ _ k _ BLACK _ _ _ _ (proj1 HU1)) as (m2&E2&HU2). rewrite E2. cbn [rbind].
    destruct b as [|cb bl bx bv br]; [done|]. cbn [col] in Hb. subst cb.
    unfold has_right. rewrite (R_right _ _ _ _ (FR BLACK t p vp :: k) _ _ _ _ _ (proj1 HU2)). cbn [rbind root]. rewrite bool_decide_true by done.
    cbn [rbind]. destruct (recolor_ok _ _ _ _ (FR cp a s vs :: FR BLACK t p vp :: k) _ BLACK _ _ _ _ (proj1 HU2)) as (m3&E3&HU3).
    rewrite E3. cbn [rbind]. rewrite (Rep_root _ _ _ _ _ (proj1 HU3)). cbn [rbind].
    destruct (rotate_left_ok _ _ _ _ k _ _ _ _ _ _ _ _ _ (proj1 HU3)) as (m4&E4&HU4). cbn [plug] in E4 |- *. rewrite E4. cbn [rbind].
    exists m4. split; [done|]. eapply Upd_trans; [exact HU1|]. eapply Upd_trans; [exact HU2|]. eapply Upd_trans; [exact HU3|exact HU4].
  Qed.
  Lemma stage_left_outer f m hd lm rm k t cp p vp a s vs b rn :
    Rep m hd lm rm (plug (FL cp p vp (Nd BLACK a s vs b) :: k) t) -> col b = RED ->
    exists m', stage_left f m hd rn (Some p) (Some s) = Ok (m', rn) /\
      Upd m m' hd lm rm (plug (FL cp p vp (Nd BLACK a s vs b) :: k) t) (plug k (Nd cp (Nd BLACK t p vp a) s vs (blacken b))).
  Proof.
    intros HR Hb. unfold stage_left. rewrite (R_both _ _ _ _ (FR cp t p vp :: k) _ _ _ _ _ HR), Hb. rewrite ?andb_false_r, ?andb_false_l. cbn [rbind].
    rewrite (R_right_black _ _ _ _ (FR cp t p vp :: k) _ _ _ _ _ HR), Hb. cbn [rbind].
    exact (stage_left_final f _ _ _ _ _ _ _ _ _ _ _ _ _ _ _ HR Hb).
  Qed.
  Lemma stage_left_inner f m hd lm rm k t cp p vp a al z vz ar s vs b rn :
    Rep m hd lm rm (plug (FL cp p vp (Nd BLACK a s vs b) :: k) t) -> a = (Nd RED al z vz ar) -> col b = BLACK ->
    exists m', stage_left f m hd rn (Some p) (Some s) = Ok (m', rn) /\
      Upd m m' hd lm rm (plug (FL cp p vp (Nd BLACK a s vs b) :: k) t)
        (plug k (Nd cp (Nd BLACK t p vp al) z vz (Nd BLACK ar s vs b))).
  Proof.
    intros HR Ha Hb. unfold stage_left. rewrite (R_both _ _ _ _ (FR cp t p vp :: k) _ _ _ _ _ HR).
    assert (col a = RED) as Hca by (by rewrite Ha). rewrite Hca. rewrite ?andb_false_r, ?andb_false_l. cbn [rbind].
    rewrite (R_right_black _ _ _ _ (FR cp t p vp :: k) _ _ _ _ _ HR), Hb. cbn [rbind].
    unfold has_left. rewrite (R_left _ _ _ _ (FR cp t p vp :: k) _ _ _ _ _ HR). rewrite Ha. cbn [rbind root].
    rewrite bool_decide_true by done. cbn [rbind]. rewrite Ha in HR.
    destruct (recolor_ok _ _ _ _ (FL BLACK s vs b :: FR cp t p vp :: k) _ BLACK _ _ _ _ HR) as (m1&E1&HU1). rewrite E1. cbn [rbind].
    destruct (recolor_ok _ _ _ _ (FR cp t p vp :: k) _ RED _ _ _ _ (proj1 HU1)) as (m2&E2&HU2). rewrite E2. cbn [rbind].
    rewrite (Rep_root _ _ _ _ _ (proj1 HU2)). cbn [rbind].
    destruct (rotate_right_ok _ _ _ _ (FR cp t p vp :: k) _ _ _ _ _ _ _ _ _ (proj1 HU2)) as (m3&E3&HU3). cbn [plug] in E3 |- *. rewrite E3. cbn [rbind].
    rewrite (R_right _ _ _ _ k _ _ _ _ _ (proj1 HU3)). cbn [rbind root].
    destruct (stage_left_final f _ _ _ _ k t cp p vp _ _ _ _ _ rn (proj1 HU3) eq_refl) as (m4&E4&HU4).
    exists m4. split; [exact E4|]. eapply Upd_trans; [exact HU1|]. eapply Upd_trans; [exact HU2|]. eapply Upd_trans; [exact HU3|exact HU4].
  Qed.

  (** the second half of an iteration, [t] being the right child and its sibling [s] black *)
  Definition stage_right (f : nat) (m : M) (hd : loc) (rn rp rs : ptr) : res (M * ptr) :=
    do rb <- (do lb <- left_black m rs; (if lb : bool then right_black m rs else Ok false));
    if rb then
      do m <- set_color m rs RED;
      do rp' <- parent m rp; erase_loop f m hd rp rp'
    else
      do rb <- left_black m rs;
      do (m, rs) <-
        (if rb : bool then
           do hl <- has_right m rs;
           do m <- (if hl : bool then do l <- right m rs; set_color m l BLACK else Ok m);
           do m <- set_color m rs RED;
           do r <- root_of m hd; do m <- rotate_left m rs r;
           do rs <- left m rp; Ok (m, rs)
         else Ok (m, rs));
      do c <- color m rp; do m <- set_color m rs c;
      do m <- set_color m rp BLACK;
      do hr <- has_left m rs;
      do m <- (if hr : bool then do x <- left m rs; set_color m x BLACK else Ok m);
      do r <- root_of m hd; do m <- rotate_right m rp r;
      Ok (m, rn).
  Lemma stage_right_both f m hd lm rm k t cp p vp a s vs b rn :
    Rep m hd lm rm (plug (FR cp (Nd BLACK b s vs a) p vp :: k) t) -> col a = BLACK -> col b = BLACK ->
    exists m', stage_right f m hd rn (Some p) (Some s) = erase_loop f m' hd (Some p) (Some (cpar hd k)) /\
      Upd m m' hd lm rm (plug (FR cp (Nd BLACK b s vs a) p vp :: k) t) (plug k (Nd cp (Nd RED b s vs a) p vp t)).
  Proof.
    intros HR Ha Hb. unfold stage_right. rewrite (R_both _ _ _ _ (FL cp p vp t :: k) _ _ _ _ _ HR), Ha, Hb. cbn [rbind andb].
    destruct (recolor_ok _ _ _ _ (FL cp p vp t :: k) _ RED _ _ _ _ HR) as (m1&E1&HU1). rewrite E1. cbn [rbind].
    rewrite (R_parent _ _ _ _ k _ _ _ _ _ (proj1 HU1)). cbn [rbind]. exists m1. split; [done|]. exact HU1.
  Qed.
  (** the final rotation, the sibling's outer child being red *)
  Lemma stage_right_final (f : nat) m hd lm rm k t cp p vp cs a s vs b rn : 
    Rep m hd lm rm (plug (FR cp (Nd cs b s vs a) p vp :: k) t) -> col b = RED -> 
    exists m', (do c <- color m (Some p); do m <- set_color m (Some s) c;
      do m <- set_color m (Some p) BLACK;
      do hr <- has_left m (Some s);
      do m <- (if hr : bool then do x <- left m (Some s); set_color m x BLACK else Ok m);
      do r <- root_of m hd; do m <- rotate_right m (Some p) r;
      Ok (m, rn : ptr)) = Ok (m', rn) /\
      Upd m m' hd lm rm (plug (FR cp (Nd cs b s vs a) p vp :: k) t) (plug k (Nd cp (blacken b) s vs (Nd BLACK a p vp t))).
  Proof.
    intros HR Hb. rewrite (R_color _ _ _ _ k _ _ _ _ _ HR). cbn [rbind].
    destruct (recolor_ok _ _ _ _ (FL cp p vp t :: k) _ cp _ _ _ _ HR) as (m1&E1&HU1). rewrite E1. cbn [rbind].
    destruct (recolor_ok _ _ _ _ k _ BLACK _ _ _ _ (proj1 HU1)) as (m2&E2&HU2). rewrite E2. cbn [rbind].
    destruct b as [|cb bl bx bv br]; [done|]. cbn [col] in Hb. subst cb.
    unfold has_left. rewrite (R_left _ _ _ _ (FL BLACK p vp t :: k) _ _ _ _ _ (proj1 HU2)). cbn [rbind root]. rewrite bool_decide_true by done.
    cbn [rbind]. destruct (recolor_ok _ _ _ _ (FL cp s vs a :: FL BLACK p vp t :: k) _ BLACK _ _ _ _ (proj1 HU2)) as (m3&E3&HU3).
    rewrite E3. cbn [rbind]. rewrite (Rep_root _ _ _ _ _ (proj1 HU3)). cbn [rbind].
    destruct (rotate_right_ok _ _ _ _ k _ _ _ _ _ _ _ _ _ (proj1 HU3)) as (m4&E4&HU4). cbn [plug] in E4 |- *. rewrite E4. cbn [rbind].
    exists m4. split; [done|]. eapply Upd_trans; [exact HU1|]. eapply Upd_trans; [exact HU2|]. eapply Upd_trans; [exact HU3|exact HU4].
  Qed.
  Lemma stage_right_outer f m hd lm rm k t cp p vp a s vs b rn :
    Rep m hd lm rm (plug (FR cp (Nd BLACK b s vs a) p vp :: k) t) -> col b = RED ->
    exists m', stage_right f m hd rn (Some p) (Some s) = Ok (m', rn) /\
      Upd m m' hd lm rm (plug (FR cp (Nd BLACK b s vs a) p vp :: k) t) (plug k (Nd cp (blacken b) s vs (Nd BLACK a p vp t))).
  Proof.
    intros HR Hb. unfold stage_right. rewrite (R_both _ _ _ _ (FL cp p vp t :: k) _ _ _ _ _ HR), Hb. rewrite ?andb_false_r, ?andb_false_l. cbn [rbind].
    rewrite (R_left_black _ _ _ _ (FL cp p vp t :: k) _ _ _ _ _ HR), Hb. cbn [rbind].
    exact (stage_right_final f _ _ _ _ _ _ _ _ _ _ _ _ _ _ _ HR Hb).
  Qed.
  Lemma stage_right_inner f m hd lm rm k t cp p vp a al z vz ar s vs b rn :
    Rep m hd lm rm (plug (FR cp (Nd BLACK b s vs a) p vp :: k) t) -> a = (Nd RED ar z vz al) -> col b = BLACK ->
    exists m', stage_right f m hd rn (Some p) (Some s) = Ok (m', rn) /\
      Upd m m' hd lm rm (plug (FR cp (Nd BLACK b s vs a) p vp :: k) t)
        (plug k (Nd cp (Nd BLACK b s vs ar) z vz (Nd BLACK al p vp t))).
  Proof.
    intros HR Ha Hb. unfold stage_right. rewrite (R_both _ _ _ _ (FL cp p vp t :: k) _ _ _ _ _ HR).
    assert (col a = RED) as Hca by (by rewrite Ha). rewrite Hca. rewrite ?andb_false_r, ?andb_false_l. cbn [rbind].
    rewrite (R_left_black _ _ _ _ (FL cp p vp t :: k) _ _ _ _ _ HR), Hb. cbn [rbind].
    unfold has_right. rewrite (R_right _ _ _ _ (FL cp p vp t :: k) _ _ _ _ _ HR). rewrite Ha. cbn [rbind root].
    rewrite bool_decide_true by done. cbn [rbind]. rewrite Ha in HR.
    destruct (recolor_ok _ _ _ _ (FR BLACK b s vs :: FL cp p vp t :: k) _ BLACK _ _ _ _ HR) as (m1&E1&HU1). rewrite E1. cbn [rbind].
    destruct (recolor_ok _ _ _ _ (FL cp p vp t :: k) _ RED _ _ _ _ (proj1 HU1)) as (m2&E2&HU2). rewrite E2. cbn [rbind].
    rewrite (Rep_root _ _ _ _ _ (proj1 HU2)). cbn [rbind].
    destruct (rotate_left_ok _ _ _ _ (FL cp p vp t :: k) _ _ _ _ _ _ _ _ _ (proj1 HU2)) as (m3&E3&HU3). cbn [plug] in E3 |- *. rewrite E3. cbn [rbind].
    rewrite (R_left _ _ _ _ k _ _ _ _ _ (proj1 HU3)). cbn [rbind root].
    destruct (stage_right_final f _ _ _ _ k t cp p vp _ _ _ _ _ rn (proj1 HU3) eq_refl) as (m4&E4&HU4).
    exists m4. split; [exact E4|]. eapply Upd_trans; [exact HU1|]. eapply Upd_trans; [exact HU2|]. eapply Upd_trans; [exact HU3|exact HU4].
  Qed.

  (** an iteration with a black sibling either finishes or continues at the parent *)
  Lemma stage_left_ok f m hd lm rm k t n cp p vp a s vs b ca cb :
    Rep m hd lm rm (plug (FL cp p vp (Nd BLACK a s vs b) :: k) t) -> rbt BLACK n t -> rbt ca n a -> rbt cb n b ->
    rbk cp (if cp then S (S n) else S n) k ->
    (exists m' t', stage_left f m hd (root t) (Some p) (Some s) = erase_loop f m' hd (root t') (Some (cpar hd k)) /\
       Upd m m' hd lm rm (plug (FL cp p vp (Nd BLACK a s vs b) :: k) t) (plug k t') /\
       cells (plug k t') = cells (plug (FL cp p vp (Nd BLACK a s vs b) :: k) t) /\
       (cp = BLACK -> rbt BLACK (S n) t') /\
       (cp = RED -> exists c1 c2 l x v r, t' = Nd RED l x v r /\ rbt c1 n l /\ rbt c2 n r)) \/
    (exists m', stage_left f m hd (root t) (Some p) (Some s) = Ok (m', root t) /\
       almost m m' hd lm rm (plug (FL cp p vp (Nd BLACK a s vs b) :: k) t) (root t)).
  Proof.
    intros HR Ht Ha Hb Hk.
    assert (forall m' a' z vz b', Upd m m' hd lm rm (plug (FL cp p vp (Nd BLACK a s vs b) :: k) t) (plug k (Nd cp (Nd BLACK t p vp a') z vz b')) ->
      cells (plug k (Nd cp (Nd BLACK t p vp a') z vz b')) = cells (plug (FL cp p vp (Nd BLACK a s vs b) :: k) t) ->
      (exists c, rbt c n a') -> rbt BLACK (S n) b' ->
      almost m m' hd lm rm (plug (FL cp p vp (Nd BLACK a s vs b) :: k) t) (root t)) as Hdone.
    { intros m' a' z vz b' HU Hc [c Ha'] Hb'. exists (FL BLACK p vp a' :: FL cp z vz b' :: k), t.
      split; [done|]. split; [exact HU|]. split; [exact Hc|]. rewrite (blacken_black _ _ _ Ht eq_refl). cbn [plug].
      eapply rbk_plug; [|exact Hk]. destruct cp; repeat (econstructor; try done). }
    pose proof (rbt_col _ _ _ Ha) as Hca. pose proof (rbt_col _ _ _ Hb) as Hcb.
    destruct cb.
    2:{ apply or_intror. destruct (stage_left_outer f _ _ _ _ _ _ _ _ _ _ _ _ _ (root t) HR Hcb) as (m'&E&HU). exists m'. split; [exact E|].
      eapply Hdone; [exact HU| |by eexists|].
      - cbn [plug]. rewrite !cells_plug. inversion Hb; subst. cbn [cells blacken]. by applist.
      - inversion Hb; subst. by econstructor. }
    destruct ca.
    - apply or_introl. destruct (stage_left_both f _ _ _ _ _ _ _ _ _ _ _ _ _ (root t) HR Hca Hcb) as (m'&E&HU).
      exists m', (Nd cp t p vp (Nd RED a s vs b)). split; [exact E|]. split; [exact HU|]. split; [|split].
      + cbn [plug]. rewrite !cells_plug. cbn [cells]. by applist.
      + intros ->. repeat (econstructor; try done).
      + intros ->. eexists _, _, _, _, _, _. split; [reflexivity|]. split; first [exact Ht|by constructor].
    - apply or_intror. inversion Ha as [|? al z vz ar Hal Har E0 E1 E2|]; subst.
      destruct (stage_left_inner f _ _ _ _ _ _ _ _ _ _ _ _ _ _ _ _ _ (root t) HR eq_refl Hcb) as (m'&E&HU). exists m'. split; [exact E|].
      eapply Hdone; [exact HU| |by eexists|].
      + cbn [plug]. rewrite !cells_plug. cbn [cells]. by applist.
      + by econstructor.
  Qed.
  Lemma erase_iter_left m hd lm rm k t n cp p vp sib f :
    Rep m hd lm rm (plug (FL cp p vp sib :: k) t) -> rbt BLACK n t -> rbk BLACK (S n) (FL cp p vp sib :: k) ->
    (exists m' t', erase_loop (S (S f)) m hd (root t) (Some p) = erase_loop (S f) m' hd (root t') (Some (cpar hd k)) /\
       Upd m m' hd lm rm (plug (FL cp p vp sib :: k) t) (plug k t') /\
       cells (plug k t') = cells (plug (FL cp p vp sib :: k) t) /\ exists n', deficient n' t' /\ rbk BLACK (S n') k) \/
    (exists m' q, erase_loop (S (S f)) m hd (root t) (Some p) = Ok (m', q) /\
       almost m m' hd lm rm (plug (FL cp p vp sib :: k) t) q).
  Proof.
    intros HR Ht Hk. remember (S f) as f' eqn:Hf'. cbn [erase_loop]. rewrite (Rep_root _ _ _ _ _ HR). cbn [rbind].
    assert (exists cs, rbt cs (S n) sib /\ (cs = RED -> cp = BLACK) /\ rbk cp (if cp then S (S n) else S n) k) as (cs&Hs&Hcs&Hk').
    { inversion Hk; subst; [exists BLACK|..]; eauto. }
    assert (sib <> Lf) as Hsne by (intros ->; inversion Hs).
    rewrite decide_False.
    2:{ destruct t as [|c l x v r]; [rewrite root_plug; cbn [root]; intros E; symmetry in E; revert E; apply crt_not_none|].
        intros E. symmetry in E. revert E. exact (R_notroot _ _ _ _ _ _ _ _ _ _ _ HR). }
    rewrite (R_black _ _ _ _ _ _ HR), (rbt_col _ _ _ Ht). cbn [rbind negb].
    pose proof (R_left _ _ _ _ k _ _ _ _ _ HR) as El. pose proof (R_right _ _ _ _ k _ _ _ _ _ HR) as Er.
    assert ((match root t with
             | Some _ => do p0 <- parent m (root t); do l <- left m (Some p); do r <- right m (Some p);
                 Ok (bool_decide (p0 = Some p) && (bool_decide (l = root t) || bool_decide (r = root t)))
             | None => Ok true end) = Ok true) as Easr.
    { destruct t as [|c l x v r]; [done|]. cbn [root] in *. rewrite (R_parent _ _ _ _ _ _ _ _ _ _ HR), El, Er. cbn [rbind cpar].
      rewrite (bool_decide_true (Some p = Some p)), (bool_decide_true (Some x = Some x)) by done. rewrite ?orb_true_r. done. }
    rewrite Easr. cbn [rbind negb]. clear Easr.
    assert (root t <> root sib) as Hne.
    { intros E. destruct t as [|c l x v r]; [by destruct sib|]. cbn [root] in E. symmetry in E.
      exact (R_ne _ _ _ _ _ _ _ _ _ _ x (HR : Rep m hd lm rm (plug k (Nd cp (Nd c l x v r) p vp sib))) ltac:(first [exact E|done]) ltac:(first [exact E|done])). }
    rewrite ?El, ?Er. cbn [rbind]. first [rewrite decide_True by done|rewrite decide_False by done]. rewrite ?El, ?Er. cbn [rbind].
    rewrite (R_red _ _ _ _ (FR cp t p vp :: k) _ HR), (rbt_col _ _ _ Hs). cbn [rbind]. destruct cs; cbn [negb].
    - (* black sibling *)
      cbn [rbind]. inversion Hs as [| |? ca cb a s vs b Ha Hb]; subst. cbn [root].
      pose proof (stage_left_ok (S f) m hd lm rm k t n cp p vp _ s vs _ _ _ HR Ht ltac:(eassumption) ltac:(eassumption) Hk') as [(m'&t'&E&HU&Hc&Hb1&Hr1)|(m'&E&HA)].
      + apply or_introl. exists m', t'. split; [rewrite <- E; unfold stage_left; by rewrite rbind_assoc|]. split; [done|]. split; [done|]. destruct cp.
        * exists (S n). split; [by apply or_introl; apply Hb1|done].
        * exists n. split; [apply or_intror; by apply Hr1|by apply rbk_weaken].
      + apply or_intror. exists m', (root t). split; [rewrite <- E; unfold stage_left; by rewrite rbind_assoc|done].
    - (* red sibling *)
      rewrite (Hcs eq_refl) in *. clear Hcs. inversion Hs as [|? a s vs b Ha Hb|]; subst. cbn [root].
      destruct (recolor_ok _ _ _ _ (FR BLACK t p vp :: k) _ BLACK _ _ _ _ HR) as (m1&E1&HU1). rewrite E1. cbn [rbind].
      destruct (recolor_ok _ _ _ _ k _ RED _ _ _ _ (proj1 HU1)) as (m2&E2&HU2). rewrite E2. cbn [rbind].
      rewrite (Rep_root _ _ _ _ _ (proj1 HU2)). cbn [rbind].
      destruct (rotate_left_ok _ _ _ _ k _ _ _ _ _ _ _ _ _ (proj1 HU2)) as (m3&E3&HU3). cbn [plug] in E3 |- *. rewrite E3. cbn [rbind].
      pose proof (Upd_trans _ _ _ _ _ _ _ _ _ HU1 (Upd_trans _ _ _ _ _ _ _ _ _ HU2 HU3)) as HU. clear HU1 HU2 E1 E2 E3.
      lazymatch type of HU with Upd _ _ _ _ _ _ (plug k (Nd BLACK (Nd RED t p vp ?x1) s vs ?x2)) => rename x1 into inn; rename x2 into out end.
      pose proof (proj1 HU : Rep m3 hd lm rm (plug (FL BLACK s vs out :: k) (Nd RED t p vp inn))) as HR3.
      rewrite (R_right _ _ _ _ _ _ _ _ _ _ HR3). cbn [rbind].
      assert (rbt BLACK (S n) inn /\ rbt BLACK (S n) out) as [Hin Hout] by (by split). clear Ha Hb.
      inversion Hin as [| |? ca cb a' s' vs' b' Ha' Hb']; subst. cbn [root].
      assert (rbk RED (S n) (FL BLACK s vs out :: k)) as Hk3 by (by econstructor).
      assert (cells (plug (FL BLACK s vs out :: k) (Nd RED t p vp (Nd BLACK a' s' vs' b'))) = cells (plug (FL BLACK p vp (Nd RED (Nd BLACK a' s' vs' b') s vs out) :: k) t)) as HC.
      { cbn [plug]. rewrite !cells_plug. cbn [cells]. by applist. }
      pose proof (stage_left_ok (S f) m3 hd lm rm (FL BLACK s vs out :: k) t n RED p vp _ s' vs' _ _ _ HR3 Ht ltac:(eassumption) ltac:(eassumption) Hk3) as [(m'&t'&E&HU'&Hc&Hb1&Hr1)|(m'&E&HA)].
      + apply or_intror. destruct (Hr1 eq_refl) as (c1&c2&l'&x'&v'&r'&->&Hl'&Hr').
        destruct (erase_red _ _ _ _ _ _ _ _ _ _ _ n f (Some s) (proj1 HU') Hl' Hr' (rbk_weaken _ _ Hk3)) as (m4&E4&HA4).
        exists m4, (Some x'). split.
        * etrans; [|exact E4]. cbn [root cpar] in E. rewrite <- E. unfold stage_left. by rewrite rbind_assoc.
        * eapply (almost_trans _ m3); [exact HU|exact HC|]. by eapply almost_trans.
      + apply or_intror. exists m', (root t). split; [rewrite <- E; unfold stage_left; by rewrite rbind_assoc|].
        eapply (almost_trans _ m3); [exact HU|exact HC|exact HA].
  Qed.

  (** an iteration with a black sibling either finishes or continues at the parent *)
  Lemma stage_right_ok f m hd lm rm k t n cp p vp a s vs b ca cb :
    Rep m hd lm rm (plug (FR cp (Nd BLACK b s vs a) p vp :: k) t) -> rbt BLACK n t -> rbt ca n a -> rbt cb n b ->
    rbk cp (if cp then S (S n) else S n) k ->
    (exists m' t', stage_right f m hd (root t) (Some p) (Some s) = erase_loop f m' hd (root t') (Some (cpar hd k)) /\
       Upd m m' hd lm rm (plug (FR cp (Nd BLACK b s vs a) p vp :: k) t) (plug k t') /\
       cells (plug k t') = cells (plug (FR cp (Nd BLACK b s vs a) p vp :: k) t) /\
       (cp = BLACK -> rbt BLACK (S n) t') /\
       (cp = RED -> exists c1 c2 l x v r, t' = Nd RED l x v r /\ rbt c1 n l /\ rbt c2 n r)) \/
    (exists m', stage_right f m hd (root t) (Some p) (Some s) = Ok (m', root t) /\
       almost m m' hd lm rm (plug (FR cp (Nd BLACK b s vs a) p vp :: k) t) (root t)).
  Proof.
    intros HR Ht Ha Hb Hk.
    assert (forall m' a' z vz b', Upd m m' hd lm rm (plug (FR cp (Nd BLACK b s vs a) p vp :: k) t) (plug k (Nd cp b' z vz (Nd BLACK a' p vp t))) ->
      cells (plug k (Nd cp b' z vz (Nd BLACK a' p vp t))) = cells (plug (FR cp (Nd BLACK b s vs a) p vp :: k) t) ->
      (exists c, rbt c n a') -> rbt BLACK (S n) b' ->
      almost m m' hd lm rm (plug (FR cp (Nd BLACK b s vs a) p vp :: k) t) (root t)) as Hdone.
    { intros m' a' z vz b' HU Hc [c Ha'] Hb'. exists (FR BLACK a' p vp :: FR cp b' z vz :: k), t.
      split; [done|]. split; [exact HU|]. split; [exact Hc|]. rewrite (blacken_black _ _ _ Ht eq_refl). cbn [plug].
      eapply rbk_plug; [|exact Hk]. destruct cp; repeat (econstructor; try done). }
    pose proof (rbt_col _ _ _ Ha) as Hca. pose proof (rbt_col _ _ _ Hb) as Hcb.
    destruct cb.
    2:{ apply or_intror. destruct (stage_right_outer f _ _ _ _ _ _ _ _ _ _ _ _ _ (root t) HR Hcb) as (m'&E&HU). exists m'. split; [exact E|].
      eapply Hdone; [exact HU| |by eexists|].
      - cbn [plug]. rewrite !cells_plug. inversion Hb; subst. cbn [cells blacken]. by applist.
      - inversion Hb; subst. by econstructor. }
    destruct ca.
    - apply or_introl. destruct (stage_right_both f _ _ _ _ _ _ _ _ _ _ _ _ _ (root t) HR Hca Hcb) as (m'&E&HU).
      exists m', (Nd cp (Nd RED b s vs a) p vp t). split; [exact E|]. split; [exact HU|]. split; [|split].
      + cbn [plug]. rewrite !cells_plug. cbn [cells]. by applist.
      + intros ->. repeat (econstructor; try done).
      + intros ->. eexists _, _, _, _, _, _. split; [reflexivity|]. split; first [exact Ht|by constructor].
    - apply or_intror. inversion Ha as [|? al z vz ar Hal Har E0 E1 E2|]; subst.
      destruct (stage_right_inner f _ _ _ _ _ _ _ _ _ _ _ _ _ _ _ _ _ (root t) HR eq_refl Hcb) as (m'&E&HU). exists m'. split; [exact E|].
      eapply Hdone; [exact HU| |by eexists|].
      + cbn [plug]. rewrite !cells_plug. cbn [cells]. by applist.
      + by econstructor.
  Qed.
  Lemma erase_iter_right m hd lm rm k t n cp p vp sib f :
    Rep m hd lm rm (plug (FR cp sib p vp :: k) t) -> rbt BLACK n t -> rbk BLACK (S n) (FR cp sib p vp :: k) ->
    (exists m' t', erase_loop (S (S f)) m hd (root t) (Some p) = erase_loop (S f) m' hd (root t') (Some (cpar hd k)) /\
       Upd m m' hd lm rm (plug (FR cp sib p vp :: k) t) (plug k t') /\
       cells (plug k t') = cells (plug (FR cp sib p vp :: k) t) /\ exists n', deficient n' t' /\ rbk BLACK (S n') k) \/
    (exists m' q, erase_loop (S (S f)) m hd (root t) (Some p) = Ok (m', q) /\
       almost m m' hd lm rm (plug (FR cp sib p vp :: k) t) q).
  Proof.
    intros HR Ht Hk. remember (S f) as f' eqn:Hf'. cbn [erase_loop]. rewrite (Rep_root _ _ _ _ _ HR). cbn [rbind].
    assert (exists cs, rbt cs (S n) sib /\ (cs = RED -> cp = BLACK) /\ rbk cp (if cp then S (S n) else S n) k) as (cs&Hs&Hcs&Hk').
    { inversion Hk; subst; [exists BLACK|..]; eauto. }
    assert (sib <> Lf) as Hsne by (intros ->; inversion Hs).
    rewrite decide_False.
    2:{ destruct t as [|c l x v r]; [rewrite root_plug; cbn [root]; intros E; symmetry in E; revert E; apply crt_not_none|].
        intros E. symmetry in E. revert E. exact (R_notroot _ _ _ _ _ _ _ _ _ _ _ HR). }
    rewrite (R_black _ _ _ _ _ _ HR), (rbt_col _ _ _ Ht). cbn [rbind negb].
    pose proof (R_right _ _ _ _ k _ _ _ _ _ HR) as El. pose proof (R_left _ _ _ _ k _ _ _ _ _ HR) as Er.
    assert ((match root t with
             | Some _ => do p0 <- parent m (root t); do l <- left m (Some p); do r <- right m (Some p);
                 Ok (bool_decide (p0 = Some p) && (bool_decide (l = root t) || bool_decide (r = root t)))
             | None => Ok true end) = Ok true) as Easr.
    { destruct t as [|c l x v r]; [done|]. cbn [root] in *. rewrite (R_parent _ _ _ _ _ _ _ _ _ _ HR), El, Er. cbn [rbind cpar].
      rewrite (bool_decide_true (Some p = Some p)), (bool_decide_true (Some x = Some x)) by done. rewrite ?orb_true_r. done. }
    rewrite Easr. cbn [rbind negb]. clear Easr.
    assert (root t <> root sib) as Hne.
    { intros E. destruct t as [|c l x v r]; [by destruct sib|]. cbn [root] in E. symmetry in E.
      exact (R_ne _ _ _ _ _ _ _ _ _ _ x (HR : Rep m hd lm rm (plug k (Nd cp sib p vp (Nd c l x v r)))) ltac:(first [exact E|done]) ltac:(first [exact E|done])). }
    rewrite ?El, ?Er. cbn [rbind]. first [rewrite decide_True by done|rewrite decide_False by done]. rewrite ?El, ?Er. cbn [rbind].
    rewrite (R_red _ _ _ _ (FL cp p vp t :: k) _ HR), (rbt_col _ _ _ Hs). cbn [rbind]. destruct cs; cbn [negb].
    - (* black sibling *)
      cbn [rbind]. inversion Hs as [| |? ca cb a s vs b Ha Hb]; subst. cbn [root].
      pose proof (stage_right_ok (S f) m hd lm rm k t n cp p vp _ s vs _ _ _ HR Ht ltac:(eassumption) ltac:(eassumption) Hk') as [(m'&t'&E&HU&Hc&Hb1&Hr1)|(m'&E&HA)].
      + apply or_introl. exists m', t'. split; [rewrite <- E; unfold stage_right; by rewrite rbind_assoc|]. split; [done|]. split; [done|]. destruct cp.
        * exists (S n). split; [by apply or_introl; apply Hb1|done].
        * exists n. split; [apply or_intror; by apply Hr1|by apply rbk_weaken].
      + apply or_intror. exists m', (root t). split; [rewrite <- E; unfold stage_right; by rewrite rbind_assoc|done].
    - (* red sibling *)
      rewrite (Hcs eq_refl) in *. clear Hcs. inversion Hs as [|? a s vs b Ha Hb|]; subst. cbn [root].
      destruct (recolor_ok _ _ _ _ (FL BLACK p vp t :: k) _ BLACK _ _ _ _ HR) as (m1&E1&HU1). rewrite E1. cbn [rbind].
      destruct (recolor_ok _ _ _ _ k _ RED _ _ _ _ (proj1 HU1)) as (m2&E2&HU2). rewrite E2. cbn [rbind].
      rewrite (Rep_root _ _ _ _ _ (proj1 HU2)). cbn [rbind].
      destruct (rotate_right_ok _ _ _ _ k _ _ _ _ _ _ _ _ _ (proj1 HU2)) as (m3&E3&HU3). cbn [plug] in E3 |- *. rewrite E3. cbn [rbind].
      pose proof (Upd_trans _ _ _ _ _ _ _ _ _ HU1 (Upd_trans _ _ _ _ _ _ _ _ _ HU2 HU3)) as HU. clear HU1 HU2 E1 E2 E3.
      lazymatch type of HU with Upd _ _ _ _ _ _ (plug k (Nd BLACK ?x2 s vs (Nd RED ?x1 p vp t))) => rename x1 into inn; rename x2 into out end.
      pose proof (proj1 HU : Rep m3 hd lm rm (plug (FR BLACK out s vs :: k) (Nd RED inn p vp t))) as HR3.
      rewrite (R_left _ _ _ _ _ _ _ _ _ _ HR3). cbn [rbind].
      assert (rbt BLACK (S n) inn /\ rbt BLACK (S n) out) as [Hin Hout] by (by split). clear Ha Hb.
      inversion Hin as [| |? ca cb a' s' vs' b' Ha' Hb']; subst. cbn [root].
      assert (rbk RED (S n) (FR BLACK out s vs :: k)) as Hk3 by (by econstructor).
      assert (cells (plug (FR BLACK out s vs :: k) (Nd RED (Nd BLACK a' s' vs' b') p vp t)) = cells (plug (FR BLACK (Nd RED out s vs (Nd BLACK a' s' vs' b')) p vp :: k) t)) as HC.
      { cbn [plug]. rewrite !cells_plug. cbn [cells]. by applist. }
      pose proof (stage_right_ok (S f) m3 hd lm rm (FR BLACK out s vs :: k) t n RED p vp _ s' vs' _ _ _ HR3 Ht ltac:(eassumption) ltac:(eassumption) Hk3) as [(m'&t'&E&HU'&Hc&Hb1&Hr1)|(m'&E&HA)].
      + apply or_intror. destruct (Hr1 eq_refl) as (c1&c2&l'&x'&v'&r'&->&Hl'&Hr').
        destruct (erase_red _ _ _ _ _ _ _ _ _ _ _ n f (Some s) (proj1 HU') Hl' Hr' (rbk_weaken _ _ Hk3)) as (m4&E4&HA4).
        exists m4, (Some x'). split.
        * etrans; [|exact E4]. cbn [root cpar] in E. rewrite <- E. unfold stage_right. by rewrite rbind_assoc.
        * eapply (almost_trans _ m3); [exact HU|exact HC|]. by eapply almost_trans.
      + apply or_intror. exists m', (root t). split; [rewrite <- E; unfold stage_right; by rewrite rbind_assoc|].
        eapply (almost_trans _ m3); [exact HU|exact HC|exact HA].
  Qed.

  Lemma erase_loop_ok k : forall m hd lm rm t n fuel,
    Rep m hd lm rm (plug k t) -> deficient n t -> rbk BLACK (S n) k -> length k < fuel ->
    exists m' q, erase_loop fuel m hd (root t) (Some (cpar hd k)) = Ok (m', q) /\ almost m m' hd lm rm (plug k t) q.
  Proof.
    induction k as [|fr k IH]; intros m hd lm rm t n fuel HR Hd Hk Hf; (destruct fuel as [|fuel]; [lia|]).
    - destruct (erase_root _ _ _ _ _ _ fuel (Some hd) HR Hd) as (m'&E&HA). by exists m', (root t).
    - destruct Hd as [Ht|(c1&c2&l&x&v&r&->&Hl&Hr)].
      2:{ destruct (erase_red _ _ _ _ _ _ _ _ _ _ _ _ fuel (Some (cpar hd (fr :: k))) HR Hl Hr Hk) as (m'&E&HA). by exists m', (Some x). }
      destruct fuel as [|fuel]; [cbn in Hf; lia|].
      assert ((exists m' t', erase_loop (S (S fuel)) m hd (root t) (Some (cpar hd (fr :: k))) = erase_loop (S fuel) m' hd (root t') (Some (cpar hd k)) /\
          Upd m m' hd lm rm (plug (fr :: k) t) (plug k t') /\ cells (plug k t') = cells (plug (fr :: k) t) /\ exists n', deficient n' t' /\ rbk BLACK (S n') k) \/
        (exists m' q, erase_loop (S (S fuel)) m hd (root t) (Some (cpar hd (fr :: k))) = Ok (m', q) /\ almost m m' hd lm rm (plug (fr :: k) t) q))
        as [(m'&t'&E&HU&Hc&n'&Hd'&Hk')|Hdone]; [|rewrite E|exact Hdone].
      { destruct fr as [cp p vp sib|cp sib p vp]; cbn [cpar]; [by eapply erase_iter_left|by eapply erase_iter_right]. }
      destruct (IH m' hd lm rm t' n' (S fuel) (proj1 HU) Hd' Hk' ltac:(cbn in Hf; lia)) as (m''&q&E'&HA).
      exists m'', q. split; [done|]. by eapply almost_trans.
  Qed.
  (** 465-557: the fix-up, run when the removed node is black *)
  Lemma erase_fix_ok m hd lm rm k t n : Rep m hd lm rm (plug k t) -> deficient n t -> rbk BLACK (S n) k ->
    exists m' T', (do (m, rn) <- erase_loop (tfuel m) m hd (root t) (Some (cpar hd k));
                   match rn with Some _ => set_color m rn BLACK | None => Ok m end) = Ok m' /\
      Upd m m' hd lm rm (plug k t) T' /\ cells T' = cells (plug k t) /\ exists n', rbt BLACK n' T'.
  Proof.
    intros HR Hd Hk. pose proof (Rep_size _ _ _ _ _ HR). pose proof (length_ctx k t).
    destruct (erase_loop_ok k m hd lm rm t n (tfuel m) HR Hd Hk ltac:(unfold tfuel; lia)) as (m1&q&E&k1&t1&->&HU&Hc&n'&Hn'). rewrite E. cbn [rbind].
    destruct t1 as [|c1 l1 x1 v1 r1]; cbn [root blacken] in *.
    - exists m1, (plug k1 Lf). split; [done|]. split; [done|]. split; [done|]. by exists n'.
    - destruct (recolor_ok _ _ _ _ _ _ BLACK _ _ _ _ (proj1 HU)) as (m2&E2&HU2). exists m2, (plug k1 (Nd BLACK l1 x1 v1 r1)).
      split; [done|]. split; [by eapply Upd_trans|]. split; [|by exists n']. rewrite <- Hc, !cells_plug. done.
  Qed.
End erase.
