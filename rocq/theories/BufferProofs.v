(** BufferProofs.v — facts about storage blocks. *)
From Verif Require Import Base Spec Facts Buffer.
From stdpp Require Import list.

Section buffer.
  Context {A : Type}.
  Notation block := (list (option A)).
  Implicit Types b p s r x : block.

  Lemma map_replicate n (a : A) : map Some (replicate n a) = replicate n (Some a).
  Proof. induction n as [|n IH]; [done|]. cbn. by rewrite IH. Qed.
  Lemma get_at p a r i : i = length p -> get (p ++ Some a :: r) i = Ok a.
  Proof. intros ->. unfold get. by rewrite list_lookup_middle. Qed.
  Lemma put_at p o r i a : i = length p -> put (p ++ o :: r) i a = Ok (p ++ Some a :: r).
  Proof.
    intros ->. unfold put. rewrite (proj2 (Nat.ltb_lt _ _)) by (rewrite app_length; cbn; lia).
    f_equal. rewrite insert_app_r_alt by lia. by rewrite Nat.sub_diag.
  Qed.
  Lemma get_map (l : list A) r i a : l !! i = Some a -> get (map Some l ++ r) i = Ok a.
  Proof.
    intros H. unfold get. rewrite lookup_app_l by (rewrite map_length; by eapply lookup_lt_Some).
    change (map Some l) with (Some <$> l). by rewrite list_lookup_fmap, H.
  Qed.
  Lemma get_seg p (l : list A) r i j a : j = length p + i -> l !! i = Some a -> get (p ++ map Some l ++ r) j = Ok a.
  Proof.
    intros -> H. unfold get. rewrite lookup_app_r by lia.
    replace (length p + i - length p) with i by lia.
    apply get_map with (r := r) in H. unfold get in H. exact H.
  Qed.

  Lemma fill_ok dflt g a value : (forall b, match value with Some v => arg_get b g v | None => Ok dflt end = Ok a) ->
    forall s p r i, i = length p ->
    fill dflt g (length s) (p ++ s ++ r) i value = Ok (p ++ replicate (length s) (Some a) ++ r).
  Proof.
    intros Hv. induction s as [|o s IH]; intros p r i Hi; [done|]. cbn [length fill].
    rewrite Hv. cbn [rbind]. cbn [app]. rewrite put_at by done. cbn [rbind].
    replace (p ++ Some a :: s ++ r) with ((p ++ [Some a]) ++ s ++ r) by (by applist).
    rewrite IH by (rewrite app_length; cbn; lia). by applist.
  Qed.
  Lemma fill_n_ok dflt g a value n s p r i :
    (forall b, match value with Some v => arg_get b g v | None => Ok dflt end = Ok a) ->
    i = length p -> n = length s ->
    fill dflt g n (p ++ s ++ r) i value = Ok (p ++ replicate n (Some a) ++ r).
  Proof. intros Hv Hi ->. by apply fill_ok. Qed.

  Lemma destroys_ok (l : list A) : forall p r i n, i = length p -> n = length l ->
    destroys n (p ++ map Some l ++ r) i = Ok l.
  Proof.
    induction l as [|a l IH]; intros p r i n Hi ->; [done|]. cbn [length destroys map app].
    rewrite get_at by done. cbn [rbind].
    replace (p ++ Some a :: map Some l ++ r) with ((p ++ [Some a]) ++ map Some l ++ r) by (by applist).
    rewrite IH by (rewrite ?app_length; cbn; lia). done.
  Qed.

  Lemma mcpy_eq b dst b' src n : src + n <= length b' -> dst + n <= length b ->
    mcpy b dst b' src n = Ok (patch b dst (slice b' src (src + n))).
  Proof. intros H1 H2. unfold mcpy. rewrite !(proj2 (Nat.leb_le _ _)) by done. done. Qed.
  Lemma mcpy_UB b dst b' src n : length b < dst + n -> mcpy b dst b' src n = UB.
  Proof. intros H. unfold mcpy. rewrite (proj2 (Nat.leb_gt (dst + n) _)) by done. by rewrite andb_false_r. Qed.

  (** copying a segment of [b'] over a segment of [b] *)
  Lemma mcpy_seg p x r p' s r' i j n : i = length p -> j = length p' -> n = length s -> length x = length s ->
    mcpy (p ++ x ++ r) i (p' ++ s ++ r') j n = Ok (p ++ s ++ r).
  Proof.
    intros -> -> -> Hx. rewrite mcpy_eq by (rewrite !app_length; lia).
    rewrite slice_app. by rewrite patch_app.
  Qed.
  Lemma mcpy_seg0 x r s r' n : n = length s -> length x = length s ->
    mcpy (x ++ r) 0 (s ++ r') 0 n = Ok (s ++ r).
  Proof. intros. by apply (mcpy_seg [] x r [] s r' 0 0 n). Qed.
  Lemma mcpy_prefix b s r' n : n = length s -> n <= length b ->
    mcpy b 0 (s ++ r') 0 n = Ok (s ++ drop n b).
  Proof.
    intros -> H. rewrite <- (take_drop (length s) b) at 1. apply mcpy_seg0; [done|]. rewrite take_length. lia.
  Qed.
  Lemma destroys_ok0 (l : list A) r n : n = length l -> destroys n (map Some l ++ r) 0 = Ok l.
  Proof. intros. by apply (destroys_ok l [] r 0 n). Qed.
  (** memmove to the right by [n] *)
  Lemma move_right p s r n i k : i = length p -> k = length s -> n <= length r ->
    exists junk, length junk = n /\
    mcpy (p ++ s ++ r) (i + n) (p ++ s ++ r) i k = Ok (p ++ junk ++ s ++ drop n r).
  Proof.
    intros -> -> Hn. exists (take n (s ++ r)). split; [rewrite take_length, app_length; lia|].
    rewrite mcpy_eq by (rewrite !app_length; lia). f_equal. rewrite slice_app. unfold patch.
    rewrite take_app_ge by lia. replace (length p + n - length p) with n by lia. applist. f_equal. f_equal. f_equal.
    rewrite drop_app_ge by lia. rewrite drop_app_ge by lia. f_equal. lia.
  Qed.
  (** memmove to the left over [x] *)
  Lemma move_left p x s r i j k : i = length p -> j = length p + length x -> k = length s ->
    exists junk, length junk = length x /\
    mcpy (p ++ x ++ s ++ r) i (p ++ x ++ s ++ r) j k = Ok (p ++ s ++ junk ++ r).
  Proof.
    intros -> -> ->. exists (drop (length s) (x ++ s)). split; [rewrite drop_length, app_length; lia|].
    rewrite mcpy_eq by (rewrite !app_length; lia). f_equal.
    replace (p ++ x ++ s ++ r) with ((p ++ x) ++ s ++ r) at 2 by (by applist).
    rewrite <- app_length. rewrite slice_app. unfold patch.
    rewrite take_app. f_equal. f_equal.
    rewrite drop_app_ge by lia. replace (length p + length s - length p) with (length s) by lia.
    rewrite app_assoc, drop_app_le by (rewrite app_length; lia). done.
  Qed.
  Lemma raw_length n : length (raw (A:=A) n) = n.
  Proof. apply replicate_length. Qed.
  Lemma raw_split n m : m <= n -> raw (A:=A) n = raw m ++ raw (n - m).
  Proof. intros H. unfold raw. rewrite <- replicate_add. f_equal. lia. Qed.
End buffer.
