(** TreeCount.v — how many comparisons the lookups and insertions of a tree make. *)
From Verif Require Import Base Spec SpecSeq SpecListOps SpecTreeOps Facts DList Tree SpecTree TreeRep TreeInsert TreeErase TreeIter TreeUnlink TreeApi TreeOps TreeLookup TreeMod TreeCheck DListCount HeapCount IntroCount.
From stdpp Require Import list gmap.

(** ** the functions of Tree.v once more, also returning how often [kcomp] was called *)
Section counted.
  Context {K V : Type} (alloc : gmap loc (tnode V) -> loc).
  Notation M := (gmap loc (tnode V)).
  Implicit Types (m : M) (h : theap V) (t : tobj K V).
  (** c_tree.c 1299-1320 *)
  Fixpoint find_loop_n (fuel : nat) t m (node : ptr) (key : kref K) : res (ptr * nat) :=
    match fuel with
    | 0 => NoFuel
    | S f =>
      match node with
      | None => Ok (c_tree_end t, 0)
      | Some _ =>
        do k <- kderef t m key; do nk <- nkey t m node;
        if kcomp t k nk then do l <- left m node; do (r, n) <- find_loop_n f t m l key; Ok (r, S n)
        else if negb (kcomp t nk k) then Ok (node, 2)
        else do r <- right m node; do (r, n) <- find_loop_n f t m r key; Ok (r, S (S n))
      end
    end.
  Definition c_tree_find_n t h (key : kref K) : res (ptr * nat) :=
    if c_tree_empty t then Ok (c_tree_end t, 0)
    else do r <- root_of (mem h) (hdr t); find_loop_n (tfuel (mem h)) t (mem h) r key.
  (** c_tree.c 309-327, 1322-1327 *)
  Fixpoint count_loop_n (fuel : nat) t m (node : ptr) (key : kref K) : res (nat * nat) :=
    match fuel with
    | 0 => NoFuel
    | S f =>
      match node with
      | None => Ok (0, 0)
      | Some _ =>
        do k <- kderef t m key; do nk <- nkey t m node;
        if kcomp t k nk then do l <- left m node; do (r, n) <- count_loop_n f t m l key; Ok (r, S n)
        else if negb (kcomp t nk k) then
          do l <- left m node; do (a, i) <- count_loop_n f t m l key;
          do r <- right m node; do (b, j) <- count_loop_n f t m r key;
          Ok (S (a + b), S (S (i + j)))
        else do r <- right m node; do (r, n) <- count_loop_n f t m r key; Ok (r, S (S n))
      end
    end.
  Definition c_tree_count_n t h (key : kref K) : res (nat * nat) :=
    if c_tree_empty t then Ok (0, 0)
    else do r <- root_of (mem h) (hdr t); count_loop_n (tfuel (mem h)) t (mem h) r key.
  (** c_tree.c 1329-1351 *)
  Fixpoint lower_loop_n (fuel : nat) t m (y x : ptr) (key : kref K) : res (ptr * nat) :=
    match fuel with
    | 0 => NoFuel
    | S f =>
      match x with
      | None => Ok (y, 0)
      | Some _ =>
        do nk <- nkey t m x; do k <- kderef t m key;
        if negb (kcomp t nk k) then do l <- left m x; do (r, n) <- lower_loop_n f t m x l key; Ok (r, S n)
        else do r <- right m x; do (r, n) <- lower_loop_n f t m y r key; Ok (r, S n)
      end
    end.
  Definition c_tree_lower_bound_n t h (key : kref K) : res (ptr * nat) :=
    do r <- root_of (mem h) (hdr t); lower_loop_n (tfuel (mem h)) t (mem h) (Some (hdr t)) r key.
  (** c_tree.c 1353-1375 *)
  Fixpoint upper_loop_n (fuel : nat) t m (y x : ptr) (key : kref K) : res (ptr * nat) :=
    match fuel with
    | 0 => NoFuel
    | S f =>
      match x with
      | None => Ok (y, 0)
      | Some _ =>
        do k <- kderef t m key; do nk <- nkey t m x;
        if kcomp t k nk then do l <- left m x; do (r, n) <- upper_loop_n f t m x l key; Ok (r, S n)
        else do r <- right m x; do (r, n) <- upper_loop_n f t m y r key; Ok (r, S n)
      end
    end.
  Definition c_tree_upper_bound_n t h (key : kref K) : res (ptr * nat) :=
    do r <- root_of (mem h) (hdr t); upper_loop_n (tfuel (mem h)) t (mem h) (Some (hdr t)) r key.
  (** c_tree.c 1377-1401 *)
  Definition c_tree_equal_range_n t h (key : kref K) : res (ptr * ptr * nat) :=
    do (l, i) <- c_tree_lower_bound_n t h key; do (u, j) <- c_tree_upper_bound_n t h key; Ok (l, u, i + j).
  (** c_tree.c 1254-1264 *)
  Definition c_tree_erase_key_n t h (key : kref K) : res (theap V * tobj K V * nat * nat) :=
    do (l, i) <- c_tree_lower_bound_n t h key;
    do (u, j) <- c_tree_upper_bound_n t h key;
    do n <- tree_distance (mem h) l u;
    do (h, t) <- c_tree_erase_range t h l u;
    Ok (h, t, n, i + j).
  (** c_tree.c 1063-1067 *)
  Fixpoint descend_n (fuel : nat) t m (y x : ptr) (comp : bool) (v : vref V) : res (ptr * bool * nat) :=
    match fuel with
    | 0 => NoFuel
    | S f =>
      match x with
      | None => Ok (y, comp, 0)
      | Some _ =>
        do k <- vkey t m v; do nk <- nkey t m x;
        let comp := kcomp t k nk in
        do x' <- (if comp then left m x else right m x);
        do (r, n) <- descend_n f t m x x' comp v; Ok (r, S n)
      end
    end.
  (** c_tree.c 562-601: the comparison is made only if the parent is not the header and the hint is null *)
  Definition insert_node_n t h (hint par : ptr) (v : vref V) : res (theap V * tobj K V * ptr * nat) :=
    do r <- insert_node alloc t h hint par v;
    Ok (r, if decide (par = Some (hdr t)) then 0 else if decide (hint <> None) then 0 else 1).
  (** c_tree.c 1052-1083 *)
  Definition c_tree_insert_unique_value_n t h (v : vref V) : res (theap V * tobj K V * ptr * nat) :=
    let m := mem h in
    do r <- root_of m (hdr t);
    do (y, comp, n) <- descend_n (tfuel m) t m (Some (hdr t)) r true v;
    do lm <- left m (Some (hdr t));
    if andb comp (bool_decide (y = lm)) then do (r, i) <- insert_node_n t h None y v; Ok (r, n + i)
    else
      do z <- (if comp then decrement m y else Ok y);
      do zk <- nkey t m z; do k <- vkey t m v;
      if kcomp t zk k then do (r, i) <- insert_node_n t h None y v; Ok (r, n + 1 + i) else Ok (h, t, z, n + 1).
  (** c_tree.c 1153-1169 *)
  Definition c_tree_insert_equal_value_n t h (v : vref V) : res (theap V * tobj K V * ptr * nat) :=
    let m := mem h in
    do r <- root_of m (hdr t);
    do (y, _, n) <- descend_n (tfuel m) t m (Some (hdr t)) r true v;
    do (r, i) <- insert_node_n t h None y v; Ok (r, n + i).
  (** c_tree.c 1085-1122 *)
  Definition c_tree_insert_unique_n t h (hint : ptr) (v : vref V) : res (theap V * tobj K V * ptr * nat) :=
    let m := mem h in
    do lm <- left m (Some (hdr t));
    if decide (hint = lm) then
      do (b, c) <- (if 0 <? cnt t then do k <- vkey t m v; do hk <- nkey t m hint; Ok (kcomp t k hk, 1) else Ok (false, 0));
      if b : bool then do (r, i) <- insert_node_n t h hint hint v; Ok (r, c + i)
      else do (r, i) <- c_tree_insert_unique_value_n t h v; Ok (r, c + i)
    else if decide (hint = Some (hdr t)) then
      do rm <- right m (Some (hdr t));
      do rk <- nkey t m rm; do k <- vkey t m v;
      if kcomp t rk k then do (r, i) <- insert_node_n t h None rm v; Ok (r, 1 + i)
      else do (r, i) <- c_tree_insert_unique_value_n t h v; Ok (r, 1 + i)
    else
      do before <- decrement m hint;
      do bk <- nkey t m before; do k <- vkey t m v;
      do (b, c) <- (if kcomp t bk k then do hk <- nkey t m hint; Ok (kcomp t k hk, 2) else Ok (false, 1));
      if b : bool then
        do hr <- has_right m before;
        if negb hr then do (r, i) <- insert_node_n t h None before v; Ok (r, c + i)
        else do (r, i) <- insert_node_n t h hint hint v; Ok (r, c + i)
      else do (r, i) <- c_tree_insert_unique_value_n t h v; Ok (r, c + i).
  (** c_tree.c 1171-1208 *)
  Definition c_tree_insert_equal_n t h (hint : ptr) (v : vref V) : res (theap V * tobj K V * ptr * nat) :=
    let m := mem h in
    do lm <- left m (Some (hdr t));
    if decide (hint = lm) then
      do (b, c) <- (if 0 <? cnt t then do hk <- nkey t m hint; do k <- vkey t m v; Ok (negb (kcomp t hk k), 1) else Ok (false, 0));
      if b : bool then do (r, i) <- insert_node_n t h hint hint v; Ok (r, c + i)
      else do (r, i) <- c_tree_insert_equal_value_n t h v; Ok (r, c + i)
    else if decide (hint = Some (hdr t)) then
      do k <- vkey t m v; do rm <- right m (Some (hdr t)); do rk <- nkey t m rm;
      if negb (kcomp t k rk) then do (r, i) <- insert_node_n t h None rm v; Ok (r, 1 + i)
      else do (r, i) <- c_tree_insert_equal_value_n t h v; Ok (r, 1 + i)
    else
      do before <- decrement m hint;
      do k <- vkey t m v; do bk <- nkey t m before;
      do (b, c) <- (if negb (kcomp t k bk) then do hk <- nkey t m hint; Ok (negb (kcomp t hk k), 2) else Ok (false, 1));
      if b : bool then
        do hr <- has_right m before;
        if negb hr then do (r, i) <- insert_node_n t h None before v; Ok (r, c + i)
        else do (r, i) <- insert_node_n t h hint hint v; Ok (r, c + i)
      else do (r, i) <- c_tree_insert_equal_value_n t h v; Ok (r, c + i).

  (** these are the functions of the model *)
  Ltac er1 := match goal with
    | |- context [rbind (kderef ?a ?b ?c)] => destruct (kderef a b c) as [?| |]; cbn [rbind erase]; [|done..]
    | |- context [rbind (nkey ?a ?b ?c)] => destruct (nkey a b c) as [?| |]; cbn [rbind erase]; [|done..]
    | |- context [rbind (vkey ?a ?b ?c)] => destruct (vkey a b c) as [?| |]; cbn [rbind erase]; [|done..]
    | |- context [rbind (left ?a ?b)] => destruct (left a b) as [?| |]; cbn [rbind erase]; [|done..]
    | |- context [rbind (right ?a ?b)] => destruct (right a b) as [?| |]; cbn [rbind erase]; [|done..]
    | |- context [rbind (root_of ?a ?b)] => destruct (root_of a b) as [?| |]; cbn [rbind erase]; [|done..]
    | |- context [rbind (decrement ?a ?b)] => destruct (decrement a b) as [?| |]; cbn [rbind erase]; [|done..]
    | |- context [rbind (has_right ?a ?b)] => destruct (has_right a b) as [?| |]; cbn [rbind erase]; [|done..]
    end.
  Ltac er := repeat er1.
  Lemma erase_find_loop fuel t m key : forall x, erase (find_loop_n fuel t m x key) = find_loop fuel t m x key.
  Proof.
    induction fuel as [|f IH]; intros x; cbn [find_loop find_loop_n]; [done|]. destruct x as [x|]; [|done]. do 2 er1.
    destruct (kcomp t _ _); [er; by rewrite erase_then, IH|]. destruct (negb _); [done|]. er. by rewrite erase_then, IH.
  Qed.
  Lemma erase_find t h key : erase (c_tree_find_n t h key) = c_tree_find t h key.
  Proof. unfold c_tree_find, c_tree_find_n. destruct (c_tree_empty t); [done|]. er. apply erase_find_loop. Qed.
  Lemma erase_count_loop fuel t m key : forall x, erase (count_loop_n fuel t m x key) = count_loop fuel t m x key.
  Proof.
    induction fuel as [|f IH]; intros x; cbn [count_loop count_loop_n]; [done|]. destruct x as [x|]; [|done]. do 2 er1.
    destruct (kcomp t _ _); [er; by rewrite erase_then, IH|]. destruct (negb _); [|er; by rewrite erase_then, IH].
    er1. rewrite <- IH. destruct (count_loop_n _ _ _ _ _) as [[? ?]| |]; cbn [rbind erase]; [|done..]. er1.
    rewrite <- IH. by destruct (count_loop_n _ _ _ _ _) as [[? ?]| |].
  Qed.
  Lemma erase_count t h key : erase (c_tree_count_n t h key) = c_tree_count t h key.
  Proof. unfold c_tree_count, c_tree_count_n. destruct (c_tree_empty t); [done|]. er. apply erase_count_loop. Qed.
  Lemma erase_lower_loop fuel t m key : forall y x, erase (lower_loop_n fuel t m y x key) = lower_loop fuel t m y x key.
  Proof.
    induction fuel as [|f IH]; intros y x; cbn [lower_loop lower_loop_n]; [done|]. destruct x as [x|]; [|done]. do 2 er1.
    destruct (negb _); er1; by rewrite erase_then, IH.
  Qed.
  Lemma erase_lower t h key : erase (c_tree_lower_bound_n t h key) = c_tree_lower_bound t h key.
  Proof. unfold c_tree_lower_bound, c_tree_lower_bound_n. er. apply erase_lower_loop. Qed.
  Lemma erase_upper_loop fuel t m key : forall y x, erase (upper_loop_n fuel t m y x key) = upper_loop fuel t m y x key.
  Proof.
    induction fuel as [|f IH]; intros y x; cbn [upper_loop upper_loop_n]; [done|]. destruct x as [x|]; [|done]. do 2 er1.
    destruct (kcomp t _ _); er1; by rewrite erase_then, IH.
  Qed.
  Lemma erase_upper t h key : erase (c_tree_upper_bound_n t h key) = c_tree_upper_bound t h key.
  Proof. unfold c_tree_upper_bound, c_tree_upper_bound_n. er. apply erase_upper_loop. Qed.
  Lemma erase_equal_range t h key : erase (c_tree_equal_range_n t h key) = c_tree_equal_range t h key.
  Proof.
    unfold c_tree_equal_range, c_tree_equal_range_n. rewrite <- erase_lower, <- erase_upper.
    destruct (c_tree_lower_bound_n t h key) as [[l i]| |]; cbn [rbind erase]; [|done..]. by destruct (c_tree_upper_bound_n t h key) as [[u j]| |].
  Qed.
  Lemma erase_erase_key t h key : erase (c_tree_erase_key_n t h key) = c_tree_erase_key t h key.
  Proof.
    unfold c_tree_erase_key, c_tree_erase_key_n. rewrite <- erase_lower, <- erase_upper.
    destruct (c_tree_lower_bound_n t h key) as [[l i]| |]; cbn [rbind erase]; [|done..].
    destruct (c_tree_upper_bound_n t h key) as [[u j]| |]; cbn [rbind erase]; [|done..].
    destruct (tree_distance (mem h) l u) as [n| |]; cbn [rbind]; [|done..]. by destruct (c_tree_erase_range t h l u) as [[h' t']| |].
  Qed.
  Lemma erase_descend fuel t m v : forall y x c, erase (descend_n fuel t m y x c v) = descend fuel t m y x c v.
  Proof.
    induction fuel as [|f IH]; intros y x c; cbn [descend descend_n]; [done|]. destruct x as [x|]; [|done]. do 2 er1.
    destruct (kcomp t _ _); er1; by rewrite erase_then, IH.
  Qed.
  Lemma erase_insert_node t h hint par v : erase (insert_node_n t h hint par v) = insert_node alloc t h hint par v.
  Proof. unfold insert_node_n. by destruct (insert_node alloc t h hint par v). Qed.
  Lemma erase_insert_unique_value t h v : erase (c_tree_insert_unique_value_n t h v) = c_tree_insert_unique_value alloc t h v.
  Proof.
    unfold c_tree_insert_unique_value, c_tree_insert_unique_value_n. er1. rewrite <- erase_descend.
    destruct (descend_n _ _ _ _ _ _ _) as [[[y c] n]| |]; cbn [rbind erase]; [|done..]. er1.
    destruct (_ && _); [by rewrite erase_then, erase_insert_node|].
    destruct (if c then _ else _) as [z| |]; cbn [rbind]; [|done..]. do 2 er1.
    destruct (kcomp t _ _); [by rewrite erase_then, erase_insert_node|done].
  Qed.
  Lemma erase_insert_equal_value t h v : erase (c_tree_insert_equal_value_n t h v) = c_tree_insert_equal_value alloc t h v.
  Proof.
    unfold c_tree_insert_equal_value, c_tree_insert_equal_value_n. er1. rewrite <- erase_descend.
    destruct (descend_n _ _ _ _ _ _ _) as [[[y c] n]| |]; cbn [rbind erase]; [|done..]. by rewrite erase_then, erase_insert_node.
  Qed.
  Ltac fin := by rewrite erase_then, ?erase_insert_node, ?erase_insert_unique_value, ?erase_insert_equal_value.
  Lemma erase_insert_unique t h hint v : erase (c_tree_insert_unique_n t h hint v) = c_tree_insert_unique alloc t h hint v.
  Proof.
    unfold c_tree_insert_unique, c_tree_insert_unique_n. er1. destruct (decide _).
    { destruct (0 <? cnt t); cbn [rbind]; [do 2 er1; destruct (kcomp t _ _); fin|fin]. }
    destruct (decide _). { do 3 er1. destruct (kcomp t _ _); fin. }
    do 3 er1. destruct (kcomp t _ _); cbn [rbind]; [|fin]. er1. destruct (kcomp t _ _); [|fin]. er1. destruct (negb _); fin.
  Qed.
  Lemma erase_insert_equal t h hint v : erase (c_tree_insert_equal_n t h hint v) = c_tree_insert_equal alloc t h hint v.
  Proof.
    unfold c_tree_insert_equal, c_tree_insert_equal_n. er1. destruct (decide _).
    { destruct (0 <? cnt t); cbn [rbind]; [do 2 er1; destruct (negb _); fin|fin]. }
    destruct (decide _). { do 3 er1. destruct (negb _); fin. }
    do 3 er1. destruct (negb _); cbn [rbind]; [|fin]. er1. destruct (negb _); [|fin]. er1. destruct (negb _); fin.
  Qed.

End counted.

(** ** the height of the tree bounds the comparisons *)
Section bounds.
  Context {K V : Type}.
  Notation M := (gmap loc (tnode V)).
  Notation ctx := (list (frame V)).
  Notation cell := (loc * V)%type.
  Implicit Types (m : M) (h : theap V) (t : tobj K V) (k : ctx) (s : tree V) (cs : list cell).

  Lemma find_height t m hd lm rm key : forall s k fuel r n, Rep m hd lm rm (plug k s) ->
    find_loop_n fuel t m (root s) key = Ok (r, n) -> n <= 2 * height s.
  Proof.
    induction s as [|c l IHl x w rr IHr]; intros k fuel r n HR E; (destruct fuel as [|fuel]; [done|]); cbn [find_loop_n root] in E.
    { injection E as <- <-. lia. }
    cbn [height]. apply rbind_Ok in E as (kk&_&E). apply rbind_Ok in E as (nk&_&E).
    destruct (kcomp t kk nk).
    - rewrite (R_left _ _ _ _ _ _ _ _ _ _ HR) in E. cbn [rbind] in E. apply rbind_Ok in E as ([? ?]&E&[= <- <-]).
      apply (IHl (FL c x w rr :: k)) in E; [lia|done].
    - destruct (negb _); [injection E as <- <-; lia|].
      rewrite (R_right _ _ _ _ _ _ _ _ _ _ HR) in E. cbn [rbind] in E. apply rbind_Ok in E as ([? ?]&E&[= <- <-]).
      apply (IHr (FR c l x w :: k)) in E; [lia|done].
  Qed.
  Lemma lower_height t m hd lm rm key : forall s k fuel y r n, Rep m hd lm rm (plug k s) ->
    lower_loop_n fuel t m y (root s) key = Ok (r, n) -> n <= height s.
  Proof.
    induction s as [|c l IHl x w rr IHr]; intros k fuel y r n HR E; (destruct fuel as [|fuel]; [done|]); cbn [lower_loop_n root] in E.
    { injection E as <- <-. lia. }
    cbn [height]. apply rbind_Ok in E as (kk&_&E). apply rbind_Ok in E as (nk&_&E).
    destruct (negb _).
    - rewrite (R_left _ _ _ _ _ _ _ _ _ _ HR) in E. cbn [rbind] in E. apply rbind_Ok in E as ([? ?]&E&[= <- <-]).
      apply (IHl (FL c x w rr :: k)) in E; [lia|done].
    - rewrite (R_right _ _ _ _ _ _ _ _ _ _ HR) in E. cbn [rbind] in E. apply rbind_Ok in E as ([? ?]&E&[= <- <-]).
      apply (IHr (FR c l x w :: k)) in E; [lia|done].
  Qed.
  Lemma upper_height t m hd lm rm key : forall s k fuel y r n, Rep m hd lm rm (plug k s) ->
    upper_loop_n fuel t m y (root s) key = Ok (r, n) -> n <= height s.
  Proof.
    induction s as [|c l IHl x w rr IHr]; intros k fuel y r n HR E; (destruct fuel as [|fuel]; [done|]); cbn [upper_loop_n root] in E.
    { injection E as <- <-. lia. }
    cbn [height]. apply rbind_Ok in E as (kk&_&E). apply rbind_Ok in E as (nk&_&E).
    destruct (kcomp t _ _).
    - rewrite (R_left _ _ _ _ _ _ _ _ _ _ HR) in E. cbn [rbind] in E. apply rbind_Ok in E as ([? ?]&E&[= <- <-]).
      apply (IHl (FL c x w rr :: k)) in E; [lia|done].
    - rewrite (R_right _ _ _ _ _ _ _ _ _ _ HR) in E. cbn [rbind] in E. apply rbind_Ok in E as ([? ?]&E&[= <- <-]).
      apply (IHr (FR c l x w :: k)) in E; [lia|done].
  Qed.
  Lemma descend_height t m hd lm rm v : forall s k fuel y b r n, Rep m hd lm rm (plug k s) ->
    descend_n fuel t m y (root s) b v = Ok (r, n) -> n <= height s.
  Proof.
    induction s as [|c l IHl x w rr IHr]; intros k fuel y b r n HR E; (destruct fuel as [|fuel]; [done|]); cbn [descend_n root] in E.
    { injection E as <- <-. lia. }
    cbn [height]. apply rbind_Ok in E as (kk&_&E). apply rbind_Ok in E as (nk&_&E).
    destruct (kcomp t _ _).
    - rewrite (R_left _ _ _ _ _ _ _ _ _ _ HR) in E. cbn [rbind] in E. apply rbind_Ok in E as ([? ?]&E&[= <- <-]).
      apply (IHl (FL c x w rr :: k)) in E; [lia|done].
    - rewrite (R_right _ _ _ _ _ _ _ _ _ _ HR) in E. cbn [rbind] in E. apply rbind_Ok in E as ([? ?]&E&[= <- <-]).
      apply (IHr (FR c l x w :: k)) in E; [lia|done].
  Qed.
  (** counting visits the elements with the key and, left and right of them, a path each *)
  Lemma count_height t m hd lm rm key a : StrictWeakOrder (kcomp t) -> kvalued t m key a -> forall s k fuel i j r n,
    Rep m hd lm rm (plug k s) -> ksorted t (cells (plug k s)) ->
    i <= 1 -> j <= 1 ->
    (i = 0 -> forall c, c ∈ cells s -> kcomp t (kov t c.2) a = false) ->
    (j = 0 -> forall c, c ∈ cells s -> kcomp t a (kov t c.2) = false) ->
    count_loop_n fuel t m (root s) key = Ok (r, n) -> n <= 2 * (r + (i + j) * height s).
  Proof.
    intros HW Hv s. induction s as [|c l IHl x w rr IHr]; intros k fuel i j r n HR HS Hi Hj Hli Hlj E; (destruct fuel as [|fuel]; [done|]);
      cbn [count_loop_n root] in E.
    { injection E as <- <-. lia. }
    unfold kvalued in Hv. rewrite Hv in E. cbn [rbind] in E. rewrite (R_nkey t _ _ _ _ _ _ _ _ _ _ HR) in E. cbn [rbind] in E. cbn [height].
    pose proof HS as HS'. rewrite cells_plug in HS'. cbn [cells] in HS'. rewrite <- !app_assoc in HS'. cbn [app] in HS'.
    rewrite app_assoc in HS'. apply ksorted_mid in HS' as [HSl HSr]. cbn [cells] in Hli, Hlj.
    rewrite (R_left _ _ _ _ _ _ _ _ _ _ HR), (R_right _ _ _ _ _ _ _ _ _ _ HR) in E. cbn [rbind] in E.
    assert (Hx : (x, w) ∈ cells l ++ (x, w) :: cells rr) by (apply elem_of_app; right; left).
    assert (HLl : i = 0 -> forall c, c ∈ cells l -> kcomp t (kov t c.2) a = false) by (intros H d Hd; apply (Hli H); apply elem_of_app; by left).
    assert (HLr : i = 0 -> forall c, c ∈ cells rr -> kcomp t (kov t c.2) a = false) by (intros H d Hd; apply (Hli H); apply elem_of_app; right; by right).
    assert (HJl : j = 0 -> forall c, c ∈ cells l -> kcomp t a (kov t c.2) = false) by (intros H d Hd; apply (Hlj H); apply elem_of_app; by left).
    assert (HJr : j = 0 -> forall c, c ∈ cells rr -> kcomp t a (kov t c.2) = false) by (intros H d Hd; apply (Hlj H); apply elem_of_app; right; by right).
    destruct (kcomp t a (kov t w)) eqn:Ec; cbn [negb] in E.
    - apply rbind_Ok in E as ([r1 n1]&E&[= <- <-]).
      apply (IHl (FL c x w rr :: k) fuel i j) in E; [|done..].
      assert (j = 1) as -> by (destruct j as [|[|]]; [|done|lia]; specialize (Hlj eq_refl _ Hx); cbn in Hlj; congruence).
      assert (i = 0 \/ i = 1) as [->| ->] by lia; lia.
    - destruct (kcomp t (kov t w) a) eqn:Ec'; cbn [negb] in E.
      + apply rbind_Ok in E as ([r1 n1]&E&[= <- <-]).
        apply (IHr (FR c l x w :: k) fuel i j) in E; [|done..].
        assert (i = 1) as -> by (destruct i as [|[|]]; [|done|lia]; specialize (Hli eq_refl _ Hx); cbn in Hli; congruence).
        assert (j = 0 \/ j = 1) as [->| ->] by lia; lia.
      + apply rbind_Ok in E as ([r1 n1]&E1&E). apply rbind_Ok in E as ([r2 n2]&E2&[= <- <-]).
        apply (IHl (FL c x w rr :: k) fuel i 0) in E1; [|done|done|done|lia|done|].
        2:{ intros _ d Hd. apply (swo_le_trans (kcomp t) HW) with (kov t w); [|done]. apply HSl. apply elem_of_app. by right. }
        apply (IHr (FR c l x w :: k) fuel 0 j) in E2; [|done|done|lia|done| |done].
        2:{ intros _ d Hd. apply (swo_le_trans (kcomp t) HW) with (kov t w); [done|]. apply HSr. apply elem_of_app. by left. }
        assert (i = 0 \/ i = 1) as [->| ->] by lia; (assert (j = 0 \/ j = 1) as [->| ->] by lia); lia.
  Qed.

  Lemma tree_log t h cs : is_rbtree (mem h) t cs -> exists T, is_tree (mem h) (hdr t) T /\ cells T = cs /\ height T <= 2 * Nat.log2 (length cs + 1).
  Proof. intros (_&(T&HT&HcT)&_). exists T. split; [done|]. split; [done|]. rewrite <- HcT. by eapply height_log. Qed.
  Lemma find_n_bound t h cs key r n : is_rbtree (mem h) t cs -> c_tree_find_n t h key = Ok (r, n) -> n <= 4 * Nat.log2 (length cs + 1).
  Proof.
    intros HB E. destruct (tree_log _ _ _ HB) as (T&HT&_&Hh). pose proof HT as [HR _]. unfold c_tree_find_n in E.
    destruct (c_tree_empty t); [injection E as <- <-; lia|]. rewrite (Rep_root _ _ _ _ _ HR) in E. cbn [rbind] in E.
    pose proof (find_height t (mem h) (hdr t) _ _ key T [] _ _ _ HR E). lia.
  Qed.
  Lemma lower_n_bound t h cs key r n : is_rbtree (mem h) t cs -> c_tree_lower_bound_n t h key = Ok (r, n) -> n <= 2 * Nat.log2 (length cs + 1).
  Proof.
    intros HB E. destruct (tree_log _ _ _ HB) as (T&HT&_&Hh). pose proof HT as [HR _]. unfold c_tree_lower_bound_n in E.
    rewrite (Rep_root _ _ _ _ _ HR) in E. cbn [rbind] in E. pose proof (lower_height t (mem h) (hdr t) _ _ key T [] _ _ _ _ HR E). lia.
  Qed.
  Lemma upper_n_bound t h cs key r n : is_rbtree (mem h) t cs -> c_tree_upper_bound_n t h key = Ok (r, n) -> n <= 2 * Nat.log2 (length cs + 1).
  Proof.
    intros HB E. destruct (tree_log _ _ _ HB) as (T&HT&_&Hh). pose proof HT as [HR _]. unfold c_tree_upper_bound_n in E.
    rewrite (Rep_root _ _ _ _ _ HR) in E. cbn [rbind] in E. pose proof (upper_height t (mem h) (hdr t) _ _ key T [] _ _ _ _ HR E). lia.
  Qed.
  Lemma count_n_bound t h cs key a r n : is_rbtree (mem h) t cs -> kvalued t (mem h) key a ->
    c_tree_count_n t h key = Ok (r, n) -> n <= 2 * r + 8 * Nat.log2 (length cs + 1).
  Proof.
    intros HB Hk E. destruct (tree_log _ _ _ HB) as (T&HT&HcT&Hh). pose proof HT as [HR _]. unfold c_tree_count_n in E.
    destruct (c_tree_empty t); [injection E as <- <-; lia|]. rewrite (Rep_root _ _ _ _ _ HR) in E. cbn [rbind] in E.
    destruct HB as (HW&_&_&HS). rewrite <- HcT in HS.
    eapply (count_height t (mem h) (hdr t) _ _ key a HW Hk T [] _ 1 1) in E; [lia|exact HR|exact HS|lia..].
  Qed.
End bounds.
Section insert_bounds.
  Context {K V : Type} (alloc : gmap loc (tnode V) -> loc).
  Notation M := (gmap loc (tnode V)).
  Notation cell := (loc * V)%type.
  Implicit Types (m : M) (h : theap V) (t : tobj K V) (cs : list cell).

  Lemma node_n_bound t h hint p v r n : insert_node_n alloc t h hint p v = Ok (r, n) -> n <= 1 /\ (hint <> None -> n = 0).
  Proof. unfold insert_node_n. intros (?&_&[= <- <-])%rbind_Ok. destruct (decide _); [lia|]. destruct (decide _); [lia|]. split; [lia|done]. Qed.
  Lemma descend_n_bound t h cs v y b r n : is_rbtree (mem h) t cs ->
    (do r <- root_of (mem h) (hdr t); descend_n (tfuel (mem h)) t (mem h) y r b v) = Ok (r, n) -> n <= 2 * Nat.log2 (length cs + 1).
  Proof.
    intros HB E. destruct (tree_log _ _ _ HB) as (T&HT&_&Hh). pose proof HT as [HR _].
    rewrite (Rep_root _ _ _ _ _ HR) in E. cbn [rbind] in E. pose proof (descend_height t (mem h) (hdr t) _ _ v T [] _ _ _ _ _ HR E). lia.
  Qed.
  Lemma unique_value_n_bound t h cs v r n : is_rbtree (mem h) t cs -> c_tree_insert_unique_value_n alloc t h v = Ok (r, n) ->
    n <= 2 * Nat.log2 (length cs + 1) + 2.
  Proof.
    intros HB E. unfold c_tree_insert_unique_value_n in E. apply rbind_Ok in E as (rt&Er&E). apply rbind_Ok in E as ([[y c] i]&Ed&E).
    assert (i <= 2 * Nat.log2 (length cs + 1)) as Hi by (eapply (descend_n_bound t h cs v); [done|]; rewrite Er; exact Ed).
    apply rbind_Ok in E as (lm&_&E). destruct (_ && _).
    - apply rbind_Ok in E as ([? ?]&E&[= <- <-]). apply node_n_bound in E as [E _]. lia.
    - do 3 (apply rbind_Ok in E as (?&_&E)). destruct (kcomp t _ _); [|injection E as <- <-; lia].
      apply rbind_Ok in E as ([? ?]&E&[= <- <-]). apply node_n_bound in E as [E _]. lia.
  Qed.
  Lemma equal_value_n_bound t h cs v r n : is_rbtree (mem h) t cs -> c_tree_insert_equal_value_n alloc t h v = Ok (r, n) ->
    n <= 2 * Nat.log2 (length cs + 1) + 1.
  Proof.
    intros HB E. unfold c_tree_insert_equal_value_n in E. apply rbind_Ok in E as (rt&Er&E). apply rbind_Ok in E as ([[y c] i]&Ed&E).
    assert (i <= 2 * Nat.log2 (length cs + 1)) as Hi by (eapply (descend_n_bound t h cs v); [done|]; rewrite Er; exact Ed).
    apply rbind_Ok in E as ([? ?]&E&[= <- <-]). apply node_n_bound in E as [E _]. lia.
  Qed.
  (** an insertion with a hint makes at most two comparisons more *)
  Lemma unique_hint_n_bound t h cs hint v r n : is_rbtree (mem h) t cs -> c_tree_insert_unique_n alloc t h hint v = Ok (r, n) ->
    n <= 2 * Nat.log2 (length cs + 1) + 4.
  Proof.
    intros HB E. unfold c_tree_insert_unique_n in E.
    assert (Hd : forall c r n, (do (r, i) <- c_tree_insert_unique_value_n alloc t h v; Ok (r, c + i)) = Ok (r, n) -> n <= c + (2 * Nat.log2 (length cs + 1) + 2)).
    { intros c r' n' H. apply rbind_Ok in H as ([? ?]&H&[= <- <-]). apply (unique_value_n_bound t h cs) in H; [lia|done]. }
    assert (Hn : forall c hh p r n, (do (r, i) <- insert_node_n alloc t h hh p v; Ok (r, c + i)) = Ok (r, n) -> n <= c + 1).
    { intros c hh q r' n' H. apply rbind_Ok in H as ([? ?]&H&[= <- <-]). apply node_n_bound in H as [H _]. lia. }
    apply rbind_Ok in E as (lm&_&E). destruct (decide _).
    { apply rbind_Ok in E as ([b c]&Ec&E). assert (c <= 1) by (destruct (0 <? cnt t); [do 2 apply rbind_Ok in Ec as (?&_&Ec); injection Ec as <- <-; lia|injection Ec as <- <-; lia]).
      destruct b; [apply Hn in E|apply Hd in E]; lia. }
    destruct (decide _).
    { do 3 apply rbind_Ok in E as (?&_&E). destruct (kcomp t _ _); [apply Hn in E|apply Hd in E]; lia. }
    do 3 apply rbind_Ok in E as (?&_&E). apply rbind_Ok in E as ([b c]&Ec&E).
    assert (c <= 2) by (destruct (kcomp t _ _); [apply rbind_Ok in Ec as (?&_&Ec); injection Ec as <- <-; lia|injection Ec as <- <-; lia]).
    clear Ec. destruct b; [|apply Hd in E; lia]. apply rbind_Ok in E as (hr&_&E). destruct (negb hr); apply Hn in E; lia.
  Qed.
  Lemma equal_hint_n_bound t h cs hint v r n : is_rbtree (mem h) t cs -> c_tree_insert_equal_n alloc t h hint v = Ok (r, n) ->
    n <= 2 * Nat.log2 (length cs + 1) + 3.
  Proof.
    intros HB E. unfold c_tree_insert_equal_n in E.
    assert (Hd : forall c r n, (do (r, i) <- c_tree_insert_equal_value_n alloc t h v; Ok (r, c + i)) = Ok (r, n) -> n <= c + (2 * Nat.log2 (length cs + 1) + 1)).
    { intros c r' n' H. apply rbind_Ok in H as ([? ?]&H&[= <- <-]). apply (equal_value_n_bound t h cs) in H; [lia|done]. }
    assert (Hn : forall c hh p r n, (do (r, i) <- insert_node_n alloc t h hh p v; Ok (r, c + i)) = Ok (r, n) -> n <= c + 1).
    { intros c hh q r' n' H. apply rbind_Ok in H as ([? ?]&H&[= <- <-]). apply node_n_bound in H as [H _]. lia. }
    apply rbind_Ok in E as (lm&_&E). destruct (decide _).
    { apply rbind_Ok in E as ([b c]&Ec&E). assert (c <= 1) by (destruct (0 <? cnt t); [do 2 apply rbind_Ok in Ec as (?&_&Ec); injection Ec as <- <-; lia|injection Ec as <- <-; lia]).
      destruct b; [apply Hn in E|apply Hd in E]; lia. }
    destruct (decide _).
    { do 3 apply rbind_Ok in E as (?&_&E). destruct (negb (kcomp t _ _)); [apply Hn in E|apply Hd in E]; lia. }
    do 3 apply rbind_Ok in E as (?&_&E). apply rbind_Ok in E as ([b c]&Ec&E).
    assert (c <= 2) by (destruct (negb (kcomp t _ _)); [apply rbind_Ok in Ec as (?&_&Ec); injection Ec as <- <-; lia|injection Ec as <- <-; lia]).
    clear Ec. destruct b; [|apply Hd in E; lia]. apply rbind_Ok in E as (hr&_&E). destruct (negb hr); apply Hn in E; lia.
  Qed.
  (** with a hint that is the right place, three comparisons are enough *)
  Lemma node_n_ok t h hint p v c r n : (do (r, i) <- insert_node_n alloc t h hint p v; Ok (r, c + i)) = Ok (r, n) -> n <= c + 1.
  Proof. intros H. apply rbind_Ok in H as ([? ?]&H&[= <- <-]). apply node_n_bound in H as [H _]. lia. Qed.
  Lemma unique_good_hint t h L R v a r n : is_rbtree (mem h) t (L ++ R) -> valued (mem h) v a ->
    (forall c, c ∈ L -> kcomp t (kov t c.2) (kov t a) = true) -> (forall c, c ∈ R -> kcomp t (kov t a) (kov t c.2) = true) ->
    c_tree_insert_unique_n alloc t h (first_loc (hdr t) R) v = Ok (r, n) -> n <= 3.
  Proof.
    intros HB Hv H1 H2 E. pose proof HB as (HW&HH&Hc&HS). pose proof (rb_ND _ _ _ HB) as HN.
    assert (F1 : forall y u, (y, u) ∈ L -> kcomp t (kov t u) (kov t a) = true) by (intros y u; exact (H1 (y, u))).
    assert (F2 : forall y u, (y, u) ∈ R -> kcomp t (kov t a) (kov t u) = true) by (intros y u; exact (H2 (y, u))).
    unfold c_tree_insert_unique_n in E. rewrite (rb_left _ _ _ HB) in E. cbn [rbind] in E.
    destruct L as [|x0 L0] eqn:EL.
    - cbn [app] in *. rewrite decide_True in E by done. destruct R as [|[y u] R].
      + rewrite Hc in E. cbn [length Nat.ltb Nat.leb rbind] in E. apply rbind_Ok in E as ([r' i]&E&[= <- <-]).
        unfold c_tree_insert_unique_value_n in E. apply rbind_Ok in E as (rt&Er&E).
        apply rbind_Ok in E as ([[y c] j]&Ed&E).
        assert (j <= 2 * Nat.log2 (@length cell [] + 1)) as Hj by (eapply (descend_n_bound t h [] v); [done|]; rewrite Er; exact Ed).
        cbn in Hj. rewrite (rb_left _ _ _ HB) in E. cbn [rbind] in E. destruct (_ && _).
        * apply node_n_ok in E. lia.
        * do 3 (apply rbind_Ok in E as (?&_&E)). destruct (kcomp t _ _); [apply node_n_ok in E; lia|injection E as <- <-; lia].
      + rewrite first_loc_cons in E. rewrite Hc in E. cbn [length] in E. rewrite (proj2 (Nat.ltb_lt 0 (S (length R)))) in E by lia.
        rewrite (vkey_ok _ _ _ _ Hv) in E. cbn [rbind] in E. rewrite (rb_nkey _ _ _ y u HB) in E by (by left). cbn [rbind] in E.
        rewrite (F2 y u) in E by (by left). apply node_n_ok in E. lia.
    - rewrite <- EL in *. destruct (exists_last (l := L)) as (L1&[x w]&->); [by rewrite EL|]. clear EL.
      rewrite decide_False in E; [|apply first_app_ne; [done|by destruct L1]].
      destruct R as [|[y u] R].
      + change (first_loc (hdr t) []) with (Some (hdr t)) in E. rewrite decide_True in E by done.
        rewrite (rb_right _ _ _ HB) in E. cbn [rbind] in E. rewrite app_nil_r in E, HB. rewrite last_loc_snoc in E.
        rewrite (rb_nkey _ _ _ x w HB) in E by (apply elem_of_app; right; by left). cbn [rbind] in E. rewrite (vkey_ok _ _ _ _ Hv) in E. cbn [rbind] in E.
        rewrite (F1 x w) in E by (apply elem_of_app; right; by left). apply node_n_ok in E. lia.
      + rewrite first_loc_cons in E. rewrite decide_False in E.
        2:{ rewrite <- (first_loc_cons (hdr t) y u R). apply first_ne_hd; [|done]. rewrite fmap_app in HN.
            apply NoDup_cons in HN as [Hn1 Hn2]. apply NoDup_app in Hn2 as (_&_&Hn2). apply NoDup_cons. split; [|done]. intros Hq. apply Hn1. apply elem_of_app. by right. }
        destruct HH as (T&HT&HTc). rewrite <- app_assoc in HTc. cbn [app] in HTc.
        pose proof (prev_at (mem h) (hdr t) T L1 x w ((y, u) :: R) HT HTc) as Hd. rewrite first_loc_cons in Hd. rewrite Hd in E. cbn [rbind] in E.
        rewrite (rb_nkey _ _ _ x w HB) in E by (apply elem_of_app; left; apply elem_of_app; right; by left). cbn [rbind] in E.
        rewrite (vkey_ok _ _ _ _ Hv) in E. cbn [rbind] in E.
        rewrite (F1 x w) in E by (apply elem_of_app; right; by left).
        rewrite (rb_nkey _ _ _ y u HB) in E by (apply elem_of_app; right; by left). cbn [rbind] in E. rewrite (F2 y u) in E by (by left).
        apply rbind_Ok in E as (hr&_&E). destruct (negb hr); apply node_n_ok in E; lia.
  Qed.
  Lemma equal_good_hint t h L R v a r n : is_rbtree (mem h) t (L ++ R) -> valued (mem h) v a ->
    (forall c, c ∈ L -> kcomp t (kov t a) (kov t c.2) = false) -> (forall c, c ∈ R -> kcomp t (kov t c.2) (kov t a) = false) ->
    c_tree_insert_equal_n alloc t h (first_loc (hdr t) R) v = Ok (r, n) -> n <= 3.
  Proof.
    intros HB Hv H1 H2 E. pose proof HB as (HW&HH&Hc&HS). pose proof (rb_ND _ _ _ HB) as HN.
    assert (F1 : forall y u, (y, u) ∈ L -> kcomp t (kov t a) (kov t u) = false) by (intros y u; exact (H1 (y, u))).
    assert (F2 : forall y u, (y, u) ∈ R -> kcomp t (kov t u) (kov t a) = false) by (intros y u; exact (H2 (y, u))).
    unfold c_tree_insert_equal_n in E. rewrite (rb_left _ _ _ HB) in E. cbn [rbind] in E.
    destruct L as [|x0 L0] eqn:EL.
    - cbn [app] in *. rewrite decide_True in E by done. destruct R as [|[y u] R].
      + rewrite Hc in E. cbn [length Nat.ltb Nat.leb rbind] in E. apply rbind_Ok in E as ([r' i]&E&[= <- <-]).
        apply (equal_value_n_bound t h []) in E; [|done]. cbn in E. lia.
      + rewrite first_loc_cons in E. rewrite Hc in E. cbn [length] in E. rewrite (proj2 (Nat.ltb_lt 0 (S (length R)))) in E by lia.
        rewrite (rb_nkey _ _ _ y u HB) in E by (by left). cbn [rbind] in E. rewrite (vkey_ok _ _ _ _ Hv) in E. cbn [rbind] in E.
        rewrite (F2 y u) in E by (by left). apply node_n_ok in E. lia.
    - rewrite <- EL in *. destruct (exists_last (l := L)) as (L1&[x w]&->); [by rewrite EL|]. clear EL.
      rewrite decide_False in E; [|apply first_app_ne; [done|by destruct L1]].
      destruct R as [|[y u] R].
      + change (first_loc (hdr t) []) with (Some (hdr t)) in E. rewrite decide_True in E by done.
        rewrite (vkey_ok _ _ _ _ Hv) in E. cbn [rbind] in E.
        rewrite (rb_right _ _ _ HB) in E. cbn [rbind] in E. rewrite app_nil_r in E, HB. rewrite last_loc_snoc in E.
        rewrite (rb_nkey _ _ _ x w HB) in E by (apply elem_of_app; right; by left). cbn [rbind] in E.
        rewrite (F1 x w) in E by (apply elem_of_app; right; by left). apply node_n_ok in E. lia.
      + rewrite first_loc_cons in E. rewrite decide_False in E.
        2:{ rewrite <- (first_loc_cons (hdr t) y u R). apply first_ne_hd; [|done]. rewrite fmap_app in HN.
            apply NoDup_cons in HN as [Hn1 Hn2]. apply NoDup_app in Hn2 as (_&_&Hn2). apply NoDup_cons. split; [|done]. intros Hq. apply Hn1. apply elem_of_app. by right. }
        destruct HH as (T&HT&HTc). rewrite <- app_assoc in HTc. cbn [app] in HTc.
        pose proof (prev_at (mem h) (hdr t) T L1 x w ((y, u) :: R) HT HTc) as Hd. rewrite first_loc_cons in Hd. rewrite Hd in E. cbn [rbind] in E.
        rewrite (vkey_ok _ _ _ _ Hv) in E. cbn [rbind] in E.
        rewrite (rb_nkey _ _ _ x w HB) in E by (apply elem_of_app; left; apply elem_of_app; right; by left). cbn [rbind] in E.
        rewrite (F1 x w) in E by (apply elem_of_app; right; by left). cbn [negb] in E.
        rewrite (rb_nkey _ _ _ y u HB) in E by (apply elem_of_app; right; by left). cbn [rbind] in E. rewrite (F2 y u) in E by (by left).
        apply rbind_Ok in E as (hr&_&E). destruct (negb hr); apply node_n_ok in E; lia.
  Qed.
End insert_bounds.
