(** TreeOom.v — the functions of c_tree.c that call malloc, when malloc may fail.

    As Tree.v, with the outcomes of the calls of malloc to come (see DListOom.v).  Functions not listed here never call
    malloc. *)
From Verif Require Import Base Spec SpecSeq SpecListOps SpecTreeOps DList DListOom Tree TreeRun.
From stdpp Require Import list gmap.

Section tree.
  Context {K V : Type} (alloc : gmap loc (tnode V) -> loc).
  Notation orc := (list bool).
  Implicit Types (h : theap V) (t : tobj K V) (env : list (tobj K V)).

  (** c_tree.c 960-993; [None] is the null result (971, 974-977) *)
  Definition tree_create_m (r : orc) h (comp : K -> K -> bool) (key : V -> K) : orc * theap V * option (tobj K V) :=
    let (ok, r) := outcome2 r in
    if ok then let (h, t) := c_tree_create alloc h comp key in (r, h, Some t) else (r, h, None).
  (** c_tree.c 562-601, with 253-287: when there is no memory for the node (261) or its value (265-268), nothing is
      done and the result is null (570) *)
  Definition insert_node_m (r : orc) t h (hint par : ptr) (v : vref V) : res (orc * theap V * tobj K V * ptr) :=
    let (ok, r) := outcome2 r in
    if ok then do (h, t, p) <- insert_node alloc t h hint par v; Ok (r, h, t, p) else Ok (r, h, t, None).
  (** c_tree.c 1052-1083 *)
  Definition insert_unique_value_m (r : orc) t h (v : vref V) : res (orc * theap V * tobj K V * ptr) :=
    let m := mem h in
    do rt <- root_of m (hdr t);
    do (y, comp) <- descend (tfuel m) t m (Some (hdr t)) rt true v;
    do lm <- left m (Some (hdr t));
    if andb comp (bool_decide (y = lm)) then insert_node_m r t h None y v
    else
      do z <- (if comp then decrement m y else Ok y);
      do zk <- nkey t m z; do k <- vkey t m v;
      if kcomp t zk k then insert_node_m r t h None y v else Ok (r, h, t, z).
  (** c_tree.c 1085-1122 *)
  Definition insert_unique_m (r : orc) t h (hint : ptr) (v : vref V) : res (orc * theap V * tobj K V * ptr) :=
    let m := mem h in
    do lm <- left m (Some (hdr t));
    if decide (hint = lm) then
      do b <- (if 0 <? cnt t then do k <- vkey t m v; do hk <- nkey t m hint; Ok (kcomp t k hk) else Ok false);
      if b : bool then insert_node_m r t h hint hint v else insert_unique_value_m r t h v
    else if decide (hint = Some (hdr t)) then
      do rm <- right m (Some (hdr t));
      do rk <- nkey t m rm; do k <- vkey t m v;
      if kcomp t rk k then insert_node_m r t h None rm v else insert_unique_value_m r t h v
    else
      do before <- decrement m hint;
      do bk <- nkey t m before; do k <- vkey t m v;
      do b <- (if kcomp t bk k then do hk <- nkey t m hint; Ok (kcomp t k hk) else Ok false);
      if b : bool then
        do hr <- has_right m before;
        if negb hr then insert_node_m r t h None before v else insert_node_m r t h hint hint v
      else insert_unique_value_m r t h v.
  (** c_tree.c 1153-1169 *)
  Definition insert_equal_value_m (r : orc) t h (v : vref V) : res (orc * theap V * tobj K V * ptr) :=
    let m := mem h in
    do rt <- root_of m (hdr t);
    do (y, _) <- descend (tfuel m) t m (Some (hdr t)) rt true v;
    insert_node_m r t h None y v.
  (** c_tree.c 1171-1208 *)
  Definition insert_equal_m (r : orc) t h (hint : ptr) (v : vref V) : res (orc * theap V * tobj K V * ptr) :=
    let m := mem h in
    do lm <- left m (Some (hdr t));
    if decide (hint = lm) then
      do b <- (if 0 <? cnt t then do hk <- nkey t m hint; do k <- vkey t m v; Ok (negb (kcomp t hk k)) else Ok false);
      if b : bool then insert_node_m r t h hint hint v else insert_equal_value_m r t h v
    else if decide (hint = Some (hdr t)) then
      do k <- vkey t m v; do rm <- right m (Some (hdr t)); do rk <- nkey t m rm;
      if negb (kcomp t k rk) then insert_node_m r t h None rm v
      else insert_equal_value_m r t h v
    else
      do before <- decrement m hint;
      do k <- vkey t m v; do bk <- nkey t m before;
      do b <- (if negb (kcomp t k bk) then do hk <- nkey t m hint; Ok (negb (kcomp t hk k)) else Ok false);
      if b : bool then
        do hr <- has_right m before;
        if negb hr then insert_node_m r t h None before v else insert_node_m r t h hint hint v
      else insert_equal_value_m r t h v.
  (** c_tree.c 1124-1151, 1210-1237: the results of the insertions are not looked at *)
  Fixpoint insert_unique_range_m (r : orc) t h (vs : list V) : res (orc * theap V * tobj K V) :=
    match vs with
    | [] => Ok (r, h, t)
    | v :: vs => do (r', h', t', _) <- insert_unique_value_m r t h (RVal v); insert_unique_range_m r' t' h' vs
    end.
  Fixpoint insert_equal_range_m (r : orc) t h (vs : list V) : res (orc * theap V * tobj K V) :=
    match vs with
    | [] => Ok (r, h, t)
    | v :: vs => do (r', h', t', _) <- insert_equal_value_m r t h (RVal v); insert_equal_range_m r' t' h' vs
    end.

  (** ** a client, as in TreeRun.v; it keeps the trees that were created *)
  Definition ton_m h env (i : nat) (f : tobj K V -> res (orc * theap V * tobj K V)) : res (orc * theap V * list (tobj K V)) :=
    do t <- thandle env i; do (r', h', t') <- f t; Ok (r', h', <[i := t']> env).
  Definition top_run_m (st : orc * theap V * list (tobj K V)) (o : tree_op K V) : res (orc * theap V * list (tobj K V)) :=
    let '(r, h, env) := st in
    match o with
    | TCreate comp key => let '(r, h, t) := tree_create_m r h comp key in
        Ok (r, h, match t with Some t => env ++ [t] | None => env end)
    | TInsertUnique i v => ton_m h env i (fun t => do a <- targ_ref h env v;
        do (r', h', t', _) <- insert_unique_value_m r t h a; Ok (r', h', t'))
    | TInsertEqual i v => ton_m h env i (fun t => do a <- targ_ref h env v;
        do (r', h', t', _) <- insert_equal_value_m r t h a; Ok (r', h', t'))
    | TInsertUniqueAt i k v => ton_m h env i (fun t => do p <- tposition h t k; do a <- targ_ref h env v;
        do (r', h', t', _) <- insert_unique_m r t h p a; Ok (r', h', t'))
    | TInsertEqualAt i k v => ton_m h env i (fun t => do p <- tposition h t k; do a <- targ_ref h env v;
        do (r', h', t', _) <- insert_equal_m r t h p a; Ok (r', h', t'))
    | TInsertUniqueAll i vs => ton_m h env i (fun t => insert_unique_range_m r t h vs)
    | TInsertEqualAll i vs => ton_m h env i (fun t => insert_equal_range_m r t h vs)
    | _ => do (h, env) <- top_run alloc (h, env) o; Ok (r, h, env)
    end.
  Fixpoint thist_run_m (st : orc * theap V * list (tobj K V)) (os : list (tree_op K V)) : res (orc * theap V * list (tobj K V)) :=
    match os with [] => Ok st | o :: os' => do st' <- top_run_m st o; thist_run_m st' os' end.
End tree.
