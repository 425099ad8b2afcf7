(** IterPost.v — post-increment and post-decrement of iterator objects (the entries post_increment and post_decrement of c_iterator_operation_t).

    [S] is the store of iterator objects (Iter.v); [tmp] is the content of the variable whose address is the second argument:
    null, or an iterator object.  [ok] is the outcome of malloc.  The function found through the table of [iter] is that of the
    kind of [iter], so its test of [iter] succeeds.  Not represented: the assertion that the second argument is not null. *)
From stdpp Require Import list gmap.
From Verif Require Import Base Iter Buffer Vector Deque DList Slist Tree IterWorld.
From stdpp Require Import list.

Section post.
  Context {A : Type} {CK : Checked}.
  Implicit Types (M : cmem A) (S : gmap iid cpos).
  (** the functions *iter_post_* of the containers: c_list.c 95-125, 207-237, c_forward_list.c 75-89, c_vector.c 106-134,
      205-233, c_deque.c 119-149, 220-250, c_tree.c 696-726, 810-844; [move] is the increment or decrement of the kind of [iter], which
      these functions contain once more or call.  A temporary of another kind fails the assertion; assigning an iterator
      object to itself does nothing *)
  Definition post (move : cmem A -> cpos -> res cpos) M S (iter : iid) (tmp : option iid) (ok : bool) : res (option iid * gmap iid cpos) :=
    match S !! iter with
    | None => UB
    | Some p =>
      do (t, S1) <- match tmp with
                    | None => if ok then let t := fresh (dom S) in Ok (Some t, <[t := p]> S) else Ok (None, S)
                    | Some t => match S !! t with
                                | None => UB
                                | Some p' => if ckind p' =? ckind p
                                             then Ok (Some t, if decide (t = iter) then S else <[t := p]> S) else UB
                                end
                    end;
      do q <- move M p; Ok (t, <[iter := q]> S1)
    end.
  Definition post_inc M := post c_inc M.
  (** forward list iterators have no post-decrement, c_forward_list.c 140: [c_dec] is undefined for them *)
  Definition post_dec M := post c_dec M.
  (** [n] times "dereference(post_increment(iter, &tmp))": what is read, the variable tmp, the iterator objects *)
  Fixpoint read_post M S (iter : iid) (tmp : option iid) (n : nat) : res (list A * option iid * gmap iid cpos) :=
    match n with
    | 0 => Ok ([], tmp, S)
    | Datatypes.S n' =>
        do (t, S1) <- post_inc M S iter tmp true;
        match t with
        | None => UB
        | Some t => match S1 !! t with
                    | None => UB
                    | Some p => do a <- c_deref M p; do (l, t', S2) <- read_post M S1 iter (Some t) n'; Ok (a :: l, t', S2)
                    end
        end
    end.
End post.
