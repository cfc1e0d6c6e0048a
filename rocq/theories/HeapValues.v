(** * HeapValues.v — the priority queue given values whose dtypes are not the declared ones
      (definitions only).

    HeapArrays.v's model of bgpq/ with the conversions of jax.numpy where two value instances meet:
    [jnp.where] (_merge.py 47-54) and [xnp.concatenate] (_merge.py 27-29) bring each leaf to the
    common dtype.  An insertion is traced as a whole, with both branches of every cond: it raises
    TypeError, whatever the contents, unless every leaf passes [insert_t] of HeapTypes.v. *)
From Coq Require Import String.
From Verif Require Import Jax StructModel ArrayModel ShapeModel RowsModel SoaModel KeyModel MergeModel HeapModel HeapArrays EqModel PromoteModel HeapTypes.

(** _merge.py 22-54 [_gather_sorted_values] *)
Definition gather_sorted_p (x64 : bool) (c : class) (concat : bool) (av bv : obj) (idx : list nat) : option obj :=
  if concat then bind v <- obj_concat_p x64 c 0 [av; bv] ;; o_rows_at idx v
  else
    bind n <- leading av ;;
    bind m <- leading bv ;;
    if n =? 0 then o_rows_at idx bv
    else if m =? 0 then o_rows_at idx av
    else
      bind va <- o_rows_at (map (fun i => Nat.min i (n - 1)) idx) av ;;
      bind vb <- o_rows_at (map (fun i => Nat.min (i - n) (m - 1)) idx) bv ;;
      tree_mapn (promoted x64 (on_two (select_leaf (bools (map (fun i => i <? n) idx))))) [va; vb].
(** _merge.py 57-106 *)
Definition msplit_p (x64 : bool) (c : class) (concat : bool) (ak : list key) (av : obj) (bk : list key) (bv : obj) : option (list key * obj * list key * obj) :=
  let s := merge_sort_idx ak bk in
  let n := length ak in
  bind sv <- gather_sorted_p x64 c concat av bv (map snd s) ;;
  bind lo <- o_slice None (Some (Z.of_nat n)) sv ;;
  bind hi <- o_slice (Some (Z.of_nat n)) None sv ;;
  Some (firstn n (map fst s), lo, skipn n (map fst s), hi).
(** the leaves of val_store, val_buffer and the given values, through one insertion *)
Definition leaf_accepted (x64 : bool) (store buffer given : dtype) : bool :=
  match insert_t x64 (MkQT store buffer) given with Some _ => true | None => false end.
Definition values_accepted (x64 : bool) (h : aheap) (v : obj) : bool :=
  forallb (fun p => leaf_accepted x64 (adtype (fst (fst p))) (adtype (snd (fst p))) (adtype (snd p)))
    (combine (combine (arrays (val_store h)) (arrays (val_buffer h))) (arrays v)).
(** _insert.py 194-221: after the first merge every leaf of an accepted block has the dtype of the
    store ([values_accepted]), and HeapArrays.v's functions apply *)
Definition insert_op (x64 : bool) (c : class) (concat : bool) (h : aheap) (block_key : list key) (block_val : obj) : option aheap :=
  if values_accepted x64 h block_val then
    bind (k0, v0) <- sort_o block_key block_val ;;
    bind r0 <- o_row 0 (val_store h) ;;
    bind (rk, rv, k1, v1) <- msplit_p x64 c concat (krow (key_store h) 0) r0 k0 v0 ;;
    let h1 := set_stores h (Jax.upd (key_store h) 0 rk) (obj_at_set (iscal 0) (val_store h) rv) in
    bind (h2, k2, v2, ovf) <- merge_buffer_o c concat h1 k1 v1 ;;
    bind (h3, added) <- (if ovf then insert_heapify_o c concat h2 k2 v2 else Some (h2, false)) ;;
    Some (set_heap_size h3 (heap_size h3 + (if added then 1 else 0)))
  else None.
(** _insert.py 75-90: keys padded with +inf, values by xnp.pad *)
Definition make_batched_p (c : class) (key : list key) (val : obj) (batch : nat) : option (list KeyModel.key * obj) :=
  bind v <- obj_pad_p c [(0, batch - length key)] val ;; Some (key ++ repeat PInf (batch - length key), v).
(** a history of calls *)
Fixpoint run_op (x64 : bool) (c : class) (concat : bool) (h : aheap) (ops : list aop) : option (aheap * list (option (list key * obj) * Z)) :=
  match ops with
  | [] => Some (h, [])
  | AIns k v :: t =>
      bind h' <- insert_op x64 c concat h k v ;;
      bind (hf, obs) <- run_op x64 c concat h' t ;; Some (hf, (None, size_o h') :: obs)
  | ADel :: t =>
      bind (h', mk, mv) <- delete_mins_o c concat h ;;
      bind (hf, obs) <- run_op x64 c concat h' t ;; Some (hf, (Some (mk, mv), size_o h') :: obs)
  end.
