(** * HeapArrays.v — the batched priority queue as it is stored: a key array and a value
      instance side by side (definitions only).

    bgpq/{bgpq,_insert,_delete,_merge,_utils}.py with val_store and val_buffer as instances
    (one array per field).  Keys are the abstract keys of KeyModel.v, a key array of shape
    (branch_size, batch_size) is a list of rows.  [None] is a raised exception.  Counters
    are naturals as in HeapModel.v.  PropHeapArrays.v proves this model simulates the
    pair model of HeapModel.v.  The merge uses the sort backend and the sort/gather of
    _merge.py; the other backends agree (C07). *)
From Coq Require Import String.
From Verif Require Import Jax StructModel ArrayModel ShapeModel RowsModel SoaModel KeyModel MergeModel HeapModel.

Notation "'bind' p '<-' e ';;' k" := (match e with Some p => k | None => None end) (at level 200, p pattern, e at level 100, k at level 200).

(** [val[i]] and [val[indices]] *)
Definition o_row (i : nat) (o : obj) : option obj := obj_index_array (iscal (Z.of_nat i)) o.
Definition o_rows_at (is : list nat) (o : obj) : option obj := obj_index_array (ivec (map Z.of_nat is)) o.
(** [val[start:stop]] *)
Definition a_pyslice (start stop : option Z) (a : array) : option array :=
  match ashape a with
  | [] => None
  | d :: _ => let '(st, step, len) := slice_indices start stop 1 d in a_index [ISlice st step len] a
  end.
Definition o_slice (start stop : option Z) (o : obj) : option obj := tree_map1 (a_pyslice start stop) o.
Definition on_two (f : array -> array -> option array) (l : list array) : option array := match l with [a; b] => f a b | _ => None end.

(** _merge.py 47-52 [_select_leaf] *)
Definition bools (l : list bool) : array := MkArr DBool [length l] (map Z.b2z l).
Definition select_leaf (take_a a b : array) : option array :=
  bind cond <- (if 1 <? ndim a then a_reshape (hd 0 (ashape take_a) :: repeat 1 (ndim a - 1)) take_a else Some take_a) ;;
  leaf_where cond [a; b].
(** _merge.py 17-54 [_batch_size] and [_gather_sorted_values]; [concat] is
    XTRUCTURE_BGPQ_VALUE_REORDER=concat *)
Definition leading (o : obj) : option nat := bind a <- first_leaf o ;; match ashape a with n :: _ => Some n | [] => None end.
Definition gather_sorted (c : class) (concat : bool) (av bv : obj) (idx : list nat) : option obj :=
  if concat then bind v <- obj_concat c 0 [av; bv] ;; o_rows_at idx v
  else
    bind n <- leading av ;;
    bind m <- leading bv ;;
    if n =? 0 then o_rows_at idx bv
    else if m =? 0 then o_rows_at idx av
    else
      bind va <- o_rows_at (map (fun i => Nat.min i (n - 1)) idx) av ;;
      bind vb <- o_rows_at (map (fun i => Nat.min (i - n) (m - 1)) idx) bv ;;
      tree_mapn (on_two (select_leaf (bools (map (fun i => i <? n) idx)))) [va; vb].

Section H.
Variables (c : class) (concat : bool).
(** _merge.py 57-106 *)
Definition msplit_o (ak : list key) (av : obj) (bk : list key) (bv : obj) : option (list key * obj * list key * obj) :=
  let s := merge_sort_idx ak bk in
  let n := length ak in
  bind sv <- gather_sorted c concat av bv (map snd s) ;;
  bind lo <- o_slice None (Some (Z.of_nat n)) sv ;;
  bind hi <- o_slice (Some (Z.of_nat n)) None sv ;;
  Some (firstn n (map fst s), lo, skipn n (map fst s), hi).
(** _utils.py 33-38 *)
Definition sort_o (k : list key) (v : obj) : option (list key * obj) :=
  let s := ssort (combine k (seq 0 (length k))) in
  bind sv <- o_rows_at (map snd s) v ;; Some (map fst s, sv).

(** bgpq.py 84-92 *)
Record aheap := MkA {
  key_store : list (list key); val_store : obj; key_buffer : list key; val_buffer : obj;
  heap_size : nat; buffer_size : nat; branch_size : nat; batch_size : nat }.
(** bgpq.py 29-58 *)
Definition build_o (total_size batch : nat) : aheap :=
  let br := if total_size mod batch =? 0 then total_size / batch else total_size / batch + 1 in
  MkA (repeat (repeat PInf batch) br) (default_obj [br; batch] c) (repeat PInf (batch - 1)) (default_obj [batch - 1] c) 0 0 br batch.
(** [jnp.sum(jnp.isfinite(keys))] *)
Definition kfin (l : list key) : nat := length (filter finite l).
Definition krow (ks : list (list key)) (i : nat) : list key := nth (Nat.min i (length ks - 1)) ks [].
(** bgpq.py 105-119 *)
Definition size_o (h : aheap) : Z :=
  if heap_size h =? 0 then i32 (Z.of_nat (kfin (krow (key_store h) 0)) + Z.of_nat (buffer_size h))
  else i32 (u32 (u32 ((Z.of_nat (heap_size h) + 1) * Z.of_nat (batch_size h)) + Z.of_nat (buffer_size h))).
Definition set_stores (h : aheap) (ks : list (list key)) (vs : obj) : aheap :=
  MkA ks vs (key_buffer h) (val_buffer h) (heap_size h) (buffer_size h) (branch_size h) (batch_size h).
Definition set_buffers (h : aheap) (kb : list key) (vb : obj) (n : nat) : aheap :=
  MkA (key_store h) (val_store h) kb vb (heap_size h) n (branch_size h) (batch_size h).
Definition set_heap_size (h : aheap) (n : nat) : aheap :=
  MkA (key_store h) (val_store h) (key_buffer h) (val_buffer h) n (buffer_size h) (branch_size h) (batch_size h).

(** _insert.py 75-90 make_batched: xnp.pad appends default instances *)
Definition make_batched_o (key : list key) (val : obj) (batch : nat) : option (list KeyModel.key * obj) :=
  bind v <- obj_pad c [(0, batch - length key)] val ;; Some (key ++ repeat PInf (batch - length key), v).

(** _insert.py 23-72 *)
Definition merge_buffer_o (h : aheap) (bk : list key) (bv : obj) : option (aheap * list key * obj * bool) :=
  let n := batch_size h in
  let s := merge_sort_idx bk (key_buffer h) in
  let sk := map fst s in
  bind val <- gather_sorted c concat bv (val_buffer h) (map snd s) ;;
  let ovf := n <=? kfin sk in
  if ovf then
    bind v1 <- o_slice None (Some (Z.of_nat n)) val ;;
    bind v2 <- o_slice (Some (Z.of_nat n)) None val ;;
    Some (set_buffers h (skipn n sk) v2 (kfin (skipn n sk)), firstn n sk, v1, true)
  else
    bind v1 <- o_slice (Some (- Z.of_nat n)%Z) None val ;;
    bind v2 <- o_slice None (Some (- Z.of_nat n)%Z) val ;;
    let kb := firstn (length sk - n) sk in
    Some (set_buffers h kb v2 (kfin kb), skipn (length sk - n) sk, v1, false).

(** _utils.py 41-63: lax.scatter with FILL_OR_DROP; negative indices are dropped *)
Definition a_scatter_rows (idx : list Z) (updates operand : array) : option array :=
  match ashape operand, ashape updates with
  | n :: ish, k :: ish' =>
      if (k =? length idx) && shape_eqb ish ish' then
        a_at_set (ivec (map (fun z => if (z <? 0)%Z then Z.of_nat n else z) idx)) updates operand
      else None
  | _, _ => None
  end.
Definition o_scatter_rows (idx : list nat) (store updates : obj) : option obj :=
  tree_mapn (on_two (fun a u => a_scatter_rows (map Z.of_nat idx) u a)) [store; updates].
Definition scatter_keys (ks : list (list key)) (idx : list nat) (ups : list (list key)) : list (list key) :=
  fold_left (fun acc p => Jax.upd acc (fst p) (snd p)) (combine idx ups) ks.

(** _insert.py 136-153 the scan: node [l] of the gathered path, the block carried down *)
Fixpoint scan_o (pv : obj) (l : nat) (pk : list (list key)) (ms : list bool) (ck : list key) (cv : obj) : option (list (list key) * list obj) :=
  match pk, ms with
  | nk :: pk', m :: ms' =>
      bind nv <- obj_index [IInt (Z.of_nat l)] pv ;;
      if m then
        bind (hk, hv, xk, xv) <- msplit_o nk nv ck cv ;;
        bind (ks, vs) <- scan_o pv (S l) pk' ms' xk xv ;;
        Some (hk :: ks, hv :: vs)
      else
        bind (ks, vs) <- scan_o pv (S l) pk' ms' ck cv ;;
        Some (nk :: ks, nv :: vs)
  | _, _ => Some ([], [])
  end.
(** _insert.py 120-127 *)
Definition update_root_only_o (h : aheap) (bk : list key) (bv : obj) : option aheap :=
  bind rv <- o_row 0 (val_store h) ;;
  bind (hk, hv, _, _) <- msplit_o (krow (key_store h) 0) rv bk bv ;;
  Some (set_stores h (Jax.upd (key_store h) 0 hk) (obj_at_set (iscal 0) (val_store h) hv)).
(** _insert.py 129-178 *)
Definition update_path_o (h : aheap) (t : nat) (bk : list key) (bv : obj) : option aheap :=
  let levels := seq 0 (max_depth (branch_size h)) in
  let mask := map (fun l => path_mask t l && (0 <? l)) levels in
  let safe := map (fun l => if path_mask t l && (0 <? l) then path_index t l else 0) levels in
  let path_keys := map (krow (key_store h)) safe in
  bind path_vals <- o_rows_at safe (val_store h) ;;
  bind (head_keys, heads) <- scan_o path_vals 0 path_keys mask bk bv ;;
  bind head_vals <- tree_mapn (a_stack 0) heads ;;
  let idx := map (fun l => if (path_mask t l && (0 <? l)) || (l =? 0) then path_index t l else branch_size h) levels in
  bind vs <- o_scatter_rows idx (val_store h) head_vals ;;
  Some (set_stores h (scatter_keys (key_store h) idx head_keys) vs).
(** _insert.py 93-191 *)
Definition is_full_o (h : aheap) : bool := branch_size h - 1 <=? heap_size h.
Definition insert_target_o (h : aheap) : nat :=
  if is_full_o h then argmax (map (fun r => last r PInf) (key_store h)) else heap_size h + 1.
Definition insert_heapify_o (h : aheap) (bk : list key) (bv : obj) : option (aheap * bool) :=
  let t := insert_target_o h in
  let valid := t <? branch_size h in
  bind h' <- (if valid then (if t =? 0 then update_root_only_o h bk bv else update_path_o h t bk bv) else Some h) ;;
  Some (h', valid && negb (is_full_o h)).
(** _insert.py 194-221 *)
Definition insert_o (h : aheap) (block_key : list key) (block_val : obj) : option aheap :=
  bind (k0, v0) <- sort_o block_key block_val ;;
  bind r0 <- o_row 0 (val_store h) ;;
  bind (rk, rv, k1, v1) <- msplit_o (krow (key_store h) 0) r0 k0 v0 ;;
  let h1 := set_stores h (Jax.upd (key_store h) 0 rk) (obj_at_set (iscal 0) (val_store h) rv) in
  bind (h2, k2, v2, ovf) <- merge_buffer_o h1 k1 v1 ;;
  bind (h3, added) <- (if ovf then insert_heapify_o h2 k2 v2 else Some (h2, false)) ;;
  Some (set_heap_size h3 (heap_size h3 + (if added then 1 else 0))).

(** _delete.py 48-70: update buffers and the write position *)
Record ubuf := MkU { u_idx : list nat; u_keys : list (list key); u_vals : obj; u_mask : list bool; u_pos : nat }.
Definition init_buffers (mu : nat) (h : aheap) : option ubuf :=
  bind v <- tree_map1 (fun leaf => match ashape leaf with [] => None | _ :: s => Some (full (adtype leaf) (mu :: s) 0%Z) end) (val_store h) ;;
  Some (MkU (repeat 0 mu) (repeat (repeat (Fin 0) (batch_size h)) mu) v (repeat false mu) 0).
Definition write_update_o (b : ubuf) (i : nat) (k : list key) (v : obj) : option ubuf :=
  bind vs <- tree_mapn (on_two (fun buf leaf => a_at_set (iscal (Z.of_nat (u_pos b))) leaf buf)) [u_vals b; v] ;;
  Some (MkU (Jax.upd (u_idx b) (u_pos b) i) (Jax.upd (u_keys b) (u_pos b) k) vs (Jax.upd (u_mask b) (u_pos b) true) (S (u_pos b))).
(** _delete.py 72-140 *)
Definition dstate := (nat * list key * obj * ubuf)%type.
Definition sift_cond_o (ks : list (list key)) (s : dstate) : bool :=
  let '(i, ck, _, _) := s in
  kgt (last ck PInf) (kmin (hd PInf (krow ks (lc i))) (hd PInf (krow ks (rc i)))).
Definition sift_body_o (ks : list (list key)) (vs : obj) (s : dstate) : option dstate :=
  let '(i, ck, cv, b) := s in
  let lk := krow ks (lc i) in let rk := krow ks (rc i) in
  let '(x, y) := if kgt (last lk PInf) (last rk PInf) then (lc i, rc i) else (rc i, lc i) in
  bind lv <- o_row (lc i) vs ;;
  bind rv <- o_row (rc i) vs ;;
  bind (ky, vy, kx, vx) <- msplit_o lk lv rk rv ;;
  bind (kc, vc, ky', vy') <- msplit_o ck cv ky vy ;;
  bind b1 <- write_update_o b i kc vc ;;
  bind b2 <- write_update_o b1 x kx vx ;;
  Some (y, ky', vy', b2).
Fixpoint while_o {S : Type} (fuel : nat) (cond : S -> bool) (body : S -> option S) (s : S) : option S :=
  if cond s then match fuel with O => None | Datatypes.S f => bind s' <- body s ;; while_o f cond body s' end else Some s.
(** _delete.py 17-197 *)
Definition delete_heapify_o (h : aheap) : option aheap :=
  let last := heap_size h in
  let lk := krow (key_store h) last in
  bind lv <- o_row last (val_store h) ;;
  bind (rk, rv, kb, vb) <- msplit_o lk lv (key_buffer h) (val_buffer h) ;;
  let ks := Jax.upd (Jax.upd (key_store h) last (repeat PInf (length lk))) 0 rk in
  let vs := obj_at_set (iscal 0) (val_store h) rv in
  let mu := max_depth (branch_size h) * 2 + 1 in
  bind b0 <- init_buffers mu (set_stores h ks vs) ;;
  bind (i, ck, cv, b) <- while_o (branch_size h) (sift_cond_o ks) (sift_body_o ks vs) (0, rk, rv, b0) ;;
  bind b' <- write_update_o b i ck cv ;;
  let idx := map (fun p : bool * nat => if fst p then snd p else branch_size h) (combine (u_mask b') (u_idx b')) in
  bind vs' <- o_scatter_rows idx vs (u_vals b') ;;
  Some (MkA (scatter_keys ks idx (u_keys b')) vs' kb vb (last - 1) (buffer_size h) (branch_size h) (batch_size h)).
(** _delete.py 200-225 *)
Definition make_empty_o (h : aheap) : option aheap :=
  bind r0 <- o_row 0 (val_store h) ;;
  bind (rk, rv, kb, vb) <- msplit_o (repeat PInf (length (krow (key_store h) 0))) r0 (key_buffer h) (val_buffer h) ;;
  Some (MkA (Jax.upd (key_store h) 0 rk) (obj_at_set (iscal 0) (val_store h) rv) kb vb (heap_size h) 0 (branch_size h) (batch_size h)).
Definition delete_mins_o (h : aheap) : option (aheap * list key * obj) :=
  let mk := krow (key_store h) 0 in
  bind mv <- o_row 0 (val_store h) ;;
  bind h' <- (if heap_size h =? 0 then make_empty_o h else delete_heapify_o h) ;;
  Some (h', mk, mv).

(** a history of calls: after each, the returned keys and values (delete_mins) and [size] *)
Inductive aop := AIns (key : list key) (val : obj) | ADel.
Fixpoint run_o (h : aheap) (ops : list aop) : option (aheap * list (option (list key * obj) * Z)) :=
  match ops with
  | [] => Some (h, [])
  | AIns k v :: t =>
      bind h' <- insert_o h k v ;;
      bind (hf, obs) <- run_o h' t ;; Some (hf, (None, size_o h') :: obs)
  | ADel :: t =>
      bind (h', mk, mv) <- delete_mins_o h ;;
      bind (hf, obs) <- run_o h' t ;; Some (hf, (Some (mk, mv), size_o h') :: obs)
  end.
End H.
