(** * HeapModel.v — the batched priority queue, bgpq/{bgpq,_insert,_delete,_utils}.py
      (definitions only).

    A stored slot is a pair (key, value).  In the code keys and values live in two
    parallel arrays that are always moved by the same permutation; HeapArrays.v models
    the arrays separately and PropHeapArrays.v (C46) proves it simulates this model.  Values are opaque.  *)
From Verif Require Import Jax KeyModel.

Section Heap.
Context {V : Type}.
Notation item := (key * V)%type.
Notation row := (list item).

(** bgpq.py 84-92.  [rows] = key_store zipped with val_store (branch_size rows of
    batch_size slots), [buf] = key_buffer zipped with val_buffer, [branch] and
    [batch] the static fields branch_size and batch_size.  heap_size and buffer_size
    are uint32 counters; as naturals they never wrap because they stay below
    branch_size and batch_size. *)
Record heap := MkHeap {
  rows : list row; buf : row; hsize : nat; bsize : nat; branch : nat; batch : nat }.

(** number of finite keys: [jnp.sum(jnp.isfinite(keys))] *)
Definition nfin (r : row) : nat := length (filter (fun p => finite (fst p)) r).
(** [jnp.full_like(keys, inf)], values kept *)
Definition clear_keys (r : row) : row := map (fun p => (PInf, snd p)) r.

(** _merge.py 57-106 [merge_sort_split] on slots (C06 theorem
    [C06_merge_split_is_stable_sort_of_pairs]). *)
Definition msplit (a b : row) : row * row :=
  let s := ssort (a ++ b) in (firstn (length a) s, skipn (length a) s).

(** [key_store[i]] gather: clamps *)
Definition row_at (rs : list row) (i : nat) : row := nth (Nat.min i (length rs - 1)) rs [].
(** [keys[0]] and [keys[-1]] *)
Definition first_key (r : row) : key := hd PInf (map fst r).
Definition last_key (r : row) : key := last (map fst r) PInf.

(** bgpq.py 29-58 [_bgpq_build_jit]; [dv] is the value class's default. *)
Definition build (dv : V) (total_size batch_size : nat) : heap :=
  let br := if total_size mod batch_size =? 0 then total_size / batch_size
            else total_size / batch_size + 1 in
  MkHeap (repeat (repeat (PInf, dv) batch_size) br) (repeat (PInf, dv) (batch_size - 1))
         0 0 br batch_size.
(** bgpq.py 36 [max_size] *)
Definition max_size (h : heap) : nat := branch h * batch h.

(** bgpq.py 105-119 [size]; both branches are cast to int32 (result_type of the int32
    sum and the uint32 product with 64-bit mode off). *)
Definition size (h : heap) : Z :=
  if hsize h =? 0 then i32 (Z.of_nat (nfin (row_at (rows h) 0)) + Z.of_nat (bsize h))
  else i32 (u32 (u32 ((Z.of_nat (hsize h) + 1) * Z.of_nat (batch h)) + Z.of_nat (bsize h))).

(** _insert.py 75-80 [_bgpq_make_batched_jit] and 83-90 [_bgpq_make_batched_like_jit]
    (batch_size taken from the heap); [dv] fills the padded values (xnp.pad). *)
Definition make_batched (dv : V) (keys : list key) (vals : list V) (batch_size : nat) : row :=
  combine (keys ++ repeat PInf (batch_size - length keys)) (vals ++ repeat dv (batch_size - length keys)).
Definition make_batched_like (dv : V) (h : heap) (keys : list key) (vals : list V) : row :=
  make_batched dv keys vals (batch h).

(** _insert.py 23-72 [_bgpq_merge_buffer_jit]: (heap, block, overflow). *)
Definition merge_buffer (h : heap) (blk : row) : heap * row * bool :=
  let n := batch h in
  let s := ssort (blk ++ buf h) in
  let ovf := n <=? nfin s in
  let '(blk', buf') :=
    if ovf then (firstn n s, skipn n s)                                 (* 49-52 *)
    else (skipn (length s - n) s, firstn (length s - n) s) in           (* 54-56 *)
  (MkHeap (rows h) buf' (hsize h) (nfin buf') (branch h) (batch h), blk', ovf).

(** [jnp.argmax(key_store[:, -1])]: first index of a largest last key. *)
Fixpoint argmax_from (i best : nat) (bk : key) (l : list key) : nat :=
  match l with
  | [] => best
  | k :: t => if kgt k bk then argmax_from (S i) i k t else argmax_from (S i) best bk t
  end.
Definition argmax (l : list key) : nat :=
  match l with [] => 0 | k :: t => argmax_from 1 0 k t end.

(** [int(math.ceil(math.log2(branch_size + 1)))] (_insert.py 107, _delete.py 45), as
    exact integer arithmetic. *)
Definition max_depth (br : nat) : nat := Nat.log2_up (br + 1).

(** [jax.lax.clz] on uint32: leading zeros of the 32-bit representation. *)
Fixpoint clz_from (bits : nat) (x : N) : nat :=
  match bits with
  | O => 0
  | S b => if N.testbit x (N.of_nat b) then 0 else S (clz_from b x)
  end.
Definition clz32 (x : N) : nat := clz_from 32 x.

(** _insert.py 109-118 [_path_indices]: (index, mask) of each level.  Levels below
    the target's depth are masked out; their (wrapped) index is never used. *)
Definition node_depth (t : nat) : nat := 31 - clz32 (N.of_nat (t + 1)).
Definition path_index (t l : nat) : nat := Nat.shiftr (t + 1) (node_depth t - l) - 1.
Definition path_mask (t l : nat) : bool := l <=? node_depth t.

(** _insert.py 131-133: [mask & (level > 0)] *)
Definition path (br t : nat) : list (nat * bool) :=
  map (fun l => (path_index t l, path_mask t l && (0 <? l))) (seq 0 (max_depth br)).

(** _insert.py 136-153: [jax.lax.scan(scan_body, ...)]; the carry is the block pushed
    down, the output the new contents of each level.  Masked levels read row 0. *)
Fixpoint scan_path (rs : list row) (xs : list (nat * bool)) (carry : row) : row * list row :=
  match xs with
  | [] => (carry, [])
  | (i, m) :: t =>
      let node := row_at rs (if m then i else 0) in
      if m then
        let '(head, next) := msplit node carry in
        let '(c, out) := scan_path rs t next in (c, head :: out)
      else let '(c, out) := scan_path rs t carry in (c, node :: out)
  end.

(** _utils.py 41-63 [_scatter_update_rows]: out-of-bounds rows are dropped
    (FILL_OR_DROP); indices are unique (proved), so the order is irrelevant. *)
Definition scatter_rows (rs : list row) (ups : list (nat * row)) : list row :=
  fold_left (fun acc p => upd acc (fst p) (snd p)) ups rs.

(** _insert.py 93-191 [_bgpq_insert_heapify_internal]: (heap, added).
    Lines in order: 96 is_full, 98-105 target, 120-127 root only, 129-178 path,
    180-191 validity. *)
Definition is_full (h : heap) : bool := branch h - 1 <=? hsize h.
Definition insert_target (h : heap) : nat :=
  if is_full h then argmax (map last_key (rows h)) else hsize h + 1.
Definition set_rows (h : heap) (rs : list row) : heap :=
  MkHeap rs (buf h) (hsize h) (bsize h) (branch h) (batch h).
Definition update_root_only (h : heap) (blk : row) : heap :=
  set_rows h (upd (rows h) 0 (fst (msplit (row_at (rows h) 0) blk))).
Definition scatter_indices (h : heap) (t : nat) : list nat :=
  map (fun l => if (path_mask t l && (0 <? l)) || (l =? 0) then path_index t l else branch h)
      (seq 0 (max_depth (branch h))).
Definition update_path (h : heap) (t : nat) (blk : row) : heap :=
  let '(_, heads) := scan_path (rows h) (path (branch h) t) blk in
  set_rows h (scatter_rows (rows h) (combine (scatter_indices h t) heads)).
Definition insert_heapify (h : heap) (blk : row) : heap * bool :=
  let t := insert_target h in
  let valid := t <? branch h in
  let h' := if valid then (if t =? 0 then update_root_only h blk else update_path h t blk) else h in
  (h', valid && negb (is_full h)).

(** _insert.py 194-221 [_bgpq_insert_jit] *)
Definition insert (h : heap) (block : row) : heap :=
  let blk := ssort block in
  let '(root, blk1) := msplit (row_at (rows h) 0) blk in
  let h1 := set_rows h (upd (rows h) 0 root) in
  let '(h2, blk2, ovf) := merge_buffer h1 blk1 in
  let '(h3, added) := if ovf then insert_heapify h2 blk2 else (h2, false) in
  MkHeap (rows h3) (buf h3) (hsize h3 + (if added then 1 else 0)) (bsize h3) (branch h3) (batch h3).

(** _delete.py 39-43 [_lr] *)
Definition lc (i : nat) : nat := i * 2 + 1.
Definition rc (i : nat) : nat := i * 2 + 2.

(** Sift-down state (_delete.py 69-145): current index, current slots, and the list
    of row updates written so far (update_idx/keys/vals/mask with write_pos). *)
Definition sstate := (nat * row * list (nat * row))%type.
(** _delete.py 72-79 *)
Definition sift_cond (rs : list row) (s : sstate) : bool :=
  let '(c, cur, _) := s in
  kgt (last_key cur) (kmin (first_key (row_at rs (lc c))) (first_key (row_at rs (rc c)))).
(** _delete.py 81-140.  Writing at [write_pos >= max_updates] is dropped by JAX. *)
Definition write_update (max_updates : nat) (ups : list (nat * row)) (i : nat) (r : row) :=
  if length ups <? max_updates then ups ++ [(i, r)] else ups.
Definition sift_body (max_updates : nat) (rs : list row) (s : sstate) : sstate :=
  let '(c, cur, ups) := s in
  let l := row_at rs (lc c) in let r := row_at rs (rc c) in
  let '(x, y) := if kgt (last_key l) (last_key r) then (lc c, rc c) else (rc c, lc c) in
  let '(ky, kx) := msplit l r in
  let '(kc, ky') := msplit cur ky in
  (y, ky', write_update max_updates (write_update max_updates ups c kc) x kx).

(** _delete.py 17-197 [_bgpq_delete_heapify_internal].  [None]: the loop did not end
    within [branch] iterations (proved impossible on reachable heaps). *)
Definition delete_heapify (h : heap) : option heap :=
  let last := hsize h in
  let last_row := row_at (rows h) last in
  let '(root, buf') := msplit last_row (buf h) in                       (* 25-28 *)
  let rs := upd (upd (rows h) last (clear_keys last_row)) 0 root in    (* 30-36 *)
  let mu := max_depth (branch h) * 2 + 1 in                            (* 45-46 *)
  match while (branch h) (sift_cond rs) (sift_body mu rs) (0, root, []) with
  | None => None
  | Some (c, cur, ups) =>
      let ups' := write_update mu ups c cur in                         (* 166-175 *)
      Some (MkHeap (scatter_rows rs ups') buf' (last - 1) (bsize h) (branch h) (batch h))
  end.

(** _delete.py 206-220 [make_empty] *)
Definition make_empty (h : heap) : heap :=
  let '(root, buf') := msplit (clear_keys (row_at (rows h) 0)) (buf h) in
  MkHeap (upd (rows h) 0 root) buf' (hsize h) 0 (branch h) (batch h).

(** _delete.py 200-225 [_bgpq_delete_mins_jit]: (heap, returned block). *)
Definition delete_mins (h : heap) : option (heap * row) :=
  let out := row_at (rows h) 0 in
  match (if hsize h =? 0 then Some (make_empty h) else delete_heapify h) with
  | None => None
  | Some h' => Some (h', out)
  end.

(** _utils.py 66-89 [_next] *)
Definition next_index (current target : nat) : nat :=
  let shift := clz32 (N.of_nat (current + 1)) - clz32 (N.of_nat (target + 1)) - 1 in
  Nat.shiftr (target + 1) shift - 1.
End Heap.
Arguments heap V : clear implicits.
