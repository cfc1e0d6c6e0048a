(** * HeapTypes.v — the priority queue given keys of another dtype than its own (definitions only).

    bgpq/{bgpq,_insert,_delete,_merge}.py: which dtypes the arrays of a queue have after every
    operation, and what becomes of the keys.  The queue has float keys (HeapFloat.v). *)
From Verif Require Import StructModel ArrayModel EqModel PromoteModel Jax KeyModel HeapModel HeapFloat.

(** ** dtypes *)
(** the dtypes of key_store and key_buffer (or of one leaf of val_store and val_buffer) *)
Record qtypes := MkQT { qstore : dtype; qbuffer : dtype }.
(** _merge.py 57-106, 21-54: merge_sort_split_idx concatenates the keys (parallel.py and loop.py use
    [jnp.result_type] for the result), [_gather_sorted_values] uses [jnp.where] on every leaf *)
Definition merge_t (x64 : bool) (a b : dtype) : dtype := result_type x64 [a; b].
(** _insert.py 23-72: the new buffer and the block have the dtype of the merged array *)
Definition merge_buffer_t (x64 : bool) (h : qtypes) (blk : dtype) : qtypes * dtype :=
  let m := merge_t x64 blk (qbuffer h) in (MkQT (qstore h) m, m).
(** _insert.py 127-169: the branches of the cond in the scan return (next, head) after a merge and
    (carry, node) otherwise and must agree in dtype; lax.scatter wants the dtype of the store *)
Definition update_path_t (x64 : bool) (h : qtypes) (blk : dtype) : option qtypes :=
  let m := merge_t x64 (qstore h) blk in
  if dtype_eqb m blk && dtype_eqb m (qstore h) then Some h else None.
(** _insert.py 194-221: [.at[0].set] keeps the dtype of the store; both branches of every cond are
    traced, whatever the contents *)
Definition insert_t (x64 : bool) (h : qtypes) (blk : dtype) : option qtypes :=
  let m := merge_t x64 (qstore h) blk in
  let '(h2, blk2) := merge_buffer_t x64 h m in update_path_t x64 h2 blk2.
(** _delete.py 17-225: the carry of the while_loop (current_keys) must keep its dtype *)
Definition delete_t (x64 : bool) (h : qtypes) : option qtypes :=
  let m := merge_t x64 (qstore h) (qbuffer h) in
  if dtype_eqb (merge_t x64 m (merge_t x64 (qstore h) (qstore h))) m then Some (MkQT (qstore h) m) else None.

(** ** keys *)
Section P.
Variable w : nat.
Context {V : Type}.
Notation fitem := (Z * V)%type.
Notation frow := (list fitem).
(** jax.lax.sort on keys of dtype [e] *)
Definition ele (e : dtype) (x y : Z) : bool := match e with DFloat v => fsle v x y | _ => (x <=? y)%Z end.
Fixpoint einsert (e : dtype) (x : fitem) (l : frow) : frow :=
  match l with
  | [] => [x]
  | y :: t => if ele e (fst x) (fst y) then x :: y :: t else y :: einsert e x t
  end.
(** _utils.py 33-38 *)
Definition esort (e : dtype) (l : frow) : frow := fold_right (einsert e) [] l.
Definition conv_key (e : dtype) (p : fitem) : fitem := (conv e (DFloat w) (fst p), snd p).
(** _insert.py 194-221: the block is sorted in its own dtype and converted when it is first merged
    ([merge_t] is then the dtype of the queue and nothing else is converted) *)
Definition insert_sorted (h : fheap V) (blk : frow) : fheap V :=
  let '(root, blk1) := fmsplit w (frow_at (frows h) 0) blk in
  let h1 := fset_rows h (Jax.upd (frows h) 0 root) in
  let '(h2, blk2, ovf) := fmerge_buffer w h1 blk1 in
  let '(h3, added) := if ovf then finsert_heapify w h2 blk2 else (h2, false) in
  MkF (frows h3) (fbuf h3) (fhsize h3 + (if added then 1 else 0)) (fbsize h3) (fbranch h3) (fbatch h3).
Definition insert_p (x64 : bool) (e : dtype) (h : fheap V) (block : frow) : option (fheap V) :=
  match insert_t x64 (MkQT (DFloat w) (DFloat w)) e with
  | Some _ => Some (insert_sorted h (map (conv_key e) (esort e block)))
  | None => None
  end.
(** a history of insertions (with the dtype of the keys) and delete_mins; what each returns and
    [size] after it *)
Inductive pop := PIns (e : dtype) (block : frow) | PDel.
Fixpoint prun (x64 : bool) (h : fheap V) (ops : list pop) : option (fheap V * list (frow * Z)) :=
  match ops with
  | [] => Some (h, [])
  | PIns e block :: t =>
      match insert_p x64 e h block with
      | None => None
      | Some h' => match prun x64 h' t with Some (hf, obs) => Some (hf, ([], fsize w h') :: obs) | None => None end
      end
  | PDel :: t =>
      match fdelete_mins w h with
      | None => None
      | Some (h', out) => match prun x64 h' t with Some (hf, obs) => Some (hf, (out, fsize w h') :: obs) | None => None end
      end
  end.
End P.
Arguments pop V : clear implicits.
