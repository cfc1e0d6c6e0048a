(** * HeapFloat.v — the batched priority queue with IEEE floating-point keys (definitions only).

    bgpq/{bgpq,_insert,_delete,_merge,_utils}.py as in HeapModel.v, but a key is the bit
    pattern of a binary16/32/64 number: NaN (any payload, either sign), the two zeros and the
    infinities behave as in JAX.  Keys inserted have the key dtype of the queue (for
    other dtypes see HeapTypes.v).
    Merging uses the sort backend ([merge_sort_split_idx], the default on CPU and TPU).
    Index arithmetic is HeapModel's. *)
From Verif Require Import Jax StructModel EqModel KeyModel HeapModel.

Section F.
Variable w : nat.
(** sign bit, and the order of the non-NaN patterns (both zeros are 0) *)
Definition fneg (z : Z) : bool := (2 ^ (Z.of_nat w - 1) <=? z)%Z.
Definition ford (z : Z) : Z := (if fneg z then - fmag w z else fmag w z)%Z.
(** [jnp.isfinite] *)
Definition ffinite (z : Z) : bool := (fmag w z <? inf_pat w)%Z.
(** [x > y] (false for NaN), [jnp.minimum] (NaN if either is) *)
Definition fgt (x y : Z) : bool := negb (is_nan w x) && negb (is_nan w y) && (ford y <? ford x)%Z.
Definition fminimum (x y : Z) : Z :=
  if is_nan w x then x else if is_nan w y then y else if (ford x <=? ford y)%Z then x else y.
(** the order of [jax.lax.sort]: -0.0 and 0.0 are equal, NaNs are equal and last *)
Definition fsle (x y : Z) : bool := is_nan w y || (negb (is_nan w x) && (ford x <=? ford y)%Z).

Context {V : Type}.
Notation fitem := (Z * V)%type.
Notation frow := (list fitem).
Fixpoint fsinsert (x : fitem) (l : frow) : frow :=
  match l with
  | [] => [x]
  | y :: t => if fsle (fst x) (fst y) then x :: y :: t else y :: fsinsert x t
  end.
(** _utils.py 33-38; merge_split/split.py 7-14: stable sort *)
Definition fsort (l : frow) : frow := fold_right fsinsert [] l.

Record fheap := MkF { frows : list frow; fbuf : frow; fhsize : nat; fbsize : nat; fbranch : nat; fbatch : nat }.
Definition fnfin (r : frow) : nat := length (filter (fun p => ffinite (fst p)) r).
Definition fclear (r : frow) : frow := map (fun p => (inf_pat w, snd p)) r.
(** _merge.py 57-106 *)
Definition fmsplit (a b : frow) : frow * frow :=
  let s := fsort (a ++ b) in (firstn (length a) s, skipn (length a) s).
Definition frow_at (rs : list frow) (i : nat) : frow := nth (Nat.min i (length rs - 1)) rs [].
Definition ffirst (r : frow) : Z := hd (inf_pat w) (map fst r).
Definition flast (r : frow) : Z := last (map fst r) (inf_pat w).
(** bgpq.py 29-58 *)
Definition fbuild (dv : V) (total_size batch_size : nat) : fheap :=
  let br := if total_size mod batch_size =? 0 then total_size / batch_size else total_size / batch_size + 1 in
  MkF (repeat (repeat (inf_pat w, dv) batch_size) br) (repeat (inf_pat w, dv) (batch_size - 1)) 0 0 br batch_size.
(** bgpq.py 105-119 *)
Definition fsize (h : fheap) : Z :=
  if fhsize h =? 0 then i32 (Z.of_nat (fnfin (frow_at (frows h) 0)) + Z.of_nat (fbsize h))
  else i32 (u32 (u32 ((Z.of_nat (fhsize h) + 1) * Z.of_nat (fbatch h)) + Z.of_nat (fbsize h))).
(** _insert.py 23-72 *)
Definition fmerge_buffer (h : fheap) (blk : frow) : fheap * frow * bool :=
  let n := fbatch h in
  let s := fsort (blk ++ fbuf h) in
  let ovf := n <=? fnfin s in
  let '(blk', buf') := if ovf then (firstn n s, skipn n s) else (skipn (length s - n) s, firstn (length s - n) s) in
  (MkF (frows h) buf' (fhsize h) (fnfin buf') (fbranch h) (fbatch h), blk', ovf).
(** [jnp.argmax]: the first NaN if there is one, else the first largest *)
Definition farg_gt (k bk : Z) : bool := negb (is_nan w bk) && (is_nan w k || (ford bk <? ford k)%Z).
Fixpoint fargmax_from (i best : nat) (bk : Z) (l : list Z) : nat :=
  match l with
  | [] => best
  | k :: t => if farg_gt k bk then fargmax_from (S i) i k t else fargmax_from (S i) best bk t
  end.
Definition fargmax (l : list Z) : nat := match l with [] => 0 | k :: t => fargmax_from 1 0 k t end.
(** _insert.py 136-153 *)
Fixpoint fscan_path (rs : list frow) (xs : list (nat * bool)) (carry : frow) : frow * list frow :=
  match xs with
  | [] => (carry, [])
  | (i, m) :: t =>
      let node := frow_at rs (if m then i else 0) in
      if m then
        let '(head, next) := fmsplit node carry in
        let '(c, out) := fscan_path rs t next in (c, head :: out)
      else let '(c, out) := fscan_path rs t carry in (c, node :: out)
  end.
Definition fscatter (rs : list frow) (ups : list (nat * frow)) : list frow :=
  fold_left (fun acc p => upd acc (fst p) (snd p)) ups rs.
(** _insert.py 93-191 *)
Definition fis_full (h : fheap) : bool := fbranch h - 1 <=? fhsize h.
Definition finsert_target (h : fheap) : nat := if fis_full h then fargmax (map flast (frows h)) else fhsize h + 1.
Definition fset_rows (h : fheap) (rs : list frow) : fheap := MkF rs (fbuf h) (fhsize h) (fbsize h) (fbranch h) (fbatch h).
Definition fupdate_root_only (h : fheap) (blk : frow) : fheap :=
  fset_rows h (upd (frows h) 0 (fst (fmsplit (frow_at (frows h) 0) blk))).
Definition fscatter_indices (h : fheap) (t : nat) : list nat :=
  map (fun l => if (path_mask t l && (0 <? l)) || (l =? 0) then path_index t l else fbranch h) (seq 0 (max_depth (fbranch h))).
Definition fupdate_path (h : fheap) (t : nat) (blk : frow) : fheap :=
  let '(_, heads) := fscan_path (frows h) (path (fbranch h) t) blk in
  fset_rows h (fscatter (frows h) (combine (fscatter_indices h t) heads)).
Definition finsert_heapify (h : fheap) (blk : frow) : fheap * bool :=
  let t := finsert_target h in
  let valid := t <? fbranch h in
  let h' := if valid then (if t =? 0 then fupdate_root_only h blk else fupdate_path h t blk) else h in
  (h', valid && negb (fis_full h)).
(** _insert.py 194-221 *)
Definition finsert (h : fheap) (block : frow) : fheap :=
  let blk := fsort block in
  let '(root, blk1) := fmsplit (frow_at (frows h) 0) blk in
  let h1 := fset_rows h (upd (frows h) 0 root) in
  let '(h2, blk2, ovf) := fmerge_buffer h1 blk1 in
  let '(h3, added) := if ovf then finsert_heapify h2 blk2 else (h2, false) in
  MkF (frows h3) (fbuf h3) (fhsize h3 + (if added then 1 else 0)) (fbsize h3) (fbranch h3) (fbatch h3).
(** _delete.py 71-140 *)
Definition fsift_cond (rs : list frow) (s : nat * frow * list (nat * frow)) : bool :=
  let '(c, cur, _) := s in
  fgt (flast cur) (fminimum (ffirst (frow_at rs (lc c))) (ffirst (frow_at rs (rc c)))).
Definition fwrite_update (max_updates : nat) (ups : list (nat * frow)) (i : nat) (r : frow) :=
  if length ups <? max_updates then ups ++ [(i, r)] else ups.
Definition fsift_body (max_updates : nat) (rs : list frow) (s : nat * frow * list (nat * frow)) : nat * frow * list (nat * frow) :=
  let '(c, cur, ups) := s in
  let l := frow_at rs (lc c) in let r := frow_at rs (rc c) in
  let '(x, y) := if fgt (flast l) (flast r) then (lc c, rc c) else (rc c, lc c) in
  let '(ky, kx) := fmsplit l r in
  let '(kc, ky') := fmsplit cur ky in
  (y, ky', fwrite_update max_updates (fwrite_update max_updates ups c kc) x kx).
(** _delete.py 17-197 *)
Definition fdelete_heapify (h : fheap) : option fheap :=
  let last := fhsize h in
  let last_row := frow_at (frows h) last in
  let '(root, buf') := fmsplit last_row (fbuf h) in
  let rs := upd (upd (frows h) last (fclear last_row)) 0 root in
  let mu := max_depth (fbranch h) * 2 + 1 in
  match while (fbranch h) (fsift_cond rs) (fsift_body mu rs) (0, root, []) with
  | None => None
  | Some (c, cur, ups) =>
      let ups' := fwrite_update mu ups c cur in
      Some (MkF (fscatter rs ups') buf' (last - 1) (fbsize h) (fbranch h) (fbatch h))
  end.
(** _delete.py 206-225 *)
Definition fmake_empty (h : fheap) : fheap :=
  let '(root, buf') := fmsplit (fclear (frow_at (frows h) 0)) (fbuf h) in
  MkF (upd (frows h) 0 root) buf' (fhsize h) 0 (fbranch h) (fbatch h).
Definition fdelete_mins (h : fheap) : option (fheap * frow) :=
  let out := frow_at (frows h) 0 in
  match (if fhsize h =? 0 then Some (fmake_empty h) else fdelete_heapify h) with
  | None => None
  | Some h' => Some (h', out)
  end.
End F.
Arguments fheap V : clear implicits.
