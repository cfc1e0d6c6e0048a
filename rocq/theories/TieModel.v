(** * TieModel.v — the batched priority queue over an arbitrary sorting/merging back end
      (definitions only).

    bgpq sorts a block with [jax.lax.sort_key_val(..., is_stable=SORT_STABLE)]
    (_utils.py 33-38; SORT_STABLE is switched off by XTRUCTURE_BGPQ_SORT_STABLE,
    _constants.py 12-13) and merges with [merge_array_backend] or
    [merge_arrays_parallel_kv] (_merge.py 78-106, _insert.py 29-42).  None of the
    callers knows how ties between equal keys are broken, and the merge back ends
    promise nothing for unsorted input.  Here every call of the queue uses its own
    back end [impl], of which only [lawful] is known.  HeapModel.v is the instance in
    which both functions are the stable sort ([C68_stable_queue_is_an_instance]).  *)
From Verif Require Import Jax KeyModel SortProofs HeapModel HeapSpec.

Section Tie.
Context {V : Type}.
Notation item := (key * V)%type.
Notation row := (list item).

(** One back end: [blk_sort] = _utils.py 33-38 [sort_arrays]; [merge_at s a b] = the
    merged keys and values of the two blocks [a] and [b] at call site [s] (several
    merges happen in one queue call; the site lets them break ties differently). *)
Record impl := MkImpl { blk_sort : row -> row; merge_at : nat -> row -> row -> row }.

(** All that is asked of a back end: sorting sorts, and merging two SORTED blocks gives
    a sorted rearrangement of them.  Nothing about the order of equal keys, nothing
    about merging unsorted blocks. *)
Definition lawful (k : impl) : Prop :=
  (forall r, Permutation (blk_sort k r) r /\ sorted (blk_sort k r)) /\
  (forall s a b, sorted a -> sorted b -> Permutation (merge_at k s a b) (a ++ b) /\ sorted (merge_at k s a b)).

(** the back end of HeapModel.v *)
Definition stable_impl : impl := MkImpl ssort (fun _ a b => ssort (a ++ b)).

(** _merge.py 57-106 [merge_sort_split] *)
Definition tsplit (k : impl) (s : nat) (a b : row) : row * row :=
  let m := merge_at k s a b in (firstn (length a) m, skipn (length a) m).

(** _insert.py 23-72 [_bgpq_merge_buffer_jit] *)
Definition tmerge_buffer (k : impl) (h : heap V) (blk : row) : heap V * row * bool :=
  let n := batch h in
  let s := merge_at k 1 blk (buf h) in
  let ovf := n <=? nfin s in
  let '(blk', buf') :=
    if ovf then (firstn n s, skipn n s)
    else (skipn (length s - n) s, firstn (length s - n) s) in
  (MkHeap (rows h) buf' (hsize h) (nfin buf') (branch h) (batch h), blk', ovf).

(** _insert.py 136-153 *)
Fixpoint tscan_path (k : impl) (rs : list row) (xs : list (nat * bool)) (carry : row) : row * list row :=
  match xs with
  | [] => (carry, [])
  | (i, m) :: t =>
      let node := row_at rs (if m then i else 0) in
      if m then
        let '(head, next) := tsplit k (3 + i) node carry in
        let '(c, out) := tscan_path k rs t next in (c, head :: out)
      else let '(c, out) := tscan_path k rs t carry in (c, node :: out)
  end.

(** _insert.py 120-127, 129-178, 93-191 *)
Definition tupdate_root_only (k : impl) (h : heap V) (blk : row) : heap V :=
  set_rows h (upd (rows h) 0 (fst (tsplit k 2 (row_at (rows h) 0) blk))).
Definition tupdate_path (k : impl) (h : heap V) (t : nat) (blk : row) : heap V :=
  let '(_, heads) := tscan_path k (rows h) (path (branch h) t) blk in
  set_rows h (scatter_rows (rows h) (combine (scatter_indices h t) heads)).
Definition tinsert_heapify (k : impl) (h : heap V) (blk : row) : heap V * bool :=
  let t := insert_target h in
  let valid := t <? branch h in
  let h' := if valid then (if t =? 0 then tupdate_root_only k h blk else tupdate_path k h t blk) else h in
  (h', valid && negb (is_full h)).

(** _insert.py 194-221 [_bgpq_insert_jit] *)
Definition tinsert (k : impl) (h : heap V) (block : row) : heap V :=
  let blk := blk_sort k block in
  let '(root, blk1) := tsplit k 0 (row_at (rows h) 0) blk in
  let h1 := set_rows h (upd (rows h) 0 root) in
  let '(h2, blk2, ovf) := tmerge_buffer k h1 blk1 in
  let '(h3, added) := if ovf then tinsert_heapify k h2 blk2 else (h2, false) in
  MkHeap (rows h3) (buf h3) (hsize h3 + (if added then 1 else 0)) (bsize h3) (branch h3) (batch h3).

(** _delete.py 81-140; the two merges of one iteration have sites of their own *)
Definition tsift_body (k : impl) (max_updates : nat) (rs : list row) (s : @sstate V) : @sstate V :=
  let '(c, cur, ups) := s in
  let l := row_at rs (lc c) in let r := row_at rs (rc c) in
  let '(x, y) := if kgt (last_key l) (last_key r) then (lc c, rc c) else (rc c, lc c) in
  let '(ky, kx) := tsplit k (1 + 2 * c) l r in
  let '(kc, ky') := tsplit k (2 + 2 * c) cur ky in
  (y, ky', write_update max_updates (write_update max_updates ups c kc) x kx).

(** _delete.py 17-197 [_bgpq_delete_heapify_internal] *)
Definition tdelete_heapify (k : impl) (h : heap V) : option (heap V) :=
  let last := hsize h in
  let last_row := row_at (rows h) last in
  let '(root, buf') := tsplit k 0 last_row (buf h) in
  let rs := upd (upd (rows h) last (clear_keys last_row)) 0 root in
  let mu := max_depth (branch h) * 2 + 1 in
  match while (branch h) (sift_cond rs) (tsift_body k mu rs) (0, root, []) with
  | None => None
  | Some (c, cur, ups) =>
      let ups' := write_update mu ups c cur in
      Some (MkHeap (scatter_rows rs ups') buf' (last - 1) (bsize h) (branch h) (batch h))
  end.

(** _delete.py 206-220 [make_empty] *)
Definition tmake_empty (k : impl) (h : heap V) : heap V :=
  let '(root, buf') := tsplit k 0 (clear_keys (row_at (rows h) 0)) (buf h) in
  MkHeap (upd (rows h) 0 root) buf' (hsize h) 0 (branch h) (batch h).

(** _delete.py 200-225 [_bgpq_delete_mins_jit] *)
Definition tdelete_mins (k : impl) (h : heap V) : option (heap V * row) :=
  let out := row_at (rows h) 0 in
  match (if hsize h =? 0 then Some (tmake_empty k h) else tdelete_heapify k h) with
  | None => None
  | Some h' => Some (h', out)
  end.

(** A history; every call comes with the back end it happens to run on. *)
Fixpoint trun (h : heap V) (ops : list (impl * op V)) : option (heap V * list (row * Z)) :=
  match ops with
  | [] => Some (h, [])
  | (k, Ins block) :: t =>
      let h' := tinsert k h block in
      match trun h' t with Some (hf, obs) => Some (hf, ([], size h') :: obs) | None => None end
  | (k, Del) :: t =>
      match tdelete_mins k h with
      | None => None
      | Some (h', out) =>
          match trun h' t with Some (hf, obs) => Some (hf, (out, size h') :: obs) | None => None end
      end
  end.
End Tie.
Arguments impl V : clear implicits.
