(** * MergeModel.v — the merge backends of bgpq/merge_split and
      bgpq/_merge.py (definitions only).                                     *)
From Verif Require Import Jax KeyModel.

Section Backends.
Variables a b : list key.
Notation n := (length a). Notation m := (length b).
Notation ka i := (nth i a PInf). Notation kb j := (nth j b PInf).

(** merge_split/split.py 7-14 [merge_sort_split_idx]: stable sort of the
    concatenated keys with their positions as payload. *)
Definition merge_sort_idx : list (key * nat) := ssort (combine (a ++ b) (seq 0 (n + m))).

(** merge_split/loop.py 8-231 [merge_indices_kernel_loop].  State: idx_a, idx_b and
    the output written so far (out_ptr starts at 0 and is incremented with every
    store, so the output array is the list of stores in order). *)
Definition lstate := (nat * nat * list (key * nat))%type.
(** loop.py 79-81 *)
Definition main_cond (s : lstate) : bool := let '(i, j, _) := s in (i <? n) && (j <? m).
(** loop.py 17-41 (true branch), 43-67 (false branch), 83-120 *)
Definition main_body (s : lstate) : lstate :=
  let '(i, j, out) := s in
  if kle (ka i) (kb j) then (S i, j, out ++ [(ka i, i)]) else (i, S j, out ++ [(kb j, n + j)]).
(** loop.py 144-176 *)
Definition ak_cond (s : lstate) : bool := let '(i, _, _) := s in i <? n.
Definition ak_body (s : lstate) : lstate := let '(i, j, out) := s in (S i, j, out ++ [(ka i, i)]).
(** loop.py 197-229 *)
Definition bk_cond (s : lstate) : bool := let '(_, j, _) := s in j <? m.
Definition bk_body (s : lstate) : lstate := let '(i, j, out) := s in (i, S j, out ++ [(kb j, n + j)]).
(** loop.py 122-124, 178-180, 231 *)
Definition merge_loop_idx : option (list (key * nat)) :=
  match while (n + m) main_cond main_body (0, 0, []) with
  | None => None
  | Some s1 =>
    match while n ak_cond ak_body s1 with
    | None => None
    | Some s2 => option_map snd (while m bk_cond bk_body s2)
    end
  end.

(** merge_split/common.py 14-97 [binary_search_partition]; [smin]/[smax] are the
    dtype sentinels of common.py 5-11. *)
Section Partition.
Variables smin smax : key.
(** common.py 47-49 *)
Definition part_cond (s : nat * nat) : bool := fst s <? snd s.
(** common.py 51-93 *)
Definition part_body (k : nat) (s : nat * nat) : nat * nat :=
  let '(lo, hi) := s in
  let i := lo + (hi - lo + 1) / 2 in
  let j := k - i in
  let a_val := if 0 <? i then ka (i - 1) else smin in
  let b_val := if j <? m then kb j else smax in
  if kle a_val b_val then (i, hi) else (lo, i - 1).
(** common.py 41-43, 95-97 *)
Definition partition_at (k : nat) : option (nat * nat) :=
  option_map (fun s => (fst s, k - fst s))
    (while (S n) part_cond (part_body k) (k - m, Nat.min n k)).

(** merge_split/parallel.py 134-158 (index kernel) and 198-224 (key/value kernel):
    one step of a program, with [fa]/[fb] the payload loaded for the current
    position of either side. *)
Context {W : Type}.
Variables fa fb : nat -> W.
Definition take_a (i j : nat) : bool :=
  let val_a := ka (Nat.min i (n - 1)) in
  let val_b := kb (Nat.min j (m - 1)) in
  (m <=? j) || (negb (n <=? i) && kle val_a val_b).
Definition step_out (i j : nat) : key * W :=
  if take_a i j then (ka (Nat.min i (n - 1)), fa i) else (kb (Nat.min j (m - 1)), fb j).
(** parallel.py 160-173: [block_size] consecutive steps from (idx_a, idx_b). *)
Fixpoint run_block (steps i j : nat) : list (key * W) :=
  match steps with
  | 0 => []
  | S s => step_out i j :: (if take_a i j then run_block s (S i) j else run_block s i (S j))
  end.
(** parallel.py 113-127: the program with index [block_idx]. *)
Definition run_program (block_size block_idx : nat) : option (list (key * W)) :=
  match partition_at (block_idx * block_size) with
  | Some (i, j) => Some (run_block block_size i j)
  | None => None
  end.
(** parallel.py 284-301 / 339-360: launch the grid, concatenate, drop the padding. *)
Definition run_grid (block_size : nat) : option (list (key * W)) :=
  let total := n + m in
  let grid := (total + block_size - 1) / block_size in
  option_map (fun blocks => firstn total (concat blocks))
    (mapM (run_program block_size) (seq 0 grid)).
End Partition.

(** merge_split/parallel.py 259-301 [_merge_arrays_parallel] *)
Definition merge_parallel_idx (smin smax : key) (block_size : nat) : option (list (key * nat)) :=
  if n + m =? 0 then Some []
  else if n =? 0 then Some (combine b (seq 0 m))
  else if m =? 0 then Some (combine a (seq 0 n))
  else run_grid smin smax (fun i => i) (fun j => n + j) block_size.
End Backends.

Section Values.
Context {V : Type} (dflt : V).
(** merge_split/parallel.py 324-360 [_merge_arrays_parallel_kv] with the values as
    payload (values of a row are moved together, parallel.py 215-220). *)
Definition merge_parallel_kv (smin smax : key) (block_size : nat)
    (ak : list key) (av : list V) (bk : list key) (bv : list V) : option (list (key * V)) :=
  if length ak + length bk =? 0 then Some []
  else run_grid ak bk smin smax
         (fun i => nth (Nat.min i (length ak - 1)) av dflt)
         (fun j => nth (Nat.min j (length bk - 1)) bv dflt) block_size.

(** _merge.py 22-54 [_gather_sorted_values], default mode: clip both sides and select. *)
Definition gather_select (av bv : list V) (idx : list nat) : list V :=
  let n := length av in let m := length bv in
  if n =? 0 then map (fun i => nth i bv dflt) idx
  else if m =? 0 then map (fun i => nth i av dflt) idx
  else map (fun i => if i <? n then nth (Nat.min i (n - 1)) av dflt
                     else nth (Nat.min (i - n) (m - 1)) bv dflt) idx.
(** _merge.py 26-28: concat mode. *)
Definition gather_concat (av bv : list V) (idx : list nat) : list V :=
  map (fun i => nth i (av ++ bv) dflt) idx.

(** _merge.py 57-106 [merge_sort_split] with the sort backend: keys and values are
    separate arrays, the result is (low keys, low values, high keys, high values). *)
Definition merge_sort_split (ak : list key) (av : list V) (bk : list key) (bv : list V)
  : list key * list V * list key * list V :=
  let s := merge_sort_idx ak bk in
  let sk := map fst s in
  let sv := gather_select av bv (map snd s) in
  let n := length ak in
  (firstn n sk, firstn n sv, skipn n sk, skipn n sv).

(** _utils.py 33-38 [sort_arrays] *)
Definition sort_arrays (k : list key) (v : list V) : list key * list V :=
  let s := ssort (combine k (seq 0 (length k))) in
  (map fst s, map (fun i => nth i v dflt) (map snd s)).
End Values.
