(** * UniqueModel.v — core/xtructure_numpy/dataclass_ops/unique_ops/optimized_unique_ops.py
      (definitions only).

    [rows] are the flattened uint32 keys (the result of [key_fn], line 139), all of the
    same width k >= 1 (with k = 0 the code raises IndexError at line 187).  A cost is a
    float; NaN behaves as +inf in this function (line 156: NaN < inf is false; line 178
    replaces it by inf), so NaN costs are given as [PInf]. *)
From Verif Require Import Jax KeyModel HashModel StableSort GroupFirst DedupeModel BitpackModel.

(** 14-66 [_hash_to_wide] on one row; [x64] = jax_enable_x64 *)
Definition W64 : N := 2 ^ 64.
Definition wide64_step (c h col : N) : N := ((h * c) mod W64 + col) mod W64.
Definition wide_width (x64 : bool) (k : nat) : nat :=
  if x64 then (if k <=? 2 then k else 2) else (if k <=? 4 then k else 4).
Definition hash_to_wide (x64 : bool) (row : list N) : list N :=
  let k := length row in
  if k <=? (if x64 then 2 else 4) then row
  else if x64 then match row with
       | [] => []
       | c0 :: t => [fold_left (wide64_step 0x9E3779B1) t c0; fold_left (wide64_step 0x85EBCA6B) t c0]
       end
  else sig_of row.
(** 160-170: the maximum of the dtype of the columns *)
Definition wide_max (x64 : bool) (k : nat) : N := if x64 && negb (k <=? 2) then W64 - 1 else 0xFFFFFFFF.

(** 149-158 *)
Definition effective (n : nat) (filled : option (list bool)) (cost : option (list key)) : list bool :=
  map (fun i => (match filled with None => true | Some f => nth i f false end) &&
                (match cost with None => true | Some u => match nth i u PInf with PInf => false | _ => true end end)) (seq 0 n).
Record unique_result := MkU { u_perm : list nat; u_mask_sorted : list bool; u_mask : list bool }.
(** 141-203 *)
Definition unique_sorted (x64 : bool) (k : nat) (rows : list (list N)) (filled : option (list bool)) (cost : option (list key)) : unique_result :=
  let n := length rows in
  let eff := effective n filled cost in
  let mrows := map (fun p : bool * list N => if fst p then snd p else map (fun _ => wide_max x64 k) (snd p)) (combine eff (map (hash_to_wide x64) rows)) in
  let perm0 := match cost with
               | None => seq 0 n
               | Some u => let valid_key := fun i => if nth i eff false then nth i u PInf else PInf in
                           isort (fun a b => kle (valid_key a) (valid_key b)) (seq 0 n)
               end in
  let perm := fold_right (stable_perm mrows) perm0 (seq 0 (wide_width x64 k)) in
  let starts := group_start roweqb (map (fun i => nth i mrows []) perm) in
  let mask_sorted := map (fun p : bool * nat => fst p && nth (snd p) eff false) (combine starts perm) in
  MkU perm mask_sorted (scatter_back false perm mask_sorted).
Definition unique_mask x64 k rows filled cost : list bool := u_mask (unique_sorted x64 k rows filled cost).
(** 214 [perm[mask_sorted]] (outside jit, size=None) *)
Definition unique_index x64 k rows filled cost : list nat :=
  let u := unique_sorted x64 k rows filled cost in map fst (filter snd (combine (u_perm u) (u_mask_sorted u))).
(** 228-245: jnp.nonzero(mask_sorted, size=size, fill_value=n) then a lookup in perm ++ [fill] *)
Definition unique_index_sized x64 k rows filled cost (size fill : nat) : list nat :=
  let u := unique_sorted x64 k rows filled cost in
  let n := length rows in
  let nz := filter (fun p => nth p (u_mask_sorted u) false) (seq 0 n) in
  let positions := firstn size (nz ++ repeat n size) in
  map (fun p => nth p (u_perm u ++ [fill]) 0) positions.
(** 248-251 *)
Definition unique_inverse x64 k rows filled cost : list Z :=
  let u := unique_sorted x64 k rows filled cost in
  scatter_back 0%Z (u_perm u) (map (fun c => (Z.of_nat c - 1)%Z) (cumsum_from 0 (u_mask_sorted u))).

(** 107-116: the default key of a type with aggregate bit packing is [x.packed.words] *)
Definition default_packed_key (c : fields) (i : instance) : list N := fst (pack_instance c i).
