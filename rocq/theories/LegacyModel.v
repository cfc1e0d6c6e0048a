(** * LegacyModel.v — core/xtructure_numpy/dataclass_ops/unique_ops/legacy_unique_ops.py
      (definitions only).  [rows] are the flattened keys (line 32), all of width k; costs are not NaN. *)
From Verif Require Import Jax KeyModel HashModel StableSort GroupFirst DedupeModel UniqueModel.

(** jnp.unique(rows, axis=0, size=n, return_index=True, return_inverse=True): a stable
    lexicographic sort of the rows; the first of every run of equal rows; the number of the run *)
Definition jnp_unique_perm (w : nat) (rows : list (list N)) : list nat := lsd w rows (length rows).
Definition jnp_unique_sorted (w : nat) (rows : list (list N)) : list (list N) := map (fun i => nth i rows []) (jnp_unique_perm w rows).
(** the positions of the starts, padded with position 0 up to [size] = n (jnp.nonzero's fill) *)
Definition jnp_unique_index (w : nat) (rows : list (list N)) : list nat :=
  let starts := group_start roweqb (jnp_unique_sorted w rows) in
  let pos := filter (fun p => nth p starts false) (seq 0 (length rows)) in
  map (fun p => nth p (jnp_unique_perm w rows) 0) (firstn (length rows) (pos ++ repeat 0 (length rows))).
Definition jnp_unique_inverse (w : nat) (rows : list (list N)) : list nat :=
  scatter_back 0 (jnp_unique_perm w rows) (group_id roweqb (jnp_unique_sorted w rows)).

(** [x.at[idx].min(v)] *)
Definition scatter_min {A} (mn : A -> A -> A) (d : A) (init : list A) (idx : list nat) (v : list A) : list A :=
  fold_left (fun a p => upd a (fst p) (mn (nth (fst p) a d) (snd p))) (combine idx v) init.

(** 52-55: with [filled], the rows get one more column holding 0 or 1 *)
Definition legacy_keys (rows : list (list N)) (filled : option (list bool)) : list (list N) :=
  match filled with
  | None => rows
  | Some f => map (fun p : list N * bool => fst p ++ [if snd p then 1%N else 0%N]) (combine rows f)
  end.
Definition legacy_width (k : nat) (filled : option (list bool)) : nat := match filled with None => k | Some _ => S k end.

(** 77-80 [masked_key] *)
Definition masked_key (n : nat) (filled : option (list bool)) (cost : list key) : list key :=
  match filled with
  | None => cost
  | Some f => map (fun i => if nth i f false then nth i cost PInf else PInf) (seq 0 n)
  end.
(** 72-108 with a cost: the winner of every group, [n] when there is none *)
Definition legacy_winners (k : nat) (rows : list (list N)) (filled : option (list bool)) (cost : list key) : list nat :=
  let n := length rows in
  let inv := jnp_unique_inverse (legacy_width k filled) (legacy_keys rows filled) in
  let mk := masked_key n filled cost in
  let mins := scatter_min kmin PInf (repeat PInf n) inv mk in
  let is_min := map (fun i => kle (nth i mk PInf) (nth (nth i inv 0) mins PInf) && kle (nth (nth i inv 0) mins PInf) (nth i mk PInf)) (seq 0 n) in
  let consider := map (fun i => if nth i is_min false && (match filled with None => true | Some f => nth i f false end) then i else n) (seq 0 n) in
  scatter_min Nat.min n (repeat n n) inv consider.

(** 41-118, the mask *)
Definition unique_mask_legacy (k : nat) (rows : list (list N)) (filled : option (list bool)) (cost : option (list key)) : list bool :=
  let n := length rows in
  let w := legacy_width k filled in
  let keys := legacy_keys rows filled in
  match cost with
  | None =>
      let m := fold_left (fun a i => upd a i true) (jnp_unique_index w keys) (repeat false n) in
      match filled with None => m | Some f => map (fun i => nth i m false && nth i f false) (seq 0 n) end
  | Some u =>
      let win := legacy_winners k rows filled u in
      let inv := jnp_unique_inverse w keys in
      map (fun i => (i =? nth (nth i inv 0) win n) &&
                    (match filled with Some _ => true | None => negb (kle PInf (nth i u PInf)) end)) (seq 0 n)
  end.
(** 118 [inv] *)
Definition unique_inverse_legacy (k : nat) (rows : list (list N)) (filled : option (list bool)) : list nat :=
  jnp_unique_inverse (legacy_width k filled) (legacy_keys rows filled).
