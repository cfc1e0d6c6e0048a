(** * DedupeModel.v — hashtable/hash_utils.py: in-batch deduplication (definitions only).

    Conventions: a batch of [n] rows of [w] uint32 words is [list (list N)]; a hash pair
    or a 4-word signature is a row too.  Costs ([unique_key]) are the float values after
    the promotion done by [jnp.where(filled, unique_key, inf)]: NaN or a [key] of
    KeyModel (any set of non-NaN floats is order-isomorphic to such keys; an integer
    cost array is rounded to float32 BEFORE it reaches this model: IntCost.v). *)
From Verif Require Import Jax KeyModel HashModel StableSort TableModel.

Inductive dmode := Safe | Exact | Approx.

Fixpoint roweqb (a b : list N) : bool :=
  match a, b with
  | [], [] => true
  | x :: a', y :: b' => (x =? y)%N && roweqb a' b'
  | _, _ => false
  end.

(** scatter-min [init.at[idx].min(values)] *)
Definition smin {T : Type} (le : T -> T -> bool) (dT : T) (l : list (nat * T)) (init : list T) : list T :=
  fold_left (fun a gc => upd a (fst gc) (let v := nth (fst gc) a dT in if le v (snd gc) then v else snd gc)) l init.

(** hash_utils.py 258-328 and 399-461 (the two copies are the same computation):
    group the rows in sorted order [perm], pick a representative per group *)
Definition candidates (gid : list nat) (filled : list bool) (uk : option (list costval)) (perm : list nat) : list nat :=
  let n := length filled in
  match uk with
  | None => map (fun i => if nth i filled false then i else n) perm
  | Some u =>
      let masked := map (fun i => if nth i filled false then nth i u (Cost PInf) else Cost PInf) perm in
      let mins := smin cle (Cost PInf) (combine gid masked) (repeat (Cost PInf) n) in
      map (fun p => if ceq (snd (snd p)) (nth (fst (snd p)) mins (Cost PInf)) then fst p else n)
          (combine perm (combine gid masked))
  end.
Definition from_sorted (ks : list (list N)) (filled : list bool) (uk : option (list costval)) (perm : list nat)
  : list bool * list nat :=
  let n := length filled in
  let sk := map (fun i => nth i ks []) perm in
  let gid := group_id roweqb sk in
  let cand := candidates gid filled uk perm in
  let rpg := map (fun r => if r =? n then 0 else r) (smin Nat.leb 0 (combine gid cand) (repeat n n)) in
  let rs := map (fun g => nth g rpg 0) gid in
  let reps0 := fold_left (fun a p => upd a (fst p) (snd p)) (combine perm rs) (repeat 0 n) in
  let reps := map (fun p : bool * nat => if fst p then snd p else 0) (combine filled reps0) in
  (map (fun p : bool * nat * nat => fst (fst p) && (snd (fst p) =? snd p)) (combine (combine filled (seq 0 n)) reps), reps).

(** select(filled, row, 0xFFFFFFFF) in every column (137-144, 206-210, 366-370) *)
Definition mask_row (b : bool) (row : list N) : list N := if b then row else map (fun _ => sentinel) row.
Definition mask_rows (filled : list bool) (rows : list (list N)) : list (list N) :=
  map (fun p => mask_row (fst p) (snd p)) (combine filled rows).

(** 130-132, 376-378 [_stable_sort_perm] on one column, and the sequence of stable sorts
    from the last column to the first (146-149, 212-216, 380-383) *)
Definition stable_perm (rows : list (list N)) (j : nat) (perm : list nat) : list nat :=
  isort (fun a b => (nth j (nth a rows []) 0 <=? nth j (nth b rows []) 0)%N) perm.
Definition lsd (w : nat) (rows : list (list N)) (n : nat) : list nat :=
  fold_right (stable_perm rows) (seq 0 n) (seq 0 w).

(** 232-247, 481-489: some adjacent pair in sorted order has equal keys, both filled,
    but different rows *)
Definition adj {A} (f : A -> A -> bool) (l : list A) : list bool :=
  match l with [] => [] | a :: t => map (fun p => f (fst p) (snd p)) (combine l t) end.
Definition collision (ks rows : list (list N)) (filled : list bool) (perm : list nat) : bool :=
  let same a b := roweqb (nth b ks []) (nth a ks []) && nth b filled false && nth a filled false in
  let has_dups := any (adj same perm) in
  if has_dups then any (adj (fun a b => same a b && negb (roweqb (nth b rows []) (nth a rows []))) perm)
  else false.

(** 167-204: 128-bit signature of a row *)
Definition sig_step (h : N * N * N * N) (col : N) : N * N * N * N :=
  let '(h1, h2, h3, h4) := h in
  (w32 (mul32 h1 0x9E3779B1 + col), w32 (mul32 h2 0x85EBCA6B + col),
   mul32 (N.lxor h3 col) 0xC2B2AE35, mul32 (N.lxor h4 col) 0x278DDE6E).
Definition sig_of (row : list N) : list N :=
  match row with
  | [] => [0%N; 0%N; 0%N; 0%N]
  | c0 :: t => let '(h1, h2, h3, h4) := fold_left sig_step t (c0, c0, c0, c0) in [h1; h2; h3; h4]
  end.

(** 97-328 [_compute_unique_mask_from_uint32eds]; [w] is the number of words per row *)
Definition dedupe_rows (m : dmode) (w : nat) (rows : list (list N)) (filled : list bool) (uk : option (list costval))
  : list bool * list nat :=
  let n := length filled in
  let mrows := mask_rows filled rows in
  let full := from_sorted mrows filled uk (lsd w mrows n) in
  let sigs := mask_rows filled (map sig_of rows) in
  let sperm := lsd 4 sigs n in
  let bysig := from_sorted sigs filled uk sperm in
  match m with
  | Exact => full
  | Safe => if w <=? 8 then full else if collision sigs rows filled sperm then full else bysig
  | Approx => if w <=? 8 then full else bysig
  end.

(** 330-504 [_compute_unique_mask_from_hash_pairs].  [perm] is the order returned by the
    selected sort backend: [lsd 2] for stable_argsort, and for lax_stable / lax_unstable
    any ascending order of the pairs (relation [sorting] in DedupeSpec). *)
Definition dedupe_pairs (m : dmode) (w : nat) (perm : list nat) (pairs : list (N * N)) (rows : list (list N))
  (filled : list bool) (uk : option (list costval)) : list bool * list nat :=
  let ks := mask_rows filled (map (fun p => [fst p; snd p]) pairs) in
  match m with
  | Exact => dedupe_rows Exact w rows filled uk
  | Safe => if collision ks rows filled perm then dedupe_rows Safe w rows filled uk else from_sorted ks filled uk perm
  | Approx => from_sorted ks filled uk perm
  end.
Definition pairs_keys (filled : list bool) (pairs : list (N * N)) : list (list N) :=
  mask_rows filled (map (fun p => [fst p; snd p]) pairs).
Definition default_perm (filled : list bool) (pairs : list (N * N)) : list nat :=
  lsd 2 (pairs_keys filled pairs) (length filled).
