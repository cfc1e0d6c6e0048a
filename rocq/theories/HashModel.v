(** * HashModel.v — core/xtructure_decorators/hash.py (definitions only).
    32-bit words are [N]; every arithmetic result is reduced modulo 2^32.  Leaves are
    given by the bit patterns of their elements (bitcast_convert_type /
    astype(unsigned) of the code), so signed integers, floats and bools are all
    covered by their patterns.                                                 *)
From Verif Require Import Jax.
Local Open Scope N_scope.

Definition W32 : N := 2 ^ 32.
Definition w32 (x : N) : N := x mod W32.
Definition mul32 (a b : N) : N := w32 (a * b).

(** hash.py 10-18 [_avalanche32] *)
Definition avalanche32 (h0 : N) : N :=
  let h := N.lxor h0 (N.shiftr h0 16) in
  let h := mul32 h 0x85EBCA77 in
  let h := N.lxor h (N.shiftr h 13) in
  let h := mul32 h 0xC2B2AE3D in
  N.lxor h (N.shiftr h 16).

(** hash.py 21-37 [_mix_fingerprint] *)
Definition mix_fingerprint (primary secondary len : N) : N :=
  let mix := N.lxor primary 0x9E3779B9 in
  let mix := w32 (mix + mul32 secondary 0x85EBCA6B + mul32 len 0xC2B2AE35) in
  let mix := N.lxor mix (N.shiftr mix 16) in
  let mix := mul32 mix 0x7FEB352D in
  N.lxor mix (N.shiftr mix 15).

(** [jnp.bitwise_xor.reduce] *)
Definition xor_reduce (l : list N) : N := fold_left N.lxor l 0.

Definition PHI : N := 0x9E3779B1.
Definition CB : N := 0x85EBCA6B.
Definition CC : N := 0xC2B2AE35.

(** [salt = (arange(n) + offset) * 0x9E3779B1] *)
Definition salts (offset n : nat) : list N :=
  map (fun i => mul32 (w32 (N.of_nat i)) PHI) (seq offset n).
(** [lanes = _avalanche32(words ^ salt ^ seed)] *)
Definition lanes (offset : nat) (words : list N) (seed : N) : list N :=
  map (fun p => avalanche32 (N.lxor (N.lxor (fst p) (snd p)) seed)) (combine words (salts offset (length words))).
(** [lanes ^ (salt * CB)] *)
Definition lanes1 (offset : nat) (words : list N) (seed : N) : list N :=
  map (fun p => N.lxor (fst p) (mul32 (snd p) CB))
      (combine (lanes offset words seed) (salts offset (length words))).
Definition length_mix (n : nat) : N := w32 (N.shiftl (N.of_nat n) 2).

(** hash.py 60-75 [hash_fast_uint32ed] *)
Definition hash_fast (words : list N) (seed : N) : N :=
  match words with
  | [] => avalanche32 (N.lxor seed PHI)
  | _ => avalanche32 (N.lxor (N.lxor (xor_reduce (lanes 0 words seed)) (length_mix (length words))) seed)
  end.

(** hash.py 78-103 [hash_fast_uint32ed_pair] *)
Definition hash_fast_pair (words : list N) (seed : N) : N * N :=
  match words with
  | [] => (avalanche32 (N.lxor seed PHI), avalanche32 (N.lxor seed CB))
  | _ =>
      let c0 := xor_reduce (lanes 0 words seed) in
      let c1 := xor_reduce (lanes1 0 words seed) in
      let lm := length_mix (length words) in
      (avalanche32 (N.lxor (N.lxor c0 lm) seed), avalanche32 (N.lxor (N.lxor c1 lm) (N.lxor seed CC)))
  end.

(** hash.py 241-265 [_hash_streaming_from_leaves] *)
Fixpoint stream_go (leaves : list (list N)) (seed : N) (offset : nat) (c0 c1 : N) : nat * N * N :=
  match leaves with
  | [] => (offset, c0, c1)
  | leaf :: t =>
      match leaf with
      | [] => stream_go t seed offset c0 c1
      | _ => stream_go t seed (offset + length leaf)
               (N.lxor c0 (xor_reduce (lanes offset leaf seed)))
               (N.lxor c1 (xor_reduce (lanes1 offset leaf seed)))
      end
  end.
Definition hash_stream (leaves : list (list N)) (seed : N) : N :=
  match leaves with
  | [] => avalanche32 (N.lxor seed PHI)
  | _ => let '(n, c0, _) := stream_go leaves seed 0 0 0 in
         avalanche32 (N.lxor (N.lxor c0 (length_mix n)) seed)
  end.
(** hash.py 267-299 [_hash_pair_streaming_from_leaves] *)
Definition hash_pair_stream (leaves : list (list N)) (seed : N) : N * N :=
  match leaves with
  | [] => (avalanche32 (N.lxor seed PHI), avalanche32 (N.lxor seed CB))
  | _ => let '(n, c0, c1) := stream_go leaves seed 0 0 0 in
         (avalanche32 (N.lxor (N.lxor c0 (length_mix n)) seed),
          avalanche32 (N.lxor (N.lxor c1 (length_mix n)) (N.lxor seed CC)))
  end.

(** hash.py 342-360 [_h], 362-380 [_h_pair]: selection by XTRUCTURE_HASH_STREAM. *)
Inductive stream_mode := Off | On | Auto (threshold : nat).
Definition hash_mode (m : stream_mode) (leaves : list (list N)) (seed : N) : N :=
  match m with
  | Off => hash_fast (concat leaves) seed
  | On => hash_stream leaves seed
  | Auto th => if Nat.leb (length (concat leaves)) th then hash_fast (concat leaves) seed else hash_stream leaves seed
  end.
Definition hash_pair_mode (m : stream_mode) (leaves : list (list N)) (seed : N) : N * N :=
  match m with
  | Off => hash_fast_pair (concat leaves) seed
  | On => hash_pair_stream leaves seed
  | Auto th => if Nat.leb (length (concat leaves)) th then hash_fast_pair (concat leaves) seed else hash_pair_stream leaves seed
  end.

(** ** Leaves to words *)
Inductive width := B8 | B16 | B32 | B64.
Definition wbits (w : width) : N := match w with B8 => 8 | B16 => 16 | B32 => 32 | B64 => 64 end.
Record leaf := MkLeaf { lwidth : width; lelems : list N }.

(** hash.py 184-201 [_to_uint32_from_bytes]: zero-pad to a multiple of 4, bitcast
    little-endian. *)
Fixpoint bytes_to_u32 (l : list N) : list N :=
  match l with
  | [] => []
  | [a] => [a]
  | [a; b] => [a + b * 2 ^ 8]
  | [a; b; c] => [a + b * 2 ^ 8 + c * 2 ^ 16]
  | a :: b :: c :: d :: t => (a + b * 2 ^ 8 + c * 2 ^ 16 + d * 2 ^ 24) :: bytes_to_u32 t
  end.
(** hash.py 47-57 [_pack_uint16_to_uint32] *)
Fixpoint pack16 (l : list N) : list N :=
  match l with
  | [] => []
  | [a] => [a]
  | a :: b :: t => N.lor a (N.shiftl b 16) :: pack16 t
  end.
(** hash.py 40-44 [_split_uint64_to_uint32] *)
Definition split64 (l : list N) : list N := flat_map (fun x => [N.land x 0xFFFFFFFF; N.shiftr x 32]) l.
(** hash.py 203-231 [_leaf_to_uint32] *)
Definition leaf_words (lf : leaf) : list N :=
  match lwidth lf with
  | B8 => bytes_to_u32 (lelems lf)
  | B16 => pack16 (lelems lf)
  | B32 => lelems lf
  | B64 => split64 (lelems lf)
  end.
(** hash.py 233-239 [_to_uint32_raw]: the [uint32ed] property. *)
Definition uint32ed (lfs : list leaf) : list N := concat (map leaf_words lfs).

(** hash.py 168-173 [_to_bytes_leaf], 175-182 [_byterize_raw]: the [bytes] property. *)
Fixpoint le_bytes (n : nat) (x : N) : list N :=
  match n with O => [] | S k => x mod 2 ^ 8 :: le_bytes k (x / 2 ^ 8) end.
Definition leaf_bytes (lf : leaf) : list N :=
  flat_map (le_bytes (N.to_nat (wbits (lwidth lf)) / 8)) (lelems lf).
Definition bytes (lfs : list leaf) : list N := concat (map leaf_bytes lfs).
