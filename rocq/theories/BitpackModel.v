(** * BitpackModel.v — core/xtructure_decorators/aggregate_bitpack (spec.py, kernels.py,
      bitpack.py, __init__.py) and bitpack_accessors.py (definitions only).

    Conventions: Python integers (bit offsets, counts, table entries) are [nat], array
    words and values are [N].  Batch dimensions are flattened to rows and every row is
    treated the same way, so one row is modelled.  Values are given after the cast
    [.astype(uint32)] unless said otherwise. *)
From Coq Require Import String.
From Verif Require Import Jax HashModel.
Local Open Scope nat_scope.

(** spec.py 12-27 [_AggLeafSpec] (the shape only matters through [nvalues]) *)
Record leafspec := MkSpec { lpath : list string; lbits : nat; lnvalues : nat; loff : nat }.

(** spec.py 61-66 [_mask_u32_np] *)
Definition mask_u32 (bits : nat) : N :=
  if bits =? 0 then 0%N else if 32 <=? bits then 0xFFFFFFFF%N else (N.shiftl 1 (N.of_nat bits) - 1)%N.

(** a table entry: value index (None is the padding value -1), first bit of the value,
    first bit of the word, number of bits *)
Record contrib := MkCb { cvi : option nat; cvb : nat; cwb : nat; cnb : nat }.
(** spec.py 91-112: the entries of one value, with the word they go to *)
Definition value_entries (vi start bits : nat) : list (nat * contrib) :=
  let fin := start + bits in
  let w0 := start / 32 in
  let w1 := (fin - 1) / 32 in
  filter (fun e => negb (cnb (snd e) =? 0))
    (map (fun w => let ws := 32 * w in
            let o_start := Nat.max start ws in
            let o_end := Nat.min fin (ws + 32) in
            (w, MkCb (Some vi) (o_start - start) (o_start - ws) (o_end - o_start)))
         (seq w0 (w1 + 1 - w0))).
(** spec.py 85-114 *)
Fixpoint all_entries (voff : nat) (specs : list leafspec) : list (nat * contrib) :=
  match specs with
  | [] => []
  | s :: t => flat_map (fun i => value_entries (voff + i) (loff s + i * lbits s) (lbits s)) (seq 0 (lnvalues s))
              ++ all_entries (voff + lnvalues s) t
  end.
Definition contribs (specs : list leafspec) (nwords : nat) : list (list contrib) :=
  fold_left (fun cs e => upd cs (fst e) (nth (fst e) cs [] ++ [snd e])) (all_entries 0 specs) (repeat [] nwords).
(** spec.py 116-139: rows padded to the longest one with (-1, 0, 0, 0) *)
Definition tables (specs : list leafspec) (nwords : nat) : list (list contrib) :=
  let cs := contribs specs nwords in
  let m := list_max (map (@length contrib) cs) in
  map (fun row => row ++ repeat (MkCb None 0 0 0) (m - length row)) cs.
Definition total_values (specs : list leafspec) : nat := list_sum (map lnvalues specs).

(** kernels.py 26-56 [pack_words_all_xla] (and the same computation in the Pallas kernel
    106-131): the padded column [total_values] holds zero *)
Definition part (vals : list N) (total : nat) (c : contrib) : N :=
  let v := nth (match cvi c with Some i => i | None => total end) (vals ++ [0%N]) 0%N in
  w32 (N.shiftl (N.land (N.shiftr v (N.of_nat (cvb c))) (mask_u32 (cnb c))) (N.of_nat (cwb c))).
Definition or_reduce (l : list N) : N := fold_left N.lor l 0%N.
Definition pack_words (specs : list leafspec) (nwords : nat) (vals : list N) : list N :=
  map (fun row => or_reduce (map (part vals (total_values specs)) row)) (tables specs nwords).

(** spec.py 205-228 [_compute_word_tail_layout]: (words_all_len, stored_words_len, tail_bytes) *)
Definition ceil_div (a b : nat) : nat := (a + b - 1) / b.
Definition word_tail_layout (total_bits : nat) : nat * nat * nat :=
  let words_all := if total_bits =? 0 then 0 else ceil_div total_bits 32 in
  let rem_bits := total_bits mod 32 in
  let rem_bytes := if rem_bits =? 0 then 0 else ceil_div rem_bits 8 in
  if (rem_bytes =? 1) || (rem_bytes =? 2) then (words_all, words_all - 1, rem_bytes) else (words_all, words_all, 0).

(** __init__.py 181-208: split the last word into tail bytes *)
Definition store (total_bits : nat) (words : list N) : list N * list N :=
  let '(_, _, tail_bytes) := word_tail_layout total_bits in
  if tail_bytes =? 0 then (words, [])
  else (removelast words, map (fun i => N.land (N.shiftr (last words 0%N) (8 * N.of_nat i)) 0xFF) (seq 0 tail_bytes)).
(** __init__.py 247-268 [_words_all_from_packed] (and core/xtructure_decorators/hash.py
    [_words_all_from_packed_instance]) *)
Definition load_words (total_bits : nat) (p : list N * list N) : list N :=
  let '(_, stored, tail_bytes) := word_tail_layout total_bits in
  if tail_bytes =? 0 then fst p
  else let last := or_reduce (map (fun q => N.shiftl (snd q) (8 * N.of_nat (fst q))) (combine (seq 0 tail_bytes) (snd p))) in
       if stored =? 0 then [last] else fst p ++ [last].

(** jnp.take(..., mode="fill") on uint32: out-of-range reads give the maximum *)
Definition take_fill (l : list N) (i : nat) : N := nth i l 0xFFFFFFFF%N.
(** __init__.py 316-360 [_decode_field_all] at one bit position (uint32 arithmetic), and the
    same code in bitpack.py 270-296 and bitpack_accessors.py 133-157 *)
Definition decode_at (words : list N) (pos : N) (bits : nat) : N :=
  let padded := words ++ [0%N] in
  let word_idx := N.to_nat (N.shiftr pos 5) in
  let shift := N.land pos 31 in
  let low := N.shiftr (take_fill padded word_idx) shift in
  let high := if (shift =? 0)%N then 0%N else w32 (N.shiftl (take_fill padded (word_idx + 1)) (32 - shift)) in
  let mask := if bits =? 32 then 0xFFFFFFFF%N else (N.shiftl 1 (N.of_nat bits) - 1)%N in
  N.land (N.lor low high) mask.
(** cast to the default unpacked dtype (spec.py 53-58): bool, uint8 or uint32 *)
Definition to_default (bits : nat) (v : N) : N :=
  if bits =? 1 then (if v =? 0 then 0 else 1)%N else if bits <=? 8 then (v mod 256)%N else v.
(** bit_pos = offset + idx * bits in uint32; [idx] is an int32 converted to uint32 *)
Definition bit_pos (s : leafspec) (idx : Z) : N :=
  w32 (w32 (N.of_nat (loff s)) + w32 (Z.to_N (idx mod 2 ^ 32) * N.of_nat (lbits s))).
Definition decode_field (words : list N) (s : leafspec) (idxs : list Z) : list N :=
  map (fun i => to_default (lbits s) (decode_at words (bit_pos s i) (lbits s))) idxs.
Definition all_indices (s : leafspec) : list Z := map Z.of_nat (seq 0 (lnvalues s)).

(** ** Classes and instances.  A class is a list of named fields; a field is a primitive
    leaf (bits, number of elements) or a nested class. *)
Inductive field := Leaf (bits nvalues : nat) | Nested (fs : fields)
with fields := FNil | FCons (name : string) (f : field) (rest : fields).
Inductive ifield := ILeaf (vals : list N) | INested (is : instance)
with instance := INil | ICons (name : string) (f : ifield) (rest : instance).

(** spec.py 146-199 [_build_agg_spec]: depth-first, consecutive offsets *)
Fixpoint walk_field (prefix : list string) (off : nat) (f : field) : list leafspec * nat :=
  match f with
  | Leaf bits nv => ([MkSpec prefix bits nv off], off + nv * bits)
  | Nested fs => walk prefix off fs
  end
with walk (prefix : list string) (off : nat) (fs : fields) : list leafspec * nat :=
  match fs with
  | FNil => ([], off)
  | FCons n f rest =>
      let '(s1, off1) := walk_field (prefix ++ [n]) off f in
      let '(s2, off2) := walk prefix off1 rest in (s1 ++ s2, off2)
  end.
Definition agg_spec (c : fields) : list leafspec * nat := walk [] 0 c.

(** __init__.py 142-147 [_get_path]: repeated getattr; getattr finds the field by name *)
Fixpoint get_attr (i : instance) (n : string) : option ifield :=
  match i with
  | INil => None
  | ICons m f rest => if String.eqb n m then Some f else get_attr rest n
  end.
Fixpoint get_path (f : ifield) (p : list string) : option ifield :=
  match p with
  | [] => Some f
  | n :: p' => match f with
               | ILeaf _ => None
               | INested i => match get_attr i n with Some f' => get_path f' p' | None => None end
               end
  end.
Definition leaf_vals (i : instance) (p : list string) : list N :=
  match get_path (INested i) p with Some (ILeaf v) => v | _ => [] end.

(** __init__.py 134-215 [_pack_instance]: [instance.packed] *)
Definition pack_instance (c : fields) (i : instance) : list N * list N :=
  let '(specs, total) := agg_spec c in
  let '(nwords, _, _) := word_tail_layout total in
  let vals := flat_map (fun s => map w32 (leaf_vals i (lpath s))) specs in
  store total (pack_words specs nwords vals).

(** __init__.py 362-396 [unpacked]: decode every leaf, then rebuild the nested view by
    looking the leaves up by path *)
Definition path_eqb (p q : list string) : bool := if list_eq_dec string_dec p q then true else false.
Definition dict_get (dict : list (list string * list N)) (p : list string) : list N :=
  match find (fun e => path_eqb (fst e) p) dict with Some e => snd e | None => [] end.
Fixpoint build_field (dict : list (list string * list N)) (prefix : list string) (f : field) : ifield :=
  match f with
  | Leaf _ _ => ILeaf (dict_get dict prefix)
  | Nested fs => INested (build_view dict prefix fs)
  end
with build_view (dict : list (list string * list N)) (prefix : list string) (fs : fields) : instance :=
  match fs with
  | FNil => INil
  | FCons n f rest => ICons n (build_field dict (prefix ++ [n]) f) (build_view dict prefix rest)
  end.
Definition unpacked (c : fields) (p : list N * list N) : instance :=
  let '(specs, total) := agg_spec c in
  let words := load_words total p in
  build_view (map (fun s => (lpath s, decode_field words s (all_indices s))) specs) [] c.
(** __init__.py 402-455 [unpack_field] *)
Definition unpack_field (c : fields) (p : list N * list N) (path : list string) (idxs : option (list Z)) : option (list N) :=
  let '(specs, total) := agg_spec c in
  match find (fun s => path_eqb (lpath s) path) specs with
  | None => None
  | Some s => Some (decode_field (load_words total p) s (match idxs with None => all_indices s | Some l => l end))
  end.

(** ** bitpack.py: byte streams *)
(** jax.lax.bitcast_convert_type uint32 <-> 4 x uint8 (little endian) *)
Definition word_bytes (w : N) : list N := map (fun i => N.land (N.shiftr w (8 * N.of_nat i)) 0xFF) (seq 0 4).
Definition bytes_word (bs : list N) : N := or_reduce (map (fun q => N.shiftl (snd q) (8 * N.of_nat (fst q))) (combine (seq 0 4) bs)).
(** reshape((-1, k)) *)
Fixpoint chunks {A : Type} (n : nat) (k : nat) (l : list A) : list (list A) :=
  match n with O => [] | S n' => firstn k l :: chunks n' k (skipn k l) end.
Definition pad_to {A : Type} (k : nat) (z : A) (l : list A) : list A :=
  l ++ repeat z ((k - length l mod k) mod k).
Definition lcm8 (bits : nat) : nat := Nat.lcm bits 8.
(** bitpack.py 24-52 [packed_num_bytes], field_descriptors.py 10-25 *)
Definition packed_num_bytes (n bits : nat) : nat :=
  if n =? 0 then 0
  else if bits =? 8 then n
  else if bits =? 1 then (n + 7) / 8
  else if (bits =? 2) || (bits =? 4) then let vpb := 8 / bits in (n + vpb - 1) / vpb
  else let L := lcm8 bits in let vpb := L / bits in let bpb := L / 8 in ((n + vpb - 1) / vpb) * bpb.
(** bitpack.py 55-80 [_get_block_pack_tables] *)
Definition block_spec (bits : nat) : leafspec := MkSpec ["leaf"%string] bits (lcm8 bits / bits) 0.
Definition block_words (bits : nat) : nat := (lcm8 bits + 31) / 32.
(** jnp.packbits(..., bitorder="little") *)
Definition packbits (l : list bool) : list N :=
  let n := ceil_div (length l) 8 in
  map (fun i => fold_left (fun acc j => if nth (8 * i + j) l false then N.setbit acc (N.of_nat j) else acc) (seq 0 8) 0%N) (seq 0 n).
(** jnp.unpackbits(..., count, bitorder="little") *)
Definition unpackbits (count : nat) (bs : list N) : list bool :=
  map (fun i => N.testbit (nth (i / 8) bs 0%N) (N.of_nat (i mod 8))) (seq 0 count).
(** bitpack.py 137-203 [to_uint8]; values are the raw elements (not yet cast) *)
Definition to_uint8 (bits : nat) (vals : list N) : list N :=
  if bits =? 1 then packbits (map (fun v => negb (v =? 0)%N) vals)
  else if bits =? 8 then map (fun v => (v mod 256)%N) vals
  else if (bits =? 2) || (bits =? 4) then
    let vpb := 8 / bits in
    let padded := pad_to vpb 0%N vals in
    map (fun g => or_reduce (map (fun q => (N.shiftl (N.land (snd q mod 256) (N.shiftl 1 (N.of_nat bits) - 1)) (N.of_nat (fst q * bits))) mod 256)%N
                                 (combine (seq 0 vpb) g)))
        (chunks (length padded / vpb) vpb padded)
  else
    let vpb := lcm8 bits / bits in
    let padded := map w32 (pad_to vpb 0%N vals) in
    flat_map (fun g => firstn (lcm8 bits / 8) (flat_map word_bytes (pack_words [block_spec bits] (block_words bits) g)))
             (chunks (length padded / vpb) vpb padded).
(** bitpack.py 206-296 [from_uint8] ([n] = number of elements of the target shape) *)
Definition from_uint8 (bits : nat) (bytes : list N) (n : nat) : list N :=
  if n =? 0 then []
  else if bits =? 1 then map (fun b : bool => if b then 1%N else 0%N) (unpackbits n bytes)
  else if bits =? 8 then firstn n bytes
  else if (bits =? 2) || (bits =? 4) then
    let vpb := 8 / bits in
    firstn n (flat_map (fun b => map (fun i => N.land (N.shiftr b (N.of_nat (i * bits))) (N.shiftl 1 (N.of_nat bits) - 1)) (seq 0 vpb)) bytes)
  else
    let vpb := lcm8 bits / bits in
    let bpb := lcm8 bits / 8 in
    let padded := pad_to bpb 0%N bytes in
    firstn n (flat_map (fun g =>
        let g4 := pad_to 4 0%N g in
        let words := map bytes_word (chunks (block_words bits) 4 g4) in
        map (fun i => let v := decode_at words (w32 (N.of_nat i * N.of_nat bits)) bits in
                      if bits <=? 8 then (v mod 256)%N else v) (seq 0 vpb))
      (chunks (length padded / bpb) bpb padded)).

(** ** bitpack_accessors.py: packed tensor fields *)
(** 37-69 [_get_bitpack_pack_tables], 160-236 [_pack_value] *)
Definition pack_value (bits : nat) (vals : list N) : list N :=
  let n := length vals in
  let plen := packed_num_bytes n bits in
  if n =? 0 then repeat 0%N plen
  else if bits =? 1 then packbits (map (fun v => negb (v =? 0)%N) vals)
  else
    let vpb := lcm8 bits / bits in
    let padded := ceil_div n vpb * vpb in
    let nwords := if padded * bits =? 0 then 0 else ceil_div (padded * bits) 32 in
    let flat := map w32 (vals ++ repeat 0%N (padded - n)) in
    if nwords =? 0 then repeat 0%N plen
    else firstn plen (flat_map word_bytes (pack_words [MkSpec ["leaf"%string] bits padded 0] nwords flat)).
(** 80-157 [_unpack_value] (before the final cast to the declared dtype) *)
Definition unpack_value (bits n : nat) (bytes : list N) : list N :=
  if n =? 0 then []
  else if bits =? 1 then map (fun b : bool => if b then 1%N else 0%N) (unpackbits n bytes)
  else
    let padded := pad_to 4 0%N bytes in
    let words := map bytes_word (chunks (length padded / 4) 4 padded) in
    map (fun i => let v := decode_at words (w32 (N.of_nat i * N.of_nat bits)) bits in
                  if bits <=? 8 then (v mod 256)%N else v) (seq 0 n).
