(** * SchemaModel.v — aggregate_bitpack/__init__.py and spec.py on instances of any dtype, the
    layout description [bitpack_schema()] and [unpack_field] (definitions only).

    AggModel.v packs boolean and integer leaves; here the conversion to uint32 is jax's [astype]
    from any dtype (PromoteModel.v).  [None] is a raised exception. *)
From Coq Require Import Ascii String.
From Verif Require Import Jax HashModel BitpackModel StructModel ArrayModel ShapeModel RowsModel EqModel RowsModel2 PromoteModel AggModel.

(** ** Packing leaves of any dtype *)
(** __init__.py 149-155: [arr.reshape((flat_n, nvalues)).astype(jnp.uint32)] ([u32] does nothing
    to a uint32 value but change its type) *)
Definition leaf_rows_any (n : nat) (o : obj) (s : leafspec) : option (list (list N)) :=
  match get_path_v (VObj o) (lpath s) with
  | Some (VArr a) => if prod (ashape a) =? n * lnvalues s then Some (chunks n (lnvalues s) (map (fun z => u32 (conv (adtype a) (DUInt 32) z)) (adata a))) else None
  | _ => None
  end.
(** __init__.py 134-219 [_pack_instance], [packed] *)
Definition pack_any (be : pack_backend) (c : class) (o : obj) : option obj :=
  match agg_c c, get_batch c o with
  | Some fs, Some (Batch B) =>
      let '(specs, total) := agg_spec fs in
      let '(nwords, stored, tail) := word_tail_layout total in
      let n := prod B in
      match seq_opt (map (leaf_rows_any n o) specs) with
      | None => None
      | Some leaves =>
          let rows := map (fun r => flat_map (fun l => nth r l []) leaves) (seq 0 n) in
          let words := if total_values specs =? 0 then map (fun _ => repeat 0%N nwords) rows else pack_rows be specs nwords rows in
          let st := map (store total) words in
          Some (OCons "words" (VArr (MkArr (DUInt 32) (B ++ [stored]) (map Z.of_N (flat_map fst st))))
               (OCons "tail" (VArr (MkArr (DUInt 8) (B ++ [tail]) (map Z.of_N (flat_map snd st)))) ONil))
      end
  | _, _ => None
  end.
(** __init__.py 457-489 [unpack(dtype_policy="declared")], [as_original]: [astype] of every
    field of [unpacked] to the declared dtype *)
Fixpoint restore_v (d : desc) (v : value) : value :=
  match d, v with
  | Prim dt _ _ _ _, VArr a => VArr (a_conv dt a)
  | Nest c _, VObj o => VObj (restore c o)
  | _, _ => v
  end
with restore (c : class) (o : obj) : obj :=
  match c, o with
  | CCons _ d r, OCons n v q => OCons n (restore_v d v) (restore r q)
  | _, _ => o
  end.
Definition original_any (c : class) (p : obj) : option obj := option_map (restore c) (unpack_obj c p).

(** ** The layout description *)
(** spec.py 16-30 [_AggLeafSpec] *)
Record fullspec := MkFull { f_path : list string; f_bits : nat; f_shape : list nat; f_nvalues : nat; f_offset : nat; f_len : nat; f_default : dtype; f_declared : dtype }.
(** spec.py 146-203 [_build_agg_spec] *)
Fixpoint full_d (prefix : list string) (off : nat) (d : desc) : option (list fullspec * nat) :=
  match d with
  | Prim dt ish (Some b) _ _ =>
      let nvalues := prod ish in
      let bit_len := nvalues * b in
      Some ([MkFull prefix b ish nvalues off bit_len (unpack_dtype b) dt], off + bit_len)
  | Prim _ _ None _ _ => None
  | Nest c [] => full_c prefix off c
  | Nest _ _ => None
  end
with full_c (prefix : list string) (off : nat) (c : class) : option (list fullspec * nat) :=
  match c with
  | CNil => Some ([], off)
  | CCons n d r =>
      match full_d (prefix ++ [n]) off d with
      | Some (s1, off1) => match full_c prefix off1 r with Some (s2, off2) => Some (s1 ++ s2, off2) | None => None end
      | None => None
      end
  end.
(** __init__.py 209-236 [bitpack_schema] (without "mode" and "class"; dtypes themselves instead
    of their names) *)
Record field_info := MkInfo { i_path : string; i_bits : nat; i_offset : nat; i_len : nat; i_nvalues : nat; i_shape : list nat; i_default : dtype; i_declared : dtype }.
Record schema := MkSchema { s_total_bits : nat; s_payload_bytes : nat; s_storage_bytes : nat; s_words_all : nat; s_words : nat; s_tail : nat; s_fields : list field_info }.
Definition info_of (s : fullspec) : field_info :=
  MkInfo (String.concat "." (f_path s)) (f_bits s) (f_offset s) (f_len s) (f_nvalues s) (f_shape s) (f_default s) (f_declared s).
Definition bitpack_schema (c : class) : option schema :=
  match full_c [] 0 c with
  | Some (specs, total) =>
      let '(words_all, stored, tail) := word_tail_layout total in
      Some (MkSchema total (ceil_div total 8) (stored * 4 + tail) words_all stored tail (map info_of specs))
  | None => None
  end.

(** ** Reading one field *)
(** [name.split(".")] *)
Fixpoint split_dots (s : string) : list string :=
  match s with
  | EmptyString => [EmptyString]
  | String a r =>
      if Ascii.eqb a "."%char then EmptyString :: split_dots r
      else match split_dots r with w :: l => String a w :: l | [] => [String a EmptyString] end
  end.
(** the [name] argument: a string, or a sequence of strings (429) *)
Inductive name_arg := Dotted (s : string) | Path (l : list string).
Definition path_of (n : name_arg) : list string := match n with Dotted s => split_dots s | Path l => l end.
(** the [indices] argument: None, a slice, or an int or array, flattened *)
Inductive index_arg := Everything | Slice (start stop step : option Z) | Entries (l : list Z).
(** [jnp.arange(start, stop, step)]: ceil((stop - start) / step) entries; a zero step raises *)
Definition arange (start stop step : Z) : option (list Z) :=
  if (step =? 0)%Z then None
  else Some (map (fun k => start + Z.of_nat k * step)%Z (seq 0 (Z.to_nat (- ((- (stop - start)) / step))))).
(** __init__.py 269-280 [_normalize_indices] *)
Definition normalize_indices (nvalues : nat) (i : index_arg) : option (list Z) :=
  match i with
  | Everything => Some (map Z.of_nat (seq 0 nvalues))
  | Slice start stop step =>
      arange (match start with Some z => z | None => 0 end)
             (match stop with Some z => z | None => Z.of_nat nvalues end)
             (match step with Some z => z | None => 1 end)
  | Entries l => Some l
  end.
(** __init__.py 401-455 [unpack_field]; [policy]: None for an unknown dtype_policy, otherwise
    whether it is "declared" *)
Definition read_field (c : class) (p : obj) (name : name_arg) (idx : index_arg) (policy : option bool) : option array :=
  match policy, full_c [] 0 c with
  | Some decl, Some (specs, total) =>
      match find (fun s => path_eqb (f_path s) (path_of name)) specs with
      | Some s =>
          match get_batch (packed_class total) p with
          | Some (Batch B) =>
              match words_all total (prod B) p, normalize_indices (f_nvalues s) idx with
              | Some rows, Some l =>
                  let spec := MkSpec (f_path s) (f_bits s) (f_nvalues s) (f_offset s) in
                  let data := map Z.of_N (flat_map (fun ws => decode_field ws spec l) rows) in
                  let out := MkArr (f_default s) (B ++ match idx with Everything => f_shape s | _ => [length l] end) data in
                  Some (if decl then a_conv (f_declared s) out else out)
              | _, _ => None
              end
          | _ => None
          end
      | None => None
      end
  | _, _ => None
  end.
