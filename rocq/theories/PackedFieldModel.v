(** * PackedFieldModel.v — core/xtructure_decorators/bitpack_accessors.py on instances with a
    batch shape: [x_unpacked], [set_unpacked] and [from_unpacked] (definitions only).

    BitpackModel.v has [pack_value]/[unpack_value] for one row.  [None] is a raised exception.
    Values are arrays of any dtype.  Simplification: a float outside the range of uint32 converts
    as in PromoteModel.v (jax leaves it to the platform). *)
From Coq Require Import String.
From Verif Require Import Jax StructModel ArrayModel ShapeModel BitpackModel AggModel IOModel PromoteModel.

(** the packed metadata of a field: packed_bits, unpacked_dtype, unpacked_intrinsic_shape;
    [pk] gives it for the fields for which [_is_packed_descriptor] (72-77) holds *)
Record pinfo := MkP { p_bits : nat; p_dtype : dtype; p_shape : list nat }.
Definition p_len (p : pinfo) : nat := packed_num_bytes (prod (p_shape p)) (p_bits p).

(** 80-165 [_unpack_value]: bytes are read as uint8; [reshape((-1, len))] with [len = 0]
    raises before the test for an empty field is reached *)
Definition unpack_array (p : pinfo) (B : list nat) (a : array) : option array :=
  let n := prod (p_shape p) in
  if ndim a =? 0 then None
  else if negb (last (ashape a) 0 =? p_len p) then None
  else if p_len p =? 0 then None
  else let rows := chunks (prod (ashape a) / p_len p) (p_len p) (map (fun z => Z.to_N (z mod 256)) (adata a)) in
       a_reshape (B ++ p_shape p)
         (MkArr (p_dtype p) [length rows; n] (flat_map (fun r => map (fun v => conv (loaded_dtype (p_bits p)) (p_dtype p) (Z.of_N v)) (unpack_value (p_bits p) n r)) rows)).
(** 193-197, 223: one entry, tested [!= 0] or converted to uint32 before it is packed *)
Definition field_value (dt : dtype) (bits : nat) (z : Z) : N :=
  if bits =? 1 then packed_value dt z else Z.to_N (conv dt (DUInt 32) z).
(** 168-228 [_pack_value]: [reshape((-1, n))] with [n = 0] raises *)
Definition pack_array (p : pinfo) (B : list nat) (v : array) : option array :=
  let n := prod (p_shape p) in
  if negb (shape_eqb (firstn (length B) (ashape v)) B) then None
  else if negb (shape_eqb (skipn (length B) (ashape v)) (p_shape p)) then None
  else if n =? 0 then None
  else let rows := chunks (prod (ashape v) / n) n (map (field_value (adtype v) (p_bits p)) (adata v)) in
       a_reshape (B ++ [p_len p]) (MkArr (DUInt 8) [length rows; p_len p] (map Z.of_N (flat_map (pack_value (p_bits p)) rows))).

Section Accessors.
Variable c : class.
Variable pk : string -> option pinfo.
(** 247-262 the property [<name>_unpacked] *)
Definition get_unpacked (o : obj) (n : string) : option array :=
  match pk n, get_batch c o, get_attr_o o n with
  | Some p, Some (Batch B), Some (VArr a) => unpack_array p B a
  | _, _, _ => None
  end.
(** dataclasses.replace(self, updates) *)
Definition replace (o : obj) (updates : list (string * value)) : obj := fold_left (fun q u => set_field q (fst u) (snd u)) updates o.
Definition is_field (n : string) : bool := existsb (String.eqb n) (names c).
(** 264-284 [set_unpacked(name=value, ...)]: all updates are computed from the given values first *)
Fixpoint pack_updates (B : list nat) (kwargs : list (string * array)) : option (list (string * value)) :=
  match kwargs with
  | [] => Some []
  | (n, v) :: r =>
      if negb (is_field n) then None
      else match pk n with
           | None => None
           | Some p => match pack_array p B v, pack_updates B r with Some a, Some us => Some ((n, VArr a) :: us) | _, _ => None end
           end
  end.
Definition set_unpacked (o : obj) (kwargs : list (string * array)) : option obj :=
  match get_batch c o with
  | Some (Batch B) => match pack_updates B kwargs with Some us => Some (replace o us) | None => None end
  | _ => None
  end.
(** 288-331 [from_unpacked(shape, name=value, ...)] *)
Definition lookup {X} (n : string) (kwargs : list (string * X)) : option X :=
  match find (fun e => String.eqb (fst e) n) kwargs with Some e => Some (snd e) | None => None end.
Definition pack_arg (B : list nat) (n : string) (v : value) : option value :=
  match pk n with
  | Some p => match v with VArr a => option_map VArr (pack_array p B a) | VObj _ => None end
  | None => Some v
  end.
Fixpoint build_all (B : list nat) (c' : class) (kwargs : list (string * value)) : option obj :=
  match c' with
  | CNil => Some ONil
  | CCons n _ r => match lookup n kwargs with
                   | Some v => match pack_arg B n v, build_all B r kwargs with Some v', Some q => Some (OCons n v' q) | _, _ => None end
                   | None => None
                   end
  end.
Fixpoint mixed_updates (B : list nat) (kwargs : list (string * value)) : option (list (string * value)) :=
  match kwargs with
  | [] => Some []
  | (n, v) :: r =>
      if negb (is_field n) then None
      else match pack_arg B n v, mixed_updates B r with Some v', Some us => Some ((n, v') :: us) | _, _ => None end
  end.
Definition from_unpacked (shape : list nat) (kwargs : list (string * value)) : option obj :=
  if forallb (fun n => existsb (String.eqb n) (map fst kwargs)) (names c) then build_all shape c kwargs
  else option_map (replace (default_obj shape c)) (mixed_updates shape kwargs).
End Accessors.
