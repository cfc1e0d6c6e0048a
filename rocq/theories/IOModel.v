(** * IOModel.v — io/io.py (definitions only).

    The .npz file is a dictionary from strings to arrays or strings; writing and reading it
    back through NumPy is trusted to preserve keys, dtypes, shapes and elements (true of the
    native NumPy dtypes).  [None] stands for an exception. *)
From Coq Require Import String.
From Verif Require Import Jax StructModel BitpackModel EqModel PromoteModel.
Local Open Scope string_scope.

Inductive entry := EArr (a : array) | EStr (s : string).
Definition dict := list (string * entry).
(** latest binding first *)
Definition dget (d : dict) (k : string) : option entry :=
  match find (fun e => String.eqb (fst e) k) d with Some e => Some (snd e) | None => None end.
Definition dset (d : dict) (k : string) (e : entry) : dict := (k, e) :: d.

(** 17-31 *)
Definition module_key := "__xtructure_class_module__".
Definition name_key := "__xtructure_class_name__".
Definition bitpack_prefix := "__xtructure_bitpack__".
Definition bp_key (full what : string) : string := full ++ "." ++ bitpack_prefix ++ "." ++ what.

(** the elements handed to to_uint8, as the unsigned value of their two's complement *)
Definition raw (z : Z) : N := Z.to_N (z mod 2 ^ 64).
(** ... and of a float element: with one bit per value [to_uint8] tests [!= 0] (bitpack.py
    149-153); more bits are refused *)
Definition packed_value (dt : dtype) (z : Z) : N :=
  match dt with DFloat w => if (fmag w z =? 0)%Z then 0%N else 1%N | _ => raw z end.
(** the dtype of [from_uint8]'s result (bitpack.py 204-296) *)
Definition loaded_dtype (bits : nat) : dtype := if Nat.eqb bits 1 then DBool else if Nat.leb bits 8 then DUInt 8 else DUInt 32.
Definition dtype_name (dt : dtype) : string :=
  match dt with DBool => "bool" | DUInt _ => "uint" | DInt _ => "int" | DFloat _ => "float" end.
(** 34-77 [_flatten_instance_for_save] *)
Definition save_array (packed : bool) (key : string) (bits : option nat) (packed_bits : bool) (a : array) : dict :=
  match bits with
  | Some b => if packed && negb packed_bits then
      [(bp_key key "dtype", EStr (dtype_name (adtype a)));
       (bp_key key "bits", EArr (MkArr (DUInt 8) [1] [Z.of_nat b]));
       (bp_key key "shape", EArr (MkArr (DInt 32) [length (ashape a)] (map Z.of_nat (ashape a))));
       (bp_key key "data", let bytes := to_uint8 b (map (packed_value (adtype a)) (adata a)) in EArr (MkArr (DUInt 8) [length bytes] (map Z.of_N bytes)))]
      else [(key, EArr a)]
  | None => [(key, EArr a)]
  end.
Fixpoint flatten_v (packed : bool) (key : string) (d : desc) (v : value) : dict :=
  match d, v with
  | Prim _ _ bits pb _, VArr a => save_array packed key bits pb a
  | Nest c _, VObj o => flatten_obj packed (key ++ ".") c o
  | _, _ => []
  end
with flatten_obj (packed : bool) (prefix : string) (c : class) (o : obj) : dict :=
  match c, o with
  | CCons n d r, OCons _ v q => (flatten_obj packed prefix r q ++ flatten_v packed (prefix ++ n) d v)%list
  | _, _ => []
  end.
(** to_uint8's assertions (bitpack.py 147, 155): 1 <= bits <= 32, and the array has an integer
    dtype when bits > 1 *)
Fixpoint packable_v (d : desc) (v : value) : bool :=
  match d, v with
  | Prim _ _ (Some b) pb _, VArr a => pb || ((1 <=? b)%nat && (b <=? 32)%nat && ((b =? 1)%nat || is_int (adtype a)))
  | Nest c _, VObj o => packable c o
  | _, _ => true
  end
with packable (c : class) (o : obj) : bool :=
  match c, o with CCons _ d r, OCons _ v q => packable_v d v && packable r q | _, _ => true end.
(** 80-110 [save]: the keys are passed as keyword arguments to
    np.savez_compressed(file, ...), so a key named "file" is a TypeError *)
Definition save (packed : bool) (modname clsname : string) (c : class) (o : obj) : option dict :=
  if negb packed || packable c o then
    let d := flatten_obj packed "" c o in
    match dget d "file" with
    | Some _ => None
    | None => Some (dset (dset d module_key (EStr modname)) name_key (EStr clsname))
    end
  else None.

(** 113-151 [_unflatten_data_for_load].  A key that is in neither form leaves the field
    out, and the constructor then fails. *)
Definition load_array (key : string) (dt : dtype) (data : dict) : option array :=
  match dget data (bp_key key "data"), dget data (bp_key key "shape"), dget data (bp_key key "bits") with
  | Some x, Some y, Some z =>
      match x, y, z with
      | EArr bytes, EArr shp, EArr b =>
          let bits := Z.to_nat (hd 0%Z (adata b)) in
          let shape := map Z.to_nat (adata shp) in
          Some (MkArr dt shape (map (fun v => conv (loaded_dtype bits) dt (Z.of_N v)) (from_uint8 bits (map Z.to_N (adata bytes)) (prod shape))))
      | _, _, _ => None
      end
  | _, _, _ => match dget data key with Some (EArr a) => Some a | _ => None end
  end.
Fixpoint load_v (key : string) (d : desc) (data : dict) : option value :=
  match d with
  | Prim dt _ _ _ _ => option_map VArr (load_array key dt data)
  | Nest c _ => option_map VObj (load_obj (key ++ ".") c data)
  end
with load_obj (prefix : string) (c : class) (data : dict) : option obj :=
  match c with
  | CNil => Some ONil
  | CCons n d r => match load_v (prefix ++ n) d data, load_obj prefix r data with
                   | Some v, Some q => Some (OCons n v q)
                   | _, _ => None
                   end
  end.
(** 154-187 [load]; [env] is importlib.import_module + getattr *)
Definition load (env : string -> string -> option class) (data : dict) : option obj :=
  match dget data module_key, dget data name_key with
  | Some (EStr m), Some (EStr n) => match env m n with Some c => load_obj "" c data | None => None end
  | _, _ => None
  end.
