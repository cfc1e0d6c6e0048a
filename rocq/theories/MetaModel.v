(** * MetaModel.v — core/field_descriptor_utils.py 84-96 [descriptor_metadata] and the call
      [FieldDescriptor( **metadata )] with keywords (definitions only). *)
From Coq Require Import String.
From Verif Require Import Jax StructModel ArrayModel ConstructModel.
Local Open Scope string_scope.

(** the values of the dict *)
Inductive meta :=
  | MType (t : ftype) | MShape (s : list nat) | MFill (z : option Z) | MFactory (f : option factory) | MValidator (v : option (value -> bool))
  | MBits (b : option Z) | MDtype (t : option dtype) | MOptShape (s : option (list nat)).
(** field_descriptor_utils.py 84-96 *)
Definition descriptor_metadata (d : fdesc) : list (string * meta) :=
  [("dtype", MType (f_dtype d)); ("intrinsic_shape", MShape (f_shape d)); ("fill_value", MFill (f_fill d)); ("fill_value_factory", MFactory (f_factory d));
   ("validator", MValidator (f_validator d)); ("bits", MBits (f_bits d)); ("packed_bits", MBits (f_packed_bits d)); ("unpacked_dtype", MDtype (f_unpacked_dtype d));
   ("unpacked_intrinsic_shape", MOptShape (f_unpacked_shape d))].
Fixpoint get (k : string) (l : list (string * meta)) : option meta :=
  match l with [] => None | (n, v) :: r => if String.eqb n k then Some v else get k r end.
(** field_descriptors.py 66-79: the keywords of [__init__]; an unknown keyword and a missing [dtype]
    raise.  (A value of the wrong kind under a keyword is also taken as an exception; the code
    would accept some of these.) *)
Definition PARAMS : list string := ["dtype"; "intrinsic_shape"; "fill_value"; "bits"; "packed_bits"; "unpacked_dtype"; "unpacked_intrinsic_shape"; "fill_value_factory"; "validator"].
Definition from_keywords (l : list (string * meta)) : option fdesc :=
  if negb (forallb (fun p => existsb (String.eqb (fst p)) PARAMS) l) then None
  else match get "dtype" l, get "intrinsic_shape" l, get "fill_value" l, get "bits" l, get "packed_bits" l with
  | Some (MType t), (None | Some (MShape _)) as s, (None | Some (MFill _)) as z, (None | Some (MBits _)) as b, (None | Some (MBits _)) as p =>
    match get "unpacked_dtype" l, get "unpacked_intrinsic_shape" l, get "fill_value_factory" l, get "validator" l with
    | (None | Some (MDtype _)) as ud, (None | Some (MOptShape _)) as us, (None | Some (MFactory _)) as f, (None | Some (MValidator _)) as v =>
        new_descriptor t (match s with Some (MShape x) => x | _ => [] end) (match z with Some (MFill x) => x | _ => None end)
          (match b with Some (MBits x) => x | _ => None end) (match p with Some (MBits x) => x | _ => None end)
          (match ud with Some (MDtype x) => x | _ => None end) (match us with Some (MOptShape x) => x | _ => None end)
          (match f with Some (MFactory x) => x | _ => None end) (match v with Some (MValidator x) => x | _ => None end)
    | _, _, _, _ => None
    end
  | _, _, _, _, _ => None
  end.
