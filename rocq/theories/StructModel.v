(** * StructModel.v — arrays, dataclass descriptors and instances (definitions only).

    core/field_descriptors.py [FieldDescriptor], [_default_fill_value_for_dtype];
    core/xtructure_decorators/default.py.

    An array is a dtype, a shape and its elements in row-major order.  Integer and boolean
    elements are their mathematical values; a float is its bit pattern (it is only moved).
    A class is the ordered list of its field descriptors; an instance has one value per
    field: an array or a nested instance. *)
From Coq Require Import String.
From Verif Require Import Jax.

Inductive dtype := DBool | DUInt (w : nat) | DInt (w : nat) | DFloat (w : nat).
Record array := MkArr { adtype : dtype; ashape : list nat; adata : list Z }.
Definition prod (s : list nat) : nat := fold_right Nat.mul 1 s.

(** FieldDescriptor.__init__ 63-134: dtype, intrinsic_shape, bits, packed_bits (present or
    not), fill_value; a nested field's dtype is a class *)
Inductive desc :=
  | Prim (dt : dtype) (ishape : list nat) (bits : option nat) (packed_bits : bool) (fill : Z)
  | Nest (c : class) (ishape : list nat)
with class := CNil | CCons (name : string) (d : desc) (rest : class).
Inductive value := VArr (a : array) | VObj (o : obj)
with obj := ONil | OCons (name : string) (v : value) (rest : obj).
Scheme desc_mut := Induction for desc Sort Prop with class_mut := Induction for class Sort Prop.
Combined Scheme desc_class_ind from desc_mut, class_mut.
Scheme value_mut := Induction for value Sort Prop with obj_mut := Induction for obj Sort Prop.
Combined Scheme value_obj_ind from value_mut, obj_mut.

Fixpoint names (c : class) : list string := match c with CNil => [] | CCons n _ r => n :: names r end.

(** the instance has the fields of the class, with the declared dtypes *)
Fixpoint conforms_v (d : desc) (v : value) : Prop :=
  match d, v with
  | Prim dt _ _ _ _, VArr a => adtype a = dt /\ length (adata a) = prod (ashape a)
  | Nest c _, VObj o => conforms c o
  | _, _ => False
  end
with conforms (c : class) (o : obj) : Prop :=
  match c, o with
  | CNil, ONil => True
  | CCons n d r, OCons m v q => n = m /\ conforms_v d v /\ conforms r q
  | _, _ => False
  end.

(** the values a dtype can hold *)
Definition in_dtype (dt : dtype) (z : Z) : Prop :=
  match dt with
  | DBool => z = 0%Z \/ z = 1%Z
  | DUInt w => (0 <= z < 2 ^ Z.of_nat w)%Z
  | DInt w => (- 2 ^ (Z.of_nat w - 1) <= z < 2 ^ (Z.of_nat w - 1))%Z
  | DFloat w => (0 <= z < 2 ^ Z.of_nat w)%Z
  end.
(** [astype] from a boolean or integer array (to a float dtype: not modelled, identity) *)
Definition wrap (w : nat) (z : Z) : Z :=
  let r := (z mod 2 ^ Z.of_nat w)%Z in if (r <? 2 ^ (Z.of_nat w - 1))%Z then r else (r - 2 ^ Z.of_nat w)%Z.
Definition cast (dt : dtype) (z : Z) : Z :=
  match dt with
  | DBool => if (z =? 0)%Z then 0%Z else 1%Z
  | DUInt w => (z mod 2 ^ Z.of_nat w)%Z
  | DInt w => wrap w z
  | DFloat _ => z
  end.
Definition is_int (dt : dtype) : bool := match dt with DUInt _ | DInt _ => true | _ => false end.
(** field_descriptors.py 292-311 [_default_fill_value_for_dtype] (+inf for floats is given
    by its bit pattern in the float format) *)
Definition default_fill (dt : dtype) : Z :=
  match dt with
  | DBool => 0%Z
  | DUInt w => (2 ^ Z.of_nat w - 1)%Z
  | DInt _ => 0%Z
  | DFloat w => if w =? 16 then 0x7C00%Z else if w =? 64 then 0x7FF0000000000000%Z else 0x7F800000%Z
  end.
(** default.py 138-174 [default(shape)] *)
Definition full (dt : dtype) (shape : list nat) (fill : Z) : array := MkArr dt shape (repeat fill (prod shape)).
Fixpoint default_v (shape : list nat) (d : desc) : value :=
  match d with
  | Prim dt ish _ _ fill => VArr (full dt (shape ++ ish) fill)
  | Nest c ish => VObj (default_obj (shape ++ ish) c)
  end
with default_obj (shape : list nat) (c : class) : obj :=
  match c with
  | CNil => ONil
  | CCons n d r => OCons n (default_v shape d) (default_obj shape r)
  end.
