(** * ConstructModel.v — declaring fields and building instances (definitions only):
    core/field_descriptors.py, core/field_descriptor_utils.py,
    core/xtructure_decorators/{default,structure_util,validation}.py.

    [None] is a raised exception. *)
From Coq Require Import String.
From Verif Require Import Jax StructModel ArrayModel EqModel BitpackModel.

(** ** Random instances *)
(** jax.random as the code uses it: PRNGKey(0), split(key, n), bits, uniform and bernoulli;
    [draw_*] get the key, the shape (and the width of the dtype) and give the elements in
    row-major order.  A float is its bit pattern. *)
Record prng := MkPrng {
  key : Type;
  key0 : key;
  split : key -> nat -> list key;
  draw_bits : key -> list nat -> nat -> list Z;
  draw_uniform : key -> list nat -> nat -> list Z;
  draw_bernoulli : key -> list nat -> list Z }.
(** structure_util.py 75-140: one array field.  A signed integer field draws the unsigned
    type of the same size and views the bits as signed *)
Definition draw (g : prng) (dt : dtype) (s : list nat) (k : key g) : array :=
  MkArr dt s (match dt with
              | DUInt w => draw_bits g k s w
              | DInt w => map (wrap w) (draw_bits g k s w)
              | DFloat w => draw_uniform g k s w
              | DBool => draw_bernoulli g k s
              end).
(** structure_util.py 98-147 [random(shape, key)]: one key per field, in field order; a nested
    field is [random] of its class with the shape extended by the declared shape *)
Fixpoint random_v (g : prng) (s : list nat) (d : desc) (k : key g) {struct d} : value :=
  match d with
  | Prim dt ish _ _ _ => VArr (draw g dt (s ++ ish) k)
  | Nest c ish => VObj (random_fields g (s ++ ish) c (split g k (length (names c))))
  end
with random_fields (g : prng) (s : list nat) (c : class) (ks : list (key g)) {struct c} : obj :=
  match c with
  | CNil => ONil
  | CCons n d r => OCons n (random_v g s d (hd (key0 g) ks)) (random_fields g s r (tl ks))
  end.
Definition random (g : prng) (c : class) (s : list nat) (k : option (key g)) : obj :=
  random_fields g s c (split g (match k with Some k => k | None => key0 g end) (length (names c))).

(** ** Validation *)
Section Validation.
(** [isinstance] for nested instances, and the validator of each field (by class and name)
    that has one; [false] is a raised exception *)
Variable isinst : class -> obj -> bool.
Variable validator : string -> option (value -> bool).
(** validation.py 17-50 [_validate_array_field] *)
Definition check_array (dt : dtype) (ish : list nat) (v : value) : bool :=
  match v with
  | VObj _ => false
  | VArr a => dtype_eqb (adtype a) dt &&
      match ish with
      | [] => true
      | _ => if ndim a <? length ish then false
             else shape_eqb (skipn (ndim a - length ish) (ashape a)) ish
      end
  end.
(** validation.py 52-67 [check_invariants] *)
Fixpoint check_invariants (c : class) (o : obj) : bool :=
  match c, o with
  | CNil, ONil => true
  | CCons n d r, OCons _ v q =>
      (match validator n with Some f => f v | None => true end) &&
      (match d with
       | Nest c' _ => match v with VObj o' => isinst c' o' | VArr _ => false end
       | Prim dt ish _ _ _ => check_array dt ish v
       end) && check_invariants r q
  | _, _ => false
  end.
(** validation.py 71-82: the constructor of a class decorated with [validate=True] *)
Definition construct (validate : bool) (c : class) (o : obj) : option obj :=
  if validate then (if check_invariants c o then Some o else None) else Some o.
End Validation.

(** ** Field descriptors *)
Inductive ftype := TArr (dt : dtype) | TCls (c : class).
Definition factory := list nat -> dtype -> array.
Record fdesc := MkFD {
  f_dtype : ftype;
  f_shape : list nat;
  f_fill : option Z;
  f_factory : option factory;
  f_bits : option Z;
  f_packed_bits : option Z;
  f_unpacked_dtype : option dtype;
  f_unpacked_shape : option (list nat);
  f_validator : option (value -> bool) }.
(** field_descriptors.py 289-307 [_default_fill_value_for_dtype] *)
Definition fill_for (t : ftype) : option Z :=
  match t with
  | TCls _ => None
  | TArr DBool => Some 0%Z
  | TArr (DUInt w) => Some (2 ^ Z.of_nat w - 1)%Z
  | TArr (DInt _) => Some 0%Z
  | TArr (DFloat w) => Some (inf_pat w)
  end.
Definition in_1_32 (b : option Z) : bool := match b with Some z => (1 <=? z)%Z && (z <=? 32)%Z | None => true end.
Definition is_some {A} (x : option A) : bool := match x with Some _ => true | None => false end.
(** field_descriptors.py 66-132 [FieldDescriptor(...)] *)
Definition new_descriptor (t : ftype) (s : list nat) (fill : option Z) (bits packed : option Z) (ud : option dtype)
    (us : option (list nat)) (fac : option factory) (val : option (value -> bool)) : option fdesc :=
  if is_some fill && is_some fac then None
  else if negb (in_1_32 bits) then None
  else if negb (in_1_32 packed) then None
  else Some (MkFD t s (match fill, fac with Some z, _ => Some z | None, Some _ => None | None, None => fill_for t end)
               fac bits packed ud us val).
(** 147-174 [tensor], 176-202 [scalar] *)
Definition tensor (t : ftype) (s : list nat) (bits packed : option Z) ud us fill fac val := new_descriptor t s fill bits packed ud us fac val.
Definition scalar (t : ftype) (bits packed : option Z) ud us (default : option Z) fac val := new_descriptor t [] default bits packed ud us fac val.
(** 204-258 [packed_tensor]; the storage dtype is uint8 unless given.  The length is computed
    before [FieldDescriptor] checks [packed_bits]: 0 bits divide by zero (ZeroDivisionError) and
    other values out of range are rejected later, an exception in every case *)
Definition packed_tensor (ud : option dtype) (shape unpacked_shape : option (list nat)) (packed : Z) (storage : dtype)
    (fill : option Z) (fac : option factory) (val : option (value -> bool)) : option fdesc :=
  match shape, unpacked_shape with
  | None, None => None
  | _, _ =>
      let s := match shape, unpacked_shape with Some s, _ => s | None, Some u => u | None, None => [] end in
      if negb (match unpacked_shape with Some u => shape_eqb u s | None => true end) then None
      else
        let u := match ud with Some u => u | None => if (packed =? 1)%Z then DBool else if (packed <=? 8)%Z then DUInt 8 else DUInt 32 end in
        new_descriptor (TArr storage) [packed_num_bytes (prod s) (Z.to_nat packed)] fill None (Some packed) (Some u) (Some s) fac val
  end.
(** 260-286 [FieldDescriptor[...]]: the items after the dtype are tuples (of sizes) or values.
    With three items the first of them is the shape; an int there is not modelled *)
Inductive item := ITuple (s : list nat) | IValue (z : option Z).
Definition class_getitem (t : ftype) (items : list item) : option fdesc :=
  match items with
  | [] => new_descriptor t [] None None None None None None None
  | [ITuple s] => new_descriptor t s None None None None None None None
  | [IValue z] => new_descriptor t [] z None None None None None None
  | [ITuple s; IValue z] => new_descriptor t s z None None None None None None
  | _ => None
  end.
(** field_descriptor_utils.py 16-62 [clone_field_descriptor]: [None] for an argument that is
    not given, [Some x] for one given as [x] (which may itself be None) *)
Definition clone (d : fdesc) (dtype : option ftype) (shape : option (list nat)) (fill : option (option Z))
    (fac : option (option factory)) (val : option (option (value -> bool))) : option fdesc :=
  if is_some fill && is_some fac then None
  else
    let '(fl, fc) := match fill, fac with
                     | None, None => (f_fill d, f_factory d)
                     | _, Some fc => (None, fc)
                     | Some fl, None => (fl, None)
                     end in
    new_descriptor (match dtype with Some t => t | None => f_dtype d end)
                   (match shape with Some s => s | None => f_shape d end)
                   fl (f_bits d) (f_packed_bits d) (f_unpacked_dtype d) (f_unpacked_shape d) fc
                   (match val with Some v => v | None => f_validator d end).
(** 65-69, 72-81 *)
Definition with_intrinsic_shape (d : fdesc) (s : list nat) : option fdesc := clone d None (Some s) None None None.
Definition broadcast_intrinsic_shape (d : fdesc) (B : list nat) : option fdesc := clone d None (Some (B ++ f_shape d)) None None None.

(** default.py 142-174: the value of one field in [default(shape)].  [jnp.full] broadcasts an
    array result of the factory and converts it to the dtype *)
Definition full_array (dt : dtype) (s : list nat) (a : array) : option array :=
  option_map (fun b => MkArr dt s (map (cast dt) (adata b))) (a_broadcast_to s a).
Definition default_field (s : list nat) (d : fdesc) : option value :=
  match f_dtype d with
  | TCls c => Some (VObj (default_obj (s ++ f_shape d) c))
  | TArr dt =>
      match f_factory d with
      | Some f => option_map VArr (full_array dt (s ++ f_shape d) (f (s ++ f_shape d) dt))
      | None => match f_fill d with Some z => Some (VArr (full dt (s ++ f_shape d) z)) | None => None end
      end
  end.
