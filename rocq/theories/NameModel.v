(** Model of what the decorator does to a class: the names it puts on it, and Python's
    rules for reading and assigning attributes.

    Python semantics modelled (language reference, "Data model", 3.3.2.2-3):
    - a class is its method resolution order, own namespace first (single inheritance);
    - a [property] is a data descriptor: reading it on an instance wins over the
      instance dictionary, and assigning to it raises AttributeError because none of the
      library's properties has a setter;
    - functions, classmethods and plain values on the class are found only after the
      instance dictionary. *)
From Coq Require Import List String Ascii Bool Arith Lia.
Import ListNotations.
Open Scope string_scope.

(** whose definition a class attribute is *)
Inductive who := Lib | User (n : nat).

(** field_descriptors.py 62-140: of a descriptor only two facts matter here:
    [fd_packed] - packed_bits/unpacked_* are set (bitpack_accessors.py 73-78);
    [fd_bits] - all primitive leaves below it have [bits] and nested fields are scalar
    (decorators/__init__.py 94-107). *)
Record fd := Build_fd { fd_packed : bool; fd_bits : bool }.

Inductive attr :=
| AFun (w : who)                       (* function, classmethod, plain value *)
| AProp (w : who)                      (* property without a setter *)
| ACtor (validate : bool)              (* __init__ *)
| AFields (l : list (string * bool))   (* __dataclass_fields__: name, has a default *)
| ADescs (l : list (string * fd)).     (* __xtructure_field_descriptors__ *)

Definition ns := list (string * attr).
Definition cls := list ns.

Fixpoint assoc {A} (k : string) (l : list (string * A)) : option A :=
  match l with
  | [] => None
  | (k', a) :: r => if k =? k' then Some a else assoc k r
  end.

(** getattr on a class: first namespace of the resolution order that has the name *)
Fixpoint look (c : cls) (k : string) : option attr :=
  match c with
  | [] => None
  | n :: r => match assoc k n with Some a => Some a | None => look r k end
  end.

Definition setattr (c : cls) (ka : string * attr) : cls :=
  match c with [] => [] | n :: r => (ka :: n) :: r end.

Definition setall (c : cls) (l : list (string * attr)) : cls := fold_left setattr l c.

Inductive res (A : Type) := OK (a : A) | Err (e : string).
Arguments OK {A} a.  Arguments Err {A} e.

Definition FIELDS := "__dataclass_fields__".
Definition DESCS := "__xtructure_field_descriptors__".
Definition INIT := "__init__".

(** dataclasses.dataclass (called at core/dataclass.py 109-118): the inherited fields
    come first, a redeclared field keeps its place; a field has a default exactly when
    the class has an attribute of that name, inherited ones included. *)
Fixpoint put_field (l : list (string * bool)) (k : string) (d : bool) : list (string * bool) :=
  match l with
  | [] => [(k, d)]
  | (k', d') :: r => if k =? k' then (k, d) :: r else (k', d') :: put_field r k d
  end.
Definition fields_of (c : cls) : list (string * bool) :=
  match look c FIELDS with Some (AFields l) => l | _ => [] end.
Definition has (c : cls) (k : string) : bool :=
  match look c k with Some _ => true | None => false end.
Definition merge_fields (c : cls) (ann : list string) : list (string * bool) :=
  fold_left (fun l k => put_field l k (has c k)) ann (fields_of (tl c)).
(** "non-default argument follows default argument" *)
Fixpoint order_ok (seen : bool) (l : list (string * bool)) : bool :=
  match l with
  | [] => true
  | (_, d) :: r => (d || negb seen) && order_ok (seen || d) r
  end.

(** core/dataclass.py 12 *)
Definition reserved := ["from_tuple"; "replace"; "to_tuple"].

Definition mem (k : string) (l : list string) : bool := existsb (String.eqb k) l.

Definition starts_under (k : string) : bool :=
  match k with String a _ => Ascii.eqb a "_"%char | _ => false end.

(** collections.namedtuple rejects names starting with an underscore and duplicates
    (shape.py 24-29; Python keywords cannot be field names to begin with) *)
Fixpoint nodupb (l : list string) : bool :=
  match l with [] => true | x :: r => negb (mem x r) && nodupb r end.
Definition namedtuple_ok (l : list string) : bool :=
  forallb (fun k => negb (starts_under k)) l && nodupb l.

Inductive mode := Mauto | Maggregate | Mfield | Moff.
Record config := Build_config { c_mode : mode; c_agg : bool; c_validate : bool }.

(** decorators/__init__.py 56-66 *)
Definition effective (cf : config) : res mode :=
  match c_agg cf, c_mode cf with
  | true, Mauto => OK Maggregate
  | true, Mfield => Err "ValueError"
  | true, Moff => Err "ValueError"
  | _, m => OK m
  end.

Definition fn (k : string) : string * attr := (k, AFun Lib).
Definition pr (k : string) : string * attr := (k, AProp Lib).

(** core/dataclass.py 175-180 *)
Definition base_sets : list (string * attr) :=
  [fn "from_tuple"; fn "to_tuple"; fn "replace"; fn "__getstate__"; fn "__setstate__";
   (INIT, ACtor false)].
(** shape.py 31-189; indexing.py 182-203; structure_util.py 152 *)
Definition shape_sets : list (string * attr) :=
  [fn "default_shape"; fn "default_dtype"; pr "shape"; pr "dtype"; fn "__len__";
   pr "structured_type"; pr "batch_shape"; pr "ndim";
   fn "__xtructure_field_names__"; fn "__xtructure_field_getter__";
   fn "__getitem__"; pr "at"; fn "random"].
(** aggregate_bitpack/__init__.py 205-236 *)
Definition agg_sets : list (string * attr) :=
  [fn "Packed"; pr "packed"; fn "bitpack_schema"].
(** bitpack_accessors.py 234-321 *)
Definition packed_names (d : list (string * fd)) : list string :=
  map fst (filter (fun x => fd_packed (snd x)) d).
Definition acc_sets (d : list (string * fd)) : list (string * attr) :=
  match packed_names d with
  | [] => []
  | ps => app (map (fun f => pr (f ++ "_unpacked")) ps) [fn "set_unpacked"; fn "from_unpacked"]
  end.
(** string_format.py 142-145; hash.py 405-410; ops.py 53-54; io.py 33-34 *)
Definition late_sets : list (string * attr) :=
  [fn "__str__"; fn "str";
   pr "bytes"; pr "uint32ed"; fn "hash"; fn "hash_with_uint32ed"; fn "hash_pair";
   fn "hash_pair_with_uint32ed";
   fn "__eq__"; fn "__ne__"; fn "save"; fn "load"].
(** method_factory.py 50-79 *)
Definition registry : list string :=
  ["reshape"; "flatten"; "transpose"; "swapaxes"; "moveaxis"; "squeeze"; "expand_dims";
   "broadcast_to"; "roll"; "flip"; "rot90"; "astype"; "vstack"; "hstack"; "dstack";
   "column_stack"; "block"; "pad"; "equal"; "not_equal"; "isclose"; "allclose"].
(** method_factory.py 81-84: only names the class does not have yet *)
Definition add_registry (c : cls) : cls :=
  fold_left (fun c k => if has c k then c else setattr c (fn k)) registry c.
(** validation.py 67-80; decorators/__init__.py 135 *)
Definition final_sets (validate : bool) : list (string * attr) :=
  app (fn "check_invariants" :: (if validate then [(INIT, ACtor true)] else []))
      [fn "is_xtructed"].

Definition all_some {A} (ann : list (string * option A)) : bool :=
  forallb (fun x => match snd x with Some _ => true | None => false end) ann.
Definition somes {A} (ann : list (string * option A)) : list (string * A) :=
  flat_map (fun x => match snd x with Some a => [(fst x, a)] | None => [] end) ann.

(** field_descriptors.py 344-356: the descriptors cached on the class - or on any class it
    inherits from - else those extracted from its own annotations *)
Definition get_descs (ann : list (string * option fd)) (c : cls)
  : res (cls * list (string * fd)) :=
  match look c DESCS with
  | Some (ADescs d) => OK (c, d)
  | _ => if all_some ann then OK (setattr c (DESCS, ADescs (somes ann)), somes ann)
         else Err "ValueError"
  end.

Definition all_bits (d : list (string * fd)) : bool := forallb (fun x => fd_bits (snd x)) d.
Definition nonempty {A} (l : list A) : bool := match l with [] => false | _ => true end.

(** which of the optional parts are added (decorators/__init__.py 88-117) *)
Definition aggregated (m : mode) (d : list (string * fd)) : bool :=
  match m with
  | Maggregate => true
  | Mauto => nonempty d && all_bits d
  | _ => false
  end.
Definition accessors (m : mode) : bool := match m with Moff => false | _ => true end.

(** decorators/__init__.py 50-137, in order.  [ann]: the annotations of the class body
    ([None]: not a FieldDescriptor); [c]: the class as written, then what it inherits.
    Simplifications: the contents of the attached functions are the other models; forced
    aggregation of a class whose leaves lack [bits] raises (spec.py 155-172), reported as
    one error. *)
Definition decorate (cf : config) (ann : list (string * option fd)) (c : cls) : res cls :=
  match effective cf with
  | Err e => Err e
  | OK m =>
    let fs := merge_fields c (map fst ann) in
    if negb (order_ok false fs) then Err "TypeError" else
    let c1 := setattr c (FIELDS, AFields fs) in
    if existsb (fun f => mem f reserved) (map fst fs) then Err "ValueError" else
    let c2 := setall c1 base_sets in
    match get_descs ann c2 with
    | Err e => Err e
    | OK (c3, d) =>
      if negb (namedtuple_ok ("batch" :: map fst d)) then Err "ValueError" else
      let c4 := setall c3 (fn "default" :: shape_sets) in
      if (match m with Maggregate => negb (all_bits d) | _ => false end) then Err "ValueError" else
      let c5 := setall c4 (if aggregated m d then agg_sets else []) in
      let c6 := setall c5 (if accessors m then acc_sets d else []) in
      let c7 := setall c6 late_sets in
      let c8 := add_registry c7 in
      OK (setall c8 (final_sets (c_validate cf)))
    end
  end.

(** ** Instances *)
Section Instances.
Context {V : Type}.

(** [None]: the class-level default of the field *)
Record inst := Build_inst { i_cls : cls; i_dict : list (string * option V) }.

Definition covers (kw : list string) (f : string * bool) : bool := snd f || mem (fst f) kw.

(** the generated __init__: [self.f = value] for every field in order *)
Fixpoint assign (c : cls) (fs : list (string * bool)) (kw : list (string * V))
  : res (list (string * option V)) :=
  match fs with
  | [] => OK []
  | (f, _) :: r =>
      match look c f with
      | Some (AProp _) => Err "AttributeError"
      | _ => match assign c r kw with
             | Err e => Err e
             | OK d => OK ((f, assoc f kw) :: d)
             end
      end
  end.

(** core/dataclass.py 170-173, dataclasses' __init__, validation.py 74-77.
    Simplification: when [check_invariants] is the library's method the values are taken
    to pass it (what it accepts is C49). *)
Definition new (c : cls) (kw : list (string * V)) : res inst :=
  let fs := fields_of c in
  if negb (forallb (fun k => mem k (map fst fs)) (map fst kw)) then Err "TypeError" else
  if negb (forallb (covers (map fst kw)) fs) then Err "TypeError" else
  match assign c fs kw with
  | Err e => Err e
  | OK d =>
      match look c INIT with
      | Some (ACtor true) =>
          match assoc "check_invariants" d with
          | Some _ => Err "TypeError"            (* the field's value is called *)
          | None => OK (Build_inst c d)
          end
      | _ => OK (Build_inst c d)
      end
  end.

Inductive read := RField (v : option V) | RFun (w : who) | RProp (w : who) | ROther.

(** getattr(instance, name) *)
Definition getattr (x : inst) (k : string) : res read :=
  match look (i_cls x) k with
  | Some (AProp w) => OK (RProp w)
  | a => match assoc k (i_dict x) with
         | Some v => OK (RField v)
         | None => match a with
                   | Some (AFun w) => OK (RFun w)
                   | Some _ => OK ROther
                   | None => Err "AttributeError"
                   end
         end
  end.

(** default.py 140-180: [cls( ** values )] with one value per descriptor *)
Definition descs_of (c : cls) : list (string * fd) :=
  match look c DESCS with Some (ADescs d) => d | _ => [] end.
Definition default_call (c : cls) (val : string -> V) : res inst :=
  new c (map (fun x => (fst x, val (fst x))) (descs_of c)).
(** shape.py 24, 57-108: the fields that [x.shape] has besides [batch] *)
Definition shape_fields (c : cls) : list string := map fst (descs_of c).
(** indexing.py 173-200: the fields that [x[i]] indexes *)
Definition indexed_fields (c : cls) : list string := map fst (fields_of c).

End Instances.
Arguments inst V : clear implicits.
