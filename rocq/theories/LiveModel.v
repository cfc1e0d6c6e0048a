(** * LiveModel.v — xtructure_decorators/shape.py 12-192: the whole answers of [x.shape],
    [x.dtype], [structured_type], [batch_shape], [len], [ndim], [default_shape] and
    [default_dtype], with the three caches of every instance, nested ones included
    (definitions only).  Instances hold arrays (a field holding a bare Python scalar is
    not modelled); two attributes never hold the same nested object. *)
From Coq Require Import String.
From Verif Require Import Jax StructModel ArrayModel ShapeModel.

(** 28, 108: the namedtuples "shape": a plain tuple for an array field, a nested "shape"
    namedtuple (its [batch] and its fields) for a nested instance *)
Inductive stree := SLeaf (s : list nat) | SNode (b : batch) (fs : sfields)
with sfields := SNil | SCons (n : string) (t : stree) (r : sfields).
(** 113, 123-125: the namedtuples "dtype" *)
Inductive dtree := DLeaf (dt : dtype) | DNode (fs : dfields)
with dfields := DNil | DCons (n : string) (t : dtree) (r : dfields).

(** an instance: its fields and [_shape_cache], [_dtype_cache], [_structured_type_cache] *)
Inductive live := LArr (a : array) | LObj (i : linst)
with linst := Inst (fs : lfields) (cs : option stree) (cd : option dtree) (ct : option stype)
with lfields := LNil | LCons (n : string) (v : live) (r : lfields).

Definition ish_of (d : desc) : list nat := match d with Prim _ ish _ _ _ => ish | Nest _ ish => ish end.
(** 76-99: one field's contribution to the batch, and its entry in the answer.  [None] is
    the TypeError of slicing -1 (line 85). *)
Definition entry (ish : list nat) (t : stree) : option (batch * stree) :=
  match t with
  | SLeaf s =>
      match ish with
      | [] => Some (Batch s, SLeaf [])
      | _ => let k := length s - length ish in
             if shape_eqb (skipn k s) ish then Some (Batch (firstn k s), SLeaf (skipn k s)) else Some (Unstr, SLeaf s)
      end
  | SNode b fs =>
      match ish with
      | [] => Some (b, SNode (Batch []) fs)
      | _ => match b with
             | Unstr => None
             | Batch s => let k := length s - length ish in
                 if shape_eqb (skipn k s) ish then Some (Batch (firstn k s), SNode (Batch (skipn k s)) fs) else Some (Unstr, SNode b fs)
             end
      end
  end.

(** ** What a first read computes (40-110, 115-126), caches aside *)
Fixpoint shape_v (d : desc) (v : value) {struct d} : option stree :=
  match d, v with
  | Prim _ _ _ _ _, VArr a => Some (SLeaf (ashape a))
  | Nest c _, VObj o => match shape_fields c o with Some (bs, fs) => Some (SNode (final bs) fs) | None => None end
  | _, _ => None
  end
with shape_fields (c : class) (o : obj) {struct c} : option (list batch * sfields) :=
  match c, o with
  | CNil, ONil => Some ([], SNil)
  | CCons n d r, OCons _ v q =>
      match shape_v d v with
      | Some t => match entry (ish_of d) t with
                  | Some (b, t') => match shape_fields r q with Some (bs, fs) => Some (b :: bs, SCons n t' fs) | None => None end
                  | None => None
                  end
      | None => None
      end
  | _, _ => None
  end.
Definition get_shape (c : class) (o : obj) : option stree :=
  match shape_fields c o with Some (bs, fs) => Some (SNode (final bs) fs) | None => None end.
Fixpoint dtype_v (d : desc) (v : value) {struct d} : option dtree :=
  match d, v with
  | Prim _ _ _ _ _, VArr a => Some (DLeaf (adtype a))
  | Nest c _, VObj o => match dtype_fields c o with Some fs => Some (DNode fs) | None => None end
  | _, _ => None
  end
with dtype_fields (c : class) (o : obj) {struct c} : option dfields :=
  match c, o with
  | CNil, ONil => Some DNil
  | CCons n d r, OCons _ v q =>
      match dtype_v d v with
      | Some t => match dtype_fields r q with Some fs => Some (DCons n t fs) | None => None end
      | None => None
      end
  | _, _ => None
  end.
Definition get_dtype (c : class) (o : obj) : option dtree := option_map DNode (dtype_fields c o).
Definition tree_batch (t : stree) : batch := match t with SNode b _ => b | SLeaf _ => Unstr end.
(** 149-168 *)
Definition get_stype (c : class) (o : obj) : option stype := option_map (fun t => structured_type (tree_batch t)) (get_shape c o).

(** 26-36 default_shape, default_dtype (class attributes): what the descriptors hold; the
    "dtype" of a nested field is the class *)
Fixpoint default_shape (c : class) : list (string * list nat) :=
  match c with CNil => [] | CCons n d r => (n, ish_of d) :: default_shape r end.
Fixpoint default_dtype (c : class) : list (string * (dtype + class)) :=
  match c with
  | CNil => []
  | CCons n d r => (n, match d with Prim dt _ _ _ _ => inl dt | Nest k _ => inr k end) :: default_dtype r
  end.

(** ** Reads through the caches *)
(** 45-50, 64-110: [x.shape] of a field's value; 101-110 are only reached without an
    exception; the caches of nested instances read before an exception stay *)
Fixpoint rd_shape_v (d : desc) (v : live) {struct d} : option stree * live :=
  match d, v with
  | Prim _ _ _ _ _, LArr a => (Some (SLeaf (ashape a)), v)
  | Nest c _, LObj (Inst fs cs cd ct) =>
      match cs with
      | Some t => (Some t, v)
      | None => match rd_shape_fields c fs with
                | (Some (bs, ss), fs') => let t := SNode (final bs) ss in (Some t, LObj (Inst fs' (Some t) cd ct))
                | (None, fs') => (None, LObj (Inst fs' None cd ct))
                end
      end
  | _, _ => (None, v)
  end
with rd_shape_fields (c : class) (fs : lfields) {struct c} : option (list batch * sfields) * lfields :=
  match c, fs with
  | CNil, LNil => (Some ([], SNil), LNil)
  | CCons n d r, LCons m v q =>
      match rd_shape_v d v with
      | (Some t, v') =>
          match entry (ish_of d) t with
          | Some (b, t') => match rd_shape_fields r q with
                            | (Some (bs, ss), q') => (Some (b :: bs, SCons n t' ss), LCons m v' q')
                            | (None, q') => (None, LCons m v' q')
                            end
          | None => (None, LCons m v' q)
          end
      | (None, v') => (None, LCons m v' q)
      end
  | _, _ => (None, fs)
  end.
Definition rd_shape (c : class) (i : linst) : option stree * linst :=
  match i with
  | Inst fs (Some t) cd ct => (Some t, i)
  | Inst fs None cd ct => match rd_shape_fields c fs with
                          | (Some (bs, ss), fs') => let t := SNode (final bs) ss in (Some t, Inst fs' (Some t) cd ct)
                          | (None, fs') => (None, Inst fs' None cd ct)
                          end
  end.
(** 115-127 [x.dtype] *)
Fixpoint rd_dtype_v (d : desc) (v : live) {struct d} : option dtree * live :=
  match d, v with
  | Prim _ _ _ _ _, LArr a => (Some (DLeaf (adtype a)), v)
  | Nest c _, LObj (Inst fs cs cd ct) =>
      match cd with
      | Some t => (Some t, v)
      | None => match rd_dtype_fields c fs with
                | (Some ds, fs') => (Some (DNode ds), LObj (Inst fs' cs (Some (DNode ds)) ct))
                | (None, fs') => (None, LObj (Inst fs' cs None ct))
                end
      end
  | _, _ => (None, v)
  end
with rd_dtype_fields (c : class) (fs : lfields) {struct c} : option dfields * lfields :=
  match c, fs with
  | CNil, LNil => (Some DNil, LNil)
  | CCons n d r, LCons m v q =>
      match rd_dtype_v d v with
      | (Some t, v') => match rd_dtype_fields r q with
                        | (Some ds, q') => (Some (DCons n t ds), LCons m v' q')
                        | (None, q') => (None, LCons m v' q')
                        end
      | (None, v') => (None, LCons m v' q)
      end
  | _, _ => (None, fs)
  end.
Definition rd_dtype (c : class) (i : linst) : option dtree * linst :=
  match i with
  | Inst fs cs (Some t) ct => (Some t, i)
  | Inst fs cs None ct => match rd_dtype_fields c fs with
                          | (Some ds, fs') => (Some (DNode ds), Inst fs' cs (Some (DNode ds)) ct)
                          | (None, fs') => (None, Inst fs' cs None ct)
                          end
  end.
(** 149-166 [x.structured_type]: its own cache, else from [self.shape] *)
Definition rd_stype (c : class) (i : linst) : option stype * linst :=
  match i with
  | Inst _ _ _ (Some s) => (Some s, i)
  | Inst _ _ _ None => match rd_shape c i with
                       | (Some t, Inst fs cs cd _) => let s := structured_type (tree_batch t) in (Some s, Inst fs cs cd (Some s))
                       | (None, i') => (None, i')
                       end
  end.
(** 170-173 [batch_shape], 129-147 [len], 177-190 [ndim] *)
Definition rd_batch (c : class) (i : linst) : option batch * linst :=
  let '(r, i') := rd_shape c i in (option_map tree_batch r, i').
Definition rd_len (c : class) (i : linst) : option nat * linst :=
  let '(r, i') := rd_batch c i in (match r with Some b => get_len b | None => None end, i').
Definition rd_ndim (c : class) (i : linst) : option nat * linst :=
  let '(r, i') := rd_batch c i in (match r with Some b => get_ndim b | None => None end, i').

Inductive query := QShape | QDtype | QStype | QBatch | QLen | QNdim.
Inductive answer := AShape (t : stree) | ADtype (t : dtree) | AStype (s : stype) | ABatch (b : batch) | ANum (k : nat) | ARaise.
Definition wrapa {A B} (f : A -> answer) (p : option A * B) : answer * B :=
  let '(r, i) := p in (match r with Some x => f x | None => ARaise end, i).
Definition ask (q : query) (c : class) (i : linst) : answer * linst :=
  match q with
  | QShape => wrapa AShape (rd_shape c i) | QDtype => wrapa ADtype (rd_dtype c i) | QStype => wrapa AStype (rd_stype c i)
  | QBatch => wrapa ABatch (rd_batch c i) | QLen => wrapa ANum (rd_len c i) | QNdim => wrapa ANum (rd_ndim c i)
  end.

(** ** New instances *)
(** an instance just made by the constructor: no caches, at any depth *)
Fixpoint live_v (v : value) : live := match v with VArr a => LArr a | VObj o => LObj (Inst (live_fields o) None None None) end
with live_fields (o : obj) : lfields := match o with ONil => LNil | OCons n v r => LCons n (live_v v) (live_fields r) end.
Definition make (o : obj) : linst := Inst (live_fields o) None None None.
(** the data an instance holds *)
Fixpoint data_v (v : live) : value := match v with LArr a => VArr a | LObj i => VObj (data i) end
with data (i : linst) : obj := match i with Inst fs _ _ _ => data_fields fs end
with data_fields (fs : lfields) : obj := match fs with LNil => ONil | LCons n v r => OCons n (data_v v) (data_fields r) end.

(** *** What can be done to an instance *)
Fixpoint put (fs : lfields) (n : string) (v : live) : lfields :=
  match fs with LNil => LNil | LCons m w r => if String.eqb m n then LCons m v r else LCons m w (put r n v) end.
(** [x.n = v] for a field: the instance dictionary changes, the caches stay *)
Definition assign (n : string) (v : value) (i : linst) : linst :=
  match i with Inst fs cs cd ct => Inst (put fs n (live_v v)) cs cd ct end.
(** core/dataclass.py 134-135 [x.replace(n=v)]: the constructor is called again with the
    other attributes as they are: no caches on the result; the nested instances are the same objects *)
Definition replace (n : string) (v : value) (i : linst) : linst :=
  match i with Inst fs _ _ _ => Inst (put fs n (live_v v)) None None None end.
(** dataclass.py 216-244 (flatten) and 184-201 (unflatten): a pass through jax.tree_util
    (jit, vmap, tree_map with the identity) rebuilds every instance from its fields; the
    cache keys 13-15 are left out *)
Definition rebuild (i : linst) : linst := make (data i).
(** dataclass.py 137-138 [__getstate__], 163-165 [__setstate__]: copy.copy and pickle carry
    the whole instance dictionary, caches included *)
Definition copy (i : linst) : linst := match i with Inst fs cs cd ct => Inst fs cs cd ct end.

(** reach a nested instance by attribute access; [None]: there is no such instance *)
Fixpoint find_desc (c : class) (n : string) : option desc :=
  match c with CNil => None | CCons m d r => if String.eqb m n then Some d else find_desc r n end.
Fixpoint find_live (fs : lfields) (n : string) : option live :=
  match fs with LNil => None | LCons m v r => if String.eqb m n then Some v else find_live r n end.
Fixpoint at_path {A} (p : list string) (dflt : A) (f : class -> linst -> A * linst) (c : class) (i : linst) {struct p} : A * linst :=
  match p with
  | [] => f c i
  | n :: p' =>
      match i with
      | Inst fs cs cd ct =>
          match find_desc c n, find_live fs n with
          | Some (Nest k _), Some (LObj j) => let '(a, j') := at_path p' dflt f k j in (a, Inst (put fs n (LObj j')) cs cd ct)
          | _, _ => (dflt, i)
          end
      end
  end.
(** one step of a program that holds the instance [x] *)
Inductive step :=
| Ask (p : list string) (q : query)                    (* x.a.b.shape, ... *)
| Assign (p : list string) (n : string) (v : value)    (* x.a.b.n = v *)
| Replace (n : string) (v : value)                     (* x = x.replace(n=v) *)
| Rebuild                                              (* x = jax.jit(lambda y: y)(x) *)
| Copy.                                                (* x = copy.copy(x) / pickle round trip *)
Definition do_step (c : class) (i : linst) (s : step) : list answer * linst :=
  match s with
  | Ask p q => let '(a, i') := at_path p ARaise (ask q) c i in ([a], i')
  | Assign p n v => ([], snd (at_path p tt (fun _ j => (tt, assign n v j)) c i))
  | Replace n v => ([], replace n v i)
  | Rebuild => ([], rebuild i)
  | Copy => ([], copy i)
  end.
Fixpoint run (c : class) (i : linst) (h : list step) : list answer * linst :=
  match h with
  | [] => ([], i)
  | s :: r => let '(a, i') := do_step c i s in let '(b, i'') := run c i' r in (a ++ b, i'')
  end.
