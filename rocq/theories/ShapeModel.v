(** * ShapeModel.v — xtructure_decorators/shape.py: batch shape, length, ndim and structured
    type of an instance (definitions only). *)
From Coq Require Import String.
From Verif Require Import Jax StructModel ArrayModel.

(** the reported batch: a tuple, or -1 *)
Inductive batch := Unstr | Batch (s : list nat).
Definition batch_eqb (a b : batch) : bool :=
  match a, b with Unstr, Unstr => true | Batch s, Batch t => shape_eqb s t | _, _ => false end.

(** 71-96: [shape[-len(d):] == d] and [shape[:-len(d)]]; an empty intrinsic shape matches everything *)
Definition strip (s ish : list nat) : batch :=
  match ish with
  | [] => Batch s
  | _ => if shape_eqb (skipn (length s - length ish) s) ish then Batch (firstn (length s - length ish) s) else Unstr
  end.
(** 98-103: the first field's batch, replaced by -1 when another field differs or has -1 *)
Definition final (bs : list batch) : batch :=
  match bs with
  | [] => Batch []
  | b :: r => if existsb (fun x => match x with Unstr => true | Batch _ => negb (batch_eqb b x) end) r then Unstr else b
  end.
(** 40-107 get_shape (batch entry). [None] is an exception: slicing the -1 of a nested
    instance when the field has a non-empty intrinsic shape (TypeError) *)
Fixpoint batch_v (d : desc) (v : value) {struct d} : option batch :=
  match d, v with
  | Prim _ ish _ _ _, VArr a => Some (strip (ashape a) ish)
  | Nest c ish, VObj o =>
      match batches c o with
      | Some bs => match final bs with
                   | Batch s => Some (strip s ish)
                   | Unstr => match ish with [] => Some Unstr | _ => None end
                   end
      | None => None
      end
  | _, _ => None
  end
with batches (c : class) (o : obj) {struct c} : option (list batch) :=
  match c, o with
  | CNil, ONil => Some []
  | CCons _ d r, OCons _ v q => match batch_v d v, batches r q with Some b, Some bs => Some (b :: bs) | _, _ => None end
  | _, _ => None
  end.
Definition get_batch (c : class) (o : obj) : option batch := option_map final (batches c o).

(** 131-147 __len__, 181-192 ndim: [None] is a TypeError *)
Definition get_len (b : batch) : option nat := match b with Batch [] => Some 1 | Batch (n :: _) => Some n | Unstr => None end.
Definition get_ndim (b : batch) : option nat := match b with Batch s => Some (length s) | Unstr => None end.
(** 151-168 structured_type *)
Inductive stype := SINGLE | BATCHED | UNSTRUCTURED.
Definition structured_type (b : batch) : stype := match b with Batch [] => SINGLE | Unstr => UNSTRUCTURED | _ => BATCHED end.

(** 45-48, 106: the result is cached on the instance; attribute assignment does not clear it *)
Record inst := MkInst { iobj : obj; icache : option batch }.
Definition fresh (o : obj) : inst := MkInst o None.
Definition read_shape (c : class) (i : inst) : option batch * inst :=
  match icache i with
  | Some b => (Some b, i)
  | None => match get_batch c (iobj i) with Some b => (Some b, MkInst (iobj i) (Some b)) | None => (None, i) end
  end.
Fixpoint set_field (o : obj) (n : string) (v : value) : obj :=
  match o with ONil => ONil | OCons m w r => if String.eqb m n then OCons m v r else OCons m w (set_field r n v) end.
Definition setattr (i : inst) (n : string) (v : value) : inst := MkInst (set_field (iobj i) n v) (icache i).
