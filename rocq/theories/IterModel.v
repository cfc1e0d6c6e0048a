(** * IterModel.v — Python's iteration over an instance (definitions only).

    core/xtructure_decorators/indexing.py 186-201 gives instances [__getitem__], shape.py
    129-147 gives them [__len__]; nothing in the package defines [__iter__],
    [__contains__] or [__reversed__].  Python then uses the sequence protocol (language
    reference, [iter]; library reference, [reversed]): x[0], x[1], ... until IndexError.
    method_factory.py 22-24, 65-70: x.vstack(), x.hstack(), x.dstack() and x.column_stack()
    pass the instance itself as the sequence, which batch_ops.py 272-296 spread with [*]. *)
From Coq Require Import String.
From Verif Require Import Jax StructModel ArrayModel ShapeModel RowsModel.

(** x[k] for a Python int; [None]: IndexError (too many indices for a 0-dimensional array,
    or an axis of size 0).  Too large integers are clamped by jax (ArrayModel.clamp_index). *)
Definition item (o : obj) (k : nat) : option obj := obj_index [IInt (Z.of_nat k)] o.

(** what a loop has produced after at most [fuel] calls of [__getitem__], from x[k] on:
    the items, and whether IndexError has ended the loop *)
Fixpoint produce (fuel k : nat) (o : obj) : list obj * bool :=
  match fuel with
  | 0 => ([], false)
  | S f => match item o k with
           | Some r => let '(l, e) := produce f (S k) o in (r :: l, e)
           | None => ([], true)
           end
  end.
(** [list(x)], [[r for r in x]], [f( *x)] (so also xnp.vstack(x) and x.vstack()) need the
    whole sequence: [Some l] when it is complete after [fuel] calls *)
Definition whole_list (fuel : nat) (o : obj) : option (list obj) :=
  let '(l, e) := produce fuel 0 o in if e then Some l else None.
(** [a, b, ... = x] with [m] names: m items, then one more call which must end the sequence.
    [None] is ValueError (too many or not enough values) *)
Definition unpack (m : nat) (o : obj) : option (list obj) :=
  let '(l, e) := produce (S m) 0 o in if e && (length l =? m) then Some l else None.
(** [zip(x, l)] for a list [l]: an item of x is taken first, then one of l *)
Fixpoint zip_from {A} (k : nat) (o : obj) (l : list A) : list (obj * A) :=
  match item o k with
  | None => []
  | Some r => match l with [] => [] | a :: t => (r, a) :: zip_from (S k) o t end
  end.
(** [v in x]: the items in turn until one is equal; [Some b] when decided within [fuel] calls *)
Fixpoint contains (fuel k : nat) (eq : obj -> bool) (o : obj) : option bool :=
  match fuel with
  | 0 => None
  | S f => match item o k with Some r => if eq r then Some true else contains f (S k) eq o | None => Some false end
  end.
(** [reversed(x)]: x[len-1], ..., x[0]; IndexError ends it too *)
Fixpoint back (k : nat) (o : obj) : list obj :=
  match k with 0 => [] | S j => match item o j with Some r => r :: back j o | None => [] end end.
Definition reversed_list (c : class) (o : obj) : option (list obj) :=
  match get_batch c o with Some b => match get_len b with Some n => Some (back n o) | None => None end | None => None end.
(** [[x[k] for k in range(len(x))]]; [None]: an exception *)
Definition by_range (c : class) (o : obj) : option (list obj) :=
  match get_batch c o with Some b => match get_len b with Some n => sequence (map (item o) (seq 0 n)) | None => None end | None => None end.
