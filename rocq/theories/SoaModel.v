(** * SoaModel.v — containers whose storage is an instance: one array per field
      (structure of arrays) (definitions only).

    core/xtructure_decorators/indexing.py (integer-array indices), queue/queue.py and
    stack/stack.py at the level of the stored arrays.  [None] is a raised exception. *)
From Coq Require Import String.
From Verif Require Import Jax StructModel ArrayModel ShapeModel RowsModel QueueModel StableSort GroupFirst UpdateModel.

(** integer scalars and vectors used as indices (their dtype plays no role here) *)
Definition iscal (z : Z) : array := MkArr (DUInt 32) [] [z].
Definition ivec (l : list Z) : array := MkArr (DInt 32) [length l] l.

(** the last of the indices that addresses position [i] of an axis of length [n]:
    negative indices count from the end, indices outside are dropped.  (JAX leaves open
    which of several updates of one position is kept; the library never relies on it.) *)
Fixpoint last_hit (n : nat) (is : list Z) (i : nat) : option nat :=
  match is with
  | [] => None
  | z :: r => match last_hit n r i with
              | Some j => Some (S j)
              | None => match norm_index z n with Some k => if k =? i then Some 0 else None | None => None end
              end
  end.
(** jax.numpy: [a.at[idx].set(v)], idx an integer array: the values are broadcast to
    idx.shape + a.shape[1:]; a scalar array has no axis to index *)
Definition a_at_set (idx v a : array) : option array :=
  match ashape a with
  | [] => None
  | n :: ish =>
      match a_broadcast_to (ashape idx ++ ish) v with
      | Some w => Some (build (adtype a) (n :: ish)
                    (fun ix => match last_hit n (adata idx) (hd 0 ix) with
                               | Some j => get w (unravel (ashape idx) j ++ tl ix)
                               | None => get a ix
                               end))
      | None => None
      end
  end.

(** indexing.py 34-73 [.at[indices].set(values)] with an instance of the same class:
    field by field, a field whose update raises keeps its old value (67-69); nested
    instances update themselves *)
Fixpoint set_each_v (f : array -> array -> option array) (v w : value) {struct v} : value :=
  match v, w with
  | VArr a, VArr b => match f b a with Some a' => VArr a' | None => v end
  | VObj o, VObj q => VObj (set_each f o q)
  | _, _ => v
  end
with set_each (f : array -> array -> option array) (o q : obj) {struct o} : obj :=
  match o, q with
  | OCons n v r, OCons _ w s => OCons n (set_each_v f v w) (set_each f r s)
  | _, _ => o
  end.
Definition obj_at_set (idx : array) (o values : obj) : obj := set_each (a_at_set idx) o values.

(** array_ops.py 38-84: the positions actually written by [_update_array_on_condition] *)
Definition safe_indices (n : nat) (indices : list Z) (condition : list bool) : list Z :=
  let m := length condition in
  let ti := true_indices n indices condition in
  let perm := isort (fun a b => (nth a ti 0 <=? nth b ti 0)%Z) (seq 0 m) in
  let st := map (fun i => nth i ti 0%Z) perm in
  let starts := if m =? 1 then [true] else group_start Z.eqb st in
  let winners_sorted := map (fun p : bool * Z => fst p && negb (snd p =? Z.of_nat n)%Z) (combine starts st) in
  let winners := scatter_back false perm winners_sorted in
  map (fun p : bool * Z => if fst p then snd p else Z.of_nat n) (combine winners indices).
Definition truth (a : array) : list bool := map (fun z => negb (z =? 0)%Z) (adata a).
(** array_ops.py 52-58: [jnp.array(n, dtype=index_dtype)] of a Python int raises OverflowError
    when the dtype does not have the number (NumPy 2, which pyproject.toml asks for); indices
    that are not integers raise TypeError *)
Definition counts (d : dtype) (n : nat) : bool :=
  match d with
  | DUInt w => (Z.of_nat n <? 2 ^ Z.of_nat w)%Z
  | DInt w => (Z.of_nat n <? 2 ^ (Z.of_nat w - 1))%Z
  | DBool | DFloat _ => false
  end.
(** array_ops.py 38-87 for one field (an index array that is not a tuple) *)
Definition a_update (indices condition v a : array) : option array :=
  if prod (ashape condition) =? 0 then Some a
  else if shape_eqb (ashape condition) (ashape indices) then
    match ashape a with
    | [] => None
    | n :: _ => if counts (adtype indices) n then a_at_set (ivec (safe_indices n (adata indices) (truth condition))) v a else None
    end
  else None.
(** indexing.py 75-147 [.at[indices].set_as_condition(condition, values)] *)
Definition obj_at_set_as_condition (indices condition : array) (o values : obj) : obj :=
  set_each (a_update indices condition) o values.
(** logical_ops.py 115-139 [update_on_condition] with an instance of values: tree_map over the
    fields of both; an error in one field is raised *)
Definition obj_update_on_condition (indices condition : array) (o values : obj) : option obj :=
  tree_mapn (fun l => match l with [a; v] => a_update indices condition v a | _ => None end) [o; values].

(** ** queue.py: the fields val_store, head, tail *)
Record oqueue := mkOQ { oq_store : obj; oq_head : Z; oq_tail : Z }.
(** queue.py 11-16 *)
Definition oq_build (c : class) (max_size : nat) : oqueue := mkOQ (default_obj [max_size] c) 0 0.
(** queue.py 19-31: [items.shape.batch] is (), a 1-tuple, or the call raises *)
Definition oq_enqueue (c : class) (q : oqueue) (items : obj) : option oqueue :=
  match get_batch c items with
  | Some (Batch []) => Some (mkOQ (obj_at_set (iscal (oq_tail q)) (oq_store q) items) (oq_head q) (u32 (oq_tail q + 1)))
  | Some (Batch [n]) =>
      Some (mkOQ (obj_at_set (ivec (map (fun k => i32 (oq_tail q + k)) (arange n))) (oq_store q) items)
                 (oq_head q) (u32 (oq_tail q + Z.of_nat n)))
  | _ => None
  end.
(** queue.py 34-41, 46-53 *)
Definition oq_peek (q : oqueue) (n : nat) : option obj :=
  match n with
  | 1 => obj_index_array (iscal (oq_head q)) (oq_store q)
  | _ => obj_index_array (ivec (map (fun k => i32 (oq_head q + k)) (arange n))) (oq_store q)
  end.
Definition oq_dequeue (q : oqueue) (n : nat) : option (oqueue * obj) :=
  option_map (fun r => (mkOQ (oq_store q) (u32 (oq_head q + Z.of_nat n)) (oq_tail q), r)) (oq_peek q n).
(** queue.py 56-58 *)
Definition oq_clear (q : oqueue) : oqueue := mkOQ (oq_store q) 0 0.
(** queue.py 61-64 *)
Definition oq_get (q : oqueue) (i : Z) : option obj := obj_index_array (iscal (u32 (oq_head q + i))) (oq_store q).
(** queue.py 85-87 *)
Definition oq_size (q : oqueue) : Z := u32 (oq_tail q - oq_head q).

Inductive oqop := OEnqueue (items : obj) | ODequeue (n : nat) | OPeek (n : nat) | OGet (i : nat) | OClear.
(** one call: the next queue and the returned instance, if any *)
Definition oq_step (c : class) (q : oqueue) (op : oqop) : option (oqueue * option obj) :=
  match op with
  | OEnqueue items => option_map (fun q' => (q', None)) (oq_enqueue c q items)
  | ODequeue n => option_map (fun p => (fst p, Some (snd p))) (oq_dequeue q n)
  | OPeek n => option_map (fun r => (q, Some r)) (oq_peek q n)
  | OGet i => option_map (fun r => (q, Some r)) (oq_get q (Z.of_nat i))
  | OClear => Some (oq_clear q, None)
  end.
Fixpoint oq_run (c : class) (q : oqueue) (ops : list oqop) : option (list (option obj * Z)) :=
  match ops with
  | [] => Some []
  | op :: rest => match oq_step c q op with
                  | Some (q', r) => option_map (cons (r, oq_size q')) (oq_run c q' rest)
                  | None => None
                  end
  end.

(** ** stack.py: the fields val_store, size *)
Record ostack := mkOS { os_store : obj; os_size : Z }.
(** stack.py 11-15 *)
Definition os_build (c : class) (max_size : nat) : ostack := mkOS (default_obj [max_size] c) 0.
(** stack.py 18-35 *)
Definition os_push (c : class) (s : ostack) (items : obj) : option ostack :=
  match get_batch c items with
  | Some (Batch []) => Some (mkOS (obj_at_set (iscal (os_size s)) (os_store s) items) (u32 (os_size s + 1)))
  | Some (Batch [n]) =>
      Some (mkOS (obj_at_set (ivec (map (fun k => i32 (os_size s + k)) (arange n))) (os_store s) items)
                 (u32 (os_size s + Z.of_nat n)))
  | _ => None
  end.
(** stack.py 38-45, 49-56 *)
Definition os_peek (s : ostack) (n : nat) : option obj :=
  match n with
  | 1 => obj_index_array (iscal (u32 (os_size s - 1))) (os_store s)
  | _ => obj_index_array (ivec (map (fun k => i32 (os_size s - k)) (arange_down n))) (os_store s)
  end.
Definition os_pop (s : ostack) (n : nat) : option (ostack * obj) :=
  option_map (fun r => (mkOS (os_store s) (u32 (os_size s - Z.of_nat n)), r)) (os_peek s n).
(** stack.py 59-61 *)
Definition os_get (s : ostack) (i : Z) : option obj := obj_index_array (iscal i) (os_store s).
Inductive osop := OPush (items : obj) | OPop (n : nat) | OSPeek (n : nat) | OSGet (i : nat).
Definition os_step (c : class) (s : ostack) (op : osop) : option (ostack * option obj) :=
  match op with
  | OPush items => option_map (fun s' => (s', None)) (os_push c s items)
  | OPop n => option_map (fun p => (fst p, Some (snd p))) (os_pop s n)
  | OSPeek n => option_map (fun r => (s, Some r)) (os_peek s n)
  | OSGet i => option_map (fun r => (s, Some r)) (os_get s (Z.of_nat i))
  end.
Fixpoint os_run (c : class) (s : ostack) (ops : list osop) : option (list (option obj * Z)) :=
  match ops with
  | [] => Some []
  | op :: rest => match os_step c s op with
                  | Some (s', r) => option_map (cons (r, os_size s')) (os_run c s' rest)
                  | None => None
                  end
  end.
