(** * ConvStore.v — Queue, Stack, [.at[...].set] and [.at[...].set_as_condition] given items whose
      dtypes are not the declared ones (definitions only).

    Nothing in queue/queue.py, stack/stack.py or indexing.py looks at the dtypes of the items.
    jax.numpy: [a.at[idx].set(v)] converts v to the dtype of [a] (with a FutureWarning when the
    conversion is not a safe one); array_ops.py 86 converts with [jnp.asarray(values, dtype)]. *)
From Verif Require Import Jax StructModel ArrayModel ShapeModel RowsModel QueueModel UpdateModel SoaModel PromoteModel.

(** indexing.py 34-73 [.at[indices].set(values)] *)
Definition obj_at_set_p (idx : array) (o values : obj) : obj := set_each (fun v a => a_at_set idx (a_conv (adtype a) v) a) o values.
(** indexing.py 75-147 [.at[indices].set_as_condition(condition, values)], array_ops.py 38-87 *)
Definition obj_at_set_as_condition_p (indices condition : array) (o values : obj) : obj :=
  set_each (fun v a => a_update indices condition (a_conv (adtype a) v) a) o values.

(** queue.py 19-31 *)
Definition oq_enqueue_p (c : class) (q : oqueue) (items : obj) : option oqueue :=
  match get_batch c items with
  | Some (Batch []) => Some (mkOQ (obj_at_set_p (iscal (oq_tail q)) (oq_store q) items) (oq_head q) (u32 (oq_tail q + 1)))
  | Some (Batch [n]) =>
      Some (mkOQ (obj_at_set_p (ivec (map (fun k => i32 (oq_tail q + k)) (arange n))) (oq_store q) items)
                 (oq_head q) (u32 (oq_tail q + Z.of_nat n)))
  | _ => None
  end.
(** the other methods of queue.py store nothing: SoaModel.v [oq_step] *)
Definition oq_step_p (c : class) (q : oqueue) (op : oqop) : option (oqueue * option obj) :=
  match op with
  | OEnqueue items => option_map (fun q' => (q', None)) (oq_enqueue_p c q items)
  | _ => oq_step c q op
  end.
Fixpoint oq_run_p (c : class) (q : oqueue) (ops : list oqop) : option (list (option obj * Z)) :=
  match ops with
  | [] => Some []
  | op :: rest => match oq_step_p c q op with
                  | Some (q', r) => option_map (cons (r, oq_size q')) (oq_run_p c q' rest)
                  | None => None
                  end
  end.

(** stack.py 18-35 *)
Definition os_push_p (c : class) (s : ostack) (items : obj) : option ostack :=
  match get_batch c items with
  | Some (Batch []) => Some (mkOS (obj_at_set_p (iscal (os_size s)) (os_store s) items) (u32 (os_size s + 1)))
  | Some (Batch [n]) =>
      Some (mkOS (obj_at_set_p (ivec (map (fun k => i32 (os_size s + k)) (arange n))) (os_store s) items)
                 (u32 (os_size s + Z.of_nat n)))
  | _ => None
  end.
(** the other methods of stack.py store nothing: SoaModel.v [os_step] *)
Definition os_step_p (c : class) (s : ostack) (op : osop) : option (ostack * option obj) :=
  match op with
  | OPush items => option_map (fun s' => (s', None)) (os_push_p c s items)
  | _ => os_step c s op
  end.
Fixpoint os_run_p (c : class) (s : ostack) (ops : list osop) : option (list (option obj * Z)) :=
  match ops with
  | [] => Some []
  | op :: rest => match os_step_p c s op with
                  | Some (s', r) => option_map (cons (r, os_size s')) (os_run_p c s' rest)
                  | None => None
                  end
  end.
