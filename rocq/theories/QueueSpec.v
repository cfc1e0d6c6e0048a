(** * QueueSpec.v — what a user expects of a FIFO queue and a LIFO stack.
    Plain lists; no reference to storage, counters or indices.               *)
From Verif Require Import Jax QueueModel.

Section Spec.
Context {V : Type} (dflt : V).

(** How [n] returned items are presented: [num_items = 1] gives one unbatched
    item, any other number gives a batch. *)
Definition present (n : nat) (l : list V) : arg V :=
  match n with 1 => One (hd dflt l) | _ => Many l end.

(** FIFO: state = live items, oldest first. *)
Definition fifo_step (live : list V) (o : qop V) : list V * reply V :=
  match o with
  | Enqueue a => (live ++ arg_items a, RNone)
  | Dequeue n => (skipn n live, RItems (present n (firstn n live)))
  | QPeek n => (live, RItems (present n (firstn n live)))
  | QGet i => (live, RItems (One (nth i live dflt)))
  | Clear => ([], RNone)
  end.

Fixpoint fifo_run (live : list V) (ops : list (qop V)) : list (reply V * Z) :=
  match ops with
  | [] => []
  | o :: rest => let '(live', r) := fifo_step live o in (r, Z.of_nat (length live')) :: fifo_run live' rest
  end.

(** [used]: items enqueued since the last clear. *)
Fixpoint q_legal (max_size used : nat) (live : list V) (ops : list (qop V)) : Prop :=
  match ops with
  | [] => True
  | o :: rest =>
    match o with
    | Enqueue a => used + length (arg_items a) <= max_size
                   /\ q_legal max_size (used + length (arg_items a)) (live ++ arg_items a) rest
    | Dequeue n => n <= length live /\ q_legal max_size used (skipn n live) rest
    | QPeek n => n <= length live /\ q_legal max_size used live rest
    | QGet i => i < length live /\ q_legal max_size used live rest
    | Clear => q_legal max_size 0 [] rest
    end
  end.

(** LIFO: state = live items, bottom first. *)
Definition lifo_step (live : list V) (o : sop V) : list V * reply V :=
  match o with
  | Push a => (live ++ arg_items a, RNone)
  | Pop n => (firstn (length live - n) live, RItems (present n (skipn (length live - n) live)))
  | SPeek n => (live, RItems (present n (skipn (length live - n) live)))
  | SGet i => (live, RItems (One (nth i live dflt)))
  end.

Fixpoint lifo_run (live : list V) (ops : list (sop V)) : list (reply V * Z) :=
  match ops with
  | [] => []
  | o :: rest => let '(live', r) := lifo_step live o in (r, Z.of_nat (length live')) :: lifo_run live' rest
  end.

Fixpoint s_legal (max_size : nat) (live : list V) (ops : list (sop V)) : Prop :=
  match ops with
  | [] => True
  | o :: rest =>
    (match o with
     | Push a => length live + length (arg_items a) <= max_size
     | Pop n | SPeek n => n <= length live
     | SGet i => i < length live
     end) /\ s_legal max_size (fst (lifo_step live o)) rest
  end.

(** All items passed to enqueue after the last clear, in order. *)
Definition enqueued_since_clear (ops : list (qop V)) : list V :=
  fold_left (fun acc o => match o with Enqueue a => acc ++ arg_items a | Clear => [] | _ => acc end) ops [].
(** Total requested by dequeues after the last clear. *)
Definition dequeued_since_clear (ops : list (qop V)) : Z :=
  fold_left (fun acc o => match o with Dequeue n => acc + Z.of_nat n | Clear => 0 | _ => acc end)%Z ops 0%Z.
(** Number of items in all enqueue calls of the history. *)
Definition total_enqueued (ops : list (qop V)) : nat :=
  list_sum (map (fun o => match o with Enqueue a => length (arg_items a) | _ => 0 end) ops).
End Spec.
