(** * QueueModel.v — model of xtructure/queue/queue.py and
      xtructure/stack/stack.py (definitions only).

    A batch of items is a list of rows; [dflt] is [value_class.default()].    *)
From Verif Require Import Jax.
Local Open Scope Z_scope.

(** What a caller passes: one unbatched item (batch shape ()) or a 1-D batch.
    queue.py 20-28 / stack.py 20-27 dispatch on [items.shape.batch]. *)
Inductive arg (V : Type) := One (v : V) | Many (vs : list V).
Arguments One {V}. Arguments Many {V}.
Definition arg_items {V} (a : arg V) : list V := match a with One v => [v] | Many vs => vs end.

(** [jnp.arange(n)] *)
Definition arange (n : nat) : list Z := map Z.of_nat (seq 0 n).
(** [jnp.arange(n, 0, -1)] *)
Definition arange_down (n : nat) : list Z := map (fun k => Z.of_nat (n - k)) (seq 0 n).

Section QS.
Context {V : Type} (dflt : V).

(** queue.py 67-83: fields val_store, head, tail (uint32). max_size is the
    length of val_store (queue.py 13 builds [value_class.default((max_size,))]). *)
Record queue := mkQ { q_store : list V; q_head : Z; q_tail : Z }.

(** queue.py 11-16 [_queue_build_jit] *)
Definition q_build (max_size : nat) : queue := mkQ (repeat dflt max_size) 0 0.

(** queue.py 19-31 [_queue_enqueue_jit].  Single item: the uint32 [tail] is the
    index.  Batch: [tail + arange(n)] is int32. *)
Definition q_enqueue (q : queue) (a : arg V) : queue :=
  match a with
  | One v => mkQ (jset (q_store q) (q_tail q) v) (q_head q) (u32 (q_tail q + 1))
  | Many vs =>
      mkQ (jsets (q_store q) (map (fun k => i32 (q_tail q + k)) (arange (length vs))) vs)
          (q_head q) (u32 (q_tail q + Z.of_nat (length vs)))
  end.

(** queue.py 46-53 [_queue_peek_jit] (also the read half of dequeue, 34-41). *)
Definition q_peek (q : queue) (n : nat) : arg V :=
  match n with
  | 1%nat => One (jget dflt (q_store q) (q_head q))
  | _ => Many (map (fun k => jget dflt (q_store q) (i32 (q_head q + k))) (arange n))
  end.

(** queue.py 34-43 [_queue_dequeue_jit] *)
Definition q_dequeue (q : queue) (n : nat) : queue * arg V :=
  (mkQ (q_store q) (u32 (q_head q + Z.of_nat n)) (q_tail q), q_peek q n).

(** queue.py 56-58 [_queue_clear_jit] *)
Definition q_clear (q : queue) : queue := mkQ (q_store q) 0 0.

(** queue.py 61-64 [_queue_getitem_jit] (scalar uint32 index) *)
Definition q_get (q : queue) (i : Z) : V := jget dflt (q_store q) (u32 (q_head q + i)).

(** queue.py 85-87 [size] *)
Definition q_size (q : queue) : Z := u32 (q_tail q - q_head q).

(** stack.py 64-78 *)
Record stack := mkS { s_store : list V; s_size : Z }.

(** stack.py 11-15 [_stack_build_jit] *)
Definition s_build (max_size : nat) : stack := mkS (repeat dflt max_size) 0.

(** stack.py 18-35 [_stack_push_jit] *)
Definition s_push (s : stack) (a : arg V) : stack :=
  match a with
  | One v => mkS (jset (s_store s) (s_size s) v) (u32 (s_size s + 1))
  | Many vs =>
      mkS (jsets (s_store s) (map (fun k => i32 (s_size s + k)) (arange (length vs))) vs)
          (u32 (s_size s + Z.of_nat (length vs)))
  end.

(** stack.py 49-56 [_stack_peek_jit] (also the read half of pop, 38-45) *)
Definition s_peek (s : stack) (n : nat) : arg V :=
  match n with
  | 1%nat => One (jget dflt (s_store s) (u32 (s_size s - 1)))
  | _ => Many (map (fun k => jget dflt (s_store s) (i32 (s_size s - k))) (arange_down n))
  end.

(** stack.py 38-46 [_stack_pop_jit] *)
Definition s_pop (s : stack) (n : nat) : stack * arg V :=
  (mkS (s_store s) (u32 (s_size s - Z.of_nat n)), s_peek s n).

(** stack.py 59-61 [_stack_getitem_jit] *)
Definition s_get (s : stack) (i : Z) : V := jget dflt (s_store s) i.

(** User histories. *)
Inductive qop := Enqueue (a : arg V) | Dequeue (n : nat) | QPeek (n : nat) | QGet (i : nat) | Clear.
Inductive sop := Push (a : arg V) | Pop (n : nat) | SPeek (n : nat) | SGet (i : nat).
(** What a user observes from one call: the returned items, if any. *)
Inductive reply := RNone | RItems (a : arg V).

Definition q_step (q : queue) (o : qop) : queue * reply :=
  match o with
  | Enqueue a => (q_enqueue q a, RNone)
  | Dequeue n => let '(q', r) := q_dequeue q n in (q', RItems r)
  | QPeek n => (q, RItems (q_peek q n))
  | QGet i => (q, RItems (One (q_get q (Z.of_nat i))))
  | Clear => (q_clear q, RNone)
  end.

Definition s_step (s : stack) (o : sop) : stack * reply :=
  match o with
  | Push a => (s_push s a, RNone)
  | Pop n => let '(s', r) := s_pop s n in (s', RItems r)
  | SPeek n => (s, RItems (s_peek s n))
  | SGet i => (s, RItems (One (s_get s (Z.of_nat i))))
  end.

(** The observable trace of a history: each reply and the [size] read after it. *)
Fixpoint q_run (q : queue) (ops : list qop) : list (reply * Z) :=
  match ops with
  | [] => []
  | o :: rest => let '(q', r) := q_step q o in (r, q_size q') :: q_run q' rest
  end.
Fixpoint s_run (s : stack) (ops : list sop) : list (reply * Z) :=
  match ops with
  | [] => []
  | o :: rest => let '(s', r) := s_step s o in (r, s_size s') :: s_run s' rest
  end.
Definition q_exec (q : queue) (ops : list qop) : queue := fold_left (fun q o => fst (q_step q o)) ops q.
Definition s_exec (s : stack) (ops : list sop) : stack := fold_left (fun s o => fst (s_step s o)) ops s.
End QS.
Arguments queue : clear implicits. Arguments stack : clear implicits.
Arguments qop : clear implicits. Arguments sop : clear implicits. Arguments reply : clear implicits.
Arguments RNone {V}. Arguments RItems {V}.
Arguments Clear {V}. Arguments Dequeue {V}. Arguments QPeek {V}. Arguments QGet {V}.
Arguments Pop {V}. Arguments SPeek {V}. Arguments SGet {V}.
