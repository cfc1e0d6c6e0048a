(** * HeapSpec.v — what a user expects of the batched priority queue, stated on bags
      of (key, value) pairs, with no reference to heap blocks.                    *)
From Verif Require Import Jax KeyModel SortProofs HeapModel.

Section Spec.
Context {V : Type}.
Notation item := (key * V)%type.
Notation row := (list item).

(** the real items of a block: those with a finite key (+inf is padding) *)
Definition fin (r : row) : row := filter (fun p => finite (fst p)) r.

(** Legal call arguments: a block has batch_size slots, no NaN (not representable) and
    no -inf key. *)
Inductive op := Ins (block : row) | Del.
Definition legal (B : nat) (o : op) : Prop :=
  match o with
  | Ins block => length block = B /\ (forall x, In x block -> fst x <> NInf)
  | Del => True
  end.

(** One insert into a queue of capacity [cap] = max_size holding [bag]. *)
Inductive ins_spec (B cap : nat) (bag block bag' : row) : Prop :=
| ins_fits :
    length bag + length (fin block) < cap + B ->
    Permutation bag' (bag ++ fin block) ->
    ins_spec B cap bag block bag'
| ins_evicts (low rest ev : row) :
    cap + B <= length bag + length (fin block) ->
    length ev = B -> length low = B ->
    Permutation bag' (low ++ rest) ->
    Permutation (bag' ++ ev) (bag ++ fin block) ->   (* nothing else lost, nothing invented *)
    below low (rest ++ ev) ->                       (* the batch_size smallest survive *)
    (exists kept late e,                            (* some evicted item is at least as large as *)
       Permutation bag' (kept ++ late) /\           (* all but batch_size-1 of the survivors *)
       length late < B /\ In e ev /\ (forall x, In x kept -> ile x e)) ->
    ins_spec B cap bag block bag'.

(** One delete_mins returning the block [out]. *)
Definition del_spec (B : nat) (bag out bag' : row) : Prop :=
  exists ret pad,
    out = ret ++ pad /\ length out = B /\
    length ret = Nat.min B (length bag) /\
    (forall x, In x pad -> fst x = PInf) /\
    sorted ret /\
    Permutation bag (ret ++ bag') /\                (* exactly the returned pairs leave *)
    below ret bag'.                                  (* they are the smallest *)

(** A trace: after each operation the user sees the returned block (for Del) and
    [queue.size]. *)
Inductive pq_trace (B cap : nat) : row -> list op -> list (row * Z) -> row -> Prop :=
| tr_nil bag : pq_trace B cap bag [] [] bag
| tr_ins bag block bag' ops obs bag'' :
    ins_spec B cap bag block bag' ->
    pq_trace B cap bag' ops obs bag'' ->
    pq_trace B cap bag (Ins block :: ops) (([], Z.of_nat (length bag')) :: obs) bag''
| tr_del bag out bag' ops obs bag'' :
    del_spec B bag out bag' ->
    pq_trace B cap bag' ops obs bag'' ->
    pq_trace B cap bag (Del :: ops) ((out, Z.of_nat (length bag')) :: obs) bag''.

(** Running the model. *)
Fixpoint run (h : heap V) (ops : list op) : option (heap V * list (row * Z)) :=
  match ops with
  | [] => Some (h, [])
  | Ins block :: t =>
      let h' := insert h block in
      match run h' t with Some (hf, obs) => Some (hf, ([], size h') :: obs) | None => None end
  | Del :: t =>
      match delete_mins h with
      | None => None
      | Some (h', out) =>
          match run h' t with Some (hf, obs) => Some (hf, (out, size h') :: obs) | None => None end
      end
  end.

(** What is stored: every finite-key slot of the blocks and of the buffer. *)
Definition contents (h : heap V) : row := fin (concat (rows h) ++ buf h).

(** Reachable queues. *)
Definition reachable (total B : nat) (dv : V) (h : heap V) : Prop :=
  exists ops obs, Forall (legal B) ops /\ run (build dv total B) ops = Some (h, obs).

(** C09: the structural invariant, block [i]'s children are 2i+1 and 2i+2. *)
Definition block_at (h : heap V) (i : nat) : row := nth i (rows h) [].
Record well_formed (h : heap V) : Prop := {
  wf_shape : length (rows h) = branch h /\ (forall r, In r (rows h) -> length r = batch h) /\
             length (buf h) = batch h - 1;
  wf_sorted : (forall r, In r (rows h) -> sorted r) /\ sorted (buf h);
  wf_order : forall i c, (c = 2 * i + 1 \/ c = 2 * i + 2) -> c < branch h ->
             below (block_at h i) (block_at h c);
  wf_used : hsize h < branch h /\
            forall i, 1 <= i <= hsize h -> forall x, In x (block_at h i) -> finite (fst x) = true;
  wf_unused : forall i, hsize h < i < branch h -> forall x, In x (block_at h i) -> fst x = PInf;
  wf_buffer : below (block_at h 0) (buf h)
}.
End Spec.
Arguments op V : clear implicits.
