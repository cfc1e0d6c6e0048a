(** * PropQueue.v — property theorems C01-C05 (Queue and Stack).
    Only statements, [exact], assumptions and non-vacuity examples.          *)
From Verif Require Import Jax QueueModel QueueSpec QueueProofs.

(** C01: every legal history of a freshly built queue is observably a FIFO list. *)
Theorem C01_queue_is_fifo :
  forall (V : Type) (dflt : V) (max_size : nat) (ops : list (qop V)),
    (Z.of_nat max_size < 2 ^ 31)%Z ->
    q_legal max_size 0 [] ops ->
    q_run dflt (q_build dflt max_size) ops = fifo_run dflt [] ops.
Proof. intros V dflt. exact (queue_is_fifo dflt). Qed.
Print Assumptions C01_queue_is_fifo.

Definition ex_qops : list (qop Z) :=
  [Enqueue (Many [1; 2; 3]%Z); Dequeue 1; Enqueue (One 4%Z); QGet 2; QPeek 3; Dequeue 2; Clear;
   Enqueue (Many [7; 8; 9; 10; 11]%Z); Dequeue 4].
Example C01_nonvacuous :
  q_legal 5 0 [] ex_qops
  /\ q_run 0%Z (q_build 0%Z 5) ex_qops =
     [(RNone, 3); (RItems (One 1), 2); (RNone, 3); (RItems (One 4), 3); (RItems (Many [2; 3; 4]), 3);
      (RItems (Many [2; 3]), 1); (RNone, 0); (RNone, 5); (RItems (Many [7; 8; 9; 10]), 1)]%Z.
Proof. split; [simpl; lia | vm_compute; reflexivity]. Qed.

(** C02: after any history the backing array holds exactly the first [max_size]
    items enqueued since the last clear (in order): later ones were dropped, none
    was overwritten; [size] counts the dropped ones too. *)
Theorem C02_queue_keeps_first_max_size_items :
  forall (V : Type) (dflt : V) (max_size : nat) (ops : list (qop V)),
    (Z.of_nat (total_enqueued ops) <= 2 ^ 31)%Z ->
    let q := q_exec dflt (q_build dflt max_size) ops in
    let all := enqueued_since_clear ops in
    firstn (Nat.min (length all) max_size) (q_store q) = firstn max_size all /\
    q_size q = u32 (Z.of_nat (length all) - dequeued_since_clear ops).
Proof. intros V dflt. exact (queue_history dflt). Qed.
Print Assumptions C02_queue_keeps_first_max_size_items.

(** C02: one enqueue on any reachable queue. *)
Theorem C02_enqueue_effect :
  forall (V : Type) (dflt : V) (max_size : nat) (ops : list (qop V)) (a : arg V),
    (Z.of_nat (total_enqueued ops + length (arg_items a)) <= 2 ^ 31)%Z ->
    let q := q_exec dflt (q_build dflt max_size) ops in
    let t := length (enqueued_since_clear ops) in
    q_store (q_enqueue q a)
    = firstn t (q_store q) ++ firstn (max_size - t) (arg_items a)
      ++ skipn (t + length (arg_items a)) (q_store q)
    /\ q_size (q_enqueue q a) = u32 (q_size q + Z.of_nat (length (arg_items a))).
Proof. intros V dflt. exact (enqueue_effect dflt). Qed.
Print Assumptions C02_enqueue_effect.

(** C02, false claim: "an enqueue while size < max_size is never lost".  Here the
    queue (max_size 2) is empty after two balanced enqueue/dequeue pairs, one item
    (42) is enqueued, size says 1, but dequeue returns something else. *)
Theorem C02_no_loss_below_capacity_refuted :
  exists (ops : list (qop Z)) (x : Z),
    let q := q_exec 0%Z (q_build 0%Z 2) ops in
    (q_size q < 2)%Z
    /\ q_size q = 0%Z
    /\ q_size (q_enqueue q (One x)) = 1%Z
    /\ snd (q_dequeue 0%Z (q_enqueue q (One x)) 1) <> One x.
Proof.
  exists [Enqueue (Many [5; 6]%Z); Dequeue 2], 42%Z. vm_compute.
  repeat split; try reflexivity; discriminate.
Qed.
Print Assumptions C02_no_loss_below_capacity_refuted.

Example C02_nonvacuous :
  let ops := [Enqueue (Many [1; 2; 3]%Z); Dequeue 1; Enqueue (Many [4; 5; 6]%Z)] in
  (Z.of_nat (total_enqueued ops) <= 2 ^ 31)%Z /\
  q_store (q_exec 0%Z (q_build 0%Z 4) ops) = [1; 2; 3; 4]%Z /\
  q_size (q_exec 0%Z (q_build 0%Z 4) ops) = 5%Z.
Proof. vm_compute. repeat split; intro H; discriminate H. Qed.

(** C03: every legal history of a freshly built stack is observably a LIFO list. *)
Theorem C03_stack_is_lifo :
  forall (V : Type) (dflt : V) (max_size : nat) (ops : list (sop V)),
    (Z.of_nat max_size < 2 ^ 31)%Z ->
    s_legal dflt max_size [] ops ->
    s_run dflt (s_build dflt max_size) ops = lifo_run dflt [] ops.
Proof. intros V dflt. exact (stack_is_lifo dflt). Qed.
Print Assumptions C03_stack_is_lifo.

Definition ex_sops : list (sop Z) :=
  [Push (Many [1; 2; 3]%Z); Pop 1; Push (One 9%Z); SPeek 2; SGet 0; Pop 2; Push (Many [4; 5]%Z); Pop 3].
Example C03_nonvacuous :
  s_legal 0%Z 4 [] ex_sops
  /\ s_run 0%Z (s_build 0%Z 4) ex_sops =
     [(RNone, 3); (RItems (One 3), 2); (RNone, 3); (RItems (Many [2; 9]), 3); (RItems (One 1), 3);
      (RItems (Many [2; 9]), 1); (RNone, 3); (RItems (Many [1; 4; 5]), 0)]%Z.
Proof. split; [simpl; lia | vm_compute; reflexivity]. Qed.

(** C04: a push stores the prefix that fits; the rest of the array is unchanged. *)
Theorem C04_push_effect :
  forall (V : Type) (s : stack V) (a : arg V) (sz : nat),
    s_size s = Z.of_nat sz ->
    (Z.of_nat sz + Z.of_nat (length (arg_items a)) <= 2 ^ 31)%Z ->
    let max := length (s_store s) in
    s_store (s_push s a)
     = firstn sz (s_store s) ++ firstn (max - sz) (arg_items a)
       ++ skipn (sz + length (arg_items a)) (s_store s)
    /\ s_size (s_push s a) = Z.of_nat (sz + length (arg_items a)).
Proof. intros V. exact push_effect. Qed.
Print Assumptions C04_push_effect.

Theorem C04_push_then_pop_restores :
  forall (V : Type) (dflt : V) (s : stack V) (a : arg V) (sz : nat),
    s_size s = Z.of_nat sz ->
    (Z.of_nat sz + Z.of_nat (length (arg_items a)) <= 2 ^ 31)%Z ->
    let s' := fst (s_pop dflt (s_push s a) (length (arg_items a))) in
    s_size s' = s_size s /\
    length (s_store s') = length (s_store s) /\
    firstn sz (s_store s') = firstn sz (s_store s).
Proof. intros V dflt. exact (push_pop_restores dflt). Qed.
Print Assumptions C04_push_then_pop_restores.

Example C04_nonvacuous :
  let s := s_exec 0%Z (s_build 0%Z 3) [Push (Many [1; 2]%Z)] in
  s_size s = Z.of_nat 2 /\
  s_store (s_push s (Many [3; 4; 5]%Z)) = [1; 2; 3]%Z /\ s_size (s_push s (Many [3; 4; 5]%Z)) = 5%Z.
Proof. vm_compute. auto. Qed.

(** C04, false claim: "what a pop returns is what the matching push stored". *)
Theorem C04_overflowing_push_pop_returns_pushed_refuted :
  exists (s : stack Z) (vs : list Z),
    s = s_exec 0%Z (s_build 0%Z 2) [Push (One 1%Z)] /\
    snd (s_pop 0%Z (s_push s (Many vs)) (length vs)) <> Many vs.
Proof. exists (mkS [1; 0]%Z 1%Z), [7; 8]%Z. vm_compute. split; [reflexivity | discriminate]. Qed.
Print Assumptions C04_overflowing_push_pop_returns_pushed_refuted.

(** C05: size after a removal; it shrinks exactly when enough items were present. *)
Theorem C05_pop_size :
  forall (V : Type) (dflt : V) (s : stack V) (n : nat),
    (0 <= s_size s < 2 ^ 32)%Z -> (Z.of_nat n < 2 ^ 32)%Z ->
    s_size (fst (s_pop dflt s n)) =
      (if (Z.of_nat n <=? s_size s)%Z then s_size s - Z.of_nat n
       else s_size s - Z.of_nat n + 2 ^ 32)%Z
    /\ ((s_size (fst (s_pop dflt s n)) <= s_size s)%Z <-> (Z.of_nat n <= s_size s)%Z).
Proof. intros V dflt. exact (pop_size_iff dflt). Qed.
Print Assumptions C05_pop_size.

Theorem C05_dequeue_size :
  forall (V : Type) (dflt : V) (q : queue V) (n : nat),
    (Z.of_nat n < 2 ^ 32)%Z ->
    q_size (fst (q_dequeue dflt q n)) =
      (if (Z.of_nat n <=? q_size q)%Z then q_size q - Z.of_nat n
       else q_size q - Z.of_nat n + 2 ^ 32)%Z
    /\ ((q_size (fst (q_dequeue dflt q n)) <= q_size q)%Z <-> (Z.of_nat n <= q_size q)%Z).
Proof. intros V dflt. exact (dequeue_size_iff dflt). Qed.
Print Assumptions C05_dequeue_size.

(** C05, false claim: "size is never larger than the number of items added". *)
Theorem C05_size_bounded_by_added_refuted :
  s_size (s_exec 0%Z (s_build 0%Z 4) [Push (One 1%Z); Pop 2]) = 4294967295%Z /\
  q_size (q_exec 0%Z (q_build 0%Z 4) [Enqueue (One 1%Z); Dequeue 2]) = 4294967295%Z.
Proof. vm_compute. auto. Qed.
Print Assumptions C05_size_bounded_by_added_refuted.

Example C05_nonvacuous :
  (0 <= s_size (s_exec 0%Z (s_build 0%Z 4) [Push (Many [1; 2]%Z)]) < 2 ^ 32)%Z.
Proof. vm_compute. split; [intro H; discriminate H | reflexivity]. Qed.
