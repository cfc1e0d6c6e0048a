(** * DedupeSpec.v — what in-batch deduplication should do, stated on the batch alone. *)
From Verif Require Import Jax KeyModel.

Section Spec.
Context {row : Type} (dr : row).
Variables (rows : list row) (filled : list bool) (uk : option (list costval)).
Notation n := (length filled).
Notation R i := (nth i rows dr).
Notation F i := (nth i filled false = true).
(** the cost of an entry; without a cost array all entries cost the same *)
Definition costof i : costval := match uk with None => Cost PInf | Some u => nth i u (Cost PInf) end.

(** [res = (mask, reps)]: every filled entry is mapped to the cheapest filled occurrence
    of the same item (lowest index among equally cheap ones); the mask marks exactly
    those chosen occurrences; unfilled entries are never marked. *)
Record dedupe_exact (res : list bool * list nat) : Prop := {
  de_lm : length (fst res) = n; de_lr : length (snd res) = n;
  de_rep : forall i, i < n -> F i ->
    let r := nth i (snd res) 0 in
    r < n /\ F r /\ R r = R i /\
    forall i', i' < n -> F i' -> R i' = R i ->
      cle (costof r) (costof i') = true /\ (costof i' = costof r -> r <= i');
  de_mask : forall i, i < n -> (nth i (fst res) false = true <-> F i /\ nth i (snd res) 0 = i);
  de_unf : forall i, i < n -> nth i filled false = false -> nth i (snd res) 0 = 0 }.

(** the same with NaN costs: an item one of whose filled occurrences has a NaN cost is
    mapped to entry 0, whatever that is; all other items as before. *)
Definition nan_free (i : nat) : Prop := forall i', i' < n -> F i' -> R i' = R i -> costof i' <> CNaN.
Record dedupe_nan (res : list bool * list nat) : Prop := {
  dn_lm : length (fst res) = n; dn_lr : length (snd res) = n;
  dn_rep : forall i, i < n -> F i -> nan_free i ->
    let r := nth i (snd res) 0 in
    r < n /\ F r /\ R r = R i /\
    forall i', i' < n -> F i' -> R i' = R i ->
      cle (costof r) (costof i') = true /\ (costof i' = costof r -> r <= i');
  dn_nan : forall i i', i < n -> F i -> i' < n -> F i' -> R i' = R i -> costof i' = CNaN -> nth i (snd res) 0 = 0;
  dn_mask : forall i, i < n -> (nth i (fst res) false = true <-> F i /\ nth i (snd res) 0 = i);
  dn_unf : forall i, i < n -> nth i filled false = false -> nth i (snd res) 0 = 0 }.

(** weaker contract, which also tolerates undetected hash collisions: never marks an
    unfilled entry, never marks two occurrences of one item, representatives are in range. *)
Record dedupe_sound (res : list bool * list nat) : Prop := {
  ds_lm : length (fst res) = n; ds_lr : length (snd res) = n;
  ds_filled : forall i, i < n -> nth i (fst res) false = true -> F i;
  ds_self : forall i, i < n -> nth i (fst res) false = true -> nth i (snd res) 0 = i;
  ds_range : forall i, i < n -> nth i (snd res) 0 < n;
  ds_distinct : forall i i', i < n -> i' < n -> nth i (fst res) false = true -> nth i' (fst res) false = true ->
    R i = R i' -> i = i';
  ds_same : forall i i', i < n -> i' < n -> F i -> F i' -> R i = R i' -> nth i (snd res) 0 = nth i' (snd res) 0;
  ds_unf : forall i, i < n -> nth i filled false = false -> nth i (snd res) 0 = 0 }.
End Spec.

(** the order delivered by any ascending sort of the keys: a permutation of the batch in
    which equal keys are adjacent (all that the grouping relies on) *)
Definition sorting {K : Type} (kd : K) (keys : list K) (perm : list nat) : Prop :=
  Permutation perm (seq 0 (length keys)) /\
  forall p q r, p < q -> q < r -> r < length perm ->
    nth (nth p perm 0) keys kd = nth (nth r perm 0) keys kd -> nth (nth q perm 0) keys kd = nth (nth p perm 0) keys kd.
