(** * PropIntCost.v — property C61: parallel_insert with integer costs. *)
From Verif Require Import Jax KeyModel HashModel HashProofs StableSort TableModel ProbeProofs TableLookup TableInv TableInsert DedupeModel DedupeSpec DedupeProofs DedupeExact ParInsertModel ParInsert ParEffect TritonModel PallasModel TableSpec TableHistory PropTable PropTableCases PropDedupe ResolveProofs GroupFirst UniqueModel TableRounds IntCost.
From Coq Require Import ZArith Lia.

(** ** The conversion: nearest float, ties to even; small integers are exact; it preserves
    the order; two integers with the same float are relatively close *)
Theorem C61_rounding : forall p z, (2 <= p)%Z ->
  representable p (round_int p z) /\
  (forall y, representable p y -> (Z.abs (z - round_int p z) <= Z.abs (z - y))%Z) /\
  (forall y, representable p y -> Z.abs (z - round_int p z) = Z.abs (z - y) -> y <> round_int p z -> even_significand p (round_int p z)).
Proof. intros p z Hp. destruct (round_spec p Hp z) as (A & B & D & _). auto. Qed.
Theorem C61_exact_small : forall p z, (2 <= p)%Z -> (Z.abs z <= 2 ^ p)%Z -> round_int p z = z.
Proof. intros p z Hp H. apply round_exact; [exact Hp|]. now apply representable_small. Qed.
Theorem C61_monotone : forall p a b, (2 <= p)%Z -> (a <= b)%Z -> (round_int p a <= round_int p b)%Z.
Proof. intros p a b Hp. now apply round_mono. Qed.

Section S.
Context {item : Type} (T : dataclass item) (C : settings).
Notation d := (dc_default T).
Notation history := (history T C).

(** an integer cost array as [parallel_insert] sees it (hash_utils.py 276, 414) *)
Definition int_costs (p : Z) (us : list Z) : option (list costval) := Some (map (fun z => Cost (Fin (round_int p z))) us).
Lemma costof_int p (us : list Z) q : q < length us -> costof (int_costs p us) q = Cost (Fin (round_int p (nth q us 0%Z))).
Proof. intros H. unfold costof, int_costs. exact (map_nth_lt (fun z => Cost (Fin (round_int p z))) us q 0%Z (Cost PInf) H). Qed.

(** ** Which occurrence of an item is kept.  The kept occurrence [r] of each filled item is
    the only one marked unique and every occurrence is reported with its index.  It need
    not be the cheapest: its cost may exceed the cheapest one by a relative [2^-p]; among
    costs up to [2^p] in magnitude it is the cheapest, the first on ties. *)
Theorem C61_unique_mask : forall p be es t xs f us t' ins uniq idx, (2 <= p)%Z ->
  history es t -> mask_ok xs f -> length us = length xs -> dedupe_reliable T C xs (mask_list (length xs) f) (int_costs p us) ->
  ParallelInsert T C be t xs f (int_costs p us) (t', ins, uniq, idx) ->
  forall q, is_filled xs f q -> exists r,
    is_filled xs f r /\ nth r xs d = nth q xs d /\ nth q idx 0 = nth r idx 0 /\
    (forall q', is_filled xs f q' -> nth q' xs d = nth q xs d -> (nth q' uniq false = true <-> q' = r)) /\
    (forall q', is_filled xs f q' -> nth q' xs d = nth q xs d ->
       let c := nth r us 0%Z in let c' := nth q' us 0%Z in
       (c <= c' \/ round_int p c = round_int p c' /\ (c - c') * 2 ^ p <= Z.abs c + Z.abs c')%Z /\
       (round_int p c' = round_int p c -> r <= q') /\
       ((Z.abs c <= 2 ^ p)%Z -> (Z.abs c' <= 2 ^ p)%Z -> (c <= c')%Z /\ (c' = c -> r <= q'))).
Proof.
  intros p be es t xs f us t' ins uniq idx Hp H HL HU HD HP q [Hq HF].
  assert (f <> FScalar false) as HN by (intros ->; cbn [mask_list] in HF; rewrite nth_repeat in HF; discriminate).
  destruct (C28_unique_mask T C be es t xs f _ t' ins uniq idx H HL HN HD HP) as (reps & DE & HX).
  destruct (C28_sound T C be es t xs f _ t' ins uniq idx H HL HP) as (_ & _ & SD). unfold mask_ok in HL.
  destruct (de_rep _ _ _ _ _ DE q ltac:(lia) HF) as (R1 & R2 & R3 & R4). cbn [snd] in *. set (r := nth q reps 0) in *.
  exists r. split; [split; [lia|exact R2]|]. split; [exact R3|]. split; [apply HX; split; assumption|].
  assert (UR : nth r uniq false = true).
  { apply (de_mask _ _ _ _ _ DE r); [lia|]. split; [exact R2|]. cbn [snd].
    destruct (de_rep _ _ _ _ _ DE r R1 R2) as (Q1 & Q2 & Q3 & Q4). cbn [snd] in *. set (r' := nth r reps 0) in *.
    destruct (R4 r' Q1 Q2 ltac:(congruence)) as [C1 C2]. destruct (Q4 r R1 R2 eq_refl) as [C3 C4].
    assert (costof (int_costs p us) r' = costof (int_costs p us) r) as EC by (apply cle_antisym; assumption). specialize (C2 EC). specialize (C4 (eq_sym EC)). lia. }
  split.
  - intros q' [Hq' HF'] ES. split; [|intros ->; exact UR]. intros U. apply SD; auto; [lia|congruence].
  - intros q' [Hq' HF'] ES. cbv zeta. set (c := nth r us 0%Z). set (c' := nth q' us 0%Z). destruct (R4 q' ltac:(lia) HF' ES) as [C1 C2]. clear R4. rewrite !costof_int in C1, C2 by lia. cbn [cle kle] in C1. apply Z.leb_le in C1. fold c c' in C1, C2.
    assert (C2' : round_int p c' = round_int p c -> r <= q') by (intros E; apply C2; now rewrite E).
    split; [|split; [exact C2'|]].
    + destruct (Z.le_gt_cases c c') as [L|L]; [left; exact L|right]. assert (E : round_int p c = round_int p c') by (pose proof (round_mono p Hp c' c ltac:(lia)); lia).
      split; [exact E|]. pose proof (round_close p Hp c c' E). rewrite Z.abs_eq in H0 by lia. exact H0.
    + intros B B'. rewrite !(C61_exact_small p) in C1, C2' by assumption. split; [exact C1|exact C2'].
Qed.
(** integer costs are never infinite or NaN: in the default mode every batch of a type of at
    most eight words is deduplicated exactly (up to the rounding) *)
Theorem C61_default_mode : forall seed p us xs filled, (seed < 2 ^ 32)%N -> (forall x, dc_hash T (dc_words T x) = hash_fast_pair (dc_words T x) seed) ->
  (forall x, In x xs -> Forall (fun w => (w < 2 ^ 32)%N) (dc_words T x)) -> s_mode C = Safe -> dc_nwords T <= 8 -> length us = length xs ->
  dedupe_reliable T C xs filled (int_costs p us).
Proof.
  intros seed p us xs filled HS HR HW HM H8 HL. apply (C28_default_mode T C seed HS HR); auto. right. intros q Hq _. rewrite costof_int by lia. split; discriminate.
Qed.
End S.

(** ** The cheapest occurrence is not always kept: the batch [7, 7] with int32 costs
    16777217 and 16777216 keeps entry 0, the more expensive one *)
Definition IC : list Z := [16777217; 16777216]%Z.
Theorem C61_cheapest_refuted : (nth 1 IC 0 < nth 0 IC 0)%Z /\
  exists t' ins uniq idx, ParallelInsert U32 DEF XLA T0 [7; 7]%N (FScalar true) (int_costs 24 IC) (t', ins, uniq, idx) /\
    ins = [true; false] /\ uniq = [true; false].
Proof.
  split; [reflexivity|]. do 4 eexists. split; [apply xla_function; vm_compute; reflexivity|]. split; reflexivity.
Qed.
(** with one more significant bit (float64) it is *)
Theorem C61_float64_case : exists t' ins uniq idx, ParallelInsert U32 DEF XLA T0 [7; 7]%N (FScalar true) (int_costs 53 IC) (t', ins, uniq, idx) /\
    ins = [false; true] /\ uniq = [false; true].
Proof. do 4 eexists. split; [apply xla_function; vm_compute; reflexivity|]. split; reflexivity. Qed.
(** the hypotheses are met by this batch *)
Example C61_case : history U32 DEF [] T0 /\ mask_ok [7; 7]%N (FScalar true) /\ length IC = 2 /\ dedupe_reliable U32 DEF [7; 7]%N (mask_list 2 (FScalar true)) (int_costs 24 IC) /\ is_filled [7; 7]%N (FScalar true) 1.
Proof.
  split; [exists 16, 8, 2, None; split; [exact T0_ok|constructor]|]. split; [reflexivity|]. split; [reflexivity|]. split; [|split; [cbn; lia|reflexivity]].
  apply (C61_default_mode U32 DEF 42); try reflexivity; [|apply Nat.leb_le; reflexivity].
  intros x Hx. cbn [dc_words U32]. constructor; [|constructor]. destruct Hx as [<-|[<-|[]]]; reflexivity.
Qed.
Print Assumptions C61_rounding. Print Assumptions C61_exact_small. Print Assumptions C61_monotone. Print Assumptions C61_unique_mask. Print Assumptions C61_default_mode. Print Assumptions C61_cheapest_refuted. Print Assumptions C61_float64_case.
