(** * PropTable.v — C21-C27, C29, C30: the hash table along every history. *)
From Verif Require Import Jax KeyModel HashModel HashProofs StableSort TableModel ProbeProofs TableLookup TableInv TableInsert ResolveProofs TableRounds TableCommit TableBound DedupeModel DedupeSpec DedupeProofs DedupeExact ParInsertModel ParInsert ParEffect Claims TritonModel TritonProofs PallasModel PallasProofs TableSpec TableHistory.

Section S.
Context {item : Type} (T : dataclass item) (C : settings).
Notation table := (@table item).
Notation d := (dc_default T).
Notation hp := (hash_pair T).
Implicit Types (t : table) (x : item).
Notation history := (history T C).
Notation run := (run T C).

(** ** C21 *)
(** the table has a power-of-two number of buckets, at least the requested number and
    less than twice it *)
Theorem C21_bucket_count : forall capacity bs mult mp,
  let t := Build T capacity bs mult mp in
  (exists k, cap t = 2 ^ k) /\ mult * capacity / bs <= cap t /\
  (1 <= mult * capacity / bs -> cap t < 2 * (mult * capacity / bs)).
Proof.
  intros capacity bs mult mp. cbv zeta. change (cap (Build T capacity bs mult mp)) with (table_cap (mult * capacity / bs)).
  split; [apply table_cap_pow2|]. split; [apply table_cap_ge|apply table_cap_lt].
Qed.
Lemma probe_seq_eq k t x j : cap t = 2 ^ k -> k <= 31 -> probe_seq T t x j = probe hp (cap t) k x j.
Proof.
  intros HC HK. induction j as [|j IH]; cbn [probe_seq].
  - symmetry. apply probe_0; [exact HC|lia].
  - rewrite IH. symmetry. apply probe_S; [exact HC|lia].
Qed.
(** the probe sequence stays inside the table, visits every bucket exactly once in its
    first [cap] steps and then repeats *)
Theorem C21_probe_permutation : forall es t x, history es t ->
  (forall j, probe_seq T t x j < cap t) /\
  Permutation (map (probe_seq T t x) (seq 0 (cap t))) (seq 0 (cap t)) /\
  (forall j, probe_seq T t x (cap t + j) = probe_seq T t x j).
Proof.
  intros es t x H. destruct (history_facts T C es t H) as (k & [V _] & _).
  pose proof (wf_cap _ _ (i_wf _ _ _ _ V)) as HC. pose proof (wf_k _ _ (i_wf _ _ _ _ V)) as HK.
  assert (forall j, probe_seq T t x j < cap t) as HL by (intros j; rewrite (probe_seq_eq k) by assumption; apply probe_lt; [exact HC|lia]).
  split; [exact HL|]. split.
  - apply NoDup_Permutation.
    + rewrite (map_ext _ (probe hp (cap t) k x)) by (intros j; apply probe_seq_eq; assumption). apply probe_nodup; [exact HC|lia].
    + apply seq_NoDup.
    + intros b. rewrite in_map_iff, in_seq. split.
      * intros (j & <- & _). specialize (HL j). lia.
      * intros Hb. destruct (probe_onto hp (cap t) k HC ltac:(lia) x b ltac:(lia)) as (j & Hj & E). exists j. rewrite (probe_seq_eq k) by assumption.
        split; [exact E|apply in_seq; lia].
  - intros j. rewrite !(probe_seq_eq k) by assumption. apply probe_period; [exact HC|lia].
Qed.

(** ** C22 — every item reported as inserted is found, forever *)
Theorem C22_found_forever : forall es t x i, history es t -> reported T es x i ->
  Lookup T t x = Some (i, true) /\ GetItem T t i = x.
Proof.
  intros es t x i H HR. destruct (history_facts T C es t H) as (k & G & HS & _). apply HS in HR.
  split; [apply (found_iff T k); assumption|apply stored_get; exact HR].
Qed.
(** ... by the batched lookup too, for every batch and mask in which it is queried *)
Theorem C22_found_parallel : forall es t xs f, history es t -> mask_ok xs f ->
  exists out, LookupParallel T t xs f = Some out /\ length out = length xs /\
    forall q, q < length xs ->
      (nth q (mask_list (length xs) f) false = true ->
        forall i, nth q out (0, false) = (i, true) <-> reported T es (nth q xs d) i) /\
      (nth q (mask_list (length xs) f) false = false -> snd (nth q out (0, false)) = false).
Proof.
  intros es t xs f H HL. destruct (history_facts T C es t H) as (k & G & HS & _).
  destruct (lookup_parallel_facts T k t xs f G HL) as (out & E & HLn & HQ). exists out. split; [exact E|]. split; [exact HLn|].
  intros q Hq. destruct (HQ q Hq) as [A B]. split; [|exact B]. intros HF i. rewrite (A HF i). apply HS.
Qed.

(** ** C23 — lookup always answers; a positive answer names the index at which an
    operation reported that very item, and the index holds it *)
Theorem C23_no_false_positives : forall es t x, history es t ->
  exists i f, Lookup T t x = Some (i, f) /\ (f = true <-> exists i', reported T es x i') /\
    (f = true -> GetItem T t i = x /\ reported T es x i).
Proof.
  intros es t x H. destruct (history_facts T C es t H) as (k & G & HS & _).
  destruct (lookup_total T k t x G) as (i & f & E). exists i, f. split; [exact E|].
  assert (f = true -> reported T es x i) as HR.
  { intros ->. apply HS. apply (found_iff T k); assumption. }
  split; [split|].
  - intros Hf. exists i. apply HR. exact Hf.
  - intros (i' & H'). apply HS in H'. apply (found_iff T k) in H'; [|exact G]. unfold found in H'. rewrite E in H'. injection H' as _ ->. reflexivity.
  - intros Hf. split; [|apply HR; exact Hf]. apply stored_get. apply HS. apply HR. exact Hf.
Qed.
(** a batched lookup: a positive answer is for a row whose filled flag is set, and names the
    index at which that row's item is stored *)
Theorem C23_no_false_positives_parallel : forall es t xs f, history es t -> mask_ok xs f ->
  exists out, LookupParallel T t xs f = Some out /\ length out = length xs /\
    forall q i, q < length xs -> nth q out (0, false) = (i, true) ->
      nth q (mask_list (length xs) f) false = true /\ GetItem T t i = nth q xs d /\ reported T es (nth q xs d) i.
Proof.
  intros es t xs f H HL. destruct (C22_found_parallel es t xs f H HL) as (out & E & HLn & HQ). exists out. split; [exact E|]. split; [exact HLn|].
  intros q i Hq EQ. destruct (HQ q Hq) as [A B]. destruct (nth q (mask_list (length xs) f) false) eqn:EM; [|specialize (B eq_refl); rewrite EQ in B; discriminate].
  pose proof (proj1 (A eq_refl i) EQ) as HR. split; [reflexivity|]. split; [|exact HR].
  destruct (history_facts T C es t H) as (k & G & HS & _). apply stored_get. apply HS. exact HR.
Qed.
(** stored items never move, whatever operations follow (failing ones included) *)
Theorem C23_never_moves : forall es t es' t' x i, history es t -> run t es' t' ->
  Lookup T t x = Some (i, true) ->
  Lookup T t' x = Some (i, true) /\ GetItem T t' i = x /\ GetItem T t i = x.
Proof.
  intros es t es' t' x i H HR HF. pose proof (history_run T C es t es' t' H HR) as H'.
  destruct (C23_no_false_positives es t x H) as (i0 & f & E & _ & HP). rewrite HF in E. injection E as <- <-.
  destruct (HP eq_refl) as [HG (e & He & Hev)].
  destruct (C22_found_forever (es ++ es') t' x i H') as [A B].
  { exists e. split; [apply in_or_app; left; exact He|exact Hev]. }
  auto.
Qed.

(** ** C24 — a set: the stored (item, index) pairs can be listed without repeated items
    or indices, lookup finds exactly the listed ones, and [size] is their number — which
    is also the number of insertions reported so far *)
Theorem C24_set : forall es t, history es t ->
  exists L : list (item * nat), NoDup (map fst L) /\ NoDup (map snd L) /\
    (forall x i, In (x, i) L <-> Lookup T t x = Some (i, true)) /\
    size t = N.of_nat (length L) /\ size t = N.of_nat (count es) /\ (size t <= N.of_nat (slots t))%N.
Proof.
  intros es t H. destruct (history_facts T C es t H) as (k & G & _ & HT).
  destruct (contents_spec T k t G) as (A & B & D & E). exists (contents T t). split; [exact A|]. split; [exact B|].
  split. { intros x i. rewrite D. symmetry. apply (found_iff T k). exact G. }
  rewrite (size_total T k t G), E. split; [reflexivity|]. split; [rewrite HT; reflexivity|]. pose proof (total_le T k t G). lia.
Qed.

(** ** C25 — insert *)
Theorem C25_insert : forall es t x, history es t ->
  exists t' ok i, Insert T t x = Some (t', ok, i) /\
    (forall i0, Lookup T t x = Some (i0, true) -> ok = false /\ i = i0 /\ t' = t) /\
    (absent T t x ->
       (ok = true <-> (size t < N.of_nat (slots t))%N) /\
       (ok = false -> t' = t) /\
       (ok = true -> size t' = (size t + 1)%N /\ Lookup T t' x = Some (i, true) /\ GetItem T t' i = x /\
          forall y j, y <> x -> (Lookup T t' y = Some (j, true) <-> Lookup T t y = Some (j, true)))).
Proof.
  intros es t x H. destruct (history_facts T C es t H) as (k & G & _ & _).
  destruct (insert_facts T k t x G) as (t' & ok & i & E & IE & HN). exists t', ok, i. split; [exact E|].
  pose proof (op_fact T C k t _ t' G (op_insert T C t x t' ok i E)) as SF. pose proof (sf_good _ _ _ _ _ SF) as G'.
  split.
  - intros i0 HF. apply (found_iff T k) in HF; [|exact G]. destruct ok.
    + exfalso. apply (proj1 (ie_ok _ _ _ _ _ _ _ _ IE eq_refl) i0 HF).
    + split; [reflexivity|]. split; [|apply (ie_no _ _ _ _ _ _ _ _ IE eq_refl)].
      destruct (HN eq_refl) as [HS|[_ HA]]; [|exfalso; apply (HA i0 HF)]. apply (stored_inj d hp k t i x (proj1 G) i0); assumption.
  - intros HA. rewrite (absent_iff T k) in HA by exact G. rewrite (size_total T k t G), (size_total T k t' G'). split; [|split].
    + destruct ok; split; try discriminate; intros HX.
      * destruct (ie_ok _ _ _ _ _ _ _ _ IE eq_refl) as (_ & _ & ET). pose proof (total_le T k t' G') as HLE.
        unfold slots in *. rewrite (sf_cap _ _ _ _ _ SF), (sf_bsz _ _ _ _ _ SF) in HLE. lia.
      * reflexivity.
      * exfalso. destruct (HN eq_refl) as [HS|[ET _]]; [apply (HA i HS)|lia].
    + intros ->. apply (ie_no _ _ _ _ _ _ _ _ IE eq_refl).
    + intros ->. destruct (ie_ok _ _ _ _ _ _ _ _ IE eq_refl) as (_ & HS & ET). split; [lia|].
      split; [apply (found_iff T k); assumption|]. split; [apply stored_get; exact HS|].
      intros y j Hne. change (found T t' y j <-> found T t y j). rewrite !(found_iff T k) by assumption.
      rewrite (ie_stored _ _ _ _ _ _ _ _ IE). split; [|auto]. intros [HY|(_ & _ & HY)]; [exact HY|contradiction].
Qed.

(** ** C26 — parallel_insert is a set union *)
Lemma mask_cases (P : fillarg -> Prop) f : P (FScalar false) -> (f <> FScalar false -> P f) -> P f.
Proof. intros H1 H2. destruct f as [[|]|l]; [apply H2; discriminate|exact H1|apply H2; discriminate]. Qed.
Theorem C26_union : forall be es t xs f uk t' ins uniq idx, history es t -> mask_ok xs f ->
  ParallelInsert T C be t xs f uk (t', ins, uniq, idx) ->
  length ins = length xs /\ length uniq = length xs /\ length idx = length xs /\
  (* only filled, previously absent inputs are inserted, and each item once *)
  (forall q, q < length xs -> nth q ins false = true -> is_filled xs f q /\ absent T t (nth q xs d)) /\
  (forall q q', q < length xs -> q' < length xs -> nth q ins false = true -> nth q' ins false = true ->
     nth q xs d = nth q' xs d -> q = q') /\
  (* the new contents: the old ones plus the inserted inputs at the returned indices *)
  (forall y i, Lookup T t' y = Some (i, true) <->
     Lookup T t y = Some (i, true) \/ exists q, q < length xs /\ nth q ins false = true /\ nth q xs d = y /\ nth q idx 0 = i) /\
  size t' = (size t + N.of_nat (trues ins))%N.
Proof.
  intros be es t xs f uk t' ins uniq idx H HL HP. destruct (history_facts T C es t H) as (k & G & _ & _).
  pose proof (op_fact T C k t _ t' G (op_batch T C t be xs f uk t' ins uniq idx HL HP)) as SF. pose proof (sf_good _ _ _ _ _ SF) as G'.
  assert (forall y i, Lookup T t' y = Some (i, true) <->
     Lookup T t y = Some (i, true) \/ exists q, q < length xs /\ nth q ins false = true /\ nth q xs d = y /\ nth q idx 0 = i) as HU.
  { intros y i. change (found T t' y i <-> found T t y i \/ event_reports T (EBatch xs ins idx) y i).
    rewrite !(found_iff T k) by assumption. apply (sf_stored _ _ _ _ _ SF). }
  assert (size t' = (size t + N.of_nat (trues ins))%N) as HSz.
  { rewrite (size_total T k t G), (size_total T k t' G'), (sf_total _ _ _ _ _ SF). cbn [event_count]. unfold trues. lia. }
  assert (forall q, q < length xs -> nth q ins false = true -> absent T t (nth q xs d)) as HAb.
  { intros q Hq HI. apply (absent_iff T k); [exact G|]. apply (sf_new _ _ _ _ _ SF (nth q idx 0)). exists q. auto. }
  assert (f <> FScalar false \/ f = FScalar false) as [HN| ->] by (destruct f as [[|]|]; auto; left; discriminate).
  - destruct (batch_fact_of T C be k t xs f uk t' ins uniq idx G HL HN HP) as [PE _ _].
    destruct (pe_lens _ _ _ _ _ _ _ _ _ _ PE) as (L1 & L2 & L3). do 3 (split; [assumption|]).
    split; [|split; [|split; assumption]].
    + intros q Hq HI. split; [|apply HAb; assumption]. split; [exact Hq|]. apply (pe_uniq _ _ _ _ _ _ _ _ _ _ PE q Hq).
      apply (pe_ins _ _ _ _ _ _ _ _ _ _ PE q Hq HI).
    + apply (pe_once _ _ _ _ _ _ _ _ _ _ PE).
  - cbn [ParallelInsert] in HP. injection HP as -> -> -> ->. rewrite !repeat_length. do 3 (split; [reflexivity|]).
    split; [|split; [|split; assumption]]; intros q; [|intros q']; rewrite ?nth_repeat; try discriminate.
Qed.
(** it always returns (the GPU kernel terminates and cannot get stuck, see C29) *)
Theorem C26_total : forall be es t xs f uk, history es t -> mask_ok xs f ->
  match be with
  | XLA => True
  | Triton _ => bsz t <= 32
  | Pallas _ order => bsz t <= 32 /\ forall r, Permutation (order r) (seq 0 (length xs))
  end ->
  exists out, ParallelInsert T C be t xs f uk out.
Proof.
  intros be es t xs f uk H HL HU. destruct (history_facts T C es t H) as (k & G & _ & _). apply (batch_total T C be k); assumption.
Qed.
(** the function form of the default backend *)
Lemma xla_function t xs f uk out : ParallelInsert T C XLA t xs f uk out <->
  parallel_insert (dc_eqb T) d hp (dc_words T) (dc_nwords T) (s_mode C) (s_sort C) t xs f uk = Some out.
Proof.
  assert (forall filled, (exists uniq reps rs t' res,
      par_prepare (dc_eqb T) d hp (dc_words T) (dc_nwords T) (s_mode C) (s_sort C) t xs filled uk = Some (uniq, reps, rs) /\
      xla hp t (par_rows xs uniq rs) = Some (t', res) /\ out = (t', map fst res, uniq, par_idx t rs res reps)) <->
    match par_prepare (dc_eqb T) d hp (dc_words T) (dc_nwords T) (s_mode C) (s_sort C) t xs filled uk with
    | None => None
    | Some (uniq, reps, rs) => match xla hp t (par_rows xs uniq rs) with None => None
        | Some (t', res) => Some (t', map fst res, uniq, par_idx t rs res reps) end end = Some out) as HX.
  { intros filled. split.
    - intros (uniq & reps & rs & t' & res & -> & -> & ->). reflexivity.
    - destruct (par_prepare _ _ _ _ _ _ _ _ _ _ _) as [[[uniq reps] rs]|] eqn:E1; [|discriminate].
      destruct (xla hp t (par_rows xs uniq rs)) as [[t' res]|] eqn:E2; [|discriminate]. intros E. injection E as <-.
      exists uniq, reps, rs, t', res. split; [reflexivity|]. split; [exact E2|reflexivity]. }
  unfold ParallelInsert, parallel_insert, parallel_insert_with, assigns.
  destruct f as [[|]|l]; [apply HX| |apply HX]. split; [intros ->; reflexivity|intros E; injection E as <-; reflexivity].
Qed.

(** in-batch deduplication: the marked occurrence of each filled input *)
Lemma clean_map {A} (f : list N -> A) (r : A) xs filled : length filled = length xs -> clean T (fun x => f (dc_words T x)) r xs filled ->
  all_filled filled \/ forall i, i < length filled -> nth i filled false = true -> f (nth i (map (dc_words T) xs) []) <> r.
Proof.
  intros HL [H|H]; [left|right]; intros i Hi; [apply H; lia|]. intros HF. rewrite (map_nth_lt (dc_words T) xs i d []) by lia. apply H; [lia|exact HF].
Qed.
Lemma batch_reps_nan filled xs uk : length filled = length xs -> grouping_reliable T C xs filled uk ->
  forall uniq reps, (uniq, reps) = dedupe_pairs (s_mode C) (dc_nwords T) (s_sort C filled (map hp xs)) (map hp xs) (map (dc_words T) xs) filled uk ->
  dedupe_nan d xs filled uk (uniq, reps).
Proof.
  intros HL HD uniq reps E.
  assert (forall i, i < length xs -> nth i (map (dc_words T) xs) [] = dc_words T (nth i xs d)) as HW.
  { intros i Hi. apply (map_nth_lt (dc_words T) xs i d []). exact Hi. }
  apply (exact_items (dc_eqb T) d hp (dc_words T) (dc_nwords T) (dc_eq T) (dc_hash T) (fun x => eq_refl) (dc_inj T) (dc_len T) (s_sort C) (s_sort_ok C) xs filled uk (uniq, reps) HL). rewrite E.
  assert (clean_rows T xs filled uk -> rows_ok (dc_nwords T) (map (dc_words T) xs) filled uk) as A2.
  { intros [H|[H|H]]; [left; exact H|right; left|right; right]. - intros i Hi. apply H. lia. - apply (clean_map (fun r => r)); assumption. }
  assert (clean_pairs T xs filled -> pair_ok (map (dc_words T) xs) filled (dc_hash T)) as A1 by (apply (clean_map (dc_hash T)); exact HL).
  assert (clean_sigs T xs filled -> sig_ok (dc_nwords T) (map (dc_words T) xs) filled) as A3.
  { intros [H|H]; [left; exact H|right]. apply (clean_map sig_of); assumption. }
  apply (dedupe_pairs_exact (dc_nwords T) (map (dc_words T) xs) filled uk) with (pairf := dc_hash T).
  - rewrite map_length. auto.
  - intros r Hr. apply in_map_iff in Hr. destruct Hr as (x & <- & _). apply dc_len.
  - rewrite map_length. auto.
  - intros i Hi _. rewrite (map_nth_lt hp xs i d) by lia. rewrite HW by lia. reflexivity.
  - apply (s_sort_ok C). rewrite map_length. auto.
  - unfold grouping_reliable in HD. destruct (s_mode C) eqn:EM; [left|right; left|right; right]; (split; [reflexivity|]).
    + destruct HD as (H1 & H2 & H3). auto.
    + auto.
    + destruct HD as [H1 HA]. split; [auto|]. intros i i' Hi Hi' HF HF' EH. rewrite !HW in * by lia. f_equal. apply HA; auto; lia.
Qed.
Lemma batch_reps filled xs uk : length filled = length xs -> dedupe_reliable T C xs filled uk ->
  forall uniq reps, (uniq, reps) = dedupe_pairs (s_mode C) (dc_nwords T) (s_sort C filled (map hp xs)) (map hp xs) (map (dc_words T) xs) filled uk ->
  dedupe_exact d xs filled uk (uniq, reps).
Proof. intros HL [HN HD] uniq reps E. apply exact_of_nan; [rewrite HL; exact HN|]. now apply batch_reps_nan. Qed.
(** ** C28 — the uniqueness mask *)
(** [unique] marks, for every distinct filled item, exactly one filled occurrence: the
    cheapest, lowest index on ties ([dedupe_exact] in DedupeSpec.v), and all occurrences
    of an item are reported with the index of that one *)
Theorem C28_unique_mask : forall be es t xs f uk t' ins uniq idx,
  history es t -> mask_ok xs f -> f <> FScalar false -> dedupe_reliable T C xs (mask_list (length xs) f) uk ->
  ParallelInsert T C be t xs f uk (t', ins, uniq, idx) ->
  exists reps, dedupe_exact d xs (mask_list (length xs) f) uk (uniq, reps) /\
    (forall q, is_filled xs f q -> nth q idx 0 = nth (nth q reps 0) idx 0).
Proof.
  intros be es t xs f uk t' ins uniq idx H HL HN HD HP. destruct (history_facts T C es t H) as (k & G & _ & _).
  destruct (batch_fact_of T C be k t xs f uk t' ins uniq idx G HL HN HP) as [PE (reps & ED & HX) _].
  pose proof (batch_reps _ xs uk HL HD uniq reps ED) as DE. exists reps. split; [exact DE|]. intros q [Hq HF].
  unfold mask_ok in HL. destruct (de_rep _ _ _ _ _ DE q ltac:(lia) HF) as (R1 & R2 & R3 & _). cbn [snd] in *.
  symmetry in R3. apply (pe_same _ _ _ _ _ _ _ _ _ _ PE); [exact Hq|lia|exact HF|exact R2|exact R3].
Qed.
(** in every mode and for every batch: unfilled entries are never marked and no item is
    marked twice *)
Theorem C28_sound : forall be es t xs f uk t' ins uniq idx,
  history es t -> mask_ok xs f -> ParallelInsert T C be t xs f uk (t', ins, uniq, idx) ->
  length uniq = length xs /\
  (forall q, q < length xs -> nth q uniq false = true -> is_filled xs f q) /\
  (forall q q', q < length xs -> q' < length xs -> nth q uniq false = true -> nth q' uniq false = true ->
     nth q xs d = nth q' xs d -> q = q').
Proof.
  intros be es t xs f uk t' ins uniq idx H HL HP. destruct (history_facts T C es t H) as (k & G & _ & _).
  assert (f <> FScalar false \/ f = FScalar false) as [HN| ->] by (destruct f as [[|]|]; auto; left; discriminate).
  - assert (exists reps rs, par_prepare (dc_eqb T) d hp (dc_words T) (dc_nwords T) (s_mode C) (s_sort C) t xs (mask_list (length xs) f) uk = Some (uniq, reps, rs)) as (reps & rs & EP).
    { destruct f as [[|]|l]; [|contradiction|]; cbn [ParallelInsert] in HP; destruct HP as (u & reps & rs & t1 & res & EP & _ & EO); injection EO as -> -> -> ->; exists reps, rs; exact EP. }
    destruct (prepare_spec (dc_eqb T) d hp (dc_words T) (dc_nwords T) (dc_eq T) (dc_hash T) (fun x => eq_refl) (dc_inj T) (dc_len T) (s_mode C) (s_sort C) (s_sort_ok C) k t xs (mask_list (length xs) f) uk (proj1 G) (proj2 G) HL)
      as (u2 & reps2 & rs2 & EP2 & ED & DS & PP).
    rewrite EP in EP2. injection EP2 as <- <- <-. unfold mask_ok in HL. split; [pose proof (ds_lm _ _ _ _ DS) as X; cbn [fst] in X; lia|]. split.
    + intros q Hq HU. split; [exact Hq|]. apply (ds_filled _ _ _ _ DS q); [lia|exact HU].
    + intros q q' Hq Hq' HU HU' E. apply (ds_distinct _ _ _ _ DS q q'); auto; lia.
  - cbn [ParallelInsert] in HP. injection HP as -> -> -> ->. rewrite repeat_length. split; [reflexivity|].
    split; intros q; [|intros q']; rewrite ?nth_repeat; try discriminate.
Qed.

(** [inserted] in every mode and for every batch: exactly the marked occurrences of items that were absent
    before and are found afterwards *)
Theorem C26_inserted_mask : forall be es t xs f uk t' ins uniq idx, history es t -> mask_ok xs f ->
  ParallelInsert T C be t xs f uk (t', ins, uniq, idx) ->
  forall q, q < length xs ->
    (nth q ins false = true <->
     nth q uniq false = true /\ absent T t (nth q xs d) /\ exists i, Lookup T t' (nth q xs d) = Some (i, true)).
Proof.
  intros be es t xs f uk t' ins uniq idx H HL HP q Hq.
  destruct (C26_union be es t xs f uk t' ins uniq idx H HL HP) as (_ & _ & _ & U1 & _ & U3 & _).
  destruct (C28_sound be es t xs f uk t' ins uniq idx H HL HP) as (_ & _ & S2).
  assert (HIU : forall p, p < length xs -> nth p ins false = true -> nth p uniq false = true).
  { intros p Hp HI. destruct (history_facts T C es t H) as (k & G & _ & _).
    assert (f <> FScalar false \/ f = FScalar false) as [HN| ->] by (destruct f as [[|]|]; auto; left; discriminate).
    - destruct (batch_fact_of T C be k t xs f uk t' ins uniq idx G HL HN HP) as [PE _ _].
      apply (pe_ins _ _ _ _ _ _ _ _ _ _ PE p Hp HI).
    - cbn [ParallelInsert] in HP. injection HP as -> -> -> ->. rewrite nth_repeat in HI. discriminate HI. }
  split.
  - intros HI. split; [apply HIU; assumption|]. split; [apply (U1 q Hq HI)|].
    exists (nth q idx 0). apply U3. right. exists q. auto.
  - intros (HU & HA & i & HF). apply U3 in HF as [HF|(p & Hp & HI & E & _)].
    + destruct HA as [j HA]. rewrite HA in HF. discriminate HF.
    + assert (Ep : p = q) by (apply S2; auto). subst p. exact HI.
Qed.
(** [unique] says nothing about novelty: it does not depend on the table's contents at all *)
Theorem C28_unique_ignores_the_table : forall be1 be2 es1 es2 t1 t2 xs f uk t1' ins1 uniq1 idx1 t2' ins2 uniq2 idx2,
  history es1 t1 -> history es2 t2 -> mask_ok xs f ->
  ParallelInsert T C be1 t1 xs f uk (t1', ins1, uniq1, idx1) ->
  ParallelInsert T C be2 t2 xs f uk (t2', ins2, uniq2, idx2) -> uniq1 = uniq2.
Proof.
  intros be1 be2 es1 es2 t1 t2 xs f uk t1' ins1 uniq1 idx1 t2' ins2 uniq2 idx2 H1 H2 HL P1 P2.
  destruct (history_facts T C es1 t1 H1) as (k1 & G1 & _ & _). destruct (history_facts T C es2 t2 H2) as (k2 & G2 & _ & _).
  assert (f <> FScalar false \/ f = FScalar false) as [HN| ->] by (destruct f as [[|]|]; auto; left; discriminate).
  - destruct (batch_fact_of T C be1 k1 t1 xs f uk t1' ins1 uniq1 idx1 G1 HL HN P1) as [_ (r1 & E1 & _) _].
    destruct (batch_fact_of T C be2 k2 t2 xs f uk t2' ins2 uniq2 idx2 G2 HL HN P2) as [_ (r2 & E2 & _) _].
    rewrite <- E1 in E2. injection E2 as -> _. reflexivity.
  - cbn [ParallelInsert] in P1, P2. injection P1 as -> -> -> ->. injection P2 as -> -> -> ->. reflexivity.
Qed.

(** the GPU and TPU backends lose nothing: with the default probe bound every filled
    input is stored afterwards unless the table is completely full *)
Theorem C26_accelerators_complete : forall be maxb es t xs f uk t' ins uniq idx,
  be = Triton maxb \/ (exists order, be = Pallas maxb order) ->
  history es t -> mask_ok xs f -> dedupe_reliable T C xs (mask_list (length xs) f) uk -> cap t <= maxb ->
  ParallelInsert T C be t xs f uk (t', ins, uniq, idx) ->
  forall q, is_filled xs f q -> (exists i, Lookup T t' (nth q xs d) = Some (i, true)) \/ size t' = N.of_nat (slots t).
Proof.
  intros be maxb es t xs f uk t' ins uniq idx HB H HL HD HM HP q [Hq HF]. destruct (history_facts T C es t H) as (k & G & _ & _).
  assert (f <> FScalar false) as HN by (intros ->; cbn [mask_list] in HF; rewrite nth_repeat in HF; discriminate).
  destruct (batch_fact_of T C be k t xs f uk t' ins uniq idx G HL HN HP) as [PE (reps & ED & _) BF].
  pose proof (op_fact T C k t _ t' G (op_batch T C t be xs f uk t' ins uniq idx HL HP)) as SF. pose proof (sf_good _ _ _ _ _ SF) as G'.
  pose proof (batch_reps _ xs uk HL HD uniq reps ED) as DE. unfold mask_ok in HL.
  destruct (de_rep _ _ _ _ _ DE q ltac:(lia) HF) as (R1 & R2 & R3 & R4). cbn [snd] in *. set (r := nth q reps 0) in *.
  assert (nth r uniq false = true) as UR.
  { apply (de_mask _ _ _ _ _ DE r); [lia|]. split; [exact R2|]. cbn [snd].
    destruct (de_rep _ _ _ _ _ DE r R1 R2) as (Q1 & Q2 & Q3 & Q4). cbn [snd] in *. set (r' := nth r reps 0) in *.
    destruct (R4 r' Q1 Q2 ltac:(congruence)) as [C1 C2]. destruct (Q4 r R1 R2 eq_refl) as [C3 C4].
    assert (costof uk r' = costof uk r) as EC by (apply cle_antisym; assumption). specialize (C2 EC). specialize (C4 (eq_sym EC)). lia. }
  destruct (nth r ins false) eqn:EI.
  - left. exists (nth r idx 0). apply (found_iff T k); [exact G'|]. rewrite <- R3. apply (pe_ins _ _ _ _ _ _ _ _ _ _ PE r ltac:(lia) EI).
  - destruct (BF maxb HB HM r ltac:(lia) UR EI) as [HS|HT].
    + left. exists (nth r idx 0). apply (found_iff T k); [exact G'|]. apply (sf_stored _ _ _ _ _ SF). left. rewrite <- R3. exact HS.
    + right. rewrite (size_total T k t' G'), HT. reflexivity.
Qed.
Lemma meets_crossing k t x m F : TableInv.inv d hp k t -> meets_full T t x m F -> crossing hp k t m F x.
Proof.
  intros V H j Hj. pose proof (wf_cap _ _ (i_wf _ _ _ _ V)) as HC. pose proof (wf_k _ _ (i_wf _ _ _ _ V)) as HK.
  assert (EA : length (free_before hp k t x j) = free_slots T t x j).
  { unfold free_before, free_slots. rewrite (flat_map_length' d hp k t V). f_equal. apply map_ext. intros j'. rewrite (probe_seq_eq k) by assumption. apply free_in_length. }
  assert (EB : fulls hp k t x j = full_met T t x j).
  { unfold fulls, full_met. f_equal. apply filter_ext. intros j'. rewrite (probe_seq_eq k) by assumption. reflexivity. }
  rewrite EA, EB. apply H. exact Hj.
Qed.
Lemma nodup_map_on {A B} (g : A -> B) l : NoDup l -> (forall a b, In a l -> In b l -> g a = g b -> a = b) -> NoDup (map g l).
Proof.
  induction 1 as [|a l HA HL IH]; intros H; [constructor|]. cbn [map]. constructor.
  - intros HI. apply in_map_iff in HI. destruct HI as (b & E & HB). apply HA. rewrite <- (H b a); [exact HB|now right|now left|exact E].
  - apply IH. intros x y Hx Hy. apply H; now right.
Qed.
Lemma full_met_le k t x j : TableInv.inv d hp k t -> j <= cap t -> full_met T t x j <= full_buckets t.
Proof.
  intros V Hj. pose proof (wf_cap _ _ (i_wf _ _ _ _ V)) as HC. pose proof (wf_k _ _ (i_wf _ _ _ _ V)) as HK.
  unfold full_met, full_buckets. rewrite <- (map_length (probe_seq T t x)). apply NoDup_incl_length.
  - apply nodup_map_on; [apply NoDup_filter, seq_NoDup|]. intros a b Ha Hb E. apply filter_In in Ha, Hb. destruct Ha as [Ha _], Hb as [Hb _]. apply in_seq in Ha, Hb.
    rewrite !(probe_seq_eq k) in E by assumption. apply (probe_inj hp (cap t) k HC ltac:(lia)) in E; lia.
  - intros b Hb. apply in_map_iff in Hb. destruct Hb as (j' & <- & Hj'). apply filter_In in Hj'. destruct Hj' as [_ E]. apply filter_In. split; [|exact E].
    apply in_seq. rewrite (probe_seq_eq k) by assumption. pose proof (probe_lt hp (cap t) k HC ltac:(lia) x j'). lia.
Qed.
(** every item meets at most all the full buckets *)
Lemma meets_all : forall es t x m, history es t -> meets_full T t x m (full_buckets t).
Proof. intros es t x m H j Hj _. destruct (history_facts T C es t H) as (k & [V _] & _). apply (full_met_le k); [exact V|lia]. Qed.

(** the default backend loses nothing when there is room and the round limit [max_probes]
    (default: the number of slots) covers the rounds the batch can need: [m] new items that
    meet at most [F] full buckets each need at most m*F + m*(m-1)/2 rounds *)
Theorem C26_xla_complete : forall F es t xs f uk, history es t -> mask_ok xs f -> dedupe_reliable T C xs (mask_list (length xs) f) uk ->
  let m := trues (mask_list (length xs) f) in
  (size t + N.of_nat m <= N.of_nat (slots t))%N ->
  (forall q, is_filled xs f q -> meets_full T t (nth q xs d) m F) -> (N.of_nat (rounds_needed m F) <= maxp t)%N ->
  forall t' ins uniq idx, ParallelInsert T C XLA t xs f uk (t', ins, uniq, idx) ->
  forall q, is_filled xs f q -> Lookup T t' (nth q xs d) = Some (nth q idx 0, true) /\ GetItem T t' (nth q idx 0) = nth q xs d.
Proof.
  intros F es t xs f uk H HL HD m HR HM HB t' ins uniq idx HP q [Hq HF]. destruct (history_facts T C es t H) as (k & G & _ & _).
  assert (f <> FScalar false) as HN by (intros ->; cbn [mask_list] in HF; rewrite nth_repeat in HF; discriminate).
  pose proof (op_fact T C k t _ t' G (op_batch T C t XLA xs f uk t' ins uniq idx HL HP)) as SF. pose proof (sf_good _ _ _ _ _ SF) as G'.
  destruct (parallel_insert_complete (dc_eqb T) d hp (dc_words T) (dc_nwords T) (dc_eq T) (dc_hash T) (fun x => eq_refl) (dc_inj T) (dc_len T)
      (s_mode C) (s_sort C) (s_sort_ok C) k t xs f uk m F (proj1 G) (proj2 G) (limit_maxp T k t G) HL HN) as (t2 & i2 & u2 & x2 & reps & E & ED & PE & HX & HA); auto.
  { rewrite (size_total T k t G) in HR. unfold slots in HR. lia. }
  { intros p Hp HFp. apply meets_crossing; [apply G|]. apply HM. split; assumption. }
  apply xla_function in HP. rewrite E in HP. injection HP as -> -> -> ->.
  pose proof (batch_reps _ xs uk HL HD uniq reps ED) as DE. unfold mask_ok in HL.
  destruct (de_rep _ _ _ _ _ DE q ltac:(lia) HF) as (R1 & R2 & R3 & R4). cbn [snd] in *. set (r := nth q reps 0) in *.
  assert (nth r uniq false = true) as UR.
  { apply (de_mask _ _ _ _ _ DE r); [lia|]. split; [exact R2|]. cbn [snd].
    destruct (de_rep _ _ _ _ _ DE r R1 R2) as (Q1 & Q2 & Q3 & Q4). cbn [snd] in *. set (r' := nth r reps 0) in *.
    destruct (R4 r' Q1 Q2 ltac:(congruence)) as [C1 C2]. destruct (Q4 r R1 R2 eq_refl) as [C3 C4].
    assert (costof uk r' = costof uk r) as EC by (apply cle_antisym; assumption). specialize (C2 EC). specialize (C4 (eq_sym EC)). lia. }
  assert (TableInv.stored d t' (nth q idx 0) (nth q xs d)) as HS.
  { rewrite (HX q Hq HF UR). fold r. rewrite <- R3. apply HA; [lia|exact UR]. }
  split; [apply (found_iff T k); assumption|apply stored_get; exact HS].
Qed.
(** in particular when the table's full buckets are few *)
Corollary C26_xla_complete_full : forall es t xs f uk, history es t -> mask_ok xs f -> dedupe_reliable T C xs (mask_list (length xs) f) uk ->
  let m := trues (mask_list (length xs) f) in
  (size t + N.of_nat m <= N.of_nat (slots t))%N -> (N.of_nat (rounds_needed m (full_buckets t)) <= maxp t)%N ->
  forall t' ins uniq idx, ParallelInsert T C XLA t xs f uk (t', ins, uniq, idx) ->
  forall q, is_filled xs f q -> Lookup T t' (nth q xs d) = Some (nth q idx 0, true) /\ GetItem T t' (nth q idx 0) = nth q xs d.
Proof. intros es t xs f uk H HL HD m HR HB. apply (C26_xla_complete (full_buckets t) es); auto. intros q _. now apply (meets_all es). Qed.

(** ** C27 — for every filled input present afterwards the returned index retrieves it *)
Theorem C27_indices : forall be es t xs f uk t' ins uniq idx,
  history es t -> mask_ok xs f -> dedupe_reliable T C xs (mask_list (length xs) f) uk ->
  ParallelInsert T C be t xs f uk (t', ins, uniq, idx) ->
  forall q i, is_filled xs f q -> Lookup T t' (nth q xs d) = Some (i, true) ->
  nth q idx 0 = i /\ GetItem T t' (nth q idx 0) = nth q xs d.
Proof.
  intros be es t xs f uk t' ins uniq idx H HL HD HP q i [Hq HF] HLk. destruct (history_facts T C es t H) as (k & G & _ & _).
  assert (f <> FScalar false) as HN by (intros ->; cbn [mask_list] in HF; rewrite nth_repeat in HF; discriminate).
  destruct (batch_fact_of T C be k t xs f uk t' ins uniq idx G HL HN HP) as [PE (reps & ED & HX) _].
  pose proof (op_fact T C k t _ t' G (op_batch T C t be xs f uk t' ins uniq idx HL HP)) as SF. pose proof (sf_good _ _ _ _ _ SF) as G'.
  pose proof (batch_reps _ xs uk HL HD uniq reps ED) as DE. unfold mask_ok in HL.
  destruct (de_rep _ _ _ _ _ DE q ltac:(lia) HF) as (R1 & R2 & R3 & R4). cbn [snd] in *. set (r := nth q reps 0) in *.
  assert (nth r uniq false = true) as UR.
  { apply (de_mask _ _ _ _ _ DE r); [lia|]. split; [exact R2|]. cbn [snd].
    destruct (de_rep _ _ _ _ _ DE r R1 R2) as (Q1 & Q2 & Q3 & Q4). cbn [snd] in *. set (r' := nth r reps 0) in *.
    destruct (R4 r' Q1 Q2 ltac:(congruence)) as [C1 C2]. destruct (Q4 r R1 R2 eq_refl) as [C3 C4].
    assert (costof uk r' = costof uk r) as EC by (apply cle_antisym; assumption). specialize (C2 EC). specialize (C4 (eq_sym EC)). lia. }
  apply (found_iff T k) in HLk; [|exact G'].
  assert (TableInv.stored d t' (nth q idx 0) (nth q xs d)) as HS.
  { rewrite (HX q Hq HF UR). fold r. rewrite <- R3. destruct (nth r ins false) eqn:EI.
    - apply (pe_ins _ _ _ _ _ _ _ _ _ _ PE r ltac:(lia) EI).
    - destruct (pe_not _ _ _ _ _ _ _ _ _ _ PE r ltac:(lia) UR EI) as [HS|HS].
      + apply (sf_stored _ _ _ _ _ SF). left. exact HS.
      + exfalso. apply (HS i). rewrite R3. exact HLk. }
  split; [apply (stored_inj d hp k t' _ (nth q xs d) (proj1 G') i); assumption|apply stored_get; exact HS].
Qed.
(** even when deduplication is not exact, equal filled inputs get equal indices *)
Theorem C27_equal_inputs : forall be es t xs f uk t' ins uniq idx,
  history es t -> mask_ok xs f -> ParallelInsert T C be t xs f uk (t', ins, uniq, idx) ->
  forall q q', is_filled xs f q -> is_filled xs f q' -> nth q xs d = nth q' xs d -> nth q idx 0 = nth q' idx 0.
Proof.
  intros be es t xs f uk t' ins uniq idx H HL HP q q' [Hq HF] [Hq' HF'] E. destruct (history_facts T C es t H) as (k & G & _ & _).
  assert (f <> FScalar false) as HN by (intros ->; cbn [mask_list] in HF; rewrite nth_repeat in HF; discriminate).
  destruct (batch_fact_of T C be k t xs f uk t' ins uniq idx G HL HN HP) as [PE _ _].
  apply (pe_same _ _ _ _ _ _ _ _ _ _ PE); assumption.
Qed.

(** ** C29, C30 — slot assignment *)
Lemma prepared_start k t rows : good T k t -> prepared_rows T C t rows -> start_ok d hp k t rows.
Proof.
  intros G (xs & filled & uk & uniq & reps & rs & HL & E & ->).
  destruct (prepare_spec (dc_eqb T) d hp (dc_words T) (dc_nwords T) (dc_eq T) (dc_hash T) (fun x => eq_refl) (dc_inj T) (dc_len T) (s_mode C) (s_sort C) (s_sort_ok C) k t xs filled uk (proj1 G) (proj2 G) HL)
    as (u2 & reps2 & rs2 & EP2 & ED & DS & PP).
  rewrite E in EP2. injection EP2 as <- <- <-. apply PP.
Qed.
Lemma backend_assigned k t rows t' res : good T k t -> start_ok d hp k t rows -> backend_ok d hp k t rows t' res -> assigned T t rows t' res.
Proof.
  intros [V L] HS BO. pose proof (bo_len _ _ _ _ _ _ _ BO) as HLen. pose proof (bo_good _ _ _ _ _ _ _ BO) as GP. pose proof (bo_placed _ _ _ _ _ _ _ BO) as PL.
  pose proof (wf_cap _ _ (i_wf _ _ _ _ V)) as HC. pose proof (wf_k _ _ (i_wf _ _ _ _ V)) as HK.
  assert (forall x b s, In (x, (b, s)) (res_places (map ix rows) res) <-> exists i, i < length rows /\ ix (nth i rows (dr d)) = x /\ nth i res (false, (0, 0)) = (true, (b, s))) as HI.
  { intros x b s. rewrite (in_res_places d) by (rewrite map_length; exact HLen). rewrite map_length. split; intros (i & Hi & E & H); exists i.
    - rewrite (map_nth_lt ix rows i (dr d) d) in E by exact Hi. auto.
    - rewrite (map_nth_lt ix rows i (dr d) d) by exact Hi. auto. }
  assert (forall i b s, i < length rows -> nth i res (false, (0, 0)) = (true, (b, s)) -> In (ix (nth i rows (dr d)), (b, s)) (res_places (map ix rows) res)) as HIn.
  { intros i b s Hi E. apply HI. exists i. auto. }
  constructor; try exact HLen; fold (dr d).
  - intros i p Hi E. apply (bo_upd _ _ _ _ _ _ _ BO i Hi). rewrite E. reflexivity.
  - intros i i' [b s] Hi Hi' E E'. pose proof (HIn i b s Hi E) as I1. pose proof (HIn i' b s Hi' E') as I2.
    assert (ix (nth i rows (dr d)) = ix (nth i' rows (dr d))) as EX.
    { pose proof (pl_new _ _ _ _ _ PL _ _ _ I1) as [<- _]. pose proof (pl_new _ _ _ _ _ PL _ _ _ I2) as [<- _]. reflexivity. }
    destruct HS as (_ & HD & _). apply HD; auto; apply (bo_upd _ _ _ _ _ _ _ BO); auto; [rewrite E|rewrite E']; reflexivity.
  - intros i b s Hi E. pose proof (HIn i b s Hi E) as I1. pose proof (g_range _ _ _ _ _ GP _ _ _ I1) as [Hb Hs]. split; [exact Hb|].
    rewrite (pl_fill _ _ _ _ _ PL b Hb). pose proof (proj1 (slots_mem d hp k t (res_places (map ix rows) res) GP b s Hb) (ex_intro (fun x => In (x, (b, s)) (res_places (map ix rows) res)) _ I1)) as HM.
    split; [exact HM|]. pose proof (i_wf _ _ _ _ (placed_inv d hp k t t' _ V GP PL)) as W'.
    pose proof (wf_fill _ _ W' b) as HW. rewrite (pl_cap _ _ _ _ _ PL), (pl_bsz _ _ _ _ _ PL), (pl_fill _ _ _ _ _ PL b Hb) in HW. apply HW. exact Hb.
  - intros b s Hb Hs. rewrite (pl_fill _ _ _ _ _ PL b Hb) in Hs.
    apply (slots_mem d hp k t (res_places (map ix rows) res) GP b s Hb) in Hs. destruct Hs as (x & Hx). apply HI in Hx. destruct Hx as (i & Hi & _ & E). exists i. auto.
  - intros i b s Hi E. pose proof (HIn i b s Hi E) as I1. destruct (g_chain _ _ _ _ _ GP _ _ _ I1) as (j & Hj & Ej & HFu). exists j.
    rewrite (probe_seq_eq k) by assumption. split; [exact Ej|]. intros j' Hj'. rewrite (probe_seq_eq k) by assumption.
    rewrite (pl_fill _ _ _ _ _ PL) by (apply probe_lt; [exact HC|lia]). apply HFu. exact Hj'.
  - intros i b s Hi E. apply (pl_new _ _ _ _ _ PL _ _ _ (HIn i b s Hi E)).
  - intros i HN. apply (pl_old _ _ _ _ _ PL). intros x b s Hx. apply HI in Hx. destruct Hx as (q & Hq & _ & E). apply (HN q b s Hq E).
  - intros H32 b Hb. apply (pl_occ _ _ _ _ _ PL H32); [|exact Hb]. apply (i_occ _ _ _ _ V H32).
Qed.

(** the GPU kernel at EVERY moment of EVERY interleaving, with arbitrarily stale loads:
    a claimed slot was free, is on the row's probe sequence behind full buckets, is
    claimed by one program only, and the occupancy words record exactly the old prefix
    plus the claims *)
Theorem C29_every_interleaving : forall es t rows maxb c,
  history es t -> bsz t <= 32 -> prepared_rows T C t rows -> treach d hp t rows maxb c ->
  (forall i i' b s, i < length (pcs c) -> i' < length (pcs c) ->
     nth i (pcs c) (Done false 0 0) = Done true b s -> nth i' (pcs c) (Done false 0 0) = Done true b s -> i = i') /\
  (forall i b s, i < length (pcs c) -> nth i (pcs c) (Done false 0 0) = Done true b s ->
     iupd (nth i rows (MkI d false 0 0 false)) = true /\ b < cap t /\ fillOf t b <= s < bsz t /\
     exists j, probe_seq T t (ix (nth i rows (MkI d false 0 0 false))) j = b /\
       forall j', j' < j -> nth (probe_seq T t (ix (nth i rows (MkI d false 0 0 false))) j') (mem c) 0%N = N.ones (N.of_nat (bsz t))) /\
  (forall b s, b < cap t -> N.testbit (nth b (mem c) 0%N) (N.of_nat s) = true <->
     s < fillOf t b \/ exists i, i < length (pcs c) /\ nth i (pcs c) (Done false 0 0) = Done true b s) /\
  (forall b, b < cap t -> exists f, f <= bsz t /\ nth b (mem c) 0%N = N.ones (N.of_nat f)).
Proof.
  intros es t rows maxb c H H32 HP HR. destruct (history_facts T C es t H) as (k & G & _ & _).
  pose proof (prepared_start k t rows G HP) as HS. destruct G as [V L].
  pose proof (wf_cap _ _ (i_wf _ _ _ _ V)) as HC. pose proof (wf_k _ _ (i_wf _ _ _ _ V)) as HK.
  destruct (reach_TI d hp k t rows maxb V H32 HS c HR) as (g & TI).
  pose proof (ti_claims _ _ _ _ _ _ _ _ TI) as CL.
  assert (length (pcs c) = length rows) as HLn by (pose proof (c_len _ _ _ _ _ _ _ CL) as HX; rewrite map_length in HX; exact HX).
  assert (forall i b s, i < length (pcs c) -> (nth i (pcs c) (Done false 0 0) = Done true b s <-> nth i (map res_of (pcs c)) (false, (0, 0)) = (true, (b, s)))) as HRes.
  { intros i b s Hi. rewrite (map_nth_lt res_of _ i (Done false 0 0)) by exact Hi. split; [intros ->; reflexivity|].
    destruct (nth i (pcs c) (Done false 0 0)) as [| |ins b' s']; cbn; intros E; try discriminate. injection E as -> -> ->. reflexivity. }
  split; [|split; [|split]].
  - intros i i' b s Hi Hi' E E'. apply HRes in E, E'; try assumption. apply (c_inj _ _ _ _ _ _ _ CL i i' (b, s)); auto; lia.
  - intros i b s Hi E. apply HRes in E; [|exact Hi]. destruct (c_claim _ _ _ _ _ _ _ CL i b s ltac:(lia) E) as (U & Hb & Hs & j & Ej & HF).
    split; [exact U|]. split; [exact Hb|]. split; [pose proof (c_g _ _ _ _ _ _ _ CL b Hb); lia|]. exists j. rewrite (probe_seq_eq k) by assumption.
    split; [exact Ej|]. intros j' Hj'. rewrite (probe_seq_eq k) by assumption. rewrite (ti_mem _ _ _ _ _ _ _ _ TI) by (apply probe_lt; [exact HC|lia]).
    fold (dr d). rewrite HF by exact Hj'. reflexivity.
  - intros b s Hb. rewrite (ti_mem _ _ _ _ _ _ _ _ TI b Hb). pose proof (c_g _ _ _ _ _ _ _ CL b Hb) as HG.
    destruct (Nat.lt_ge_cases s (g b)) as [Hlt|Hge].
    + rewrite N.ones_spec_low by lia. split; [intros _|reflexivity]. destruct (Nat.lt_ge_cases s (fillOf t b)) as [|HX]; [left; assumption|right].
      destruct (c_full _ _ _ _ _ _ _ CL b s Hb ltac:(lia)) as (i & Hi & E). exists i. split; [lia|]. apply HRes; [lia|exact E].
    + rewrite N.ones_spec_high by lia. split; [discriminate|]. intros [HX|(i & Hi & E)]; [lia|]. apply HRes in E; [|exact Hi].
      destruct (c_claim _ _ _ _ _ _ _ CL i b s ltac:(lia) E) as (_ & _ & HX & _). lia.
  - intros b Hb. exists (g b). split; [apply (c_g _ _ _ _ _ _ _ CL b Hb)|apply (ti_mem _ _ _ _ _ _ _ _ TI b Hb)].
Qed.
(** every execution of the kernel is finite and no reachable state is stuck *)
Theorem C29_terminates : forall es t rows maxb, history es t -> bsz t <= 32 ->
  well_founded (fun c' c => tstep d hp t rows maxb c c') /\
  (forall c, treach d hp t rows maxb c -> ~ finished c -> exists c', tstep d hp t rows maxb c c').
Proof.
  intros es t rows maxb H H32. destruct (history_facts T C es t H) as (k & [V L] & _ & _). split.
  - intros c. remember (meas t maxb c) as m eqn:E. assert (meas t maxb c <= m) as HM by lia. clear E. revert c HM.
    induction m as [m IH] using lt_wf_ind. intros c HM. constructor. intros c' ST.
    pose proof (triton_terminates d hp k t rows maxb V H32 c c' ST) as HD. apply (IH (meas t maxb c')); lia.
  - intros c HR HN. apply (triton_progress d hp t rows maxb c HR HN).
Qed.
(** a finished GPU run, the TPU kernel and the default code all assign slots correctly *)
Theorem C30_assignment : forall be es t rows t' res,
  history es t -> prepared_rows T C t rows -> assigns T be t rows t' res -> assigned T t rows t' res.
Proof.
  intros be es t rows t' res H HP HA. destruct (history_facts T C es t H) as (k & G & _ & _).
  pose proof (prepared_start k t rows G HP) as HS. apply (backend_assigned k); auto. apply (assigns_ok T be k t rows t' res G HS HA).
Qed.
(** the TPU kernel terminates with a result for every order of its grid programs *)
Theorem C30_pallas_total : forall es t rows maxb order, history es t -> bsz t <= 32 -> prepared_rows T C t rows ->
  (forall r, Permutation (order r) (seq 0 (length rows))) ->
  exists t' res, pallas d hp t rows maxb order = Some (t', res) /\ assigned T t rows t' res /\
    (cap t <= maxb -> forall i, i < length rows -> iupd (nth i rows (MkI d false 0 0 false)) = true ->
       fst (nth i res (false, (0, 0))) = false -> size t' = N.of_nat (slots t)).
Proof.
  intros es t rows maxb order H H32 HP HO. destruct (history_facts T C es t H) as (k & G & _ & _).
  pose proof (prepared_start k t rows G HP) as HS.
  destruct (pallas_spec d hp k t rows maxb order (proj1 G) H32 HS HO) as (t' & res & E & BO & HF).
  exists t', res. split; [exact E|]. split; [apply (backend_assigned k); assumption|]. intros HM i Hi U NI.
  pose proof (placed_inv d hp k t t' _ (proj1 G) (bo_good _ _ _ _ _ _ _ BO) (bo_placed _ _ _ _ _ _ _ BO)) as V'.
  rewrite (i_size _ _ _ _ V'), (HF i Hi U NI HM). reflexivity.
Qed.
End S.
