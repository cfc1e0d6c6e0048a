(** * PropTableConv.v — property C75, first part: a hash table given a family of items that are
      converted on writing (TableConv.v). *)
From Verif Require Import Jax KeyModel HashModel HashProofs StableSort TableModel ProbeProofs TableLookup TableInv TableInsert DedupeModel DedupeSpec ParInsertModel ParInsert ParEffect TritonModel PallasModel TableSpec TableHistory TableMap TableConv TableConvSim PropTable Claims.

Section P.
Context {O : Type} (L : lenient O) (F : O -> Prop) (FM : family L F) (C : settings).
Notation d := (le_default L).
Notation lhistory := (lhistory L C).
Notation reported := (TableConv.reported L).
Notation given es := (Forall F (inputs es)).
Notation T := (vT L).

Lemma get_conv t u i x : rel L F t u -> x <> vnone L -> TableInv.stored (vnone L) u i x -> exists o, F o /\ x = toV L o /\ LGetItem L t i = le_conv L o.
Proof.
  intros R HN (b & s & _ & _ & _ & EX). pose proof (rel_at L F t u i R) as HS. unfold LGetItem, getitem. rewrite EX in HS. inversion HS as [E1 E2|o Ho E1 E2]; [congruence|]. exists o. auto.
Qed.
Lemma get_given t u i o : rel L F t u -> F o -> TableInv.stored (vnone L) u i (toV L o) -> LGetItem L t i = le_conv L o.
Proof.
  intros R Ho HS. destruct (get_conv t u i _ R (toV_some L F FM o Ho) HS) as (p & Hp & EP & ->). apply (fm_conv _ _ FM); [exact Hp|exact Ho|]. apply (toV_inj L F FM); [exact Hp|exact Ho|now symmetry].
Qed.
(** ** Lookup: found exactly when an item with the same bytes was inserted, at its index, which
    holds the converted item *)
Theorem C75_lookup : forall es t x, lhistory es t -> given es -> F x ->
  exists i f, LLookup L t x = Some (i, f) /\ (f = true <-> exists j, reported es x j) /\
    (f = true -> reported es x i /\ LGetItem L t i = le_conv L x).
Proof.
  intros es t x H HG Hx. destruct (history_sim L F FM C es t H HG) as (u & [R HH _]). destruct (history_facts T C _ u HH) as (k & G & HS & _).
  pose proof (history_agrees L F FM C es u HH HG) as A. destruct (C23_no_false_positives T C _ u (toV L x) HH) as (i & f & EL & E1 & E2). exists i, f. split; [now rewrite (lookup_sim L F FM t u R k G A x Hx)|].
  assert (HR : forall j, TableSpec.reported T (map (vevent L) es) (toV L x) j <-> reported es x j) by (intros j; exact (vreported L F FM es x j HG Hx)).
  split.
  - rewrite E1. split; intros (j & Hj); exists j; now apply HR.
  - intros Hf. destruct (E2 Hf) as [_ Hr]. split; [now apply HR|]. apply (get_given t u i x R Hx). now apply HS.
Qed.
(** every reported index keeps being found and keeps the converted item *)
Theorem C75_found : forall es t x i, lhistory es t -> given es -> F x -> reported es x i ->
  LLookup L t x = Some (i, true) /\ LGetItem L t i = le_conv L x.
Proof.
  intros es t x i H HG Hx HR. destruct (history_sim L F FM C es t H HG) as (u & [R HH _]). destruct (history_facts T C _ u HH) as (k & G & HS & _).
  pose proof (history_agrees L F FM C es u HH HG) as A. apply (vreported L F FM es x i HG Hx) in HR. destruct (C22_found_forever T C _ u _ i HH HR) as [E _]. split; [now rewrite (lookup_sim L F FM t u R k G A x Hx)|]. apply (get_given t u i x R Hx). now apply HS.
Qed.
(** ** A set: one index per item that was inserted; [size] is their number *)
Theorem C75_contents : forall es t, lhistory es t -> given es ->
  (forall x i j, F x -> reported es x i -> reported es x j -> i = j) /\
  (forall x y i, F x -> F y -> reported es x i -> reported es y i -> same_bytes L x y) /\
  size t = N.of_nat (count es) /\ count es <= slots t.
Proof.
  intros es t H HG. destruct (history_sim L F FM C es t H HG) as (u & [R HH _]). destruct (history_facts T C _ u HH) as (k & G & HS & HT).
  split; [|split; [|split]].
  - intros x i j Hx H1 H2. apply (vreported L F FM es x _ HG Hx) in H1, H2. apply HS in H1, H2. exact (stored_inj (vnone L) (hash_pair T) k u i _ (proj1 G) j H1 H2).
  - intros x y i Hx Hy H1 H2. apply (vreported L F FM es _ i HG) in H1, H2; try assumption. apply HS in H1, H2. apply (toV_inj L F FM); try assumption. exact (stored_fun (vnone L) u i _ _ H1 H2).
  - destruct R as [E _]. rewrite E. cbn [retab size]. rewrite (size_total T k u G), HT. now rewrite count_map.
  - pose proof (total_le T k u G) as HL. rewrite HT, count_map in HL. destruct R as [E _]. rewrite E. exact HL.
Qed.
(** ** Insert *)
Theorem C75_insert : forall es t x, lhistory es t -> given es -> F x ->
  exists t' ok i, LInsert L t x = Some (t', ok, i) /\
    (ok = true <-> ~ (exists j, reported es x j) /\ count es < slots t) /\
    (ok = false -> (exists j, reported es x j) -> reported es x i) /\
    (ok = true -> LGetItem L t' i = le_conv L x /\ LLookup L t' x = Some (i, true) /\ size t' = (size t + 1)%N /\ forall y, F y -> ~ reported es y i) /\
    (forall y j, F y -> reported es y j -> LLookup L t' y = Some (j, true) /\ LGetItem L t' j = LGetItem L t j).
Proof.
  intros es t x H HG Hx. destruct (history_sim L F FM C es t H HG) as (u & [R HH _]). destruct (history_facts T C _ u HH) as (k & G & HS & HT).
  pose proof (history_agrees L F FM C es u HH HG) as A. destruct (insert_sim L F FM t u R k G A x Hx) as (u1 & ok & i & EI & t1 & EL & R1). exists t1, ok, i. split; [exact EL|].
  destruct (insert_facts T k u (toV L x) G) as (u1' & ok' & i' & EI' & IE & HN). rewrite EI in EI'. assert (u1' = u1 /\ ok' = ok /\ i' = i) as (-> & -> & ->) by (repeat split; congruence).
  pose proof (op_fact T C k u _ u1 G (op_insert T C u _ u1 ok i EI)) as SF.
  assert (H1 : lhistory (es ++ [EInsert x ok i]) t1).
  { destruct H as (a & b & mu & mp & HC & HR). exists a, b, mu, mp. split; [exact HC|]. clear - HR EL. induction HR as [t|t e t2 es t3 HO HR IH]; [|cbn; econstructor; [exact HO|auto]]. econstructor; [constructor; exact EL|constructor]. }
  assert (HG1 : given (es ++ [EInsert x ok i])) by (unfold inputs; rewrite flat_map_app; apply Forall_app; split; [exact HG|constructor; [exact Hx|constructor]]).
  assert (HRx : forall j, TableInv.stored (vnone L) u j (toV L x) <-> reported es x j) by (intros j; change (vnone L) with (dc_default T); rewrite HS; exact (vreported L F FM es x j HG Hx)).
  assert (ESL : slots t = slots u) by (destruct R as [E _]; rewrite E; reflexivity).
  split; [|split; [|split]].
  - destruct ok.
    + split; [intros _|reflexivity]. destruct (ie_ok _ _ _ _ _ _ _ _ IE eq_refl) as (B & _ & ET). split.
      * intros (j & HR). apply (B j). now apply HRx.
      * pose proof (total_le T k u1 (sf_good _ _ _ _ _ SF)) as HL. unfold slots in *. rewrite (sf_cap _ _ _ _ _ SF), (sf_bsz _ _ _ _ _ SF), ET, HT, count_map in HL. lia.
    + split; [discriminate|]. intros [HA HL]. exfalso. destruct (HN eq_refl) as [HST|[HF _]]; [apply HA; exists i; now apply HRx|]. rewrite HT, count_map in HF. unfold slots in *. lia.
  - intros -> (j & HR). destruct (HN eq_refl) as [HST|[_ HA]]; [now apply HRx|]. exfalso. apply (HA j). now apply HRx.
  - intros ->. destruct (ie_ok _ _ _ _ _ _ _ _ IE eq_refl) as (B & HST & ET).
    assert (HRN : reported (es ++ [EInsert x true i]) x i) by (exists (EInsert x true i); split; [apply in_or_app; right; now left|cbn; repeat split; reflexivity]).
    destruct (C75_found _ _ x i H1 HG1 Hx HRN) as [F1 F2]. split; [exact F2|]. split; [exact F1|]. split.
    + destruct R as [E _], R1 as [E' _]. rewrite E, E'. cbn [retab size]. rewrite (size_total T k u1 (sf_good _ _ _ _ _ SF)), ET, (size_total T k u G). lia.
    + intros y Hy HRy. destruct (C75_contents _ _ H1 HG1) as (_ & CC & _). assert (HRy' : reported (es ++ [EInsert x true i]) y i) by (destruct HRy as (e & He & Hr); exists e; split; [apply in_or_app; now left|exact Hr]).
      pose proof (CC x y i Hx Hy HRN HRy') as EB. apply (toV_inj L F FM x y Hx Hy) in EB. apply (vreported L F FM es y i HG Hy) in HRy. rewrite <- EB in HRy. apply HS in HRy. exact (B i HRy).
  - intros y j Hy HRy. assert (HRy' : reported (es ++ [EInsert x ok i]) y j) by (destruct HRy as (e & He & Hr); exists e; split; [apply in_or_app; now left|exact Hr]).
    destruct (C75_found _ _ y j H1 HG1 Hy HRy') as [F1 F2]. destruct (C75_found _ _ y j H HG Hy HRy) as [_ F3]. split; [exact F1|congruence].
Qed.
(** ** Batches *)
Lemma nth_toV xs q : q < length xs -> nth q (map (toV L) xs) (dc_default T) = toV L (nth q xs d).
Proof. intros H. rewrite (nth_indep _ _ (toV L d)) by (now rewrite map_length). apply map_nth. Qed.
Lemma nth_F xs q : Forall F xs -> q < length xs -> F (nth q xs d).
Proof. intros H Hq. rewrite Forall_forall in H. apply H. now apply nth_In. Qed.
Theorem C75_batch : forall be es t xs f uk t1 ins uniq idx, lhistory es t -> given es -> Forall F xs -> mask_ok xs f ->
  LParallelInsert L C be t xs f uk (t1, ins, uniq, idx) ->
  length ins = length xs /\ length uniq = length xs /\ length idx = length xs /\
  (forall q, q < length xs -> nth q ins false = true -> is_filled xs f q /\ ~ (exists j, reported es (nth q xs d) j) /\
     LGetItem L t1 (nth q idx 0) = le_conv L (nth q xs d) /\ LLookup L t1 (nth q xs d) = Some (nth q idx 0, true)) /\
  (forall q q', q < length xs -> q' < length xs -> nth q ins false = true -> nth q' ins false = true -> same_bytes L (nth q xs d) (nth q' xs d) -> q = q') /\
  (forall q q', is_filled xs f q -> is_filled xs f q' -> same_bytes L (nth q xs d) (nth q' xs d) -> nth q idx 0 = nth q' idx 0) /\
  (forall y j, F y -> LLookup L t1 y = Some (j, true) <->
     LLookup L t y = Some (j, true) \/ exists q, q < length xs /\ nth q ins false = true /\ same_bytes L (nth q xs d) y /\ nth q idx 0 = j) /\
  size t1 = (size t + N.of_nat (trues ins))%N.
Proof.
  intros be es t xs f uk t1 ins uniq idx H HG HX HM HP. destruct (history_sim L F FM C es t H HG) as (u & [R HH _]). destruct (history_facts T C _ u HH) as (k & G & HS & HT).
  pose proof (history_agrees L F FM C es u HH HG) as A. destruct (proj1 (batch_sim L F FM C t u R k G A be xs f uk ins uniq idx HX) t1 HP) as (u1 & HP' & R1). pose proof (mask_ok_map L xs f HM) as HM'.
  assert (H1 : lhistory (es ++ [EBatch xs ins idx]) t1).
  { destruct H as (a & b & mu & mp & HC & HR). exists a, b, mu, mp. split; [exact HC|]. clear - HR HM HP. induction HR as [t|t e t2 es t3 HO HR IH]; [|cbn; econstructor; [exact HO|auto]]. econstructor; [econstructor; eassumption|constructor]. }
  assert (HG1 : given (es ++ [EBatch xs ins idx])) by (unfold inputs; rewrite flat_map_app; apply Forall_app; split; [exact HG|cbn [flat_map event_inputs]; now rewrite app_nil_r]).
  pose proof (history_run T C _ u _ u1 HH (run_cons T C _ _ _ _ _ (op_batch T C u be (map (toV L) xs) f uk u1 ins uniq idx HM' HP') (run_nil T C u1))) as HH1.
  assert (A1 : agrees L u1).
  { apply (history_agrees L F FM C (es ++ [EBatch xs ins idx])); [|exact HG1]. rewrite map_app. exact HH1. }
  destruct (history_facts T C _ u1 HH1) as (k1 & G1 & _).
  destruct (C26_union T C be _ u (map (toV L) xs) f uk u1 ins uniq idx HH HM' HP') as (L1 & L2 & L3 & U1 & U2 & U3 & U4). rewrite map_length in *.
  assert (HR : forall q, q < length xs -> nth q ins false = true -> reported (es ++ [EBatch xs ins idx]) (nth q xs d) (nth q idx 0)).
  { intros q Hq HI. exists (EBatch xs ins idx). split; [apply in_or_app; right; now left|]. exists q, (nth q xs d). split; [now apply nth_error_nth'|]. repeat split; assumption. }
  do 3 (split; [assumption|]). split; [|split; [|split; [|split]]].
  - intros q Hq HI. destruct (U1 q Hq HI) as [[_ Hf] HA]. rewrite map_length in Hf. split; [split; assumption|]. destruct (C75_found _ _ _ _ H1 HG1 (nth_F xs q HX Hq) (HR q Hq HI)) as [F1 F2]. split; [|split; assumption].
    intros (j & Hj). apply (vreported L F FM es _ j HG (nth_F xs q HX Hq)) in Hj. apply HS in Hj. rewrite nth_toV in HA by exact Hq. exact (proj1 (absent_iff T k u _ G) HA j Hj).
  - intros q q' Hq Hq' HI HI' EB. apply U2; try assumption. rewrite !nth_toV by assumption. apply (toV_inj L F FM); [now apply nth_F|now apply nth_F|exact EB].
  - intros q q' [Hq Hf] [Hq' Hf'] EB. apply (C27_equal_inputs T C be _ u (map (toV L) xs) f uk u1 ins uniq idx HH HM' HP'); [split; rewrite map_length; assumption|split; rewrite map_length; assumption|]. rewrite !nth_toV by assumption. apply (toV_inj L F FM); [now apply nth_F|now apply nth_F|exact EB].
  - intros y j Hy. rewrite (lookup_sim L F FM t1 u1 R1 k1 G1 A1 y Hy), (lookup_sim L F FM t u R k G A y Hy), U3. split; (intros [HL|(q & Hq & HI & EQ & EJ)]; [now left|right; exists q; do 2 (split; [assumption|]); split; [|exact EJ]]).
    + rewrite nth_toV in EQ by exact Hq. apply (toV_inj L F FM); [now apply nth_F|exact Hy|exact EQ].
    + rewrite nth_toV by exact Hq. apply (toV_inj L F FM); [now apply nth_F|exact Hy|exact EQ].
  - destruct R as [E _], R1 as [E1 _]. rewrite E, E1. exact U4.
Qed.
Theorem C75_batch_total : forall be es t xs f uk, lhistory es t -> given es -> Forall F xs -> mask_ok xs f ->
  match be with
  | XLA => True
  | Triton _ => bsz t <= 32
  | Pallas _ order => bsz t <= 32 /\ forall r, Permutation (order r) (seq 0 (length xs))
  end ->
  exists out, LParallelInsert L C be t xs f uk out.
Proof.
  intros be es t xs f uk H HG HX HM HU. destruct (history_sim L F FM C es t H HG) as (u & [R HH _]). destruct (history_facts T C _ u HH) as (k & G & _).
  pose proof (history_agrees L F FM C es u HH HG) as A. destruct (C26_total T C be _ u (map (toV L) xs) f uk HH (mask_ok_map L xs f HM)) as ([[[u1 ins] uniq] idx] & HP).
  { rewrite map_length. destruct R as [E _]. rewrite E in HU. exact HU. }
  destruct (proj2 (batch_sim L F FM C t u R k G A be xs f uk ins uniq idx HX) u1 HP) as (t1 & HP' & _). eauto.
Qed.
(** the default backend loses nothing when there is room (all inputs filled; costs, if any, are
    not NaN; deduplication mode [safe] or [exact]) *)
Theorem C75_batch_complete : forall es t xs uk, lhistory es t -> given es -> Forall F xs -> s_mode C <> Approx ->
  (forall q, q < length xs -> costof uk q <> CNaN) ->
  (size t + N.of_nat (length xs) <= N.of_nat (slots t))%N -> (N.of_nat (rounds_needed (length xs) (full_buckets t)) <= maxp t)%N ->
  forall t1 ins uniq idx, LParallelInsert L C XLA t xs (FScalar true) uk (t1, ins, uniq, idx) ->
  forall q, q < length xs -> LLookup L t1 (nth q xs d) = Some (nth q idx 0, true) /\ LGetItem L t1 (nth q idx 0) = le_conv L (nth q xs d).
Proof.
  intros es t xs uk H HG HX HNA HCO HSZ HRB t1 ins uniq idx HP q Hq. destruct (history_sim L F FM C es t H HG) as (u & [R HH _]). destruct (history_facts T C _ u HH) as (k & G & _).
  pose proof (history_agrees L F FM C es u HH HG) as A. destruct (proj1 (batch_sim L F FM C t u R k G A XLA xs _ uk ins uniq idx HX) t1 HP) as (u1 & HP' & R1).
  assert (HM : mask_ok xs (FScalar true)) by (unfold mask_ok; cbn [mask_list]; apply repeat_length). pose proof (mask_ok_map L xs _ HM) as HM'.
  assert (HTr : trues (mask_list (length (map (toV L) xs)) (FScalar true)) = length xs).
  { cbn [mask_list]. rewrite map_length. unfold trues. clear. induction (length xs) as [|m IH]; [reflexivity|]. cbn. now rewrite IH. }
  assert (HD : dedupe_reliable T C (map (toV L) xs) (mask_list (length (map (toV L) xs)) (FScalar true)) uk).
  { split; [intros p Hp _; rewrite map_length in Hp; now apply HCO|].
    assert (HA : forall p, p < length (map (toV L) xs) -> nth p (mask_list (length (map (toV L) xs)) (FScalar true)) false = true).
    { intros p Hp. cbn [mask_list]. rewrite (nth_indep _ false true) by (now rewrite repeat_length). apply nth_repeat. }
    assert (HA1 : clean_pairs T (map (toV L) xs) (mask_list (length (map (toV L) xs)) (FScalar true))) by (left; exact HA).
    assert (HA2 : clean_sigs T (map (toV L) xs) (mask_list (length (map (toV L) xs)) (FScalar true))) by (right; left; exact HA).
    assert (HA3 : clean_rows T (map (toV L) xs) (mask_list (length (map (toV L) xs)) (FScalar true)) uk) by (right; right; left; exact HA).
    unfold grouping_reliable. destruct (s_mode C); auto. now destruct HNA. }
  pose proof (proj1 R) as E. assert (EFB : full_buckets t = full_buckets u) by (rewrite E; reflexivity).
  destruct (C26_xla_complete_full T C _ u (map (toV L) xs) (FScalar true) uk HH HM' HD) with (t' := u1) (ins := ins) (uniq := uniq) (idx := idx) (q := q) as [K1 K2].
  - rewrite HTr. rewrite E in HSZ. exact HSZ.
  - rewrite HTr, <- EFB. rewrite E in HRB at 2. exact HRB.
  - exact HP'.
  - split; [now rewrite map_length|]. cbn [mask_list]. rewrite map_length, (nth_indep _ false true) by (now rewrite repeat_length). apply nth_repeat.
  - rewrite nth_toV in K1, K2 by exact Hq.
    pose proof (history_run T C _ u _ u1 HH (run_cons T C _ _ _ _ _ (op_batch T C u XLA (map (toV L) xs) _ uk u1 ins uniq idx HM' HP') (run_nil T C u1))) as HH1.
    assert (HG1 : given (es ++ [EBatch xs ins idx])) by (unfold inputs; rewrite flat_map_app; apply Forall_app; split; [exact HG|cbn [flat_map event_inputs]; now rewrite app_nil_r]).
    assert (A1 : agrees L u1) by (apply (history_agrees L F FM C (es ++ [EBatch xs ins idx])); [rewrite map_app; exact HH1|exact HG1]).
    destruct (history_facts T C _ u1 HH1) as (k1 & G1 & _). rewrite (lookup_sim L F FM t1 u1 R1 k1 G1 A1 _ (nth_F xs q HX Hq)). split; [exact K1|].
    apply (get_given t1 u1 _ _ R1 (nth_F xs q HX Hq)). apply (found_iff T k1 u1 _ _ G1). exact K1.
Qed.
Theorem C75_lookup_parallel : forall es t xs f, lhistory es t -> given es -> Forall F xs -> mask_ok xs f ->
  exists out, LLookupParallel L t xs f = Some out /\ length out = length xs /\
    forall q, q < length xs ->
      (is_filled xs f q -> forall i, nth q out (0, false) = (i, true) <-> reported es (nth q xs d) i) /\
      (~ is_filled xs f q -> snd (nth q out (0, false)) = false).
Proof.
  intros es t xs f H HG HX HM. destruct (history_sim L F FM C es t H HG) as (u & [R HH _]). destruct (history_facts T C _ u HH) as (k & G & _).
  pose proof (history_agrees L F FM C es u HH HG) as A. destruct (C22_found_parallel T C _ u (map (toV L) xs) f HH (mask_ok_map L xs f HM)) as (out & EO & LO & HO). rewrite map_length in *.
  exists out. rewrite (lookup_parallel_sim L F FM t u R k G A xs f HX). split; [exact EO|]. split; [exact LO|]. intros q Hq. destruct (HO q Hq) as [H1 H2]. split.
  - intros [_ Hf] i. rewrite (H1 Hf i), nth_toV by exact Hq. exact (vreported L F FM es _ i HG (nth_F xs q HX Hq)).
  - intros HF. apply H2. destruct (nth q (mask_list (length xs) f) false) eqn:EF; [|reflexivity]. exfalso. apply HF. split; assumption.
Qed.
End P.
