(** * PropTableFloat.v — property C58: the hash table on items with float fields, including
      NaN and -0.0.  Specification: TableFloat.v. *)
From Coq Require Import String Eqdep_dec.
From Verif Require Import Jax KeyModel HashModel HashProofs StableSort TableModel ProbeProofs TableLookup TableInv TableInsert DedupeModel DedupeSpec ParInsertModel ParInsert ParEffect TritonModel PallasModel TableSpec TableHistory TableMap TableFloat TableFloatSim PropTable DedupeExact DedupeProofs Claims.

Section P.
Context {item : Type} (T : dataclass item) (E : ieee T) (C : settings).
Notation d := (dc_default T).
Notation hp := (hash_pair T).
Notation numeric := (numeric T E).
Notation separated := (separated T E).
Notation fhistory := (fhistory T E C).
Notation d' := ((d, 0) : item * nat).

Lemma stored_get' t' i x j : TableInv.stored d' t' i (x, j) -> getitem d (untag t') i = x.
Proof. intros (b & s & _ & _ & _ & EQ). unfold getitem. now rewrite untag_at, EQ. Qed.
Lemma sep_tail x l : separated (x :: l) -> separated l.
Proof. apply separated_sub. intros y Hy. now right. Qed.
Lemma sep_nan x l : ~ numeric x -> separated l -> separated (x :: l).
Proof.
  intros HN HS y z Hy Hz EQ EF. destruct (ie_self E _ _ EQ) as [E1 E2].
  destruct Hy as [<-|Hy]; [contradiction|]. destruct Hz as [<-|Hz]; [contradiction|]. now apply HS.
Qed.
Lemma tag_num k x : numeric x -> tag T E k x = (x, 0).
Proof. unfold TableFloat.numeric, tag. now intros ->. Qed.
Lemma tag_nan k x : ~ numeric x -> tag T E k x = (x, k).
Proof. unfold TableFloat.numeric, tag. destruct (ie_eq E x x); [congruence|reflexivity]. Qed.
(** what the tagged table stores under the query *)
Lemma stored_query es t t' x i : sim T E es t t' -> numeric x \/ ~ numeric x -> TableInv.stored d' t' i (tag T E (S (length es)) x) <-> numeric x /\ reported T es x i.
Proof.
  intros S D. split.
  - intros H. destruct D as [D|D].
    + split; [exact D|]. apply (sm_stored _ _ _ _ _ S). eexists. exact H.
    + rewrite tag_nan in H by exact D. destruct (sm_tags _ _ _ _ _ S _ _ _ H) as (_ & HJ & _). lia.
  - intros [HN HR]. rewrite tag_num by exact HN. apply (sm_stored _ _ _ _ _ S) in HR. destruct HR as (j & HR). destruct (sm_tags _ _ _ _ _ S _ _ _ HR) as (_ & _ & HZ). rewrite (HZ HN) in HR. exact HR.
Qed.
Lemma num_dec x : numeric x \/ ~ numeric x.
Proof. unfold TableFloat.numeric. destruct (ie_eq E x x); auto. Qed.

(** ** Lookup: an item without NaN is found exactly when an item with the same bits was
    reported as inserted, at that index; an item with a NaN is never found *)
Theorem C58_lookup : forall es t x, fhistory es t -> separated (x :: inputs es) ->
  exists i f, FLookup T E t x = Some (i, f) /\
    (f = true <-> numeric x /\ exists j, reported T es x j) /\
    (f = true -> reported T es x i /\ GetItem T t i = x).
Proof.
  intros es t x H HS. destruct (history_sim T E C es t H (sep_tail _ _ HS)) as (t' & S). set (n := Datatypes.S (length es)).
  destruct (good_at T E n t' (sm_good _ _ _ _ _ S)) as (k & G). pose proof (lookup_sim T E n t' x (sm_good _ _ _ _ _ S) (sim_agrees T E es t t' n x S (Nat.lt_succ_diag_r _) HS)) as EL.
  rewrite <- (sm_untag _ _ _ _ _ S) in EL. destruct (lookup_total (tagged T E n) k t' (tag T E n x) G) as (i & f & EF). rewrite EF in EL. exists i, f. split; [exact EL|].
  assert (HQ : forall i', stored d' t' i' (tag T E n x) <-> numeric x /\ reported T es x i') by (intros i'; apply (stored_query es t t' x i' S (num_dec x))).
  assert (HT : f = true -> numeric x /\ reported T es x i).
  { intros ->. apply HQ. apply (found_iff (tagged T E n) k t' _ i G). exact EF. }
  split; [split|].
  - intros F. destruct (HT F) as [H1 H2]. split; [exact H1|now exists i].
  - intros [HN (j & HR)]. assert (HST : stored d' t' j (tag T E n x)) by (apply HQ; auto). apply (found_iff (tagged T E n) k t' _ j G) in HST. unfold found in HST. congruence.
  - intros F. destruct (HT F) as [H1 H2]. split; [exact H2|]. pose proof (proj2 (HQ i) (HT F)) as HST. unfold tag in HST. apply stored_get' in HST. rewrite <- (sm_untag _ _ _ _ _ S) in HST. exact HST.
Qed.
Theorem C58_found : forall es t x i, fhistory es t -> separated (inputs es) -> reported T es x i ->
  (numeric x -> FLookup T E t x = Some (i, true)) /\ GetItem T t i = x.
Proof.
  intros es t x i H HS HR. destruct (history_sim T E C es t H HS) as (t' & S). pose proof (proj2 (sm_stored _ _ _ _ _ S i x) HR) as (j & HST). split.
  - intros HN. assert (HX : separated (x :: inputs es)).
    { revert HS. apply separated_sub. intros y [<-|Hy]; [|exact Hy]. apply (sm_tags _ _ _ _ _ S) in HST. apply HST. }
    destruct (C58_lookup es t x H HX) as (i' & f & EL & EF & HI). assert (F : f = true) by (apply EF; split; [exact HN|now exists i]). rewrite F in *. rewrite EL. f_equal. f_equal. destruct (HI eq_refl) as [HR' _].
    pose proof (proj2 (sm_stored _ _ _ _ _ S i' x) HR') as (j' & HST'). destruct (good_at T E 0 t' (sm_good _ _ _ _ _ S)) as (k & [V _]).
    destruct (sm_tags _ _ _ _ _ S _ _ _ HST) as (_ & _ & Z1). destruct (sm_tags _ _ _ _ _ S _ _ _ HST') as (_ & _ & Z2). rewrite (Z1 HN) in HST. rewrite (Z2 HN) in HST'.
    exact (stored_inj d' (hash_pair (tagged T E 0)) k t' i' (x, 0) V i HST' HST).
  - apply stored_get' in HST. rewrite <- (sm_untag _ _ _ _ _ S) in HST. exact HST.
Qed.
Theorem C58_nan_never_found : forall es t x, fhistory es t -> separated (inputs es) -> ~ numeric x -> exists i, FLookup T E t x = Some (i, false).
Proof.
  intros es t x H HS HN. destruct (C58_lookup es t x H (sep_nan x _ HN HS)) as (i & f & EL & EF & _). exists i. rewrite EL. f_equal. f_equal. destruct f; [|reflexivity]. destruct (proj1 EF eq_refl). contradiction.
Qed.
(** ** The contents: reported entries have different indices, keep their bits, and [size] is
    their number; an item without NaN is stored at most once *)
Theorem C58_contents : forall es t, fhistory es t -> separated (inputs es) ->
  exists L : list (item * nat), NoDup (map snd L) /\ (forall x i, In (x, i) L <-> reported T es x i) /\
    (forall x i, In (x, i) L -> GetItem T t i = x) /\
    (forall x i j, numeric x -> In (x, i) L -> In (x, j) L -> i = j) /\
    size t = N.of_nat (length L) /\ length L = count es /\ count es <= slots t.
Proof.
  intros es t H HS. destruct (history_sim T E C es t H HS) as (t' & S). destruct (good_at T E 0 t' (sm_good _ _ _ _ _ S)) as (k & G).
  destruct (contents_spec (tagged T E 0) k t' G) as (_ & B & D & EL). set (L' := contents (tagged T E 0) t') in *.
  exists (map (fun p => (fst (fst p), snd p)) L').
  assert (HI : forall x i, In (x, i) (map (fun p => (fst (fst p), snd p)) L') <-> exists j, stored d' t' i (x, j)).
  { intros x i. rewrite in_map_iff. split.
    - intros ([[y j] i'] & EQ & HL). cbn [fst snd] in EQ. injection EQ as -> ->. exists j. now apply D.
    - intros (j & HST). exists ((x, j), i). split; [reflexivity|]. now apply D. }
  split; [rewrite map_map; exact B|]. split; [intros x i; rewrite HI; apply (sm_stored _ _ _ _ _ S)|]. split; [|split; [|split; [|split]]].
  - intros x i HL. apply HI in HL. destruct HL as (j & HST). apply stored_get' in HST. rewrite <- (sm_untag _ _ _ _ _ S) in HST. exact HST.
  - intros x i i' HN HL HL'. apply HI in HL, HL'. destruct HL as (j & HST), HL' as (j' & HST').
    destruct (sm_tags _ _ _ _ _ S _ _ _ HST) as (_ & _ & Z1). destruct (sm_tags _ _ _ _ _ S _ _ _ HST') as (_ & _ & Z2). rewrite (Z1 HN) in HST. rewrite (Z2 HN) in HST'.
    exact (stored_inj d' (hash_pair (tagged T E 0)) k t' i (x, 0) (proj1 G) i' HST HST').
  - rewrite map_length, EL, (sm_untag _ _ _ _ _ S). cbn [untag retab size]. exact (size_total (tagged T E 0) k t' G).
  - rewrite map_length, EL. exact (sm_total _ _ _ _ _ S).
  - rewrite <- (sm_total _ _ _ _ _ S), (sm_untag _ _ _ _ _ S). exact (total_le (tagged T E 0) k t' G).
Qed.
(** ** Insert: an item without NaN is inserted iff the same bits were not inserted before
    and a slot is free; an item with a NaN is inserted every time, while a slot is free *)
Theorem C58_insert : forall es t x, fhistory es t -> separated (x :: inputs es) ->
  exists t' ok i, FInsert T E t x = Some (t', ok, i) /\
    (ok = true <-> ~ (numeric x /\ exists j, reported T es x j) /\ count es < slots t) /\
    (ok = false -> t' = t) /\ (ok = false -> numeric x -> (exists j, reported T es x j) -> reported T es x i) /\
    (ok = true -> GetItem T t' i = x /\ size t' = (size t + 1)%N /\ (numeric x -> FLookup T E t' x = Some (i, true)) /\ forall y, ~ reported T es y i).
Proof.
  intros es t x H HS. destruct (history_sim T E C es t H (sep_tail _ _ HS)) as (t' & S). set (n := Datatypes.S (length es)).
  destruct (good_at T E n t' (sm_good _ _ _ _ _ S)) as (k & G). pose proof (insert_sim_some T E n t' x (sm_good _ _ _ _ _ S) (sim_agrees T E es t t' n x S (Nat.lt_succ_diag_r _) HS)) as EL.
  rewrite <- (sm_untag _ _ _ _ _ S) in EL. destruct (insert_facts (tagged T E n) k t' (tag T E n x) G) as (t1 & ok & i & EI & IE & HN). rewrite EI in EL. cbn [option_map fst snd] in EL.
  exists (untag t1), ok, i. split; [exact EL|].
  assert (HQ : forall i', stored d' t' i' (tag T E n x) <-> numeric x /\ reported T es x i') by (intros i'; apply (stored_query es t t' x i' S (num_dec x))).
  pose proof (op_fact (tagged T E n) C k t' _ t1 G (op_insert (tagged T E n) C t' _ t1 ok i EI)) as F.
  assert (ESL : slots t = slots t') by (rewrite (sm_untag _ _ _ _ _ S); reflexivity).
  split; [|split; [|split]].
  - destruct ok.
    + split; [intros _|reflexivity]. destruct (ie_ok _ _ _ _ _ _ _ _ IE eq_refl) as (A & _ & ET). split.
      * intros (HNu & j & HR). apply (A j). apply HQ. auto.
      * pose proof (total_le (tagged T E n) k t1 (sf_good _ _ _ _ _ F)) as HL. unfold slots in *. rewrite (sf_cap _ _ _ _ _ F), (sf_bsz _ _ _ _ _ F), ET, (sm_total _ _ _ _ _ S) in HL. lia.
    + split; [discriminate|]. intros [HA HL]. exfalso. destruct (HN eq_refl) as [HST|[HT _]].
      * apply HQ in HST. apply HA. split; [apply HST|exists i; apply HST].
      * rewrite (sm_total _ _ _ _ _ S) in HT. lia.
  - intros ->. rewrite (ie_no _ _ _ _ _ _ _ _ IE eq_refl). symmetry. exact (sm_untag _ _ _ _ _ S).
  - intros -> HNu (j & HR). destruct (HN eq_refl) as [HST|[_ HA]]; [now apply HQ in HST|]. exfalso. apply (HA j). apply HQ. auto.
  - intros ->. destruct (ie_ok _ _ _ _ _ _ _ _ IE eq_refl) as (_ & HST & ET). split; [|split; [|split]].
    + exact (stored_get' _ _ _ _ HST).
    + rewrite (sm_untag _ _ _ _ _ S). cbn [untag retab size]. rewrite (size_total (tagged T E n) k t1 (sf_good _ _ _ _ _ F)), ET, (size_total (tagged T E n) k t' G). lia.
    + intros HNu. assert (H1 : fhistory (es ++ [EInsert x true i]) (untag t1)).
      { destruct H as (a & b & mu & mp & HC & HR). exists a, b, mu, mp. split; [exact HC|]. clear - HR EL. induction HR as [t|t e t2 es t3 HO HR IH]; [|cbn; econstructor; [exact HO|auto]]. econstructor; [constructor; exact EL|constructor]. }
      refine (proj1 (C58_found _ _ x i H1 _ _) HNu).
      * revert HS. apply separated_sub. intros y Hy. unfold inputs in Hy. rewrite flat_map_app in Hy. apply in_app_or in Hy. destruct Hy as [Hy|Hy]; [now right|]. cbn in Hy. destruct Hy as [<-|[]]. now left.
      * exists (EInsert x true i). split; [apply in_or_app; right; now left|]. cbn. auto.
    + intros y HR. apply (sm_stored _ _ _ _ _ S) in HR. destruct HR as (j & HY). destruct HY as (b & s & Hb & Hs & EI' & _). destruct HST as (b1 & s1 & Hb1 & Hs1 & EI1 & EX).
      assert (HS1 : stored d' t1 i (tabAt d' t1 i)) by (exists b1, s1; auto). apply (ie_stored _ _ _ _ _ _ _ _ IE) in HS1.
      assert (HY : stored d' t' i (tabAt d' t' i)) by (exists b, s; auto). pose proof (proj2 (ie_stored _ _ _ _ _ _ _ _ IE i _) (or_introl HY)) as HY1.
      assert (HX1 : stored d' t1 i (tag T E n x)) by (exists b1, s1; auto). pose proof (stored_fun d' t1 i _ _ HY1 HX1) as EQ. rewrite EQ in HY.
      destruct (ie_ok _ _ _ _ _ _ _ _ IE eq_refl) as (A & _). exact (A i HY).
Qed.
(** ** Batches *)
Lemma batch_setup es t t' be xs f uk t1 ins uniq idx : sim T E es t t' -> separated (xs ++ inputs es) -> mask_ok xs f ->
  FParallelInsert T E C be t xs f uk (t1, ins, uniq, idx) -> let n := S (length es) in
  exists t1', ParallelInsert (tagged T E n) C be t' (map (tag T E n) xs) f uk (t1', ins, uniq, idx) /\ t1 = untag t1' /\ sim T E (es ++ [EBatch xs ins idx]) t1 t1'.
Proof.
  intros S HS HM HP n. pose proof (sm_untag _ _ _ _ _ S) as EU.
  assert (HA : forall x, In x xs -> agrees T E n t' x) by (intros x Hx; apply (sim_agrees T E es t t' n x S (Nat.lt_succ_diag_r _)); revert HS; apply separated_sub; intros y [<-|Hy]; apply in_or_app; auto).
  rewrite EU in HP. destruct (batch_sim T E C n be t' xs f uk t1 ins uniq idx (sm_good _ _ _ _ _ S) HA HP) as (t1' & HP' & E1). exists t1'. split; [exact HP'|]. split; [exact E1|].
  (* the same table as the one reached by the simulation *)
  pose proof (op_batch (tagged T E n) C t' be (map (tag T E n) xs) f uk t1' ins uniq idx (mask_ok_tag T E n xs f HM) HP') as HO.
  destruct (good_at T E n t' (sm_good _ _ _ _ _ S)) as (k & G). pose proof (op_fact (tagged T E n) C k t' _ t1' G HO) as F.
  assert (HI : inputs (es ++ [EBatch xs ins idx]) = inputs es ++ xs) by (unfold inputs; rewrite flat_map_app; cbn; now rewrite app_nil_r).
  assert (ST : forall i y j, stored d' t1' i (y, j) <-> stored d' t' i (y, j) \/ (event_reports T (EBatch xs ins idx) y i /\ (y, j) = tag T E n y)).
  { intros i y j. rewrite <- tag_event_reports. exact (sf_stored _ _ _ _ _ F i (y, j)). }
  constructor; [exact E1|exact (good_of T E n k t1' (sf_good _ _ _ _ _ F))| | |].
  - intros i y j H. rewrite HI, app_length. cbn [length]. apply ST in H. destruct H as [H|[H EJ]].
    + destruct (sm_tags _ _ _ _ _ S i y j H) as (H1 & H2 & H3). split; [apply in_or_app; now left|]. split; [lia|exact H3].
    + split; [apply in_or_app; right; exact (event_input T (EBatch xs ins idx) y i H)|]. unfold tag in EJ. injection EJ as ->. unfold TableFloat.numeric. destruct (ie_eq E y y); (split; [unfold n; lia|]); [reflexivity|discriminate].
  - intros i y. split.
    + intros (j & H). apply ST in H. destruct H as [H|[H _]].
      * assert (HR : reported T es y i) by (apply (sm_stored _ _ _ _ _ S); now exists j). destruct HR as (e' & He & HR). exists e'. split; [apply in_or_app; now left|exact HR].
      * eexists. split; [apply in_or_app; right; left; reflexivity|exact H].
    + intros (e' & He & HR). apply in_app_or in He. destruct He as [He|[<-|[]]].
      * destruct (proj2 (sm_stored _ _ _ _ _ S i y) (ex_intro _ e' (conj He HR))) as (j & Hj). exists j. apply ST. now left.
      * exists (snd (tag T E n y)). apply ST. right. split; [exact HR|reflexivity].
  - rewrite (sf_total _ _ _ _ _ F), (sm_total _ _ _ _ _ S). unfold count. rewrite map_app, list_sum_app. cbn. lia.
Qed.
Theorem C58_batch : forall be es t xs f uk t1 ins uniq idx, fhistory es t -> separated (xs ++ inputs es) -> mask_ok xs f ->
  FParallelInsert T E C be t xs f uk (t1, ins, uniq, idx) ->
  length ins = length xs /\ length uniq = length xs /\ length idx = length xs /\
  (forall q, q < length xs -> nth q ins false = true -> is_filled xs f q /\ ~ (numeric (nth q xs d) /\ exists j, reported T es (nth q xs d) j) /\ GetItem T t1 (nth q idx 0) = nth q xs d) /\
  (forall q q', q < length xs -> q' < length xs -> nth q ins false = true -> nth q' ins false = true -> nth q xs d = nth q' xs d -> q = q') /\
  (forall q q', is_filled xs f q -> is_filled xs f q' -> nth q xs d = nth q' xs d -> nth q idx 0 = nth q' idx 0) /\
  size t1 = (size t + N.of_nat (trues ins))%N.
Proof.
  intros be es t xs f uk t1 ins uniq idx H HS HM HP.
  assert (HS' : separated (inputs es)) by (revert HS; apply separated_sub; intros y Hy; apply in_or_app; now right).
  destruct (history_sim T E C es t H HS') as (t' & S). destruct (batch_setup es t t' be xs f uk t1 ins uniq idx S HS HM HP) as (t1' & HP' & E1 & S1). set (n := Datatypes.S (length es)) in *.
  destruct (good_at T E n t' (sm_good _ _ _ _ _ S)) as (k & G). pose proof (mask_ok_tag T E n xs f HM) as HM'.
  pose proof (op_batch (tagged T E n) C t' be (map (tag T E n) xs) f uk t1' ins uniq idx HM' HP') as HO. pose proof (op_fact (tagged T E n) C k t' _ t1' G HO) as F.
  assert (HSZ : size t1 = (size t + N.of_nat (trues ins))%N).
  { rewrite E1, (sm_untag _ _ _ _ _ S). cbn [untag retab size]. rewrite (size_total (tagged T E n) k t1' (sf_good _ _ _ _ _ F)), (size_total (tagged T E n) k t' G), (sf_total _ _ _ _ _ F). cbn [event_count]. unfold trues. lia. }
  assert (HT : forall q, q < length xs -> nth q (map (tag T E n) xs) d' = tag T E n (nth q xs d)) by (intros q; apply nth_tag).
  assert (HIN : forall q, q < length xs -> nth q ins false = true -> ~ (numeric (nth q xs d) /\ exists j, reported T es (nth q xs d) j) /\ GetItem T t1 (nth q idx 0) = nth q xs d).
  { intros q Hq HI. assert (HR : event_reports (tagged T E n) (EBatch (map (tag T E n) xs) ins idx) (tag T E n (nth q xs d)) (nth q idx 0)).
    { exists q. rewrite map_length. change (dc_default (tagged T E n)) with d'. rewrite HT by exact Hq. auto. }
    split.
    - intros (HN & j & HRp). apply (sf_new _ _ _ _ _ F _ _ HR j). apply (stored_query es t t' _ j S (num_dec _)). auto.
    - assert (HST : stored d' t1' (nth q idx 0) (tag T E n (nth q xs d))) by (apply (sf_stored _ _ _ _ _ F); now right). apply stored_get' in HST. now rewrite <- E1 in HST. }
  assert (f <> FScalar false \/ f = FScalar false) as [HN| ->] by (destruct f as [[|]|]; auto; left; discriminate).
  - destruct (batch_fact_of (tagged T E n) C be k t' (map (tag T E n) xs) f uk t1' ins uniq idx G HM' HN HP') as [PE _ _]. rewrite map_length in *.
    destruct (pe_lens _ _ _ _ _ _ _ _ _ _ PE) as (L1 & L2 & L3). rewrite map_length in *. do 3 (split; [assumption|]). split; [|split; [|split; [|exact HSZ]]].
    + intros q Hq HI. split; [|now apply HIN]. split; [exact Hq|]. apply (pe_uniq _ _ _ _ _ _ _ _ _ _ PE q); [now rewrite map_length|]. apply (pe_ins _ _ _ _ _ _ _ _ _ _ PE q); [now rewrite map_length|exact HI].
    + intros q q' Hq Hq' HI HI' EQ. apply (pe_once _ _ _ _ _ _ _ _ _ _ PE); rewrite ?map_length; try assumption. change (dc_default (tagged T E n)) with d'. rewrite !HT by assumption. now rewrite EQ.
    + intros q q' [Hq HF] [Hq' HF'] EQ. apply (pe_same _ _ _ _ _ _ _ _ _ _ PE); rewrite ?map_length; try assumption. change (dc_default (tagged T E n)) with d'. rewrite !HT by assumption. now rewrite EQ.
  - cbn [FParallelInsert] in HP. injection HP as -> -> -> ->. rewrite !repeat_length. do 3 (split; [reflexivity|]). split; [|split; [|split; [|exact HSZ]]].
    + intros q Hq HI. rewrite nth_repeat in HI. discriminate.
    + intros q q' _ _ HI. rewrite nth_repeat in HI. discriminate.
    + intros q q' [_ HF]. cbn [mask_list] in HF. rewrite nth_repeat in HF. discriminate.
Qed.
(** it always returns *)
Theorem C58_batch_total : forall be es t xs f uk, fhistory es t -> separated (xs ++ inputs es) -> mask_ok xs f ->
  match be with
  | XLA => True
  | Triton _ => bsz t <= 32
  | Pallas _ order => bsz t <= 32 /\ forall r, Permutation (order r) (seq 0 (length xs))
  end ->
  exists out, FParallelInsert T E C be t xs f uk out.
Proof.
  intros be es t xs f uk H HS HM HU. assert (HS' : separated (inputs es)) by (revert HS; apply separated_sub; intros y Hy; apply in_or_app; now right).
  destruct (history_sim T E C es t H HS') as (t' & S). set (n := Datatypes.S (length es)). destruct (good_at T E n t' (sm_good _ _ _ _ _ S)) as (k & G).
  assert (HA : forall x, In x xs -> agrees T E n t' x) by (intros x Hx; apply (sim_agrees T E es t t' n x S (Nat.lt_succ_diag_r _)); revert HS; apply separated_sub; intros y [<-|Hy]; apply in_or_app; auto).
  destruct (batch_total (tagged T E n) C be k t' (map (tag T E n) xs) f uk G (mask_ok_tag T E n xs f HM)) as ([[[t1' ins] uniq] idx] & HP).
  { rewrite map_length. rewrite (sm_untag _ _ _ _ _ S) in HU. exact HU. }
  exists (untag t1', ins, uniq, idx). rewrite (sm_untag _ _ _ _ _ S). exact (batch_sim_back T E C n be t' xs f uk t1' ins uniq idx (sm_good _ _ _ _ _ S) HA HP).
Qed.
(** the default backend loses nothing when there is room: every filled input's index
    retrieves its bits, and an input with a NaN was inserted by this very batch *)
Lemma reliable_tag n xs filled uk : dedupe_reliable T C xs filled uk -> dedupe_reliable (tagged T E n) C (map (tag T E n) xs) filled uk.
Proof.
  assert (HC : forall (A : Type) (g : item -> A) (g' : item * nat -> A) r, (forall x, g' (tag T E n x) = g x) -> clean T g r xs filled -> clean (tagged T E n) g' r (map (tag T E n) xs) filled).
  { intros A g g' r HG [HL|HR]; [left|right]; intros q; rewrite map_length; intros Hq; [now apply HL|]. intros HF. change (dc_default (tagged T E n)) with d'. rewrite nth_tag by exact Hq. rewrite HG. now apply HR. }
  assert (HW : forall x, dc_words (tagged T E n) (tag T E n x) = dc_words T x) by apply tag_words.
  assert (A1 : clean_pairs T xs filled -> clean_pairs (tagged T E n) (map (tag T E n) xs) filled) by (apply HC; apply tag_hp).
  assert (A2 : clean_rows T xs filled uk -> clean_rows (tagged T E n) (map (tag T E n) xs) filled uk).
  { intros [HU|[HU|HU]]; [now left|right; left|right; right]; [intros q; rewrite map_length; apply HU|]. revert HU. apply HC. exact HW. }
  assert (A3 : clean_sigs T xs filled -> clean_sigs (tagged T E n) (map (tag T E n) xs) filled).
  { intros [HU|HU]; [now left|right]. revert HU. apply HC. intros x. now rewrite HW. }
  intros [HNN HG]. split; [intros q; rewrite map_length; apply HNN|]. revert HG. unfold grouping_reliable. destruct (s_mode C); [intros (H1 & H2 & H3); auto|auto|]. intros [H1 H2]. split; [auto|].
  intros q q'. rewrite !map_length. intros Hq Hq' HF HF'. change (dc_default (tagged T E n)) with d'. rewrite !nth_tag by assumption. rewrite !tag_hp. intros EQ. now rewrite (H2 q q' Hq Hq' HF HF' EQ).
Qed.
Theorem C58_batch_complete : forall es t xs f uk, fhistory es t -> separated (xs ++ inputs es) -> mask_ok xs f -> dedupe_reliable T C xs (mask_list (length xs) f) uk ->
  let m := trues (mask_list (length xs) f) in
  (size t + N.of_nat m <= N.of_nat (slots t))%N -> (N.of_nat (rounds_needed m (full_buckets t)) <= maxp t)%N ->
  forall t1 ins uniq idx, FParallelInsert T E C XLA t xs f uk (t1, ins, uniq, idx) ->
  forall q, is_filled xs f q -> GetItem T t1 (nth q idx 0) = nth q xs d /\
    ((numeric (nth q xs d) /\ FLookup T E t1 (nth q xs d) = Some (nth q idx 0, true)) \/
     (~ numeric (nth q xs d) /\ exists r, is_filled xs f r /\ nth r ins false = true /\ nth r xs d = nth q xs d /\ nth r idx 0 = nth q idx 0)).
Proof.
  intros es t xs f uk H HS HM HD m HR HB t1 ins uniq idx HP q [Hq HF].
  assert (HS' : separated (inputs es)) by (revert HS; apply separated_sub; intros y Hy; apply in_or_app; now right).
  destruct (history_sim T E C es t H HS') as (t' & S). destruct (batch_setup es t t' XLA xs f uk t1 ins uniq idx S HS HM HP) as (t1' & HP' & E1 & S1). set (n := Datatypes.S (length es)) in *.
  destruct (good_at T E n t' (sm_good _ _ _ _ _ S)) as (k & G). pose proof (mask_ok_tag T E n xs f HM) as HM'. set (TT := tagged T E n) in *. set (ys := map (tag T E n) xs) in *. assert (LY : length ys = length xs) by (unfold ys; apply map_length).
  assert (HN : f <> FScalar false) by (intros ->; cbn [mask_list] in HF; rewrite nth_repeat in HF; discriminate).
  assert (EUT : t = untag t') by apply S.
  destruct (parallel_insert_complete (dc_eqb TT) (dc_default TT) (hash_pair TT) (dc_words TT) (dc_nwords TT) (dc_eq TT) (dc_hash TT) (fun x => eq_refl) (dc_inj TT) (dc_len TT)
      (s_mode C) (s_sort C) (s_sort_ok C) k t' ys f uk m (full_buckets t') (proj1 G) (proj2 G) (limit_maxp TT k t' G) HM' HN) as (t2 & i2 & u2 & x2 & reps & EE & ED & PE & HX & HA).
  { rewrite EUT in HR. cbn [untag retab size slots cap bsz] in HR. rewrite (size_total TT k t' G) in HR. unfold slots in HR. cbn [cap bsz untag retab] in HR. lia. }
  { intros p _ _. apply (meets_crossing TT); [apply G|]. intros j Hj _. apply (full_met_le TT k); [apply G|lia]. }
  { rewrite EUT in HB. exact HB. }
  { rewrite LY. apply Nat.le_refl. }
  apply (xla_function TT C) in HP'. rewrite EE in HP'. injection HP' as -> -> -> ->.
  pose proof (reliable_tag n xs _ uk HD) as HD'. fold ys TT in HD'. rewrite <- LY in HD'.
  pose proof (batch_reps TT C _ ys uk HM' HD' uniq reps ED) as DE. unfold mask_ok in HM'. rewrite LY in *.
  destruct (de_rep _ _ _ _ _ DE q ltac:(lia) HF) as (R1 & R2 & R3 & R4). cbn [snd] in *. set (r := nth q reps 0) in *.
  assert (UR : nth r uniq false = true).
  { apply (de_mask _ _ _ _ _ DE r); [lia|]. split; [exact R2|]. cbn [snd].
    destruct (de_rep _ _ _ _ _ DE r R1 R2) as (Q1 & Q2 & Q3 & Q4). cbn [snd] in *. set (r' := nth r reps 0) in *.
    destruct (R4 r' Q1 Q2 ltac:(congruence)) as [C1 C2]. destruct (Q4 r R1 R2 eq_refl) as [C3 C4].
    assert (costof uk r' = costof uk r) as EC by (apply cle_antisym; assumption). specialize (C2 EC). specialize (C4 (eq_sym EC)). lia. }
  assert (HT : forall p, p < length xs -> nth p ys (dc_default TT) = tag T E n (nth p xs d)) by (intros p; apply nth_tag).
  assert (Hr : r < length xs) by lia.
  pose proof (HX q Hq HF UR) as EIx. fold r in EIx. pose proof (HA r Hr UR) as HST. rewrite R3 in HST. rewrite <- EIx in HST. rewrite HT in HST by exact Hq.
  assert (EB : nth r xs d = nth q xs d) by (rewrite (HT r Hr), (HT q Hq) in R3; unfold tag in R3; congruence).
  split. { pose proof HST as HST'. apply stored_get' in HST'. now rewrite <- E1 in HST'. }
  destruct (num_dec (nth q xs d)) as [HNu|HNu]; [left|right]; (split; [exact HNu|]).
  - assert (H1 : fhistory (es ++ [EBatch xs ins idx]) t1).
    { destruct H as (a & b & mu & mp & HC & HRn). exists a, b, mu, mp. split; [exact HC|]. clear - HRn HP HM. induction HRn as [t|t e t2 es t3 HO HR IH]; [|cbn; econstructor; [exact HO|auto]]. econstructor; [econstructor; eassumption|constructor]. }
    refine (proj1 (C58_found _ _ _ (nth q idx 0) H1 _ _) HNu).
    + revert HS. apply separated_sub. intros y Hy. unfold inputs in Hy. rewrite flat_map_app in Hy. apply in_app_or in Hy. apply in_or_app. destruct Hy as [Hy|Hy]; [now right|]. cbn in Hy. rewrite app_nil_r in Hy. now left.
    + rewrite tag_num in HST by exact HNu. apply (sm_stored _ _ _ _ _ S1). now exists 0.
  - exists r. split; [split; [exact Hr|exact R2]|]. split; [|split; [exact EB|now symmetry]].
    destruct (nth r ins false) eqn:EI; [reflexivity|]. exfalso. rewrite tag_nan in HST by exact HNu.
    destruct (pe_not _ _ _ _ _ _ _ _ _ _ PE r ltac:(lia) UR EI) as [HO|HO].
    + rewrite (HT r Hr), EB, tag_nan in HO by exact HNu. destruct (sm_tags _ _ _ _ _ S _ _ _ HO) as (_ & HJ & _). unfold n in HJ. lia.
    + apply (HO (nth q idx 0)). rewrite (HT r Hr), EB, tag_nan by exact HNu. exact HST.
Qed.
(** ** Batched lookup *)
Theorem C58_lookup_parallel : forall es t xs f, fhistory es t -> separated (xs ++ inputs es) -> mask_ok xs f ->
  exists out, FLookupParallel T E t xs f = Some out /\ length out = length xs /\
    forall q, q < length xs ->
      (is_filled xs f q -> forall i, nth q out (0, false) = (i, true) <-> numeric (nth q xs d) /\ reported T es (nth q xs d) i) /\
      (~ is_filled xs f q -> snd (nth q out (0, false)) = false).
Proof.
  intros es t xs f H HS HM. assert (HS' : separated (inputs es)) by (revert HS; apply separated_sub; intros y Hy; apply in_or_app; now right).
  destruct (history_sim T E C es t H HS') as (t' & S). set (n := Datatypes.S (length es)). destruct (good_at T E n t' (sm_good _ _ _ _ _ S)) as (k & G).
  assert (HA : forall x, In x xs -> agrees T E n t' x) by (intros x Hx; apply (sim_agrees T E es t t' n x S (Nat.lt_succ_diag_r _)); revert HS; apply separated_sub; intros y [<-|Hy]; apply in_or_app; auto).
  destruct (lookup_parallel_facts (tagged T E n) k t' (map (tag T E n) xs) f G (mask_ok_tag T E n xs f HM)) as (out & EO & LO & HO). rewrite map_length in *.
  exists out. rewrite (sm_untag _ _ _ _ _ S), (lookup_parallel_sim T E n t' xs f (sm_good _ _ _ _ _ S) HA). split; [exact EO|]. split; [exact LO|]. intros q Hq. destruct (HO q Hq) as [H1 H2]. split.
  - intros [_ HF] i. rewrite (H1 HF i). change (dc_default (tagged T E n)) with d'. rewrite nth_tag by exact Hq. apply (stored_query es t t' _ i S (num_dec _)).
  - intros HF. apply H2. destruct (nth q (mask_list (length xs) f) false) eqn:EF; [|reflexivity]. exfalso. apply HF. split; assumption.
Qed.
End P.
