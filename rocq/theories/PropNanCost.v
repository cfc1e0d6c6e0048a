(** * PropNanCost.v — property C59: parallel_insert with NaN costs. *)
From Verif Require Import Jax KeyModel HashModel HashProofs StableSort TableModel ProbeProofs TableLookup TableInv TableInsert DedupeModel DedupeSpec DedupeProofs DedupeExact ParInsertModel ParInsert ParEffect TritonModel PallasModel TableSpec TableHistory PropTable PropTableCases PropDedupe ResolveProofs GroupFirst UniqueModel TableRounds.

Section S.
Context {item : Type} (T : dataclass item) (C : settings).
Notation table := (@table item).
Notation d := (dc_default T).
Notation hp := (hash_pair T).
Implicit Types (t : table) (x : item).
Notation history := (history T C).

(** entries [q] and [q'] of the batch are the same item *)
Definition same_item (xs : list item) (q q' : nat) : Prop := nth q xs d = nth q' xs d.
(** some filled occurrence of the item of entry [q] has a NaN cost *)
Definition nan_cost (xs : list item) (f : fillarg) (uk : option (list costval)) (q : nat) : Prop :=
  exists q', is_filled xs f q' /\ same_item xs q' q /\ costof uk q' = CNaN.
(** entry [r] is the occurrence of the item of [q] that is inserted: without NaN costs the
    cheapest one (the first on ties), with a NaN cost entry 0 of the batch *)
Definition chosen (xs : list item) (f : fillarg) (uk : option (list costval)) (q r : nat) : Prop :=
  is_filled xs f r /\ same_item xs r q /\
  (~ nan_cost xs f uk q -> forall q', is_filled xs f q' -> same_item xs q' q ->
     cle (costof uk r) (costof uk q') = true /\ (costof uk q' = costof uk r -> r <= q')) /\
  (nan_cost xs f uk q -> r = 0).
(** an item with a NaN cost that is not the item of entry 0 *)
Definition lost (xs : list item) (f : fillarg) (uk : option (list costval)) (q : nat) : Prop :=
  nan_cost xs f uk q /\ ~ (is_filled xs f 0 /\ same_item xs 0 q).

Lemma item_dec (x y : item) : x = y \/ x <> y.
Proof. pose proof (dc_eq T x y) as H. destruct (dc_eqb T x y) eqn:E; [left; now apply H|right]. intros EE. apply H in EE. discriminate. Qed.
Lemma filled_dec (xs : list item) f q : is_filled xs f q \/ ~ is_filled xs f q.
Proof. unfold is_filled. destruct (Nat.lt_ge_cases q (length xs)); [|right; lia]. destruct (nth q (mask_list (length xs) f) false); [left; auto|right; intros [_ X]; discriminate]. Qed.
Lemma nan_dec (xs : list item) f uk q : nan_cost xs f uk q \/ ~ nan_cost xs f uk q.
Proof.
  unfold nan_cost. assert (H : forall m, (exists q', q' < m /\ is_filled xs f q' /\ same_item xs q' q /\ costof uk q' = CNaN) \/ ~ (exists q', q' < m /\ is_filled xs f q' /\ same_item xs q' q /\ costof uk q' = CNaN)).
  { induction m as [|m IH]; [right; intros (q' & H & _); lia|]. destruct IH as [(q' & H1 & H2)|HN]; [left; exists q'; split; [lia|exact H2]|].
    destruct (filled_dec xs f m) as [D1|D1]; [destruct (item_dec (nth m xs d) (nth q xs d)) as [D2|D2]; [destruct (cnan_dec (costof uk m)) as [D3|D3]|]|]; [left; exists m; split; [lia|auto]| | |];
      right; intros (q' & H1 & H2 & H3 & H4); (destruct (Nat.eq_dec q' m) as [->|]; [contradiction|apply HN; exists q'; split; [lia|auto]]). }
  destruct (H (length xs)) as [(q' & _ & H1)|HN]; [left; exists q'; exact H1|right]. intros (q' & H1 & H2). apply HN. exists q'. split; [apply H1|auto].
Qed.
Lemma lost_dec (xs : list item) f uk q : lost xs f uk q \/ ~ lost xs f uk q.
Proof.
  unfold lost. destruct (nan_dec xs f uk q) as [D|D]; [|right; tauto]. destruct (filled_dec xs f 0) as [D1|D1]; [|left; tauto].
  destruct (item_dec (nth 0 xs d) (nth q xs d)) as [D2|D2]; [right; intros [_ H]; apply H; auto|left]. split; [exact D|]. intros [_ H]. exact (D2 H).
Qed.

(** the deduplication result in these terms *)
Lemma reps_chosen (xs : list item) f uk uniq reps : mask_ok xs f -> dedupe_nan d xs (mask_list (length xs) f) uk (uniq, reps) ->
  forall q, is_filled xs f q ->
  (~ lost xs f uk q -> chosen xs f uk q (nth q reps 0) /\ nth (nth q reps 0) uniq false = true) /\
  (lost xs f uk q -> nth q reps 0 = 0 /\ nth q uniq false = false).
Proof.
  intros HL D. unfold mask_ok in HL.
  assert (A : forall q, is_filled xs f q -> nan_cost xs f uk q -> nth q reps 0 = 0).
  { intros q [Hq HF] (q' & [Hq' HF'] & ES & EN). apply (dn_nan _ _ _ _ _ D q q'); auto; lia. }
  assert (B : forall q, is_filled xs f q -> ~ nan_cost xs f uk q -> nan_free d xs (mask_list (length xs) f) uk q).
  { intros q HQ HN q' Hq' HF' ES EN. apply HN. exists q'. repeat split; auto. lia. }
  assert (NS : forall q r, same_item xs r q -> nan_cost xs f uk r -> nan_cost xs f uk q).
  { intros q r ES (q' & H1 & H2 & H3). exists q'. repeat split; try apply H1; auto. unfold same_item in *. congruence. }
  assert (E : forall q, is_filled xs f q -> ~ nan_cost xs f uk q -> chosen xs f uk q (nth q reps 0)).
  { intros q HQ HN. destruct (dn_rep _ _ _ _ _ D q ltac:(destruct HQ; lia) (proj2 HQ) (B q HQ HN)) as (R1 & R2 & R3 & R4). cbn [snd] in *.
    split; [split; [lia|exact R2]|]. split; [exact R3|]. split; [|contradiction]. intros _ q' [Hq' HF'] ES. apply R4; auto. lia. }
  intros q HQ. split.
  - intros HNL. destruct (nan_dec xs f uk q) as [HN|HN].
    + rewrite (A q HQ HN). assert (H0 : is_filled xs f 0 /\ same_item xs 0 q).
      { destruct (filled_dec xs f 0) as [D1|D1]; [|exfalso; apply HNL; split; [exact HN|tauto]]. destruct (item_dec (nth 0 xs d) (nth q xs d)) as [D2|D2]; [auto|]. exfalso. apply HNL. split; [exact HN|]. intros [_ H]. exact (D2 H). }
      destruct H0 as [H0 ES0]. split; [split; [exact H0|split; [exact ES0|split; [contradiction|reflexivity]]]|]. apply (dn_mask _ _ _ _ _ D 0); [destruct H0; lia|]. split; [apply H0|]. cbn [snd]. apply A; [exact H0|]. apply (NS 0 q); [symmetry; exact ES0|exact HN].
    + pose proof (E q HQ HN) as CH. split; [exact CH|]. destruct CH as (R1 & R2 & R3 & _). set (r := nth q reps 0) in *.
      assert (HNr : ~ nan_cost xs f uk r) by (intros X; apply HN; apply (NS q r R2 X)).
      destruct (E r R1 HNr) as (Q1 & Q2 & Q3 & _). set (r' := nth r reps 0) in *. apply (dn_mask _ _ _ _ _ D r); [destruct R1; lia|]. split; [apply R1|]. cbn [snd]. fold r'.
      destruct (R3 HN r' Q1) as [C1 C2]; [unfold same_item in *; congruence|]. destruct (Q3 HNr r R1 eq_refl) as [C3 C4]. assert (EC : costof uk r' = costof uk r) by (apply cle_antisym; assumption). specialize (C2 EC). specialize (C4 (eq_sym EC)). lia.
  - intros [HN H0]. pose proof (A q HQ HN) as E0. split; [exact E0|]. destruct (nth q uniq false) eqn:EU; [exfalso|reflexivity]. apply (dn_mask _ _ _ _ _ D q) in EU; [|destruct HQ; lia]. cbn [snd] in EU. destruct EU as [_ EU]. rewrite E0 in EU. subst q. apply H0. split; [exact HQ|reflexivity].
Qed.

(** ** Items that are not lost behave as without NaN: one occurrence is chosen, only it is
    marked unique, all occurrences get its index, and an index of a present item
    retrieves it *)
Theorem C59_not_lost : forall be es t xs f uk t' ins uniq idx, history es t -> mask_ok xs f ->
  grouping_reliable T C xs (mask_list (length xs) f) uk -> ParallelInsert T C be t xs f uk (t', ins, uniq, idx) ->
  forall q, is_filled xs f q -> ~ lost xs f uk q ->
  exists r, chosen xs f uk q r /\ nth q idx 0 = nth r idx 0 /\
    (forall q', is_filled xs f q' -> same_item xs q' q -> (nth q' uniq false = true <-> q' = r)) /\
    (forall i, Lookup T t' (nth q xs d) = Some (i, true) -> nth q idx 0 = i /\ GetItem T t' i = nth q xs d).
Proof.
  intros be es t xs f uk t' ins uniq idx H HL HD HP q HQ HNL. destruct (history_facts T C es t H) as (k & G & _ & _).
  assert (f <> FScalar false) as HN by (intros ->; destruct HQ as [_ HF]; cbn [mask_list] in HF; rewrite nth_repeat in HF; discriminate).
  destruct (batch_fact_of T C be k t xs f uk t' ins uniq idx G HL HN HP) as [PE (reps & ED & HX) _].
  pose proof (op_fact T C k t _ t' G (op_batch T C t be xs f uk t' ins uniq idx HL HP)) as SF. pose proof (sf_good _ _ _ _ _ SF) as G'.
  pose proof (batch_reps_nan T C _ xs uk HL HD uniq reps ED) as DE.
  destruct (proj1 (reps_chosen xs f uk uniq reps HL DE q HQ) HNL) as [CH UR]. exists (nth q reps 0). set (r := nth q reps 0) in *.
  destruct CH as (R1 & R2 & R34). destruct HQ as [Hq HF]. pose proof (HX q Hq HF UR) as EX. fold r in EX.
  split; [split; [exact R1|split; [exact R2|exact R34]]|]. split; [exact EX|]. split.
  - intros q' [Hq' HF'] ES. split; [|intros ->; exact UR]. intros U.
    destruct (C28_sound T C be es t xs f uk t' ins uniq idx H HL HP) as (_ & _ & K). apply K; auto; [apply R1|]. unfold same_item in *. congruence.
  - intros i HLk. apply (found_iff T k) in HLk; [|exact G'].
    assert (TableInv.stored d t' (nth q idx 0) (nth q xs d)) as HS.
    { rewrite EX, <- R2. destruct (nth r ins false) eqn:EI.
      - apply (pe_ins _ _ _ _ _ _ _ _ _ _ PE r (proj1 R1) EI).
      - destruct (pe_not _ _ _ _ _ _ _ _ _ _ PE r (proj1 R1) UR EI) as [HS|HS].
        + apply (sf_stored _ _ _ _ _ SF). left. exact HS.
        + exfalso. apply (HS i). rewrite R2. exact HLk. }
    split; [apply (stored_inj d hp k t' _ (nth q xs d) (proj1 G') i); assumption|]. apply stored_get. exact HLk.
Qed.
(** ** Lost items are not inserted by the batch: they are present afterwards only if they
    were before, are not marked unique, and are reported with the index of entry 0 *)
Theorem C59_lost : forall be es t xs f uk t' ins uniq idx, history es t -> mask_ok xs f ->
  grouping_reliable T C xs (mask_list (length xs) f) uk -> ParallelInsert T C be t xs f uk (t', ins, uniq, idx) ->
  forall q, is_filled xs f q -> lost xs f uk q ->
  nth q ins false = false /\ nth q uniq false = false /\
  (forall i, Lookup T t' (nth q xs d) = Some (i, true) <-> Lookup T t (nth q xs d) = Some (i, true)) /\
  (nth 0 uniq false = true -> nth q idx 0 = nth 0 idx 0).
Proof.
  intros be es t xs f uk t' ins uniq idx H HL HD HP q HQ HLo. destruct (history_facts T C es t H) as (k & G & _ & _).
  assert (f <> FScalar false) as HN by (intros ->; destruct HQ as [_ HF]; cbn [mask_list] in HF; rewrite nth_repeat in HF; discriminate).
  destruct (batch_fact_of T C be k t xs f uk t' ins uniq idx G HL HN HP) as [PE (reps & ED & HX) _].
  pose proof (op_fact T C k t _ t' G (op_batch T C t be xs f uk t' ins uniq idx HL HP)) as SF. pose proof (sf_good _ _ _ _ _ SF) as G'.
  pose proof (batch_reps_nan T C _ xs uk HL HD uniq reps ED) as DE.
  assert (K : forall q', is_filled xs f q' -> same_item xs q' q -> nth q' reps 0 = 0 /\ nth q' uniq false = false).
  { intros q' HQ' ES. apply (proj2 (reps_chosen xs f uk uniq reps HL DE q' HQ')). destruct HLo as [(m & M1 & M2 & M3) H0]. unfold same_item in *. split.
    - exists m. unfold same_item. repeat split; try apply M1; congruence.
    - intros [Z1 Z2]. apply H0. split; [exact Z1|]. unfold same_item in *. congruence. }
  destruct (K q HQ eq_refl) as [K1 K2].
  assert (NI : forall q', q' < length xs -> same_item xs q' q -> nth q' ins false = false).
  { intros q' Hq' ES. destruct (nth q' ins false) eqn:EI; [exfalso|reflexivity]. destruct (pe_ins _ _ _ _ _ _ _ _ _ _ PE q' Hq' EI) as (U & _).
    pose proof (pe_uniq _ _ _ _ _ _ _ _ _ _ PE q' Hq' U) as HF'. destruct (K q' (conj Hq' HF') ES) as [_ K3]. congruence. }
  destruct HQ as [Hq HF]. split; [apply NI; [exact Hq|reflexivity]|]. split; [exact K2|]. split.
  - intros i. change (found T t' (nth q xs d) i <-> found T t (nth q xs d) i). rewrite !(found_iff T k) by assumption. rewrite (pe_stored _ _ _ _ _ _ _ _ _ _ PE). split; [|now left]. intros [X|(q' & Hq' & EI & ES & _)]; [exact X|]. rewrite NI in EI by assumption. discriminate.
  - intros U0. rewrite (HX q Hq HF) by (rewrite K1; exact U0). now rewrite K1.
Qed.
(** ** Completeness for the items that are not lost *)
Theorem C59_complete : forall F es t xs f uk, history es t -> mask_ok xs f -> grouping_reliable T C xs (mask_list (length xs) f) uk ->
  let m := trues (mask_list (length xs) f) in
  (size t + N.of_nat m <= N.of_nat (slots t))%N ->
  (forall q, is_filled xs f q -> meets_full T t (nth q xs d) m F) -> (N.of_nat (rounds_needed m F) <= maxp t)%N ->
  forall t' ins uniq idx, ParallelInsert T C XLA t xs f uk (t', ins, uniq, idx) ->
  forall q, is_filled xs f q -> ~ lost xs f uk q -> Lookup T t' (nth q xs d) = Some (nth q idx 0, true) /\ GetItem T t' (nth q idx 0) = nth q xs d.
Proof.
  intros F es t xs f uk H HL HD m HR HM HB t' ins uniq idx HP q HQ HNL. destruct (history_facts T C es t H) as (k & G & _ & _).
  assert (f <> FScalar false) as HN by (intros ->; destruct HQ as [_ HF]; cbn [mask_list] in HF; rewrite nth_repeat in HF; discriminate).
  pose proof (op_fact T C k t _ t' G (op_batch T C t XLA xs f uk t' ins uniq idx HL HP)) as SF. pose proof (sf_good _ _ _ _ _ SF) as G'.
  destruct (parallel_insert_complete (dc_eqb T) d hp (dc_words T) (dc_nwords T) (dc_eq T) (dc_hash T) (fun x => eq_refl) (dc_inj T) (dc_len T)
      (s_mode C) (s_sort C) (s_sort_ok C) k t xs f uk m F (proj1 G) (proj2 G) (limit_maxp T k t G) HL HN) as (t2 & i2 & u2 & x2 & reps & E & ED & PE & HX & HA); auto.
  { rewrite (size_total T k t G) in HR. unfold slots in HR. lia. }
  { intros p Hp HFp. apply meets_crossing; [apply G|]. apply HM. split; assumption. }
  apply xla_function in HP. rewrite E in HP. injection HP as -> -> -> ->.
  pose proof (batch_reps_nan T C _ xs uk HL HD uniq reps ED) as DE.
  destruct (proj1 (reps_chosen xs f uk uniq reps HL DE q HQ) HNL) as [(R1 & R2 & _) UR]. destruct HQ as [Hq HF].
  assert (TableInv.stored d t' (nth q idx 0) (nth q xs d)) as HS.
  { rewrite (HX q Hq HF UR), <- R2. apply HA; [apply R1|exact UR]. }
  split; [apply (found_iff T k); assumption|apply stored_get; exact HS].
Qed.
(** the GPU and TPU backends *)
Theorem C59_complete_accelerators : forall be maxb es t xs f uk t' ins uniq idx,
  be = Triton maxb \/ (exists order, be = Pallas maxb order) ->
  history es t -> mask_ok xs f -> grouping_reliable T C xs (mask_list (length xs) f) uk -> cap t <= maxb ->
  ParallelInsert T C be t xs f uk (t', ins, uniq, idx) ->
  forall q, is_filled xs f q -> ~ lost xs f uk q -> (exists i, Lookup T t' (nth q xs d) = Some (i, true)) \/ size t' = N.of_nat (slots t).
Proof.
  intros be maxb es t xs f uk t' ins uniq idx HB H HL HD HM HP q HQ HNL. destruct (history_facts T C es t H) as (k & G & _ & _).
  assert (f <> FScalar false) as HN by (intros ->; destruct HQ as [_ HF]; cbn [mask_list] in HF; rewrite nth_repeat in HF; discriminate).
  destruct (batch_fact_of T C be k t xs f uk t' ins uniq idx G HL HN HP) as [PE (reps & ED & _) BF].
  pose proof (op_fact T C k t _ t' G (op_batch T C t be xs f uk t' ins uniq idx HL HP)) as SF. pose proof (sf_good _ _ _ _ _ SF) as G'.
  pose proof (batch_reps_nan T C _ xs uk HL HD uniq reps ED) as DE.
  destruct (proj1 (reps_chosen xs f uk uniq reps HL DE q HQ) HNL) as [(R1 & R2 & _) UR]. set (r := nth q reps 0) in *.
  destruct (nth r ins false) eqn:EI.
  - left. exists (nth r idx 0). apply (found_iff T k); [exact G'|]. rewrite <- R2. apply (pe_ins _ _ _ _ _ _ _ _ _ _ PE r (proj1 R1) EI).
  - destruct (BF maxb HB HM r (proj1 R1) UR EI) as [HS|HT].
    + left. exists (nth r idx 0). apply (found_iff T k); [exact G'|]. apply (sf_stored _ _ _ _ _ SF). left. rewrite <- R2. exact HS.
    + right. rewrite (size_total T k t' G'), HT. reflexivity.
Qed.
End S.

(** ** A NaN cost loses an item: the batch [5, 6, 7, 6] with costs 1, NaN, 2, 0 into an empty
    table; both occurrences of 6 are lost although the second has the cheapest cost *)
Definition NB : list N := [5; 6; 7; 6]%N.
Definition NK : option (list costval) := Some [Cost (Fin 1%Z); CNaN; Cost (Fin 2%Z); Cost (Fin 0%Z)].
Theorem C59_nan_cost_refuted :
  lost U32 NB (FScalar true) NK 3 /\ costof NK 3 = Cost (Fin 0%Z) /\
  exists t' ins uniq idx, ParallelInsert U32 DEF XLA T0 NB (FScalar true) NK (t', ins, uniq, idx) /\
    ins = [true; false; true; false] /\ uniq = [true; false; true; false] /\ size t' = 2%N /\
    absent U32 t' 6%N /\ nth 3 idx 0 = nth 0 idx 0.
Proof.
  split; [|split; [reflexivity|]].
  - split; [exists 1; split; [split; [cbn; lia|reflexivity]|split; reflexivity]|]. intros [_ E]. discriminate E.
  - do 4 eexists. split; [apply xla_function; vm_compute; reflexivity|]. split; [reflexivity|]. split; [reflexivity|]. split; [reflexivity|]. split; [|reflexivity]. eexists. vm_compute. reflexivity.
Qed.
(** the hypotheses of the theorems hold for this batch, and it has entries of both kinds *)
Example C59_case : history U32 DEF [] T0 /\ mask_ok NB (FScalar true) /\ grouping_reliable U32 DEF NB (mask_list (length NB) (FScalar true)) NK /\
  is_filled NB (FScalar true) 3 /\ lost U32 NB (FScalar true) NK 3 /\ is_filled NB (FScalar true) 2 /\ ~ lost U32 NB (FScalar true) NK 2 /\
  (size T0 + N.of_nat 4 <= N.of_nat (slots T0))%N /\ (forall x, meets_full U32 T0 x 4 (full_buckets T0)) /\ (N.of_nat (rounds_needed 4 (full_buckets T0)) <= maxp T0)%N.
Proof.
  split; [exists 16, 8, 2, None; split; [exact T0_ok|constructor]|]. split; [reflexivity|]. split.
  - assert (A : forall q, q < length NB -> nth q (mask_list (length NB) (FScalar true)) false = true) by (intros q Hq; change (length NB) with 4 in *; do 4 (destruct q as [|q]; [reflexivity|]); lia).
    split; [left; exact A|]. split; [left; cbn; lia|]. right; right; left. exact A.
  - split; [split; [cbn; lia|reflexivity]|]. split; [apply C59_nan_cost_refuted|]. split; [split; [cbn; lia|reflexivity]|]. split.
    + intros [(q & [Hq _] & ES & EN) _]. change (length NB) with 4 in Hq. do 4 (destruct q as [|q]; [first [discriminate ES|discriminate EN]|]). lia.
    + split; [vm_compute; discriminate|]. split; [|vm_compute; discriminate]. intros x. apply (meets_all U32 DEF []). exists 16, 8, 2, None; split; [exact T0_ok|constructor].
Qed.
(** ** unique_mask with NaN costs (optimized_unique_ops.py 149-203): a NaN cost counts as +inf *)
(** line 156 [key < inf] *)
Definition below_inf (c : costval) : bool := match c with CNaN => false | Cost k => negb (kle PInf k) end.
(** the order of [jnp.argsort]: NaN last *)
Definition sle (a b : costval) : bool := match a, b with _, CNaN => true | CNaN, Cost _ => false | Cost x, Cost y => kle x y end.
Definition effective_nan (n : nat) (filled : option (list bool)) (u : list costval) : list bool :=
  map (fun i => (match filled with None => true | Some f => nth i f false end) && below_inf (nth i u (Cost PInf))) (seq 0 n).
Definition unique_sorted_nan (x64 : bool) (k : nat) (rows : list (list N)) (filled : option (list bool)) (u : list costval) : unique_result :=
  let n := length rows in
  let eff := effective_nan n filled u in
  let mrows := map (fun p : bool * list N => if fst p then snd p else map (fun _ => wide_max x64 k) (snd p)) (combine eff (map (hash_to_wide x64) rows)) in
  let perm0 := let valid_key := fun i => if nth i eff false then nth i u (Cost PInf) else Cost PInf in
               isort (fun a b => sle (valid_key a) (valid_key b)) (seq 0 n) in
  let perm := fold_right (stable_perm mrows) perm0 (seq 0 (wide_width x64 k)) in
  let starts := group_start roweqb (map (fun i => nth i mrows []) perm) in
  let mask_sorted := map (fun p : bool * nat => fst p && nth (snd p) eff false) (combine starts perm) in
  MkU perm mask_sorted (scatter_back false perm mask_sorted).
Definition as_inf (c : costval) : key := match c with CNaN => PInf | Cost k => k end.
Lemma isort_ext {A} (f g : A -> A -> bool) l : (forall a b, In a l -> In b l -> f a b = g a b) -> isort f l = isort g l.
Proof.
  intros H. unfold isort. induction l as [|x l IH]; [reflexivity|]. cbn [fold_right]. rewrite IH by (intros a b Ha Hb; apply H; right; assumption).
  assert (HP : forall y, In y (fold_right (iinsert g) [] l) -> In y l) by (intros y Hy; apply (Permutation_in _ (isort_perm g l)); exact Hy).
  revert HP. generalize (fold_right (iinsert g) [] l). intros m HP. induction m as [|y m IHm]; [reflexivity|]. cbn [iinsert].
  rewrite (H x y (or_introl eq_refl) (or_intror (HP y (or_introl eq_refl)))). destruct (g x y); [reflexivity|]. f_equal. apply IHm. intros z Hz. apply HP. now right.
Qed.
Theorem C59_unique_mask : forall x64 k rows filled u,
  unique_sorted_nan x64 k rows filled u = unique_sorted x64 k rows filled (Some (map as_inf u)).
Proof.
  intros x64 k rows filled u. assert (EN : forall i, nth i (map as_inf u) PInf = as_inf (nth i u (Cost PInf))) by (intros i; exact (map_nth as_inf u (Cost PInf) i)).
  assert (EE : effective_nan (length rows) filled u = effective (length rows) filled (Some (map as_inf u))).
  { unfold effective_nan, effective. apply map_ext. intros i. f_equal. rewrite EN. destruct (nth i u (Cost PInf)) as [|[| |]]; reflexivity. }
  unfold unique_sorted_nan, unique_sorted. cbv zeta. rewrite <- EE. set (eff := effective_nan (length rows) filled u).
  assert (EP : isort (fun a b => sle (if nth a eff false then nth a u (Cost PInf) else Cost PInf) (if nth b eff false then nth b u (Cost PInf) else Cost PInf)) (seq 0 (length rows)) =
               isort (fun a b => kle (if nth a eff false then nth a (map as_inf u) PInf else PInf) (if nth b eff false then nth b (map as_inf u) PInf else PInf)) (seq 0 (length rows))).
  { assert (ES : forall i, i < length rows -> exists c, (if nth i eff false then nth i u (Cost PInf) else Cost PInf) = Cost c /\ (if nth i eff false then nth i (map as_inf u) PInf else PInf) = c).
    { intros i Hi. destruct (nth i eff false) eqn:EF; [|exists PInf; auto]. unfold eff, effective_nan in EF. rewrite (map_nth_lt _ _ i 0) in EF by (rewrite seq_length; exact Hi). rewrite seq_nth in EF by exact Hi. cbn [Nat.add] in EF.
      apply andb_prop in EF. destruct EF as [_ EF]. rewrite EN. destruct (nth i u (Cost PInf)) as [|c]; [discriminate|]. exists c. auto. }
    apply isort_ext. intros a b Ha Hb. apply in_seq in Ha, Hb. destruct (ES a ltac:(lia)) as (ca & -> & ->). destruct (ES b ltac:(lia)) as (cb & -> & ->). reflexivity. }
  rewrite EP. reflexivity.
Qed.
Print Assumptions C59_not_lost. Print Assumptions C59_lost. Print Assumptions C59_complete. Print Assumptions C59_complete_accelerators. Print Assumptions C59_nan_cost_refuted. Print Assumptions C59_unique_mask.
