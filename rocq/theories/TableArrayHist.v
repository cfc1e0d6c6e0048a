(** * TableArrayHist.v — property C47 for any item type seen as single instances: histories of
      the table on arrays are histories of the table of items. *)
From Coq Require Import String.
From Verif Require Import Jax KeyModel HashModel StableSort TableModel ProbeProofs TableLookup TableInv DedupeModel DedupeSpec ParInsertModel ParInsert Claims TritonModel PallasModel TableSpec TableHistory PropTable TableMap.
From Verif Require Import StructModel ArrayModel ArrayFacts ShapeModel PropShape RowsModel RowsLift PropRows SoaModel PropSoa EqModel HeapArrays HeapRows TableArrays TableSim TableArraySpec.
From Verif Require PropHeapArrays.

Section G.
Variables (c : class) (I : Type) (T : dataclass I) (phi : I -> obj) (ok : obj -> Prop) (hp : obj -> N * N) (rowof : obj -> list N) (C : settings).
Hypothesis V : item_view c T phi hp rowof.
Hypothesis HN : c <> CNil.
Hypothesis HS : solid c.
Hypothesis OK : forall o, ok o <-> exists x, phi x = o.
Notation w := (dc_nwords T).
Notation dI := (dc_default T).
Notation arep := (arep c I phi).
Notation aop := (aop c ok hp rowof w C).
Notation arun := (arun c ok hp rowof w C).
Notation ahistory := (ahistory c ok hp rowof w C).
Notation API := (AParallelInsert c hp rowof w C).
Notation batch_of := (batch_of c ok).

Definition lift (e : event) (a : aevent) : Prop :=
  match e, a with
  | EInsert x b i, AEInsert y b' i' => y = phi x /\ b' = b /\ i' = i
  | EBatch xs ins idx, AEBatch k inputs ins' idx' => batched c [k] inputs /\ rows k inputs = map phi xs /\ ins' = ins /\ idx' = idx
  | _, _ => False
  end.
Lemma oks l : Forall ok l -> exists xs, l = map phi xs.
Proof. induction 1 as [|o l H _ [xs ->]]; [exists []; reflexivity|]. apply OK in H. destruct H as [x <-]. now exists (x :: xs). Qed.
Lemma ok_phi x : ok (phi x). Proof. apply OK. eauto. Qed.
Lemma batch_xs k inputs : batch_of k inputs -> exists xs, rows k inputs = map phi xs /\ length xs = k.
Proof. intros [HB HF]. destruct (oks _ HF) as [xs E]. exists xs. split; [exact E|]. rewrite <- (map_length phi xs), <- E. apply rows_length. Qed.
Lemma aop_fwd t a t' L : arep t L -> aop t a t' -> exists e L', op T C L e L' /\ arep t' L' /\ lift e a.
Proof.
  intros R H. destruct H as [t x t' b i Hx HI|t be k inputs f uk t' ins uniq idx HB HM HP].
  - apply OK in Hx. destruct Hx as [x0 <-]. pose proof (ainsert_spec c I T phi hp rowof V t L x0 R) as K. unfold AInsert in HI. rewrite HI in K. destruct (TableModel.insert _ _ _ _ _) as [[[L' b'] i']|] eqn:E; [|contradiction]. destruct K as (K1 & -> & ->).
    exists (EInsert x0 b' i'), L'. split; [constructor; exact E|]. split; [exact K1|]. cbn. auto.
  - destruct (batch_xs k inputs HB) as (xs & EX & EL). destruct HB as [HB _].
    assert (HM' : mask_ok xs f) by (unfold mask_ok; rewrite EL; exact HM).
    destruct (aparallel_fwd c I T phi hp rowof V HN HS C be t L k inputs xs f uk t' ins uniq idx R HB EX HM' HP) as (L' & P1 & P2).
    exists (EBatch xs ins idx), L'. split; [econstructor; eassumption|]. split; [exact P2|]. cbn. auto.
Qed.
Lemma aop_bwd t L e L' : arep t L -> op T C L e L' -> (forall xs ins idx, e = EBatch xs ins idx -> exists inputs, batched c [length xs] inputs /\ rows (length xs) inputs = map phi xs) ->
  exists a t', aop t a t' /\ arep t' L' /\ lift e a.
Proof.
  intros R H HE. destruct H as [L x L' b i HI|L be xs f uk L' ins uniq idx HM HP].
  - pose proof (ainsert_spec c I T phi hp rowof V t L x R) as K. unfold Insert in HI. rewrite HI in K. destruct (ainsert hp t (phi x)) as [[[t' b'] i']|] eqn:E; [|contradiction]. destruct K as (K1 & -> & ->).
    exists (AEInsert (phi x) b i), t'. split; [constructor; [apply ok_phi|exact E]|]. split; [exact K1|]. cbn. auto.
  - destruct (HE xs ins idx eq_refl) as (inputs & HB & HR).
    destruct (aparallel_bwd c I T phi hp rowof V HN HS C be t L (length xs) inputs xs f uk L' ins uniq idx R HB HR HM HP) as (ta & P1 & P2).
    exists (AEBatch (length xs) inputs ins idx), ta. split; [econstructor; [split; [exact HB|]|exact HM|exact P1]|split; [exact P2|cbn; auto]]. rewrite HR. apply Forall_map, Forall_forall. intros; apply ok_phi.
Qed.
Lemma arun_fwd t es t' : arun t es t' -> forall L, arep t L -> exists es' L', run T C L es' L' /\ arep t' L' /\ Forall2 lift es' es.
Proof.
  induction 1 as [t|t e t1 es t2 HO HR IH]; intros L R.
  - exists [], L. split; [constructor|]. split; [exact R|constructor].
  - destruct (aop_fwd t e t1 L R HO) as (e' & L1 & O1 & R1 & F1). destruct (IH L1 R1) as (es' & L2 & O2 & R2 & F2). exists (e' :: es'), L2. split; [econstructor; eassumption|]. split; [exact R2|]. now constructor.
Qed.
Lemma abuild_rep capacity bs mult mp : aconfig_ok c capacity bs mult mp -> arep (abuild c capacity bs mult mp) (Build T capacity bs mult mp).
Proof. intros (H & _). apply (abuild_spec c I T phi hp rowof V). lia. Qed.
Lemma ahistory_fwd es t : ahistory es t -> exists es' L, history T C es' L /\ arep t L /\ Forall2 lift es' es.
Proof.
  intros (capacity & bs & mult & mp & HC & HR). destruct (arun_fwd _ _ _ HR _ (abuild_rep capacity bs mult mp HC)) as (es' & L & H1 & H2 & H3).
  exists es', L. split; [|auto]. exists capacity, bs, mult, mp. split; [exact HC|exact H1].
Qed.
Lemma rows_nth_phi k inputs xs q : rows k inputs = map phi xs -> q < k -> elem [q] inputs = phi (nth q xs dI).
Proof.
  intros E Hq. rewrite <- (rows_nth k inputs q (phi dI) Hq), E. apply map_nth.
Qed.
Lemma lift_reports e a x i : lift e a -> (event_reports T e x i <-> aevent_reports a (phi x) i).
Proof.
  destruct e as [y b j|xs ins idx], a as [y' b' j'|k inputs ins' idx']; cbn [lift event_reports aevent_reports]; try contradiction.
  - intros (-> & -> & ->). split; [intros (-> & -> & ->); auto|]. intros (-> & E & ->). apply (iv_inj _ _ _ _ _ V) in E. auto.
  - intros (HB & HR & -> & ->). assert (EL : length xs = k) by (rewrite <- (map_length phi xs), <- HR; apply rows_length). rewrite EL. split; intros (q & Hq & H1 & H2 & H3); exists q; (split; [exact Hq|]); (split; [exact H1|]); (split; [|exact H3]).
    + rewrite (rows_nth_phi k inputs xs) by assumption. now rewrite H2.
    + rewrite (rows_nth_phi k inputs xs) in H2 by assumption. now apply (iv_inj _ _ _ _ _ V).
Qed.
Lemma areports_phi e a y i : lift e a -> aevent_reports a y i -> exists x, y = phi x.
Proof.
  destruct e as [z b j|xs ins idx], a as [z' b' j'|k inputs ins' idx']; cbn [lift aevent_reports]; try contradiction.
  - intros (-> & _ & _) (_ & <- & _). eauto.
  - intros (HB & HR & _ & _) (q & Hq & _ & <- & _). rewrite (rows_nth_phi k inputs xs) by assumption. eauto.
Qed.
Lemma lift_reported es' es x i : Forall2 lift es' es -> (reported T es' x i <-> areported es (phi x) i).
Proof.
  unfold reported, areported. induction 1 as [|e a es' es H HF IH]; [split; intros (e & [] & _)|]. split.
  - intros (e0 & [<-|HI] & HE); [exists a; split; [now left|]; now apply (lift_reports e a)|]. destruct (proj1 IH) as (a0 & A1 & A2); [eauto|]. exists a0. split; [now right|exact A2].
  - intros (e0 & [<-|HI] & HE); [exists e; split; [now left|]; now apply (lift_reports e a)|]. destruct (proj2 IH) as (a0 & A1 & A2); [eauto|]. exists a0. split; [now right|exact A2].
Qed.
Lemma areported_phi es' es y i : Forall2 lift es' es -> areported es y i -> exists x, y = phi x.
Proof.
  intros HF (a & HI & HE). induction HF as [|e b es' es H HF IH]; [destruct HI|]. destruct HI as [<-|HI]; [eapply areports_phi; eassumption|auto].
Qed.
Lemma lift_count es' es : Forall2 lift es' es -> acount es = count es'.
Proof.
  unfold acount, count. induction 1 as [|e a es' es H HF IH]; [reflexivity|]. cbn [map list_sum fold_right]. fold (list_sum (map aevent_count es)) (list_sum (map event_count es')). rewrite IH. f_equal.
  destruct e as [y b j|xs ins idx], a as [y' b' j'|k inputs ins' idx']; cbn [lift] in H; try contradiction; cbn; [now destruct H as (_ & -> & _)|now destruct H as (_ & _ & -> & _)].
Qed.
Lemma found_bound es' L x i : history T C es' L -> Lookup T L x = Some (i, true) -> i < (cap L + 1) * bsz L.
Proof.
  intros HH HF. destruct (history_facts T C es' L HH) as (k & G & _). apply (found_iff T k L x i G) in HF. destruct HF as (b & s & Hb & Hs & -> & _).
  assert (s < bsz L) by (pose proof (wf_fill _ _ (i_wf _ _ _ _ (proj1 G)) b Hb); lia). apply slot_lt; assumption.
Qed.
Lemma alook t L x : arep t L -> ALookup hp t (phi x) = Lookup T L x.
Proof. intros R. apply (alookup_spec c I T phi hp rowof V t L x R). Qed.
Lemma aget es' t L x i : history T C es' L -> arep t L -> Lookup T L x = Some (i, true) -> agetitem t i = Some (phi (GetItem T L i)).
Proof. intros HH R HF. apply (agetitem_spec c I T phi t L i R). eapply found_bound; eassumption. Qed.

(** an instance reported as inserted is found at that index, and the index names the whole
    instance *)
Theorem g_found es t x i : ahistory es t -> areported es x i -> ALookup hp t x = Some (i, true) /\ agetitem t i = Some x.
Proof.
  intros HH HR. destruct (ahistory_fwd es t HH) as (es' & L & H1 & R & F). destruct (areported_phi _ _ _ _ F HR) as [x0 ->]. apply (lift_reported es' es) in HR; [|exact F].
  destruct (C22_found_forever T C es' L x0 i H1 HR) as [E1 E2]. rewrite (alook t L) by exact R. split; [exact E1|]. rewrite (aget es' t L x0 i H1 R E1). now rewrite E2.
Qed.
Theorem g_no_false es t x : ahistory es t -> ok x -> exists i b, ALookup hp t x = Some (i, b) /\ (b = true <-> exists i', areported es x i') /\ (b = true -> agetitem t i = Some x /\ areported es x i).
Proof.
  intros HH Hx. apply OK in Hx. destruct Hx as [x0 <-]. destruct (ahistory_fwd es t HH) as (es' & L & H1 & R & F).
  destruct (C23_no_false_positives T C es' L x0 H1) as (i & b & E & HB & HI). exists i, b. rewrite (alook t L) by exact R. split; [exact E|]. split.
  - rewrite HB. split; intros [i' K]; exists i'; now apply (lift_reported es' es).
  - intros ->. destruct (HI eq_refl) as [G1 G2]. split; [rewrite (aget es' t L x0 i H1 R E); now rewrite G1|now apply (lift_reported es' es)].
Qed.
Theorem g_never_moves es t es1 t1 x i : ahistory es t -> arun t es1 t1 -> ok x -> ALookup hp t x = Some (i, true) ->
  ALookup hp t1 x = Some (i, true) /\ agetitem t1 i = Some x /\ agetitem t i = Some x.
Proof.
  intros HH HR Hx HF. apply OK in Hx. destruct Hx as [x0 <-]. destruct (ahistory_fwd es t HH) as (es' & L & H1 & R & F). rewrite (alook t L) in HF by exact R.
  destruct (arun_fwd t es1 t1 HR L R) as (es1' & L1 & H2 & R1 & F1). destruct (C23_never_moves T C es' L es1' L1 x0 i H1 H2 HF) as (E1 & E2 & E3).
  rewrite (alook t1 L1) by exact R1. split; [exact E1|]. pose proof (history_run T C es' L es1' L1 H1 H2) as H3. rewrite (aget _ t1 L1 x0 i H3 R1 E1), (aget _ t L x0 i H1 R HF). now rewrite E2, E3.
Qed.
Theorem g_set es t : ahistory es t -> exists l : list (obj * nat), NoDup (map fst l) /\ NoDup (map snd l) /\
  (forall x i, In (x, i) l -> ok x) /\ (forall x i, ok x -> (In (x, i) l <-> ALookup hp t x = Some (i, true))) /\
  a_size t = N.of_nat (length l) /\ a_size t = N.of_nat (acount es) /\ (a_size t <= N.of_nat (aslots t))%N.
Proof.
  intros HH. destruct (ahistory_fwd es t HH) as (es' & L & H1 & R & F). destruct (C24_set T C es' L H1) as (l & N1 & N2 & HL & S1 & S2 & S3).
  destruct (r_fields c I phi t L R) as (A1 & A2 & A3 & A4 & _). exists (map (fun p => (phi (fst p), snd p)) l). rewrite !map_map. cbn [fst snd]. unfold aslots. rewrite A1, A2, A4, map_length, (lift_count es' es F).
  split. { rewrite <- (map_map fst phi). apply FinFun.Injective_map_NoDup; [intros x y; apply (iv_inj _ _ _ _ _ V)|exact N1]. }
  split; [exact N2|]. split. { intros x i HI. apply in_map_iff in HI. destruct HI as ([y j] & E & _). cbn in E. injection E as <- _. apply ok_phi. }
  split; [|auto]. intros x i Hx. apply OK in Hx. destruct Hx as [x0 <-]. rewrite (alook t L) by exact R. rewrite <- (HL x0 i). rewrite in_map_iff. split.
  - intros ([y j] & E & HI). cbn in E. assert (EE : phi y = phi x0) by congruence. apply (iv_inj _ _ _ _ _ V) in EE. assert (j = i) by congruence. now subst.
  - intros HI. exists (x0, i). auto.
Qed.
Lemma rep_same t t' L : arep t L -> arep t' L -> t = t'.
Proof.
  intros [M1 _ _ T1 R1 _] [M2 _ _ T2 R2 _]. assert (E : a_tab t = a_tab t') by (apply (PropHeapArrays.rows_ext c _ _ _ T1 T2); congruence).
  unfold meta, retab in M1, M2. rewrite <- M1 in M2. destruct t as [a1 a2 a3 a4 a5 a6 a7 a8], t' as [b1 b2 b3 b4 b5 b6 b7 b8]. cbn in *. congruence.
Qed.
Theorem g_insert es t x : ahistory es t -> ok x -> exists t' b i, AInsert hp t x = Some (t', b, i) /\
  (forall i0, ALookup hp t x = Some (i0, true) -> b = false /\ i = i0 /\ t' = t) /\
  (aabsent hp t x -> (b = true <-> (a_size t < N.of_nat (aslots t))%N) /\ (b = false -> t' = t) /\
     (b = true -> a_size t' = (a_size t + 1)%N /\ ALookup hp t' x = Some (i, true) /\ agetitem t' i = Some x /\
        forall y j, ok y -> y <> x -> (ALookup hp t' y = Some (j, true) <-> ALookup hp t y = Some (j, true)))).
Proof.
  intros HH Hx. apply OK in Hx. destruct Hx as [x0 <-]. destruct (ahistory_fwd es t HH) as (es' & L & H1 & R & F).
  destruct (C25_insert T C es' L x0 H1) as (L' & b & i & E & P1 & P2). pose proof (ainsert_spec c I T phi hp rowof V t L x0 R) as K. unfold Insert in E. rewrite E in K.
  unfold AInsert. destruct (ainsert hp t (phi x0)) as [[[t' b'] i']|] eqn:EA; [|contradiction]. destruct K as (R' & -> & ->).
  exists t', b, i. split; [reflexivity|]. destruct (r_fields c I phi t L R) as (A1 & A2 & A3 & A4 & _). destruct (r_fields c I phi t' L' R') as (B1 & B2 & B3 & B4 & _). split.
  - intros i0 HF. rewrite (alook t L) in HF by exact R. destruct (P1 i0 HF) as (-> & -> & ->). split; [reflexivity|]. split; [reflexivity|]. now apply (rep_same t' t L).
  - intros [j HA]. rewrite (alook t L) in HA by exact R. destruct (P2 (ex_intro _ j HA)) as (Q1 & Q2 & Q3). unfold aslots. rewrite A1, A2, A4, B4. split; [exact Q1|]. split.
    + intros EB. specialize (Q2 EB). subst L'. now apply (rep_same t' t L).
    + intros EB. destruct (Q3 EB) as (S1 & S2 & S3 & S4). split; [exact S1|]. rewrite (alook t' L') by exact R'. split; [exact S2|].
      pose proof (history_run T C es' L _ L' H1 (run_cons T C _ _ _ _ _ (op_insert T C L x0 L' b i E) (run_nil T C L'))) as H3.
      split; [rewrite (aget _ t' L' x0 i H3 R' S2); now rewrite S3|]. intros y k Hy Hne. apply OK in Hy. destruct Hy as [y0 <-]. rewrite (alook t' L'), (alook t L) by assumption. apply S4. intros ->. now apply Hne.
Qed.
Theorem g_lookup_parallel es t k inputs f : ahistory es t -> batch_of k inputs -> amask_ok k f -> exists out, ALookupParallel hp t inputs f = Some out /\ length out = k /\
  forall q, q < k -> (nth q (mask_list k f) false = true -> forall i, nth q out (0, false) = (i, true) <-> areported es (elem [q] inputs) i) /\
    (nth q (mask_list k f) false = false -> snd (nth q out (0, false)) = false).
Proof.
  intros HH HB HM. destruct (ahistory_fwd es t HH) as (es' & L & H1 & R & F). destruct (batch_xs k inputs HB) as (xs & EX & EL). destruct HB as [HB _].
  assert (HM' : mask_ok xs f) by (unfold mask_ok; rewrite EL; exact HM). destruct (C22_found_parallel T C es' L xs f H1 HM') as (out & E & E2 & E3). rewrite EL in *.
  exists out. split; [|split; [exact E2|]].
  - unfold ALookupParallel. rewrite (alookup_parallel_spec c I T phi hp rowof V HN HS t L k inputs xs f R HB EX). exact E.
  - intros q Hq. destruct (E3 q Hq) as [K1 K2]. split; [|exact K2]. intros Hm i. rewrite (K1 Hm i). rewrite (rows_nth_phi k inputs xs) by assumption. now apply lift_reported.
Qed.
Theorem g_union be es t k inputs f uk t' ins uniq idx : ahistory es t -> batch_of k inputs -> amask_ok k f -> API be t inputs f uk (t', ins, uniq, idx) ->
  length ins = k /\ length uniq = k /\ length idx = k /\
  (forall q, q < k -> nth q ins false = true -> afilled k f q /\ aabsent hp t (elem [q] inputs)) /\
  (forall q q', q < k -> q' < k -> nth q ins false = true -> nth q' ins false = true -> elem [q] inputs = elem [q'] inputs -> q = q') /\
  (forall y i, ok y -> (ALookup hp t' y = Some (i, true) <->
     ALookup hp t y = Some (i, true) \/ exists q, q < k /\ nth q ins false = true /\ elem [q] inputs = y /\ nth q idx 0 = i)) /\
  (forall q, q < k -> nth q ins false = true -> agetitem t' (nth q idx 0) = Some (elem [q] inputs)) /\
  a_size t' = (a_size t + N.of_nat (length (filter (fun b => b) ins)))%N.
Proof.
  intros HH HB HM HP. destruct (ahistory_fwd es t HH) as (es' & L & H1 & R & F). destruct (batch_xs k inputs HB) as (xs & EX & EL). destruct HB as [HB HF].
  assert (HM' : mask_ok xs f) by (unfold mask_ok; rewrite EL; exact HM).
  destruct (aparallel_fwd c I T phi hp rowof V HN HS C be t L k inputs xs f uk t' ins uniq idx R HB EX HM' HP) as (L' & P1 & R').
  destruct (C26_union T C be es' L xs f uk L' ins uniq idx H1 HM' P1) as (U1 & U2 & U3 & U4 & U5 & U6 & U7). rewrite EL in *.
  assert (EE : forall q, q < k -> elem [q] inputs = phi (nth q xs dI)) by (intros; now apply (rows_nth_phi k inputs xs)).
  destruct (r_fields c I phi t L R) as (A1 & A2 & A3 & A4 & _). destruct (r_fields c I phi t' L' R') as (B1 & B2 & B3 & B4 & _).
  do 3 (split; [assumption|]). split; [|split; [|split; [|split]]].
  - intros q Hq HI. destruct (U4 q Hq HI) as [[_ F1] [j F2]]. rewrite EL in F1. split; [split; assumption|]. exists j. rewrite EE by exact Hq. now rewrite (alook t L).
  - intros q q' Hq Hq' HI HI' E. rewrite !EE in E by assumption. apply (iv_inj _ _ _ _ _ V) in E. now apply U5.
  - intros y i Hy. apply OK in Hy. destruct Hy as [y0 <-]. rewrite (alook t' L'), (alook t L), U6 by assumption. split; (intros [K|(q & Hq & K1 & K2 & K3)]; [now left|right; exists q; split; [exact Hq|]; split; [exact K1|]; split; [|exact K3]]).
    + rewrite EE by exact Hq. now rewrite K2.
    + rewrite EE in K2 by exact Hq. now apply (iv_inj _ _ _ _ _ V).
  - intros q Hq HI. pose proof (history_run T C es' L _ L' H1 (run_cons T C _ _ _ _ _ (op_batch T C L be xs f uk L' ins uniq idx HM' P1) (run_nil T C L'))) as H3.
    assert (HRp : reported T (es' ++ [EBatch xs ins idx]) (nth q xs dI) (nth q idx 0)). { exists (EBatch xs ins idx). split; [apply in_or_app; right; now left|]. exists q. rewrite EL. auto. }
    destruct (C22_found_forever T C _ L' _ _ H3 HRp) as [E1 E2]. rewrite (aget _ t' L' _ _ H3 R' E1), EE by exact Hq. now rewrite E2.
  - rewrite A4, B4. exact U7.
Qed.
Theorem g_total be es t k inputs f uk : ahistory es t -> batch_of k inputs -> amask_ok k f ->
  match be with XLA => True | Triton _ => a_bsz t <= 32 | Pallas _ order => a_bsz t <= 32 /\ forall r, Permutation (order r) (seq 0 k) end ->
  exists out, API be t inputs f uk out.
Proof.
  intros HH HB HM HBE. destruct (ahistory_fwd es t HH) as (es' & L & H1 & R & F). destruct (batch_xs k inputs HB) as (xs & EX & EL). destruct HB as [HB HF].
  assert (HM' : mask_ok xs f) by (unfold mask_ok; rewrite EL; exact HM). destruct (r_fields c I phi t L R) as (A1 & A2 & _).
  destruct (C26_total T C be es' L xs f uk H1 HM') as [[[[L' ins] uniq] idx] HP].
  { rewrite EL. rewrite A2 in HBE. exact HBE. }
  destruct (aparallel_bwd c I T phi hp rowof V HN HS C be t L k inputs xs f uk L' ins uniq idx R HB EX HM' HP) as (ta & P1 & _). eauto.
Qed.
Lemma reliable_phi k inputs xs l uk : rows k inputs = map phi xs -> length xs = k ->
  adedupe_reliable hp rowof w C k inputs l uk -> dedupe_reliable T C xs l uk.
Proof.
  intros EX EL. assert (EE : forall q, q < k -> elem [q] inputs = phi (nth q xs dI)) by (intros; now apply (rows_nth_phi k inputs xs)).
  assert (K : forall {A} (g : obj -> A) (g' : I -> A) r, (forall x, g (phi x) = g' x) -> aclean g r k inputs l -> clean T g' r xs l).
  { intros A g g' r HG [H|H]; [left; now rewrite EL|right]. rewrite EL. intros q Hq HF. specialize (H q Hq HF). rewrite EE, HG in H by exact Hq. exact H. }
  assert (KP : aclean hp (sentinel, sentinel) k inputs l -> clean_pairs T xs l) by (apply K; apply (iv_hash _ _ _ _ _ V)).
  assert (KR : uk = None \/ (forall q, q < k -> nth q l false = true -> costof uk q <> Cost PInf) \/ aclean rowof (repeat sentinel w) k inputs l -> clean_rows T xs l uk).
  { intros [H|[H|H]]; [left; exact H|right; left; now rewrite EL|right; right; revert H; apply K; apply (iv_words _ _ _ _ _ V)]. }
  assert (KS : w <= 8 \/ aclean (fun x => sig_of (rowof x)) (repeat sentinel 4) k inputs l -> clean_sigs T xs l).
  { intros [H|H]; [left; exact H|right; revert H; apply K; intros x; now rewrite (iv_words _ _ _ _ _ V)]. }
  unfold adedupe_reliable, dedupe_reliable, grouping_reliable. cbv zeta. intros [HNN HG]. split; [rewrite EL; exact HNN|]. revert HG. destruct (s_mode C).
  - intros (H1 & H2 & H3). auto.
  - exact KR.
  - intros (H1 & H2). split; [auto|]. rewrite EL. intros q q' Hq Hq' F F' E. specialize (H2 q q' Hq Hq' F F'). rewrite !EE, !(iv_hash _ _ _ _ _ V) in H2 by assumption. apply (iv_inj _ _ _ _ _ V). auto.
Qed.
Theorem g_indices be es t k inputs f uk t' ins uniq idx : ahistory es t -> batch_of k inputs -> amask_ok k f ->
  adedupe_reliable hp rowof w C k inputs (mask_list k f) uk -> API be t inputs f uk (t', ins, uniq, idx) ->
  forall q i, afilled k f q -> ALookup hp t' (elem [q] inputs) = Some (i, true) -> nth q idx 0 = i /\ agetitem t' (nth q idx 0) = Some (elem [q] inputs).
Proof.
  intros HH HB HM HD HP q i [Hq HQ] HF. destruct (ahistory_fwd es t HH) as (es' & L & H1 & R & F). destruct (batch_xs k inputs HB) as (xs & EX & EL). destruct HB as [HB HFo].
  assert (HM' : mask_ok xs f) by (unfold mask_ok; rewrite EL; exact HM).
  destruct (aparallel_fwd c I T phi hp rowof V HN HS C be t L k inputs xs f uk t' ins uniq idx R HB EX HM' HP) as (L' & P1 & R').
  rewrite (rows_nth_phi k inputs xs) in * by assumption. rewrite (alook t' L') in HF by exact R'.
  destruct (C27_indices T C be es' L xs f uk L' ins uniq idx H1 HM') with (q := q) (i := i) as [E1 E2]; try assumption.
  - rewrite EL. now apply (reliable_phi k inputs).
  - split; [now rewrite EL|now rewrite EL].
  - split; [exact E1|]. pose proof (history_run T C es' L _ L' H1 (run_cons T C _ _ _ _ _ (op_batch T C L be xs f uk L' ins uniq idx HM' P1) (run_nil T C L'))) as H3.
    rewrite E1 in *. rewrite (aget _ t' L' _ _ H3 R' HF). now rewrite E2.
Qed.
(** several indices at once: [table[indices]] is the batch of the instances they name *)
Lemma g_getitems es t is : ahistory es t -> (forall i, In i is -> i < aslots t) ->
  exists r, agetitems t is = Some r /\ batched c [length is] r /\ forall q, q < length is -> Some (elem [q] r) = agetitem t (nth q is 0).
Proof.
  intros HH HB. destruct (ahistory_fwd es t HH) as (es' & L & H1 & R & F). destruct (r_fields c I phi t L R) as (A1 & A2 & _). unfold aslots in HB. rewrite A1, A2 in HB.
  pose proof (r_cap c I phi t L R) as Hc. pose proof (r_bsz c I phi t L R) as Hb.
  destruct (C45_get_many c _ (a_tab t) (map Z.of_nat is) ONil (r_tab c I phi t L R)) as (r & E1 & E2 & E3); [nia|]. rewrite map_length in E2, E3. exists r. split; [exact E1|]. split; [exact E2|].
  intros q Hq. assert (Hi : nth q is 0 < cap L * bsz L) by (apply HB; now apply nth_In). rewrite <- (rows_nth (length is) r q ONil Hq), E3, map_map.
  rewrite (nth_map_any _ is q 0) by exact Hq. rewrite (agetitem_spec c I T phi t L _ R) by nia. f_equal. rewrite (r_rows c I phi t L R).
  assert (EL : length (map phi (tab L)) = (cap L + 1) * bsz L) by (rewrite <- (r_rows c I phi t L R); apply rows_length).
  rewrite jget_in by (rewrite EL; nia). rewrite Nat2Z.id. rewrite (nth_indep _ ONil (phi dI)) by (rewrite EL; nia). apply map_nth.
Qed.
(** the default backend loses nothing when there is room and the batch is small compared
    with the round limit: reading the returned indices gives the batch back *)
Theorem g_complete es t k inputs f uk t' ins uniq idx : ahistory es t -> batch_of k inputs -> amask_ok k f -> adedupe_reliable hp rowof w C k inputs (mask_list k f) uk ->
  let m := length (filter (fun b => b) (mask_list k f)) in
  (a_size t + N.of_nat m <= N.of_nat (aslots t))%N -> (N.of_nat (rounds_needed m (afull_buckets t)) <= a_maxp t)%N ->
  API XLA t inputs f uk (t', ins, uniq, idx) ->
  forall q, afilled k f q -> ALookup hp t' (elem [q] inputs) = Some (nth q idx 0, true) /\ agetitem t' (nth q idx 0) = Some (elem [q] inputs).
Proof.
  intros HH HB HM HD m HS1 HS2 HP q [Hq HQ]. destruct (ahistory_fwd es t HH) as (es' & L & H1 & R & F). destruct (batch_xs k inputs HB) as (xs & EX & EL). destruct HB as [HB HFo].
  assert (HM' : mask_ok xs f) by (unfold mask_ok; rewrite EL; exact HM). destruct (r_fields c I phi t L R) as (A1 & A2 & A3 & A4 & A5 & _). unfold aslots in HS1. rewrite A1, A2, A4 in HS1. unfold afull_buckets in HS2. rewrite A1, A2, A3, A5 in HS2.
  destruct (aparallel_fwd c I T phi hp rowof V HN HS C XLA t L k inputs xs f uk t' ins uniq idx R HB EX HM' HP) as (L' & P1 & R').
  assert (HD' : dedupe_reliable T C xs (mask_list (length xs) f) uk) by (rewrite EL; now apply (reliable_phi k inputs)).
  pose proof (C26_xla_complete_full T C es' L xs f uk H1 HM' HD') as K. cbv zeta in K. rewrite EL in K. specialize (K HS1 HS2 L' ins uniq idx P1 q). destruct K as [K1 K2]; [split; rewrite EL; assumption|].
  rewrite (rows_nth_phi k inputs xs) by assumption. rewrite (alook t' L') by exact R'. split; [exact K1|].
  pose proof (history_run T C es' L _ L' H1 (run_cons T C _ _ _ _ _ (op_batch T C L XLA xs f uk L' ins uniq idx HM' P1) (run_nil T C L'))) as H3. rewrite (aget _ t' L' _ _ H3 R' K1). now rewrite K2.
Qed.
Theorem g_bound es t x i : ahistory es t -> ok x -> ALookup hp t x = Some (i, true) -> i < aslots t.
Proof.
  intros HH Hx HF. apply OK in Hx. destruct Hx as [x0 <-]. destruct (ahistory_fwd es t HH) as (es' & L & H1 & R & F). rewrite (alook t L) in HF by exact R. destruct (r_fields c I phi t L R) as (A1 & A2 & _). unfold aslots. rewrite A1, A2.
  destruct (history_facts T C es' L H1) as (k & G & _). apply (found_iff T k L x0 i G) in HF. destruct HF as (b & s & Hb & Hs & -> & _).
  assert (s < bsz L) by (pose proof (wf_fill _ _ (i_wf _ _ _ _ (proj1 G)) b Hb); lia). nia.
Qed.
Lemma g_step es t e t' : ahistory es t -> aop t e t' -> ahistory (es ++ [e]) t'.
Proof.
  intros (capacity & bs & mult & mp & HC & HR) HO. exists capacity, bs, mult, mp. split; [exact HC|]. clear HC. induction HR as [t|t e1 t1 es t2 HO1 HR IH]; cbn; [econstructor; [exact HO|constructor]|econstructor; [exact HO1|auto]].
Qed.
Theorem g_readback es t k inputs uk t' ins uniq idx : ahistory es t -> batch_of k inputs -> adedupe_reliable hp rowof w C k inputs (repeat true k) uk ->
  (a_size t + N.of_nat k <= N.of_nat (aslots t))%N -> (N.of_nat (rounds_needed k (afull_buckets t)) <= a_maxp t)%N ->
  API XLA t inputs (FScalar true) uk (t', ins, uniq, idx) -> agetitems t' idx = Some inputs.
Proof.
  intros HH HB HD HS1 HS2 HP. assert (HM : amask_ok k (FScalar true)) by apply repeat_length.
  assert (EC : length (filter (fun b => b) (mask_list k (FScalar true))) = k) by (cbn [mask_list]; clear; induction k; cbn; congruence).
  pose proof (g_complete es t k inputs (FScalar true) uk t' ins uniq idx HH HB HM HD) as K. cbv zeta in K. rewrite EC in K. specialize (K HS1 HS2 HP).
  destruct (g_union XLA es t k inputs (FScalar true) uk t' ins uniq idx HH HB HM HP) as (_ & _ & LI & _).
  pose proof (g_step es t _ t' HH (aop_batch c ok hp rowof w C t XLA k inputs (FScalar true) uk t' ins uniq idx HB HM HP)) as HH'.
  assert (FF : forall q, q < k -> afilled k (FScalar true) q) by (intros q Hq; split; [exact Hq|]; cbn [mask_list]; rewrite (nth_indep _ false true) by (now rewrite repeat_length); apply nth_repeat).
  assert (OKq : forall q, q < k -> ok (elem [q] inputs)). { intros q Hq. destruct HB as [_ HF]. rewrite Forall_forall in HF. apply HF. rewrite <- (rows_nth k inputs q ONil Hq). apply nth_In. now rewrite rows_length. }
  destruct (g_getitems _ t' idx HH') as (r & E1 & E2 & E3).
  { intros i Hi. apply (In_nth _ _ 0) in Hi. destruct Hi as (q & Hq & <-). rewrite LI in Hq. apply (g_bound _ t' (elem [q] inputs) _ HH' (OKq q Hq)). apply K. now apply FF. }
  rewrite E1. f_equal. rewrite LI in *. apply (PropHeapArrays.rows_ext c k); [exact E2|apply HB|]. apply rows_eq; [now rewrite rows_length|]. intros q d Hq. rewrite rows_nth by exact Hq. destruct (K q (FF q Hq)) as [_ K2]. rewrite <- (E3 q Hq) in K2. congruence.
Qed.
Theorem g_equal_inputs be es t k inputs f uk t' ins uniq idx : ahistory es t -> batch_of k inputs -> amask_ok k f -> API be t inputs f uk (t', ins, uniq, idx) ->
  forall q q', afilled k f q -> afilled k f q' -> elem [q] inputs = elem [q'] inputs -> nth q idx 0 = nth q' idx 0.
Proof.
  intros HH HB HM HP q q' [Hq HQ] [Hq' HQ'] E. destruct (ahistory_fwd es t HH) as (es' & L & H1 & R & F). destruct (batch_xs k inputs HB) as (xs & EX & EL). destruct HB as [HB HFo].
  assert (HM' : mask_ok xs f) by (unfold mask_ok; rewrite EL; exact HM).
  destruct (aparallel_fwd c I T phi hp rowof V HN HS C be t L k inputs xs f uk t' ins uniq idx R HB EX HM' HP) as (L' & P1 & R').
  rewrite !(rows_nth_phi k inputs xs) in E by assumption. apply (iv_inj _ _ _ _ _ V) in E.
  apply (C27_equal_inputs T C be es' L xs f uk L' ins uniq idx H1 HM' P1); try (split; rewrite EL; assumption). exact E.
Qed.
(** the functional form of the default backend *)
Lemma xla_fun be t inputs f uk out : be = XLA -> (API be t inputs f uk out <-> aparallel_insert_xla hp rowof w (s_mode C) (s_sort C) t inputs f uk = Some out).
Proof.
  intros ->. unfold AParallelInsert, aparallel_insert, aparallel_insert_xla. destruct (vrows inputs) as [xs|]; [|split; [intros (xs & E & _); discriminate|discriminate]].
  assert (G : forall l, (exists uniq reps rs t' ta res, apar_prepare hp rowof w (s_mode C) (s_sort C) t xs l uk = Some (uniq, reps, rs) /\ xla hp (meta t) (par_rows xs uniq rs) = Some (t', res) /\ store_batch t inputs res t' = Some ta /\ out = (ta, map fst res, uniq, par_idx (meta t) rs res reps)) <->
    (bind (uniq, reps, rs) <- apar_prepare hp rowof w (s_mode C) (s_sort C) t xs l uk ;; bind (t', res) <- xla hp (meta t) (par_rows xs uniq rs) ;; bind ta <- store_batch t inputs res t' ;; Some (ta, map fst res, uniq, par_idx (meta t) rs res reps)) = Some out).
  { intros l. split.
    - intros (uniq & reps & rs & t' & ta & res & E1 & E2 & E3 & ->). rewrite E1, E2, E3. reflexivity.
    - destruct (apar_prepare hp rowof w (s_mode C) (s_sort C) t xs l uk) as [[[uniq reps] rs]|] eqn:E1; [|discriminate]. destruct (xla hp (meta t) (par_rows xs uniq rs)) as [[t' res]|] eqn:E2; [|discriminate]. destruct (store_batch t inputs res t') as [ta|] eqn:E3; [|discriminate].
      intros EE. exists uniq, reps, rs, t', ta, res. repeat (split; [assumption || reflexivity|]). congruence. }
  cbn [reserves]. destruct f as [[|]|l].
  - rewrite <- (G (mask_list (length xs) (FScalar true))). split; [intros (xs' & E & H); assert (xs' = xs) by congruence; subst; exact H|eauto].
  - split; [intros (xs' & E & H); assert (EX : xs' = xs) by congruence; rewrite EX in H; congruence|]. intros H. exists xs. split; [reflexivity|]. congruence.
  - rewrite <- (G (mask_list (length xs) (FMask l))). split; [intros (xs' & E & H); assert (xs' = xs) by congruence; subst; exact H|eauto].
Qed.
End G.
