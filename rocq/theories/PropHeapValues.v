(** * PropHeapValues.v — property C78: the priority queue given values of other dtypes. *)
From Coq Require Import String.
From Verif Require Import KeyModel SortProofs HeapModel HeapSpec HeapProofs HeapInsert HeapInv HeapDelete PropHeap.
From Verif Require Import Jax StructModel ArrayModel ArrayFacts ShapeModel PropShape RowsModel RowsLift PropRows PropRows2 PropRows3 EqModel FloatEq PropEq RowsModel2 PropRows5 PropRows6 PropRows7 CompareModel PropCompare PropSafeCast PropBlock PromoteModel FloatRound PropPromote PropRandom PropMixed PropMixed2 PropMixed3 PropTableConv2.
From Verif Require Import QueueModel MergeModel SoaModel PropSoa PropSoa2 HeapArrays HeapRows HeapSim HeapSim2 HeapSim3 PropHeapArrays HeapTypes PropHeapTypes ConvStore PropConvStore HeapValues.

(** ** Specification *)
(** the queue takes a leaf of dtype [e] for a field declared [d] when [d] is their common dtype *)
Fixpoint suitable_v (x64 : bool) (d : desc) (v : value) {struct d} : Prop :=
  match d, v with
  | Prim dt _ _ _ _, VArr a => result_type x64 [dt; adtype a] = dt
  | Nest c _, VObj o => suitable x64 c o
  | _, _ => False
  end
with suitable (x64 : bool) (c : class) (o : obj) {struct c} : Prop :=
  match c, o with
  | CNil, ONil => True
  | CCons _ d r, OCons _ v q => suitable_v x64 d v /\ suitable x64 r q
  | _, _ => False
  end.
(** legal arguments: batch_size keys, none -inf or NaN, and batch_size values of any available dtypes *)
Definition any_aop (x64 : bool) (c : class) (B : nat) (o : aop) : Prop :=
  match o with AIns k v => length k = B /\ loose [B] c v /\ Forall (fun a => available x64 (adtype a)) (arrays v) /\ (forall x, In x k -> x <> NInf) | ADel => True end.
Definition decl_aop (c : class) (o : aop) : aop := match o with AIns k v => AIns k (decl c v) | ADel => ADel end.
Definition takes (x64 : bool) (c : class) (o : aop) : Prop := match o with AIns _ v => suitable x64 c v | ADel => True end.

(** ** Facts *)
Lemma loose_class_both : (forall d s v, loose_v s d v -> exists d', variant_d d d' /\ conforms_v d' v /\ has_v s d' v) /\
  (forall c s o, loose s c o -> exists c', variant c c' /\ batched c' s o).
Proof.
  apply desc_class_ind.
  - intros dt ish bits pb fill s [a|o] H; [|destruct H]. destruct H as [HW HS]. exists (Prim (adtype a) ish bits pb fill). cbn. auto.
  - intros c IH ish s [a|o] H; [destruct H|]. destruct (IH _ o H) as (c' & V & B1 & B2). exists (Nest c' ish). cbn. auto.
  - intros s [|] H; [|destruct H]. exists CNil. repeat split.
  - intros n d IHd r IHr s [|m v q] H; [destruct H|]. destruct H as (<- & H1 & H2). destruct (IHd s v H1) as (d' & V1 & V2 & V3). destruct (IHr s q H2) as (r' & W1 & W2 & W3). exists (CCons n d' r'). cbn. repeat split; auto.
Qed.
Lemma rows_at_decl c c' n v idx : n <> 0 -> variant c c' -> batched c' [n] v ->
  exists r, o_rows_at idx v = Some r /\ batched c' [length idx] r /\ o_rows_at idx (decl c v) = Some (decl c r).
Proof.
  intros Hn HV HB. unfold o_rows_at. assert (HL : loose [n] c v) by (apply (proj2 variant_loose c c'); [exact HV|now apply batched_loose]).
  destruct (C41_index_array c' n [] v (ivec (map Z.of_nat idx)) HB Hn) as (r & E1 & E2 & E3). exists r. split; [exact E1|]. cbn [ivec ashape app] in E2. rewrite map_length in E2. split; [exact E2|].
  assert (HR : loose [length idx] c r) by (apply (proj2 variant_loose c c'); [exact HV|now apply batched_loose]).
  pose proof (proj2 decl_batched_both c [n] v HL) as HD. destruct (C41_index_array c n [] (decl c v) (ivec (map Z.of_nat idx)) HD Hn) as (r2 & F1 & F2 & F3). rewrite F1. f_equal. cbn [ivec ashape app] in F2. rewrite map_length in F2.
  apply (C41_extensional c [length idx]); [exact F2|now apply (proj2 decl_batched_both)|]. intros b Hb.
  rewrite (proj2 (decl_elem_both [length idx] b Hb) c [] r HR). cbn [ivec ashape] in E3, F3. rewrite map_length in E3, F3. specialize (E3 b [] Hb inb_nil). specialize (F3 b [] Hb inb_nil). rewrite app_nil_r in E3, F3. rewrite F3, E3.
  apply (proj2 (decl_elem_both [n] [clamp_index (get (ivec (map Z.of_nat idx)) b) n] ltac:(apply inb_cons; split; [unfold clamp_index; lia|apply inb_nil])) c [] v HL).
Qed.
(** suitability is a matter of the dtypes *)
Lemma suitable_iff x64 : (forall d d' v w, variant_d d d' -> conforms_v d' v -> conforms_v d' w -> suitable_v x64 d v -> suitable_v x64 d w) /\
  (forall c c' o q, variant c c' -> conforms c' o -> conforms c' q -> suitable x64 c o -> suitable x64 c q).
Proof.
  apply desc_class_ind.
  - intros dt ish bits pb fill [dt' ish' ? ? ?|] [a|o] [b|q] H1 H2 H3; try contradiction. cbn in *. destruct H2 as [-> _], H3 as [-> _]. auto.
  - intros c IH ish [|c' ish'] [a|o] [b|q] H1 H2 H3; try contradiction. cbn in *. destruct H1 as [_ H1]. eauto.
  - intros [|] [|] [|] H1 H2 H3; try contradiction. auto.
  - intros n d IHd r IHr [|m d' r'] [|k v o] [|l w q] H1 H2 H3; try contradiction. cbn in *. intros [K1 K2]. destruct H1 as (_ & A1 & A2), H2 as (_ & B1 & B2), H3 as (_ & C1 & C2). split; eauto.
Qed.
(** two operands, one of the declared dtypes and one suitable: bringing both to the common dtype
    converts the second to the declared one *)
Lemma promoted_decl x64 (f : list array -> option array) : (forall d s v w, conforms_v d v -> loose_v s d w -> suitable_v x64 d w -> tmap_v (promoted x64 f) v [w] = tmap_v f v [decl_v d w]) /\
  (forall c s o q, conforms c o -> loose s c q -> suitable x64 c q -> tmap (promoted x64 f) o [q] = tmap f o [decl c q]).
Proof.
  apply desc_class_ind.
  - intros dt ish bits pb fill s [a|o] [b|q] H1 H2 H3; try contradiction. cbn [suitable_v] in H3. destruct H1 as [E1 _]. cbn [decl_v tmap_v map as_arr sequence option_map]. f_equal. unfold promoted. cbn [map]. rewrite E1, H3. now rewrite (conv_same dt a E1).
  - intros c IH ish s [a|o] [b|q] H1 H2 H3; try contradiction. cbn [decl_v tmap_v map as_obj sequence option_map]. f_equal. exact (IH _ o q H1 H2 H3).
  - intros s [|] [|] H1 H2 H3; try contradiction. reflexivity.
  - intros n d IHd r IHr s [|m v o] [|m' w q] H1 H2 H3; try contradiction. cbn [conforms loose suitable] in *. destruct H1 as (<- & A1 & A2), H2 as (<- & B1 & B2), H3 as (C1 & C2). cbn [decl tmap map head_field sequence option_map]. rewrite String.eqb_refl. cbn [option_map map fst snd]. now rewrite (IHd s v w A1 B1 C1), (IHr s o q A2 B2 C2).
Qed.

Section Q.
Variables (x64 : bool) (c c' : class) (cat : bool).
Hypotheses (HN : c <> CNil) (HS : solid c) (HV : variant c c').
Lemma loosen s o : batched c' s o -> loose s c o.
Proof. intros H. apply (proj2 variant_loose c c'); [exact HV|now apply batched_loose]. Qed.
Lemma gather_decl n m av bv idx : n <> 0 -> m <> 0 -> batched c [n] av -> batched c' [m] bv -> suitable x64 c bv ->
  gather_sorted_p x64 c cat av bv idx = gather_sorted c cat av (decl c bv) idx.
Proof.
  intros Hn Hm HA HB HU. pose proof (loosen _ _ HB) as HL. pose proof (proj2 decl_batched_both c [m] bv HL) as HD. unfold gather_sorted_p, gather_sorted. destruct cat.
  - unfold obj_concat_p, obj_concat, batch_of. cbn [map sequence]. rewrite (batch_is c HN HS _ _ HA), (batch_is c HN HS _ _ HD), (loose_get c _ bv HN HS HL). cbn [option_map]. cbn [tree_mapn]. now rewrite (proj2 (promoted_decl x64 (a_concat 0)) c [m] av bv (proj1 HA) HL HU).
  - assert (HN' : c' <> CNil) by (now apply (proj2 variant_solid c c' HV)). assert (HS' : solid c') by (now apply (proj2 variant_solid c c' HV)).
    rewrite (leading_spec c HN HS n [] av HA), (leading_spec c' HN' HS' m [] bv HB), (leading_spec c HN HS m [] _ HD). apply Nat.eqb_neq in Hn as Hn'. apply Nat.eqb_neq in Hm as Hm'. rewrite Hn', Hm'.
    destruct (C41_index_array c n [] av (ivec (map Z.of_nat (map (fun i => Nat.min i (n - 1)) idx))) HA Hn) as (va & E1 & E2 & _). unfold o_rows_at at 1 3. rewrite E1.
    destruct (rows_at_decl c c' m bv (map (fun i => Nat.min (i - n) (m - 1)) idx) Hm HV HB) as (vb & F1 & F2 & F3). rewrite F1, F3. cbn [tree_mapn].
    apply (proj2 (promoted_decl x64 _) c _ va vb (proj1 E2) (loosen _ _ F2)). exact (proj2 (suitable_iff x64) c c' bv vb HV (proj1 HB) (proj1 F2) HU).
Qed.
Lemma insert_decl h H k v : sim c h H -> length k = batch_size h -> batched c' [batch_size h] v -> suitable x64 c v ->
  insert_op x64 c cat h k v = if values_accepted x64 h v then insert_o c cat h k (decl c v) else None.
Proof.
  intros HSm HK HB HU. pose proof HSm as [A1 A2 A3 A4 A5 A6 A7 A8]. unfold insert_op, insert_o, sort_o. destruct (values_accepted x64 h v); [|reflexivity].
  set (s := ssort (combine k (seq 0 (length k)))). assert (LS : length (map snd s) = batch_size h) by (unfold s; rewrite map_length, ssort_length, combine_length, seq_length; lia).
  destruct (rows_at_decl c c' (batch_size h) v (map snd s) ltac:(lia) HV HB) as (v0 & E1 & E2 & E3). rewrite E1, E3. rewrite LS in E2.
  destruct (repr2_row c _ _ _ _ _ 0 A7 ltac:(lia)) as [r [R1 R2]]. rewrite R1. destruct R2 as (_ & R2 & _).
  assert (EM : msplit_p x64 c cat (krow (key_store h) 0) r (map fst s) v0 = msplit_o c cat (krow (key_store h) 0) r (map fst s) (decl c v0)).
  { unfold msplit_p, msplit_o. rewrite (gather_decl (batch_size h) (batch_size h) r v0 _ ltac:(lia) ltac:(lia) R2 E2); [reflexivity|]. exact (proj2 (suitable_iff x64) c c' v v0 HV (proj1 HB) (proj1 E2) HU). }
  now rewrite EM.
Qed.
End Q.

Lemma accepted_both x64 : (forall d vs vb v s, dtypes_d (available x64) d -> conforms_v d vs -> conforms_v d vb -> loose_v s d v -> Forall (fun a => available x64 (adtype a)) (arrays_v v) ->
    length (arrays_v vs) = length (arrays_v v) /\ length (arrays_v vb) = length (arrays_v v) /\
    (forallb (fun p => leaf_accepted x64 (adtype (fst (fst p))) (adtype (snd (fst p))) (adtype (snd p))) (combine (combine (arrays_v vs) (arrays_v vb)) (arrays_v v)) = true <-> suitable_v x64 d v)) /\
  (forall c vs vb v s, dtypes (available x64) c -> conforms c vs -> conforms c vb -> loose s c v -> Forall (fun a => available x64 (adtype a)) (arrays v) ->
    length (arrays vs) = length (arrays v) /\ length (arrays vb) = length (arrays v) /\
    (forallb (fun p => leaf_accepted x64 (adtype (fst (fst p))) (adtype (snd (fst p))) (adtype (snd p))) (combine (combine (arrays vs) (arrays vb)) (arrays v)) = true <-> suitable x64 c v)).
Proof.
  apply desc_class_ind.
  - intros dt ish bits pb fill [a|o] [b|q] [e|r] s HD H1 H2 H3 H4; try contradiction. destruct H1 as [E1 _], H2 as [E2 _]. cbn [arrays_v] in *. split; [reflexivity|]. split; [reflexivity|]. cbn [combine forallb fst snd suitable_v dtypes_d] in *. rewrite E1, E2, andb_true_r. unfold leaf_accepted. rewrite (proj1 (C74_types x64 dt (adtype e) HD (Forall_inv H4))).
    unfold dtype_eqb. destruct (dtype_eq_dec (result_type x64 [dt; adtype e]) dt); split; intros; try discriminate; auto; contradiction.
  - intros c IH ish [a|o] [b|q] [e|r] s HD H1 H2 H3 H4; try contradiction. exact (IH o q r _ HD H1 H2 H3 H4).
  - intros [|] [|] [|] s HD H1 H2 H3 H4; try contradiction. cbn. tauto.
  - intros n d IHd r IHr [|m1 v1 o1] [|m2 v2 o2] [|m3 v3 o3] s HD H1 H2 H3 H4; try contradiction. cbn [conforms loose dtypes arrays suitable] in *. destruct H1 as (_ & A1 & A2), H2 as (_ & B1 & B2), H3 as (_ & C1 & C2). apply Forall_app in H4. destruct H4 as [D1 D2].
    destruct (IHd v1 v2 v3 s (proj1 HD) A1 B1 C1 D1) as (L1 & L2 & K1). destruct (IHr o1 o2 o3 s (proj2 HD) A2 B2 C2 D2) as (L3 & L4 & K2). split; [rewrite !app_length; congruence|]. split; [rewrite !app_length; congruence|].
    assert (CA : forall X Y (a b : list X) (x y : list Y), length a = length x -> combine (a ++ b) (x ++ y) = combine a x ++ combine b y).
    { intros X Y a. induction a as [|z a IH]; intros b [|u x] y E; cbn in *; try discriminate; [reflexivity|]. f_equal. apply IH. lia. }
    rewrite CA by congruence. rewrite CA by (rewrite combine_length; lia). rewrite forallb_app, andb_true_iff. now rewrite K1, K2.
Qed.
(** one insertion: accepted exactly when every field's declared dtype is the common dtype of it and
    the dtype given, and then it is the insertion of the converted values *)
Section Run.
Variables (x64 : bool) (c : class) (cat : bool).
Hypotheses (HN : c <> CNil) (HS : solid c) (AV : dtypes (available x64) c).
Lemma insert_cases h H k v : sim c h H -> length k = batch_size h -> loose [batch_size h] c v -> Forall (fun a => available x64 (adtype a)) (arrays v) ->
  (suitable x64 c v -> insert_op x64 c cat h k v = insert_o c cat h k (decl c v)) /\ (~ suitable x64 c v -> insert_op x64 c cat h k v = None).
Proof.
  intros HSm HK HL HA. destruct (proj2 loose_class_both c _ v HL) as (c' & HV & HB). pose proof HSm as [A1 A2 A3 A4 A5 A6 A7 A8]. destruct A7 as (_ & _ & S1 & _), A8 as (_ & S2 & _).
  destruct (proj2 (accepted_both x64) c (val_store h) (val_buffer h) v _ AV (proj1 S1) (proj1 S2) HL HA) as (_ & _ & K). fold (values_accepted x64 h v) in K. split; intros HU.
  - rewrite (insert_decl x64 c c' cat HN HS HV h H k v HSm HK HB HU). apply K in HU. now rewrite HU.
  - unfold insert_op. destruct (values_accepted x64 h v); [|reflexivity]. exfalso. apply HU. now apply K.
Qed.
Lemma run_cases ops : forall h H, sim c h H -> Inv H -> Forall (any_aop x64 c (HeapModel.batch H)) ops ->
  (Forall (takes x64 c) ops -> run_op x64 c cat h ops = run_o c cat h (map (decl_aop c) ops)) /\ (~ Forall (takes x64 c) ops -> run_op x64 c cat h ops = None).
Proof.
  induction ops as [|o ops IH]; intros h H HSm HI HF; [split; [reflexivity|intros K; exfalso; apply K; constructor]|].
  pose proof (Forall_inv HF) as Ho. pose proof (Forall_inv_tail HF) as HF'. pose proof (sim_batch _ _ _ HSm) as EB. destruct o as [k v|]; cbn [run_op map decl_aop run_o].
  - destruct Ho as (O1 & O2 & O3 & O4). rewrite <- EB in O1, O2. destruct (insert_cases h H k v HSm O1 O2 O3) as [K1 K2].
    assert (DEC : suitable x64 c v \/ ~ suitable x64 c v).
    { pose proof HSm as [_ _ _ _ _ _ (_ & _ & S1 & _) (_ & S2 & _)]. destruct (proj2 (accepted_both x64) c (val_store h) (val_buffer h) v _ AV (proj1 S1) (proj1 S2) O2 O3) as (_ & _ & K). destruct (forallb _ _); [left; now apply K|right; intros Q; apply K in Q; discriminate]. }
    pose proof (proj2 decl_batched_both c _ v O2) as HD. set (B := HeapModel.batch H) in *. rewrite EB in O1, HD.
    assert (RP : repr c (batch_size h) k (decl c v) (pairs B k (decl c v))) by (rewrite EB; split; [exact O1|]; split; [exact HD|reflexivity]).
    destruct (insert_sim c cat HN HS h H k (decl c v) _ HSm RP) as [h1 [E1 E2]].
    assert (LL : length (pairs B k (decl c v)) = B) by (unfold pairs; rewrite combine_length, rows_length; lia).
    assert (NI : forall x, In x (pairs B k (decl c v)) -> fst x <> NInf) by (intros [a b] Hx; apply in_combine_l in Hx; now apply O4).
    destruct (insert_ok H (pairs B k (decl c v)) HI LL NI) as (I1 & I2 & _). fold B in I2. rewrite <- I2 in HF'. destruct (IH h1 _ E2 I1 HF') as [R1 R2]. split.
    + intros HT. rewrite (K1 (Forall_inv HT)), E1. now rewrite (R1 (Forall_inv_tail HT)).
    + intros HT. destruct DEC as [D|D]; [|now rewrite (K2 D)]. rewrite (K1 D), E1. rewrite R2; [reflexivity|]. intros Q. apply HT. constructor; assumption.
  - destruct (delete_ok H HI) as (H1 & out & D0 & I1 & I2 & _). assert (Hl : hsize H < HeapModel.branch H) by (destruct (inv_wf H HI) as [_ _ _ W _ _]; apply W).
    destruct (delete_mins_sim c cat HN HS h H H1 out HSm Hl D0) as (h1 & mk & mv & E1 & E2 & _). rewrite E1. rewrite <- I2 in HF'. destruct (IH h1 _ E2 I1 HF') as [R1 R2]. split.
    + intros HT. now rewrite (R1 (Forall_inv_tail HT)).
    + intros HT. rewrite R2; [reflexivity|]. intros Q. apply HT. constructor; [exact Coq.Init.Logic.I|assumption].
Qed.
End Run.

(** ** Histories *)
(** every history whose values suit the queue succeeds and is the history of a priority queue of
    (key, converted instance) pairs, and what it returns has the declared dtypes *)
Theorem C78_converted_values : forall x64 c concat total B ops, c <> CNil -> solid c -> dtypes (available x64) c -> params_ok total B ->
  Forall (any_aop x64 c B) ops -> Forall (takes x64 c) ops ->
  exists h obs, run_op x64 c concat (build_o c total B) ops = Some (h, obs) /\
    pq_trace B (((total + B - 1) / B) * B) [] (map (op_of B) (map (decl_aop c) ops)) (map (seen B) obs) (contents (held h)) /\
    Forall (fun p => match fst p with Some (k, v) => length k = B /\ batched c [B] v | None => True end) obs.
Proof.
  intros x64 c cat total B ops HN HS AV HP HF HT. pose proof HP as (HB & Ht & Hs). destruct (build_fits (default_obj [] c) total B HP) as [_ Hsm]. destruct (build_ok (default_obj [] c) total B HB Ht Hsm) as (HI & _ & E1 & _).
  assert (HF' : Forall (aop_ok c B) (map (decl_aop c) ops)).
  { apply Forall_map. revert HF. apply Forall_impl. intros [k v|] H; [|exact Coq.Init.Logic.I]. destruct H as (O1 & O2 & _ & O4). split; [exact O1|]. split; [now apply (proj2 decl_batched_both)|exact O4]. }
  destruct (run_cases x64 c cat HN HS AV ops (build_o c total B) _ (build_sim c total B HB Ht) HI) as [K _]; [rewrite E1; exact HF|]. rewrite (K HT). now apply C46_instances_follow_their_keys.
Qed.
(** one block with a field whose dtype does not suit makes the history raise *)
Theorem C78_raises : forall x64 c concat total B ops, c <> CNil -> solid c -> dtypes (available x64) c -> params_ok total B ->
  Forall (any_aop x64 c B) ops -> ~ Forall (takes x64 c) ops -> run_op x64 c concat (build_o c total B) ops = None.
Proof.
  intros x64 c cat total B ops HN HS AV HP HF HT. pose proof HP as (HB & Ht & Hs). destruct (build_fits (default_obj [] c) total B HP) as [_ Hsm]. destruct (build_ok (default_obj [] c) total B HB Ht Hsm) as (HI & _ & E1 & _).
  destruct (run_cases x64 c cat HN HS AV ops (build_o c total B) _ (build_sim c total B HB Ht) HI) as [_ K]; [rewrite E1; exact HF|]. exact (K HT).
Qed.
(** values of the declared dtypes always suit *)
Lemma common_self x64 d : available x64 d -> result_type x64 [d; d] = d.
Proof.
  intros [Sd Ad]. destruct d as [|a|a|a]; cbn [standard] in Sd; [|destruct Sd as [-> |[-> |[-> | ->]]]..|destruct Sd as [-> |[-> | ->]]]; destruct x64; try (exfalso; specialize (Ad eq_refl); intuition congruence); reflexivity.
Qed.
Theorem C78_native_suits : forall x64 c s v, dtypes (available x64) c -> batched c s v -> suitable x64 c v.
Proof.
  intros x64 c s v HD [H _]. revert c v HD H.
  assert (K : (forall d v, dtypes_d (available x64) d -> conforms_v d v -> suitable_v x64 d v) /\ (forall c v, dtypes (available x64) c -> conforms c v -> suitable x64 c v)); [|exact (proj2 K)].
  apply desc_class_ind.
  - intros dt ish bits pb fill [a|o] HD H; [|destruct H]. destruct H as [E _]. cbn in *. rewrite E. now apply common_self.
  - intros c IH ish [a|o] HD H; [destruct H|]. exact (IH o HD H).
  - intros [|] HD H; [exact Coq.Init.Logic.I|destruct H].
  - intros n d IHd r IHr [|m v q] HD H; [destruct H|]. destruct H as (_ & H1 & H2), HD as [D1 D2]. split; auto.
Qed.

(** ** make_batched *)
Lemma conv_like_decl : (forall d s v w, conforms_v d v -> loose_v s d w -> tmap_v conv_like v [w] = Some (decl_v d w)) /\ (forall c s o q, conforms c o -> loose s c q -> tmap conv_like o [q] = Some (decl c q)).
Proof.
  apply desc_class_ind.
  - intros dt ish bits pb fill s [a|o] [b|q] H1 H2; try contradiction. destruct H1 as [<- _]. reflexivity.
  - intros c IH ish s [a|o] [b|q] H1 H2; try contradiction. cbn [tmap_v map as_obj sequence option_map decl_v]. now rewrite (IH _ o q H1 H2).
  - intros s [|] [|] H1 H2; try contradiction. reflexivity.
  - intros n d IHd r IHr s [|m v o] [|m' w q] H1 H2; try contradiction. cbn [conforms loose] in *. destruct H1 as (<- & A1 & A2), H2 as (<- & B1 & B2). cbn [tmap map head_field sequence option_map]. rewrite String.eqb_refl. cbn [option_map map fst snd decl]. now rewrite (IHd s v w A1 B1), (IHr s o q A2 B2).
Qed.
(** a short block is converted to the declared dtypes whatever they were, so it suits the queue;
    a full one is returned with its own dtypes *)
Theorem C78_make_batched : forall x64 c B n k v, c <> CNil -> solid c -> dtypes (available x64) c -> length k = n -> loose [n] c v ->
  (n < B -> exists k' v', make_batched_p c k v B = Some (k', v') /\ length k' = B /\ batched c [B] v' /\ suitable x64 c v' /\
     pairs B k' v' = pairs n k (decl c v) ++ repeat (PInf, default_obj [] c) (B - n)) /\
  (n = B -> make_batched_p c k v B = Some (k, v)).
Proof.
  intros x64 c B n k v HN HS AV HK HL. pose proof (proj2 decl_batched_both c _ v HL) as HD. split.
  - intros Hn. destruct (C46_make_batched c B n k (decl c v) HN HS HK HD ltac:(lia)) as (k' & v' & E1 & E2 & E3 & E4). exists k', v'.
    assert (EP : make_batched_p c k v B = make_batched_o c k (decl c v) B); [|rewrite EP; repeat split; auto; [apply E3|apply E3|now apply (C78_native_suits x64 c [B])]].
    unfold make_batched_p, make_batched_o. rewrite HK. unfold obj_pad_p, obj_pad. rewrite (loose_get c _ v HN HS HL), (batch_is c HN HS _ _ HD). cbn [length Nat.eqb forallb fst snd]. destruct (Nat.eqb_spec (B - n) 0); [lia|]. rewrite andb_false_r. cbn [andb]. unfold obj_set_p. cbn [tree_mapn]. rewrite (proj2 conv_like_decl c [n] _ v (proj1 (proj2 default_both c _)) HL). reflexivity.
  - intros <-. unfold make_batched_p. rewrite HK, Nat.sub_diag. unfold obj_pad_p. rewrite (loose_get c _ v HN HS HL). cbn [length Nat.eqb forallb fst snd andb]. now rewrite app_nil_r.
Qed.

(** ** False claims *)
(** "the dtypes of the values decide whether the queue takes them": int32 values for uint8 fields
    are refused in a full block and taken, modulo 256, in a block that make_batched pads *)
Definition two_ops (k : list key) (v : obj) : option (list (option (list key * obj))) :=
  match make_batched_p cell k v 4 with
  | Some (k', v') => option_map (fun r => map fst (snd r)) (run_op false cell false (build_o cell 16 4) [AIns k' v'; ADel])
  | None => None
  end.
Theorem C78_dtype_decides_refuted :
  two_ops [Fin 1; Fin 2; Fin 3; Fin 4] (wide_cells [4] [300; 301; 302; 303]%Z) = None /\
  two_ops [Fin 1; Fin 2; Fin 3] (wide_cells [3] [300; 301; 302]%Z) =
    Some [None; Some ([Fin 1; Fin 2; Fin 3; PInf], OCons "id" (VArr (arr8 [4] [44; 45; 46; 0]%Z)) (OCons "pos" (VArr (arr8 [4; 2] [44; 45; 45; 46; 46; 47; 0; 0]%Z)) ONil))]%string.
Proof. split; vm_compute; reflexivity. Qed.
(** "values the queue takes come back as they were": 70000 for a float16 field comes back as inf *)
Definition half : class := (CCons "x" (Prim (DFloat 16) [] None false 0%Z) CNil)%string.
Definition half_of (dt : dtype) (l : list Z) : obj := (OCons "x" (VArr (MkArr dt [length l] l)) ONil)%string.
Theorem C78_taken_is_kept_refuted :
  let ops := [AIns [Fin 5; Fin 3] (half_of (DInt 32) [70000; 2]%Z); ADel] in
  Forall (any_aop false half 2) ops /\ Forall (takes false half) ops /\
  option_map (fun r => map fst (snd r)) (run_op false half false (build_o half 8 2) ops) = Some [None; Some ([Fin 3; Fin 5], half_of (DFloat 16) [16384; inf_pat 16]%Z)].
Proof.
  cbn zeta. split; [|split; [|vm_compute; reflexivity]].
  - constructor; [|constructor; [exact Coq.Init.Logic.I|constructor]]. split; [reflexivity|]. split; [repeat split|]. split; [|intros x [<- |[<- |[]]]; discriminate].
    constructor; [|constructor]. split; [cbn; tauto|]. intros _. repeat split; discriminate.
  - constructor; [split; [vm_compute; reflexivity|exact Coq.Init.Logic.I]|]. constructor; [exact Coq.Init.Logic.I|constructor].
Qed.
(** examples *)
Definition tiny_cells (s : list nat) (ids : list Z) : obj :=
  (OCons "id" (VArr (MkArr DBool s ids)) (OCons "pos" (VArr (MkArr (DUInt 8) (s ++ [2]) (flat_map (fun z => [z; z + 5]%Z) ids))) ONil))%string.
Example C78_example :
  let ops := [AIns [Fin 5; Fin 3] (tiny_cells [2] [1; 0]%Z); AIns [Fin 4; PInf] (cells [2] [9; 0]%Z); ADel] in
  dtypes (available false) cell /\ params_ok 8 2 /\ Forall (any_aop false cell 2) ops /\ Forall (takes false cell) ops /\
  option_map (fun r => map fst (snd r)) (run_op false cell false (build_o cell 8 2) ops) =
    Some [None; None; Some ([Fin 3; Fin 4], OCons "id" (VArr (arr8 [2] [0; 9]%Z)) (OCons "pos" (VArr (arr8 [2; 2] [0; 5; 109; 110]%Z)) ONil))]%string.
Proof.
  assert (A8 : available false (DUInt 8)) by (split; [cbn; tauto|intros _; repeat split; discriminate]).
  assert (AB : available false DBool) by (split; [exact Coq.Init.Logic.I|intros _; repeat split; discriminate]).
  cbn zeta. split; [cbn; tauto|]. split; [unfold params_ok; cbn; lia|]. split; [|split; [|vm_compute; reflexivity]].
  - constructor; [|constructor; [|constructor; [exact Coq.Init.Logic.I|constructor]]].
    + split; [reflexivity|]. split; [repeat split|]. split; [|intros x [<- |[<- |[]]]; discriminate]. cbn [arrays arrays_v tiny_cells app]. constructor; [exact AB|]. constructor; [exact A8|constructor].
    + split; [reflexivity|]. split; [repeat split|]. split; [|intros x [<- |[<- |[]]]; discriminate]. cbn [arrays arrays_v cells app]. constructor; [exact A8|]. constructor; [exact A8|constructor].
  - constructor; [vm_compute; tauto|]. constructor; [vm_compute; tauto|]. constructor; [exact Coq.Init.Logic.I|constructor].
Qed.
Print Assumptions C78_converted_values. Print Assumptions C78_raises. Print Assumptions C78_native_suits. Print Assumptions C78_make_batched. Print Assumptions C78_dtype_decides_refuted. Print Assumptions C78_taken_is_kept_refuted.
