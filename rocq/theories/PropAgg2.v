(** * PropAgg2.v — property C43: aggregate bit-packing of whole batches (theorems). *)
From Coq Require Import String.
From Verif Require Import Jax HashModel HashProofs BitpackModel BitpackSpec BitpackProofs BitpackAgg StructModel ArrayModel ArrayFacts ShapeModel PropShape RowsModel RowsLift PropRows AggModel AggKernel AggFacts PropAgg.

(** the number of 32-bit words the kernels produce per element *)
Definition word_count (fs : fields) : nat := (class_bits fs + 31) / 32.
Lemma word_count_eq fs : word_count fs = fst (fst (word_tail_layout (class_bits fs))).
Proof. unfold word_count. now rewrite (proj2 (layout_words (class_bits fs))). Qed.

Lemma declared_low_both :
  (forall d f v, agg_d d = Some f -> conforms_v d v -> declared_v d (map_bits_v (fun _ b => view_dtype b) (fun _ z => z) d v) = map_bits_v (fun dt _ => dt) cast d v) /\
  (forall c fs o, agg_c c = Some fs -> conforms c o -> declared c (low_bits c o) = low_bits_declared c o).
Proof.
  apply desc_class_ind.
  - intros dt ish [b|] pb fill f [a|o] E HC; try contradiction; try discriminate. cbn. now rewrite map_map.
  - intros c IH [|] f [a|o] E HC; try contradiction; cbn [agg_d] in E; try discriminate. destruct (agg_c c) as [fs|] eqn:EC; [|discriminate]. cbn [declared_v map_bits_v]. f_equal. now apply (IH fs).
  - intros fs [|] E HC; [reflexivity|contradiction].
  - intros n d IHd r IHr fs [|m v q] E HC; [contradiction|]. cbn [agg_c] in E. destruct (agg_d d) as [f|] eqn:ED; [|discriminate]. destruct (agg_c r) as [fr|] eqn:ER; [|discriminate]. cbn [conforms] in HC. destruct HC as (_ & C1 & C2).
    unfold low_bits, low_bits_declared in *. cbn [map_bits declared]. f_equal; [now apply (IHd f)|now apply (IHr fr)].
Qed.

(** ** Theorems *)
(** [x.packed] of a batch is a batch of the Packed class (uint32 words and uint8 tail) with
    the batch shape of [x]; [.unpacked] has, at every place, the low bits of the original
    element in the default dtype, and [.as_original()] the same in the declared dtype *)
Theorem C43_pack : forall c fs B o be, packable c fs -> batched c B o -> backend_ok be (prod B) (word_count fs) ->
  exists p, pack_obj be c o = Some p /\ batched (packed_class (class_bits fs)) B p /\
            unpack_obj c p = Some (low_bits c o) /\ as_original c p = Some (low_bits_declared c o).
Proof.
  intros c fs B o be HP HO HB. rewrite word_count_eq in HB. exists (packed_obj fs B o). split; [now apply pack_obj_eq|]. split; [now apply (packed_batched c)|].
  pose proof (unpack_obj_eq c fs B o HP HO) as K. split; [exact K|]. unfold as_original. rewrite K. cbn [option_map]. f_equal. apply (proj2 declared_low_both c fs o); [apply HP|apply HO].
Qed.
(** the two backends agree: the XLA code and the Pallas kernel, for every tile size, order of
    the grid steps and uninitialized output *)
Theorem C43_backends : forall c fs B o be be', packable c fs -> batched c B o ->
  backend_ok be (prod B) (word_count fs) -> backend_ok be' (prod B) (word_count fs) -> pack_obj be c o = pack_obj be' c o.
Proof.
  intros c fs B o be be' HP HO H1 H2. rewrite word_count_eq in H1, H2. now rewrite (pack_obj_eq c fs B o HP HO be H1), (pack_obj_eq c fs B o HP HO be' H2).
Qed.
(** packing is element-wise: the element of the packed batch at an index is the packed element *)
Lemma flat_slice {A} (g : nat -> list A) k n r : (forall j, j < n -> length (g j) = k) -> r < n -> firstn k (skipn (r * k) (flat_map g (seq 0 n))) = g r.
Proof.
  intros HG Hr. rewrite <- (nth_chunks k n) by exact Hr. rewrite chunks_flat_map_in by (intros j Hj; apply HG; lia). rewrite (nth_indep _ [] (g 0)) by (now rewrite map_length, seq_length). rewrite map_nth, seq_nth by exact Hr. reflexivity.
Qed.
Lemma inb_shape_nil : unravel [] 0 = [].
Proof. reflexivity. Qed.
Theorem C43_elements : forall c fs B o be be' p b, packable c fs -> batched c B o -> backend_ok be (prod B) (word_count fs) -> backend_ok be' 1 (word_count fs) ->
  pack_obj be c o = Some p -> inb b B -> pack_obj be' c (elem b o) = Some (elem b p).
Proof.
  intros c fs B o be be' p b HP HO H1 H2 HPk Hb. rewrite word_count_eq in H1, H2. rewrite (pack_obj_eq c fs B o HP HO be H1) in HPk. assert (p = packed_obj fs B o) as -> by congruence. clear HPk.
  destruct (C41_elem c B o b HO Hb) as (e & _ & HE & ->). rewrite (pack_obj_eq c fs [] (elem b o) HP HE be' H2). f_equal.
  pose proof (fun r Hr => proj1 (packed_row_len c fs B o HP HO r Hr)) as L1. pose proof (fun r Hr => proj2 (packed_row_len c fs B o HP HO r Hr)) as L2.
  pose proof (ravel_lt _ _ Hb) as HR.
  assert (ER : packed_row fs [] (elem b o) 0 = packed_row fs B o (ravel B b)).
  { unfold packed_row, row_inst. rewrite inb_shape_nil, (proj2 elem_nil_both (elem b o) c) by apply HE. now rewrite unravel_ravel by exact Hb. }
  assert (EL : forall dt k (g : nat -> list N), (forall j, j < prod B -> length (g j) = k) -> MkArr dt ([] ++ [k]) (map Z.of_N (g (ravel B b))) = sub b (MkArr dt (B ++ [k]) (map Z.of_N (flat_map g (seq 0 (prod B)))))).
  { intros dt k g HG. assert (W : wfa (MkArr dt (B ++ [k]) (map Z.of_N (flat_map g (seq 0 (prod B)))))).
    { unfold wfa. cbn. rewrite map_length, (flat_map_len _ k) by exact HG. rewrite prod_app. cbn. lia. }
    pose proof (sub_data b _ B [k] W eq_refl Hb) as ED. cbn [adata prod fold_right] in ED. rewrite Nat.mul_1_r, skipn_map, firstn_map, flat_slice in ED by assumption.
    destruct (sub b (MkArr dt (B ++ [k]) (map Z.of_N (flat_map g (seq 0 (prod B)))))) as [dt' s' d'] eqn:ES. cbn in ED. subst d'. unfold sub in ES. cbn [adtype ashape] in ES. rewrite (inb_length _ _ Hb), skipn_app, skipn_all, Nat.sub_diag in ES. cbn [skipn app] in ES. unfold build in ES. assert (dt = dt' /\ [k] = s') as [-> ->] by (split; congruence). reflexivity. }
  unfold packed_obj. cbn [elem elem_v]. cbn [prod fold_right seq flat_map]. rewrite !app_nil_r, ER. rewrite <- (EL _ _ (fun r => fst (packed_row fs B o r))) by exact L1. rewrite <- (EL _ _ (fun r => snd (packed_row fs B o r))) by exact L2. reflexivity.
Qed.
(** nothing is lost when every element fits in its declared bits: [.packed] then
    [.as_original()] gives the instance back, bit for bit *)
Lemma cast_in dt z : in_dtype dt z -> match dt with DFloat _ => False | DInt w | DUInt w => 1 <= w | DBool => True end -> cast dt z = z.
Proof.
  destruct dt as [|w|w|w]; cbn; intros H HW; try contradiction.
  - now destruct H as [-> | ->].
  - now apply Z.mod_small.
  - unfold wrap. assert (E2 : (2 ^ Z.of_nat w = 2 * 2 ^ (Z.of_nat w - 1))%Z) by (rewrite <- Z.pow_succ_r by lia; f_equal; lia). set (h := (2 ^ (Z.of_nat w - 1))%Z) in *. rewrite E2.
    destruct (Z.lt_ge_cases z 0) as [L|L].
    + assert (Hm : (z mod (2 * h) = z + 2 * h)%Z) by (symmetry; apply (Z.mod_unique _ _ (-1)); lia). rewrite Hm. destruct (Z.ltb_spec (z + 2 * h) h); lia.
    + rewrite Z.mod_small by lia. destruct (Z.ltb_spec z h); lia.
Qed.
Lemma in_bits_both : (forall d v, conforms_v d v -> in_bits_v d v -> map_bits_v (fun dt _ => dt) cast d v = v) /\ (forall c o, conforms c o -> in_bits c o -> low_bits_declared c o = o).
Proof.
  apply desc_class_ind.
  - intros dt ish [b|] pb fill [a|o] HC HI; try contradiction. cbn in *. destruct HI as [HW HI]. f_equal. destruct a as [dt' s data]. cbn in *. destruct HC as [-> _]. f_equal.
    transitivity (map (fun z => z) data); [|apply map_id]. apply map_ext_in. intros z Hz. rewrite Forall_forall in HI. destruct (HI z Hz) as [H1 H2]. rewrite Z.mod_small by exact H2. now apply cast_in.
  - intros c IH s [a|o] HC HI; try contradiction. cbn in *. f_equal. now apply IH.
  - intros [|] HC HI; [reflexivity|contradiction].
  - intros n d IHd r IHr [|m v q] HC HI; [contradiction|]. cbn [conforms in_bits] in *. destruct HC as (_ & C1 & C2), HI as [I1 I2]. unfold low_bits_declared in *. cbn [map_bits]. f_equal; [now apply IHd|now apply IHr].
Qed.
Theorem C43_exact : forall c fs B o be p, packable c fs -> batched c B o -> backend_ok be (prod B) (word_count fs) -> in_bits c o ->
  pack_obj be c o = Some p -> as_original c p = Some o.
Proof.
  intros c fs B o be p HP HO HB HI HPk. destruct (C43_pack c fs B o be HP HO HB) as (p' & E & _ & _ & EA). assert (p' = p) as -> by congruence. rewrite EA. f_equal. apply in_bits_both; [apply HO|exact HI].
Qed.
(** ** The decorator's policy *)
(** every leaf declares bits, nested fields are scalar *)
Inductive bits_everywhere_d : desc -> Prop :=
| be_leaf dt ish b pk fill : bits_everywhere_d (Prim dt ish (Some b) pk fill)
| be_nest c : bits_everywhere c -> bits_everywhere_d (Nest c [])
with bits_everywhere : class -> Prop :=
| be_nil : bits_everywhere CNil
| be_cons n d r : bits_everywhere_d d -> bits_everywhere r -> bits_everywhere (CCons n d r).
Lemma bits_both :
  (forall d, (bits_everywhere_d d <-> all_bits_d d = true) /\ (bits_everywhere_d d <-> agg_d d <> None)) /\
  (forall c, (bits_everywhere c <-> all_bits c = true) /\ (bits_everywhere c <-> agg_c c <> None)).
Proof.
  apply desc_class_ind.
  - intros dt ish [b|] pk fill; cbn; split; split; intros H; try constructor; try discriminate; try congruence; inversion H.
  - intros c [IH1 IH2] [|k s]; cbn.
    + split; split; intros H.
      * inversion H; subst. now apply IH1.
      * constructor. now apply IH1.
      * inversion H; subst. destruct (agg_c c) eqn:E; [discriminate|]. now apply IH2 in H1.
      * constructor. apply IH2. destruct (agg_c c); [discriminate|]. now cbn in H.
    + split; split; intros H; try discriminate; try congruence; inversion H.
  - cbn. split; split; intros H; try constructor; try discriminate.
  - intros n d [D1 D2] r [R1 R2]. cbn. split; split; intros H.
    + inversion H; subst. apply andb_true_intro. tauto.
    + apply andb_prop in H. constructor; tauto.
    + inversion H; subst. apply D2 in H2. apply R2 in H4. destruct (agg_d d), (agg_c r); congruence.
    + destruct (agg_d d) eqn:E1; [|congruence]. destruct (agg_c r) eqn:E2; [|congruence]. constructor; [apply D2; congruence|apply R2; congruence].
Qed.
(** the default (auto) never fails and gives [.packed] exactly to the non-empty classes whose
    leaves all declare bits; asking for aggregate packing fails on the other classes; "field"
    and "off" never give [.packed] and cannot be combined with aggregate_bitpack=True *)
Theorem C43_policy : forall c,
  (exists agg, decorate false BAuto c = Some (agg, true) /\ (agg = true <-> c <> CNil /\ bits_everywhere c)) /\
  (bits_everywhere c -> decorate false BAggregate c = Some (true, true)) /\ (~ bits_everywhere c -> decorate false BAggregate c = None) /\
  decorate true BAuto c = decorate false BAggregate c /\ decorate true BAggregate c = decorate false BAggregate c /\
  decorate false BField c = Some (false, true) /\ decorate false BOff c = Some (false, false) /\
  decorate true BField c = None /\ decorate true BOff c = None.
Proof.
  intros c. destruct (proj2 bits_both c) as [H1 H2]. unfold decorate. repeat match goal with |- _ /\ _ => split end; try reflexivity.
  - destruct c as [|n d r]; [exists false; split; [reflexivity|]; split; [discriminate|intros []; congruence]|].
    destruct (all_bits (CCons n d r)) eqn:E.
    + pose proof (proj2 H1 eq_refl) as E'. pose proof (proj1 H2 E') as E2. destruct (agg_c (CCons n d r)); [|congruence]. exists true. split; [reflexivity|]. split; [split; [discriminate|assumption]|reflexivity].
    + exists false. split; [reflexivity|]. split; [discriminate|]. intros [_ K]. apply H1 in K. discriminate.
  - intros K. apply H2 in K. destruct (agg_c c); congruence.
  - intros K. destruct (agg_c c) eqn:E; [|reflexivity]. exfalso. apply K, H2. congruence.
Qed.

(** ** A case: a flag, three 12-bit codes and a nested 5-bit count, batch shape (2) *)
Definition demo_inner : class := CCons "count" (Prim (DUInt 8) [] (Some 5) false 31) CNil.
Definition demo_agg : class := CCons "flag" (Prim DBool [] (Some 1) false 0) (CCons "codes" (Prim (DUInt 16) [3] (Some 12) false 0) (CCons "in" (Nest demo_inner []) CNil)).
Definition demo_fields : fields := FCons "flag" (Leaf 1 1) (FCons "codes" (Leaf 12 3) (FCons "in" (Nested (FCons "count" (Leaf 5 1) FNil)) FNil)).
Definition demo_batch : obj :=
  OCons "flag" (VArr (MkArr DBool [2] [1; 0]%Z)) (OCons "codes" (VArr (MkArr (DUInt 16) [2; 3] [4095; 0; 17; 1; 2; 3000]%Z))
  (OCons "in" (VObj (OCons "count" (VArr (MkArr (DUInt 8) [2] [31; 7]%Z)) ONil)) ONil)).
Example C43_case : packable demo_agg demo_fields /\ batched demo_agg [2] demo_batch /\ in_bits demo_agg demo_batch /\
  backend_ok (PackPallas 1 (rev (grid_steps 2 2 1)) [[7; 7]; [9; 9]]%N) 2 (word_count demo_fields) /\
  (exists p, pack_obj PackXla demo_agg demo_batch = Some p /\ as_original demo_agg p = Some demo_batch /\ pack_obj (PackPallas 1 (rev (grid_steps 2 2 1)) [[7; 7]; [9; 9]]%N) demo_agg demo_batch = Some p).
Proof.
  assert (HP : packable demo_agg demo_fields).
  { split; [reflexivity|]. split; [cbn; repeat split; try lia; intuition discriminate|]. split; [vm_compute; reflexivity|]. split; [discriminate|]. split; cbn; repeat split; discriminate. }
  assert (HO : batched demo_agg [2] demo_batch) by (split; cbn; repeat split).
  assert (HI : in_bits demo_agg demo_batch) by (cbn; repeat split; try lia; repeat constructor; cbn; lia).
  assert (HB : backend_ok (PackPallas 1 (rev (grid_steps 2 2 1)) [[7; 7]; [9; 9]]%N) 2 (word_count demo_fields)).
  { split; [lia|]. split; [apply Permutation_sym, Permutation_rev|]. split; [reflexivity|]. repeat constructor. }
  split; [exact HP|]. split; [exact HO|]. split; [exact HI|]. split; [exact HB|].
  destruct (C43_pack _ _ _ _ PackXla HP HO I) as (p & E & _). exists p. split; [exact E|]. split; [exact (C43_exact _ _ _ _ PackXla p HP HO I HI E)|]. rewrite <- E. exact (C43_backends _ _ _ _ _ PackXla HP HO HB I).
Qed.
