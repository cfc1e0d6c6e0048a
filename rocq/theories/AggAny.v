(** * AggAny.v — packing leaves of any dtype is packing the uint32 leaves they convert to. *)
From Coq Require Import String.
From Verif Require Import Jax HashModel HashProofs BitpackModel BitpackSpec BitpackProofs BitpackAgg StructModel ArrayModel ArrayFacts ShapeModel PropShape RowsModel RowsLift PropRows EqModel RowsModel2 PromoteModel PropMixed AggModel AggKernel AggFacts PropAgg PropAgg2 SchemaModel.

(** what the decorator accepts (PropAgg.v), leaves of any dtype *)
Definition packable_any (c : class) (fs : fields) : Prop :=
  agg_c c = Some fs /\ good_class fs /\ (N.of_nat (class_bits fs) < 2 ^ 32)%N /\ c <> CNil /\ solid c.
(** the class with uint32 leaves *)
Fixpoint uint_d (d : desc) : desc := match d with Prim _ ish bits pb fill => Prim (DUInt 32) ish bits pb fill | Nest c ish => Nest (uint_c c) ish end
with uint_c (c : class) : class := match c with CNil => CNil | CCons n d r => CCons n (uint_d d) (uint_c r) end.
Fixpoint uint_v (v : value) : value := match v with VArr a => VArr (a_conv (DUInt 32) a) | VObj o => VObj (uint_o o) end
with uint_o (o : obj) : obj := match o with ONil => ONil | OCons n v r => OCons n (uint_v v) (uint_o r) end.

Lemma agg_uint : (forall d, agg_d (uint_d d) = agg_d d) /\ (forall c, agg_c (uint_c c) = agg_c c).
Proof.
  apply desc_class_ind.
  - reflexivity.
  - intros c IH [|k s]; cbn; [now rewrite IH|reflexivity].
  - reflexivity.
  - intros n d IHd r IHr. cbn. now rewrite IHd, IHr.
Qed.
Lemma uint_variant : (forall d, variant_d d (uint_d d)) /\ (forall c, variant c (uint_c c)).
Proof. apply desc_class_ind; cbn; intros; auto. Qed.
Lemma uint_batch : (forall d v, batch_v d (uint_v v) = batch_v d v) /\ (forall c o, batches c (uint_o o) = batches c o).
Proof.
  apply desc_class_ind.
  - intros dt ish bits pb fill [a|o]; reflexivity.
  - intros c IH ish [a|o]; [reflexivity|]. cbn [batch_v uint_v]. now rewrite IH.
  - intros [|]; reflexivity.
  - intros n d IHd r IHr [|m v q]; [reflexivity|]. cbn [batches uint_o]. now rewrite IHd, IHr.
Qed.
Lemma uint_get_batch c o : get_batch (uint_c c) (uint_o o) = get_batch c o.
Proof. unfold get_batch. now rewrite (proj2 variant_batch c (uint_c c)), (proj2 uint_batch) by apply uint_variant. Qed.
Lemma uint_attr o n : get_attr_o (uint_o o) n = option_map uint_v (get_attr_o o n).
Proof. induction o as [|m v r IH] using obj_list_ind; [reflexivity|]. cbn. destruct (String.eqb n m); [reflexivity|exact IH]. Qed.
Lemma uint_path p : forall v, get_path_v (uint_v v) p = option_map uint_v (get_path_v v p).
Proof.
  induction p as [|n p IH]; intros v; [reflexivity|]. destruct v as [a|o]; [reflexivity|]. cbn [get_path_v uint_v]. rewrite uint_attr.
  destruct (get_attr_o o n) as [w|]; [apply IH|reflexivity].
Qed.
Lemma pack_any_uint be c o : pack_any be c o = pack_obj be (uint_c c) (uint_o o).
Proof.
  unfold pack_any, pack_obj. rewrite (proj2 agg_uint), uint_get_batch. destruct (agg_c c) as [fs|]; [|reflexivity]. destruct (get_batch c o) as [[|B]|]; try reflexivity.
  assert (EL : forall n s, leaf_rows_any n o s = leaf_rows n (uint_o o) s).
  { intros n s. unfold leaf_rows_any, leaf_rows. change (VObj (uint_o o)) with (uint_v (VObj o)). rewrite uint_path. destruct (get_path_v (VObj o) (lpath s)) as [[a|q]|]; try reflexivity. cbn [option_map uint_v a_conv ashape adata]. now rewrite map_map. }
  destruct (agg_spec fs) as [specs total]. destruct (word_tail_layout total) as [[nw st] tl]. cbv zeta. rewrite (map_ext (leaf_rows_any (prod B) o) (leaf_rows (prod B) (uint_o o))) by apply EL. reflexivity.
Qed.
Lemma uint_solid : (forall d, solid_d d -> solid_d (uint_d d)) /\ (forall c, solid c -> solid (uint_c c)).
Proof.
  apply desc_class_ind; cbn; auto.
  - intros c IH _ [H1 H2]. split; [destruct c; cbn; congruence|auto].
  - intros n d IHd r IHr [H1 H2]. auto.
Qed.
Lemma uint_no_floats : (forall d, no_floats_d (uint_d d)) /\ (forall c, no_floats (uint_c c)).
Proof. apply desc_class_ind; cbn; auto. Qed.
Lemma packable_uint c fs : packable_any c fs -> packable (uint_c c) fs.
Proof.
  intros (H1 & H2 & H3 & H4 & H5). split; [now rewrite (proj2 agg_uint)|]. split; [exact H2|]. split; [exact H3|]. split; [destruct c; cbn; congruence|]. split; [now apply uint_solid|apply uint_no_floats].
Qed.
Lemma uint_batched_both :
  (forall d s v, loose_v s d v -> conforms_v (uint_d d) (uint_v v) /\ has_v s (uint_d d) (uint_v v)) /\
  (forall c s o, loose s c o -> conforms (uint_c c) (uint_o o) /\ has_batch s (uint_c c) (uint_o o)).
Proof.
  apply desc_class_ind.
  - intros dt ish bits pb fill s [a|o] H; cbn in *; [|destruct H]. destruct H as [H1 H2]. split; [|exact H2]. split; [reflexivity|]. now rewrite map_length.
  - intros c IH ish s [a|o] H; cbn in *; [destruct H|]. now apply IH.
  - intros s [|] H; cbn in *; auto.
  - intros n d IHd r IHr s [|m v q] H; cbn in *; [destruct H|]. destruct H as (E & H1 & H2). destruct (IHd s v H1), (IHr s q H2). auto.
Qed.
Lemma uint_batched c B o : loose B c o -> batched (uint_c c) B (uint_o o).
Proof. exact (proj2 uint_batched_both c B o). Qed.
Lemma uint_view dict B : (forall d prefix, view_d dict B prefix (uint_d d) = view_d dict B prefix d) /\ (forall c prefix, view_c dict B prefix (uint_c c) = view_c dict B prefix c).
Proof.
  apply desc_class_ind.
  - reflexivity.
  - intros c IH ish prefix. cbn [uint_d view_d]. now rewrite IH.
  - reflexivity.
  - intros n d IHd r IHr prefix. cbn [uint_c view_c]. now rewrite IHd, IHr.
Qed.
Lemma uint_unpack c p : unpack_obj (uint_c c) p = unpack_obj c p.
Proof.
  unfold unpack_obj. rewrite (proj2 agg_uint). destruct (agg_c c) as [fs|]; [|reflexivity]. destruct (agg_spec fs) as [specs total].
  destruct (get_batch (packed_class total) p) as [[|B]|]; try reflexivity. destruct (words_all total (prod B) p) as [rows|]; [|reflexivity]. now rewrite (proj2 (uint_view _ B)).
Qed.
