(** * PropRows4.v — property C41 (fourth part): where the element-wise reading fails, and
    concrete instances that meet the hypotheses of the positive theorems. *)
From Coq Require Import String.
From Verif Require Import Jax StructModel ArrayModel ArrayFacts ShapeModel PropShape RowsModel RowsLift PropRows PropRows2 PropRows3.

Definition arr8 (s : list nat) (d : list Z) : value := VArr (MkArr (DUInt 8) s d).
Definition cell : class := (CCons "id" (Prim (DUInt 8) [] None false 0%Z) (CCons "pos" (Prim (DUInt 8) [2] None false 0%Z) CNil))%string.
Definition cell2 (a : Z) : obj := (OCons "id" (arr8 [2] [a; a + 1]%Z) (OCons "pos" (arr8 [2; 2] [10 * a; 10 * a + 1; 10 * a + 2; 10 * a + 3]%Z) ONil))%string.
Lemma cell_solid : cell <> CNil /\ solid cell.
Proof. split; [discriminate|]. cbn. tauto. Qed.
Lemma cell2_batched a : batched cell [2] (cell2 a).
Proof. split; cbn; unfold wfa; cbn; auto 10. Qed.

(** negative axes are counted per leaf, so a leaf with a trailing shape is joined along a
    trailing axis: the calls are accepted and the results are not batches of the class *)
Theorem C41_negative_axis_refuted :
  (exists o', obj_concat cell (-1) [cell2 1; cell2 2] = Some o' /\ get_batch cell o' = Some Unstr) /\
  (exists o', obj_stack cell (-1) [cell2 1; cell2 2; cell2 3] = Some o' /\ get_batch cell o' = Some Unstr) /\
  (exists o', obj_expand_dims (-1) (cell2 1) = Some o' /\ get_batch cell o' = Some Unstr) /\
  (exists o', obj_repeat 2 (-1) (cell2 1) = Some o' /\ get_batch cell o' = Some Unstr) /\
  (exists o', obj_flip (-1) (cell2 1) = Some o' /\ batched cell [2] o' /\ elem [0] o' <> elem [0] (cell2 1) /\ elem [0] o' <> elem [1] (cell2 1)).
Proof.
  split; [eexists; split; reflexivity|]. split; [eexists; split; reflexivity|]. split; [eexists; split; reflexivity|]. split; [eexists; split; reflexivity|].
  eexists. split; [reflexivity|]. split; [split; cbn; auto 10|]. split; vm_compute; congruence.
Qed.
(** whole-array variants act on the trailing axes too *)
Theorem C41_whole_array_refuted :
  (exists o', obj_tile [2] (cell2 1) = Some o' /\ get_batch cell o' = Some Unstr) /\
  (exists o', obj_flip_all (cell2 1) = Some o' /\ batched cell [2] o' /\ elem [0] o' <> elem [0] (cell2 1) /\ elem [0] o' <> elem [1] (cell2 1)) /\
  obj_broadcast_to [3; 2] (cell2 1) = None /\ (exists o', obj_broadcast_to [2; 2] (cell2 1) = Some o' /\ get_batch cell o' = Some Unstr).
Proof.
  split; [eexists; split; reflexivity|]. split.
  { eexists. split; [reflexivity|]. split; [split; cbn; auto 10|]. split; vm_compute; congruence. }
  split; [reflexivity|]. eexists; split; reflexivity.
Qed.
(** squeeze with no axis drops declared trailing axes of size one *)
Definition col : class := (CCons "id" (Prim (DUInt 8) [] None false 0%Z) (CCons "v" (Prim (DUInt 8) [1] None false 0%Z) CNil))%string.
Theorem C41_squeeze_all_refuted : exists o', obj_squeeze_all (default_obj [1; 3] col) = Some o' /\ get_batch col o' = Some Unstr.
Proof. eexists. split; reflexivity. Qed.
(** a condition of the batch shape is matched with the trailing axis: element 0 of the
    result mixes the two arguments *)
Theorem C41_where_refuted : exists cond o', ashape cond = [2] /\ obj_where cond (cell2 1) (cell2 5) = Some o' /\ batched cell [2] o' /\
  elem [0] o' <> elem [0] (cell2 1) /\ elem [0] o' <> elem [0] (cell2 5).
Proof.
  exists (MkArr DBool [2] [1; 0]%Z). eexists. split; [reflexivity|]. split; [reflexivity|]. split; [split; cbn; auto 10|]. split; vm_compute; congruence.
Qed.
(** and when the sizes differ the call raises *)
Theorem C41_where_raises : exists cond o, ashape cond = [3] /\ batched cell [3] o /\ obj_where cond o o = None.
Proof. exists (MkArr DBool [3] [1; 0; 1]%Z), (default_obj [3] cell). split; [reflexivity|]. split; [split; cbn; auto 10|]. reflexivity. Qed.
(** [.at[...].set] keeps a field whose update fails: part of the fields are written *)
Theorem C41_at_set_half_written_refuted : exists box o v, get_batch cell v = Some Unstr /\ let o' := set_box box o v in
  batched cell [2] o' /\ elem [0] o' <> elem [0] o /\
  exists ov nv p q, o = (OCons "id" ov (OCons "pos" p ONil))%string /\ v = (OCons "id" nv (OCons "pos" q ONil))%string /\ o' = (OCons "id" nv (OCons "pos" p ONil))%string.
Proof.
  exists [(0, 2)], (cell2 1), (OCons "id" (arr8 [2] [7; 8]%Z) (OCons "pos" (arr8 [3] [7; 8; 9]%Z) ONil))%string.
  split; [reflexivity|]. split; [split; cbn; auto 10|]. split; [vm_compute; congruence|]. do 4 eexists. split; [reflexivity|]. split; reflexivity.
Qed.
(** indexing past the batch axes goes into the elements, or raises *)
Theorem C41_index_past_batch_refuted : obj_index [IInt 0; IInt 0] (cell2 1) = None /\
  exists c o o', solid c /\ batched c [2] o /\ obj_index [IInt 0; IInt 0] o = Some o' /\ get_batch c o' = Some Unstr.
Proof.
  split; [reflexivity|]. exists (CCons "pos" (Prim (DUInt 8) [2] None false 0%Z) CNil)%string, (OCons "pos" (arr8 [2; 2] [1; 2; 3; 4]%Z) ONil)%string.
  eexists. split; [cbn; tauto|]. split; [split; cbn; auto 10|]. split; reflexivity.
Qed.

(** ** Concrete uses of the positive theorems *)
Example C41_example : exists o', obj_concat cell 0 [cell2 1; cell2 5] = Some o' /\ batched cell [4] o' /\ elem [3] o' = elem [1] (cell2 5) /\
  elem [3] o' = (OCons "id" (arr8 [] [6]%Z) (OCons "pos" (arr8 [2] [52; 53]%Z) ONil))%string.
Proof. eexists. split; [reflexivity|]. split; [split; cbn; auto 10|]. split; reflexivity. Qed.
Example C41_example_pad : exists o', obj_pad cell [(1, 2)] (cell2 1) = Some o' /\ batched cell [5] o' /\ elem [2] o' = elem [1] (cell2 1) /\ elem [4] o' = default_obj [] cell.
Proof. eexists. split; [reflexivity|]. split; [split; cbn; auto 10|]. split; reflexivity. Qed.
Example C41_example_set : batched cell [2] (cell2 1) /\ box_ok [(1, 1)] [2] /\ batched cell [1] (set_box [] (default_obj [1] cell) (default_obj [1] cell)) /\
  elem [1] (set_box [(1, 1)] (cell2 1) (default_obj [1] cell)) = default_obj [] cell.
Proof. split; [apply cell2_batched|]. split; [split; [cbn; lia|repeat constructor]|]. split; [split; cbn; auto 10|]. reflexivity. Qed.
Print Assumptions C41_split. Print Assumptions C41_take_along_axis. Print Assumptions C41_at_set. Print Assumptions C41_pad. Print Assumptions C41_where.
