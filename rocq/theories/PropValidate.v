(** * PropValidate.v — property C49: what [validate=True] / [check_invariants] guarantees. *)
From Coq Require Import String.
From Verif Require Import Jax StructModel ArrayModel ArrayFacts ShapeModel PropShape RowsModel RowsLift PropRows EqModel ConstructModel PropRandom.

(** ** Specification *)
Fixpoint onames (o : obj) : list string := match o with ONil => [] | OCons n _ r => n :: onames r end.
(** the fields of an instance with their declarations *)
Fixpoint fields (c : class) (o : obj) : list (string * desc * value) :=
  match c, o with CCons n d r, OCons _ v q => (n, d, v) :: fields r q | _, _ => [] end.
(** what is checked of one field: an array has the declared dtype and a shape ending in the
    declared one, a nested field is an instance of its class *)
Definition field_ok (isinst : class -> obj -> bool) (d : desc) (v : value) : Prop :=
  match d, v with
  | Prim dt ish _ _ _, VArr a => adtype a = dt /\ exists P, ashape a = P ++ ish
  | Nest c _, VObj o => isinst c o = true
  | _, _ => False
  end.

Lemma check_array_spec isinst dt ish bits pb fill v : check_array dt ish v = true <-> field_ok isinst (Prim dt ish bits pb fill) v.
Proof.
  destruct v as [a|o]; cbn [check_array field_ok]; [|split; [discriminate|contradiction]]. rewrite andb_true_iff.
  assert (K : dtype_eqb (adtype a) dt = true <-> adtype a = dt) by (unfold dtype_eqb; destruct (dtype_eq_dec _ _); split; congruence).
  rewrite K. apply and_iff_compat_l. destruct ish as [|d ish]; [split; [intros _; exists (ashape a); now rewrite app_nil_r|auto]|].
  unfold ndim. destruct (Nat.ltb_spec (length (ashape a)) (length (d :: ish))) as [L|L].
  - split; [discriminate|]. intros [P E]. rewrite E, app_length in L. lia.
  - rewrite shape_eqb_eq. split.
    + intros E. exists (firstn (length (ashape a) - length (d :: ish)) (ashape a)). transitivity (firstn (length (ashape a) - length (d :: ish)) (ashape a) ++ skipn (length (ashape a) - length (d :: ish)) (ashape a)); [symmetry; apply firstn_skipn|now rewrite E].
    + intros [P E]. rewrite E, app_length. replace (length P + length (d :: ish) - length (d :: ish)) with (length P) by lia.
      rewrite skipn_app, skipn_all, Nat.sub_diag. reflexivity.
Qed.
(** [check_invariants] succeeds exactly when every field passes its validator and is as
    declared *)
Theorem C49_iff : forall isinst validator c o, onames o = names c ->
  (check_invariants isinst validator c o = true <->
   forall n d v, In (n, d, v) (fields c o) -> (forall f, validator n = Some f -> f v = true) /\ field_ok isinst d v).
Proof.
  intros isinst validator c. induction c as [|n d r IH]; intros [|m v q] EN; cbn [onames names] in EN; try discriminate.
  - cbn. split; [intros _ ? ? ? []|auto].
  - injection EN as -> EN. cbn [check_invariants fields]. rewrite !andb_true_iff, (IH q EN).
    assert (K1 : (match validator n with Some f => f v | None => true end) = true <-> forall f, validator n = Some f -> f v = true).
    { destruct (validator n) as [f|]; split; intros H; [intros f' E; congruence|auto|intros ? E; discriminate|reflexivity]. }
    assert (K2 : (match d with Nest c' _ => match v with VObj o' => isinst c' o' | VArr _ => false end | Prim dt ish _ _ _ => check_array dt ish v end) = true <-> field_ok isinst d v).
    { destruct d as [dt ish bits pb fill|c' ish]; [apply check_array_spec|]. destruct v as [a|o]; cbn [field_ok]; [split; [discriminate|contradiction]|reflexivity]. }
    rewrite K1, K2. split.
    + intros [[H1 H2] H3] n' d' v' [E|HI]; [injection E as <- <- <-; auto|eauto].
    + intros H. split; [apply (H n d v); now left|]. intros n' d' v' HI. apply H. now right.
Qed.
(** a class decorated with [validate=True] constructs exactly those *)
Theorem C49_construct : forall isinst validator c o o', onames o = names c ->
  (construct isinst validator true c o = Some o' <->
   o' = o /\ forall n d v, In (n, d, v) (fields c o) -> (forall f, validator n = Some f -> f v = true) /\ field_ok isinst d v).
Proof.
  intros isinst validator c o o' EN. unfold construct. rewrite <- (C49_iff isinst validator c o EN). destruct (check_invariants _ _ c o); split; try (intros H; injection H; auto); intros; try discriminate; destruct H; congruence.
Qed.
Theorem C49_unvalidated : forall isinst validator c o, construct isinst validator false c o = Some o.
Proof. reflexivity. Qed.

(** ** Well-formed batches pass, whatever their batch shape *)
Lemma conforms_onames c : forall o, conforms c o -> onames o = names c.
Proof. induction c as [|n d r IH]; intros [|m v q] HC; cbn in HC; try contradiction; [reflexivity|]. destruct HC as (<- & _ & HC). cbn. now rewrite (IH q HC). Qed.
Lemma batched_fields isinst c B : (forall c' o', conforms c' o' -> isinst c' o' = true) -> forall o, batched c B o -> forall n d v, In (n, d, v) (fields c o) -> field_ok isinst d v.
Proof.
  intros HI. induction c as [|n d r IH]; intros [|m v q] [HC HH] n' d' v' H; cbn [fields conforms has_batch] in *; try contradiction.
  destruct HC as (_ & HC1 & HC2), HH as (_ & HH1 & HH2). destruct H as [E|H].
  - injection E as <- <- <-. destruct d as [dt ish bits pb fill|c' ish], v as [a|o]; cbn [conforms_v has_v field_ok] in *; try contradiction; [|now apply HI].
    split; [apply HC1|]. now exists B.
  - exact (IH q (conj HC2 HH2) n' d' v' H).
Qed.
Theorem C49_batches_pass : forall isinst validator c B o, (forall c' o', conforms c' o' -> isinst c' o' = true) ->
  batched c B o -> (forall n d v f, In (n, d, v) (fields c o) -> validator n = Some f -> f v = true) -> check_invariants isinst validator c o = true.
Proof.
  intros isinst validator c B o HI HB HV. apply C49_iff; [apply conforms_onames, HB|]. intros n d v H. split; [eauto|]. exact (batched_fields isinst c B HI o HB n d v H).
Qed.
Theorem C49_default_passes : forall isinst c s, (forall c' o', conforms c' o' -> isinst c' o' = true) -> check_invariants isinst (fun _ => None) c (default_obj s c) = true.
Proof. intros isinst c s HI. apply (C49_batches_pass isinst _ c s); [exact HI|apply default_both|discriminate]. Qed.
Theorem C49_random_passes : forall isinst g c s k, (forall c' o', conforms c' o' -> isinst c' o' = true) -> prng_ok g -> check_invariants isinst (fun _ => None) c (random g c s k) = true.
Proof. intros isinst g c s k HI HG. apply (C49_batches_pass isinst _ c s); [exact HI|now apply C48_shape|discriminate]. Qed.
(** conversely, passing means that every array field has a batch shape of its own *)
Theorem C49_own_batch : forall isinst c o, onames o = names c -> check_invariants isinst (fun _ => None) c o = true ->
  forall n dt ish bits pb fill v, In (n, Prim dt ish bits pb fill, v) (fields c o) -> exists a s, v = VArr a /\ adtype a = dt /\ batch_v (Prim dt ish bits pb fill) v = Some (Batch s).
Proof.
  intros isinst c o EN HC n dt ish bits pb fill v HI. pose proof (proj1 (C49_iff isinst _ c o EN) HC) as HC2. clear HC. rename HC2 into HC. destruct (HC _ _ _ HI) as [_ HF].
  destruct v as [a|o']; cbn [field_ok] in HF; [|contradiction]. destruct HF as [ED [P ES]]. exists a, P. split; [reflexivity|]. split; [exact ED|]. cbn [batch_v]. f_equal. now apply strip_spec.
Qed.

(** ** What it does not guarantee *)
(** any recogniser of instances by their field names *)
Definition by_names (c : class) (o : obj) : bool := if list_eq_dec string_dec (onames o) (names c) then true else false.
Lemma by_names_ok : forall c o, conforms c o -> by_names c o = true.
Proof. intros c o HC. unfold by_names. destruct (list_eq_dec _ _ _) as [|N]; [reflexivity|]. destruct N. now apply conforms_onames. Qed.
Definition two_fields : class := CCons "a" (Prim (DUInt 8) [] None false 0%Z) (CCons "b" (Prim (DUInt 8) [2] None false 0%Z) CNil).
(** fields with different batch shapes pass: the instance is UNSTRUCTURED *)
Theorem C49_common_batch_refuted : exists o, construct by_names (fun _ => None) true two_fields o = Some o /\ conforms two_fields o /\
  (forall B, ~ has_batch B two_fields o) /\ get_batch two_fields o = Some Unstr.
Proof.
  exists (OCons "a" (VArr (MkArr (DUInt 8) [3] [1;2;3]%Z)) (OCons "b" (VArr (MkArr (DUInt 8) [2] [1;2]%Z)) ONil)). split; [reflexivity|]. split; [cbn; intuition auto|]. split; [|reflexivity].
  intros B (_ & H1 & _ & H2 & _). cbn in H1, H2. destruct B as [|x [|y B]]; cbn in *; discriminate.
Qed.
(** nested instances are not looked into, and their batch shape is not compared with the
    declared shape of the field *)
Definition outer : class := CCons "n" (Nest two_fields [2]) CNil.
Theorem C49_nested_contents_refuted : exists o, construct by_names (fun _ => None) true outer o = Some o /\ ~ conforms outer o /\
  (forall B, ~ has_batch B outer o).
Proof.
  exists (OCons "n" (VObj (OCons "a" (VArr (MkArr (DFloat 32) [3] [1;2;3]%Z)) (OCons "b" (VArr (MkArr (DUInt 8) [3;2] [1;2;3;4;5;6]%Z)) ONil))) ONil). split; [reflexivity|]. split.
  - cbn. intuition discriminate.
  - intros B (_ & (_ & H1 & _) & _). cbn in H1. rewrite app_nil_r in H1. destruct B as [|x [|y B]]; cbn in H1; discriminate.
Qed.
(** instances made by batch operations (tree_map rebuilds them without calling the
    constructor) and by attribute assignment are not checked *)
Theorem C49_operations_checked_refuted : exists o o', construct by_names (fun _ => None) true two_fields o = Some o /\
  obj_expand_dims (-1) o = Some o' /\ construct by_names (fun _ => None) true two_fields o' = None.
Proof. exists (default_obj [] two_fields). eexists. split; [reflexivity|]. split; reflexivity. Qed.
Theorem C49_assignment_checked_refuted : exists o v, construct by_names (fun _ => None) true two_fields o = Some o /\
  construct by_names (fun _ => None) true two_fields (iobj (setattr (fresh o) "a" v)) = None.
Proof. exists (default_obj [] two_fields), (VArr (MkArr (DInt 8) [] [0%Z])). split; reflexivity. Qed.

(** ** A concrete case *)
Example ex_validate : onames (default_obj [3] two_fields) = names two_fields /\ batched two_fields [3] (default_obj [3] two_fields) /\
  check_invariants by_names (fun n => if String.eqb n "a" then Some (fun v => match v with VArr a => forallb (fun z => (z <? 10)%Z) (adata a) | _ => false end) else None) two_fields (default_obj [3] two_fields) = true /\
  check_invariants by_names (fun _ => None) two_fields (OCons "a" (VArr (MkArr (DUInt 8) [] [1]%Z)) (OCons "b" (VArr (MkArr (DUInt 8) [2;1] [1;2]%Z)) ONil)) = false.
Proof. split; [reflexivity|]. split; [apply default_both|]. split; reflexivity. Qed.
