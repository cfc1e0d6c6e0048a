(** * PropLive.v — property C82: what [x.shape], [x.dtype] and their companions answer, and
    when an answer can be out of date. *)
From Coq Require Import String.
From Verif Require Import Jax StructModel ArrayModel ArrayFacts ShapeModel PropShape LiveModel.

(** ** Specification: the answer for a structured instance depends on the class and the batch only *)
Fixpoint declared_entry (d : desc) : stree := match d with Prim _ ish _ _ _ => SLeaf ish | Nest c ish => SNode (Batch ish) (declared_entries c) end
with declared_entries (c : class) : sfields := match c with CNil => SNil | CCons n d r => SCons n (declared_entry d) (declared_entries r) end.
Fixpoint declared_dtype (d : desc) : dtree := match d with Prim dt _ _ _ _ => DLeaf dt | Nest c _ => DNode (declared_dtypes c) end
with declared_dtypes (c : class) : dfields := match c with CNil => DNil | CCons n d r => DCons n (declared_dtype d) (declared_dtypes r) end.
Fixpoint entry_of (fs : sfields) (n : string) : option stree :=
  match fs with SNil => None | SCons m t r => if String.eqb m n then Some t else entry_of r n end.
Fixpoint field_of (o : obj) (n : string) : option value :=
  match o with ONil => None | OCons m v r => if String.eqb m n then Some v else field_of r n end.

(** ** The shape computed is consistent with the batch shape of C40 *)
Lemma entry_leaf s ish : exists t, entry ish (SLeaf s) = Some (strip s ish, SLeaf t) /\ (t = match strip s ish with Batch _ => ish | Unstr => s end).
Proof.
  unfold entry, strip. destruct ish as [|d ish]; [eauto|]. set (k := length s - length (d :: ish)).
  destruct (shape_eqb (skipn k s) (d :: ish)) eqn:E; [|eauto]. apply shape_eqb_eq in E. rewrite E. eauto.
Qed.
Lemma entry_node b fs ish : b <> Unstr \/ ish = [] ->
  exists b' t, entry ish (SNode b fs) = Some (b', SNode t fs) /\ b' = match b with Batch s => strip s ish | Unstr => Unstr end /\
    t = match b' with Batch _ => Batch ish | Unstr => match ish with [] => Batch [] | _ => b end end.
Proof.
  intros H. unfold entry, strip. destruct ish as [|d ish].
  - exists b, (Batch []). split; [reflexivity|]. split; [destruct b; reflexivity|]. destruct b; reflexivity.
  - destruct b as [|s]; [destruct H; congruence|]. set (k := length s - length (d :: ish)).
    destruct (shape_eqb (skipn k s) (d :: ish)) eqn:E; [|eauto 10]. apply shape_eqb_eq in E. rewrite E. eauto 10.
Qed.
Lemma shape_batch_both :
  (forall d v, match shape_v d v with
               | Some t => option_map fst (entry (ish_of d) t) = batch_v d v
               | None => batch_v d v = None end) /\
  (forall c o, option_map fst (shape_fields c o) = batches c o).
Proof.
  apply desc_class_ind.
  - intros dt ish bits pb fill v. destruct v as [a|o]; [|reflexivity]. cbn [shape_v batch_v ish_of].
    destruct (entry_leaf (ashape a) ish) as [t [E _]]. rewrite E. reflexivity.
  - intros c IH ish v. destruct v as [a|o]; [reflexivity|]. cbn [shape_v batch_v ish_of]. specialize (IH o).
    destruct (shape_fields c o) as [[bs fs]|]; cbn [option_map fst] in IH; rewrite <- IH; [|reflexivity].
    destruct (final bs) as [|s] eqn:E.
    + destruct ish; reflexivity.
    + destruct (entry_node (Batch s) fs ish) as [b' [t [E1 [E2 _]]]]; [left; discriminate|]. rewrite E1. cbn [option_map fst]. congruence.
  - intros [|]; reflexivity.
  - intros n d IHd r IHr o. destruct o as [|m v q]; [reflexivity|]. cbn [shape_fields batches]. specialize (IHd v). specialize (IHr q).
    destruct (shape_v d v) as [t|]; [|rewrite IHd; reflexivity]. rewrite <- IHd. destruct (entry (ish_of d) t) as [[b t']|]; [|reflexivity].
    cbn [option_map fst]. rewrite <- IHr. destruct (shape_fields r q) as [[bs fs]|]; reflexivity.
Qed.
(** the batch entry of [x.shape] is the batch shape; [x.shape] raises exactly when it does *)
Theorem C82_batch : forall c o, option_map tree_batch (get_shape c o) = get_batch c o.
Proof.
  intros c o. unfold get_shape, get_batch. rewrite <- (proj2 shape_batch_both c o). destruct (shape_fields c o) as [[bs fs]|]; reflexivity.
Qed.

Lemma structured_both :
  (forall d v s, solid_d d -> has_v s d v -> exists t, shape_v d v = Some t /\ entry (ish_of d) t = Some (Batch s, declared_entry d)) /\
  (forall c o s, solid c -> has_batch s c o -> exists bs, shape_fields c o = Some (bs, declared_entries c) /\ Forall (fun b => b = Batch s) bs /\ (c <> CNil -> bs <> [])).
Proof.
  apply desc_class_ind.
  - intros dt ish bits pb fill v s _ H. destruct v as [a|o]; [|destruct H]. cbn [has_v shape_v ish_of declared_entry] in *. eexists. split; [reflexivity|].
    destruct (entry_leaf (ashape a) ish) as [t [E ->]]. rewrite E. assert (K : strip (ashape a) ish = Batch s) by (apply strip_spec; exact H). rewrite K. reflexivity.
  - intros c IH ish v s [HN HS] H. destruct v as [a|o]; [destruct H|]. cbn [has_v shape_v ish_of declared_entry] in *.
    destruct (IH o (s ++ ish) HS H) as [bs [E [HF HB]]]. rewrite E. eexists. split; [reflexivity|].
    assert (K : final bs = Batch (s ++ ish)) by (apply final_batch; auto). rewrite K.
    destruct (entry_node (Batch (s ++ ish)) (declared_entries c) ish) as [b' [t [E1 [E2 E3]]]]; [left; discriminate|]. rewrite E1.
    assert (K2 : strip (s ++ ish) ish = Batch s) by now apply strip_spec. rewrite K2 in E2. subst b'. now subst t.
  - intros o s _ H. destruct o; [|destruct H]. exists []. cbn. auto.
  - intros n d IHd r IHr o s [S1 S2] H. destruct o as [|m v q]; [destruct H|]. destruct H as [<- [H1 H2]]. cbn [shape_fields declared_entries].
    destruct (IHd v s S1 H1) as [t [E1 E2]]. destruct (IHr q s S2 H2) as [bs [E3 [HF _]]]. rewrite E1, E2, E3. exists (Batch s :: bs). split; [reflexivity|]. split; [auto|discriminate].
Qed.
(** a structured instance: the batch shape, and below it what the class declares *)
Theorem C82_structured : forall c o s, c <> CNil -> solid c -> has_batch s c o ->
  get_shape c o = Some (SNode (Batch s) (declared_entries c)).
Proof.
  intros c o s HN HS H. destruct (proj2 structured_both c o s HS H) as [bs [E [HF HB]]]. unfold get_shape. rewrite E. do 2 f_equal. apply final_batch; auto.
Qed.
(** so two structured instances of a class answer the same exactly when their batch shapes agree *)
Theorem C82_same_answer : forall c o o' s s', c <> CNil -> solid c -> has_batch s c o -> has_batch s' c o' ->
  (get_shape c o = get_shape c o' <-> s = s').
Proof. intros c o o' s s' HN HS H H'. rewrite (C82_structured c o s), (C82_structured c o' s') by assumption. split; congruence. Qed.
(** the entries of array fields are the ones [default_shape] shows, in the same order *)
Theorem C82_default_shape : forall c n ish, In (n, ish) (default_shape c) -> NoDup (names c) ->
  exists d, find_desc c n = Some d /\ ish_of d = ish /\ entry_of (declared_entries c) n = Some (declared_entry d).
Proof.
  induction c as [|m d r IH]; intros n ish HI HD; [destruct HI|]. cbn [default_shape find_desc declared_entries entry_of names] in *.
  inversion HD as [|? ? Hm HD']; subst. destruct HI as [HI|HI].
  - injection HI as <- <-. rewrite String.eqb_refl. eauto.
  - destruct (String.eqb_spec m n) as [->|NE].
    + exfalso. apply Hm. clear - HI. induction r as [|k e r IH]; [destruct HI|]. cbn in *. destruct HI as [HI|HI]; [injection HI as -> _; auto|auto].
    + now apply IH.
Qed.

(** ** Any instance: the entry of each field *)
Lemma entries_reach : forall c o bs fs n d v, shape_fields c o = Some (bs, fs) -> names c = (fix nm o := match o with ONil => [] | OCons m _ r => m :: nm r end) o ->
  find_desc c n = Some d -> field_of o n = Some v ->
  exists t b t', shape_v d v = Some t /\ entry (ish_of d) t = Some (b, t') /\ entry_of fs n = Some t' /\ In b bs.
Proof.
  induction c as [|m d r IH]; intros o bs fs n d' v E HN HF HV; [discriminate|]. destruct o as [|m' w q]; [discriminate|].
  cbn [names] in HN. injection HN as <- HN. cbn [shape_fields find_desc field_of] in *. destruct (shape_v d w) as [t|] eqn:E1; [|discriminate].
  destruct (entry (ish_of d) t) as [[b t']|] eqn:E2; [|discriminate]. destruct (shape_fields r q) as [[bs' fs']|] eqn:E3; [|discriminate]. injection E as <- <-.
  cbn [entry_of]. destruct (String.eqb m n).
  - injection HF as ->. injection HV as ->. exists t, b, t'. cbn. auto.
  - destruct (IH q bs' fs' n d' v E3 HN HF HV) as [t0 [b0 [t0' [A [B [C D]]]]]]. exists t0, b0, t0'. cbn. auto.
Qed.
Lemma conforms_names : forall c o, conforms c o -> names c = (fix nm o := match o with ONil => [] | OCons m _ r => m :: nm r end) o.
Proof. induction c as [|m d r IH]; intros o H; destruct o as [|m' w q]; try (destruct H; fail); [reflexivity|]. destruct H as [<- [_ H]]. cbn. f_equal. now apply IH. Qed.
(** an array field shows its declared shape when the array's shape ends in it, and else the whole shape of the array *)
Theorem C82_array_entry : forall c o b fs n dt ish bits pb fill a, conforms c o -> get_shape c o = Some (SNode b fs) ->
  find_desc c n = Some (Prim dt ish bits pb fill) -> field_of o n = Some (VArr a) ->
  exists t, entry_of fs n = Some (SLeaf t) /\ ((exists s, ashape a = s ++ ish) -> t = ish) /\ ((forall s, ashape a <> s ++ ish) -> t = ashape a).
Proof.
  intros c o b fs n dt ish bits pb fill a HC HG HF HV. unfold get_shape in HG. destruct (shape_fields c o) as [[bs fs0]|] eqn:E; [|discriminate]. injection HG as _ ->.
  destruct (entries_reach c o bs fs n _ _ E (conforms_names c o HC) HF HV) as [t [b0 [t' [E1 [E2 [E3 _]]]]]]. cbn [shape_v ish_of] in *. injection E1 as <-.
  destruct (entry_leaf (ashape a) ish) as [t0 [K1 K2]]. rewrite K1 in E2. injection E2 as _ <-. exists t0. split; [exact E3|]. split.
  - intros [s Hs]. apply strip_spec in Hs. now rewrite Hs in K2.
  - intros Hs. destruct (strip (ashape a) ish) as [|s] eqn:ES; [exact K2|]. apply strip_spec in ES. now apply Hs in ES.
Qed.
(** a nested field shows the nested instance's own entries; its batch is the declared shape
    when the nested instance's batch ends in it, and else that whole batch *)
Theorem C82_nested_entry : forall c o b fs n k ish u, conforms c o -> get_shape c o = Some (SNode b fs) ->
  find_desc c n = Some (Nest k ish) -> field_of o n = Some (VObj u) ->
  exists b' fs', get_shape k u = Some (SNode b' fs') /\
    exists t, entry_of fs n = Some (SNode t fs') /\
      ((ish = [] \/ exists s, b' = Batch (s ++ ish)) -> t = Batch ish) /\
      ((ish <> [] /\ forall s, b' <> Batch (s ++ ish)) -> t = b' /\ b' <> Unstr).
Proof.
  intros c o b fs n k ish u HC HG HF HV. unfold get_shape in HG. destruct (shape_fields c o) as [[bs fs0]|] eqn:E; [|discriminate]. injection HG as _ ->.
  destruct (entries_reach c o bs fs n _ _ E (conforms_names c o HC) HF HV) as [t [b0 [t' [E1 [E2 [E3 _]]]]]]. cbn [shape_v ish_of] in *. unfold get_shape.
  destruct (shape_fields k u) as [[bs' fs']|]; [|discriminate]. injection E1 as <-. exists (final bs'), fs'. split; [reflexivity|].
  assert (KK : final bs' <> Unstr \/ ish = []).
  { destruct (final bs'); [|left; discriminate]. destruct ish; [right; reflexivity|]. discriminate. }
  destruct (entry_node (final bs') fs' ish KK) as [b2 [t2 [K1 [K2 K3]]]]. rewrite K1 in E2. injection E2 as <- <-. exists t2. split; [exact E3|].
  split.
  - intros H. destruct (final bs') as [|s'] eqn:EF.
    + destruct ish; [now subst|]. destruct KK; congruence.
    + destruct H as [->|[s Hs]].
      * cbn in K2. now subst.
      * injection Hs as ->. assert (K : strip (s ++ ish) ish = Batch s) by now apply strip_spec. rewrite K in K2. now subst.
  - intros [HN H]. destruct KK as [KK|]; [|contradiction]. split; [|exact KK]. destruct (final bs') as [|s']; [congruence|].
    destruct (strip s' ish) as [|s] eqn:ES; [subst; destruct ish; congruence|]. apply strip_spec in ES. subst s'. destruct (H s eq_refl).
Qed.
(** refutation: from the answer of an unstructured instance one cannot tell its arrays' shapes *)
Theorem C82_unstructured_hides_shapes : exists c o o', c <> CNil /\ solid c /\ conforms c o /\ conforms c o' /\
  get_shape c o = Some (SNode Unstr (declared_entries c)) /\ get_shape c o' = get_shape c o /\
  field_of o "y"%string <> None /\ (forall a a', field_of o "y"%string = Some (VArr a) -> field_of o' "y"%string = Some (VArr a') -> ashape a <> ashape a').
Proof.
  exists (CCons "x" (Prim (DUInt 8) [] None false 0%Z) (CCons "y" (Prim (DUInt 8) [] None false 0%Z) CNil))%string.
  exists (OCons "x" (VArr (full (DUInt 8) [2] 0%Z)) (OCons "y" (VArr (full (DUInt 8) [3] 0%Z)) ONil))%string.
  exists (OCons "x" (VArr (full (DUInt 8) [2] 0%Z)) (OCons "y" (VArr (full (DUInt 8) [4; 5] 0%Z)) ONil))%string.
  split; [discriminate|]. split; [cbn; tauto|]. split; [cbn; tauto|]. split; [cbn; tauto|]. split; [reflexivity|]. split; [reflexivity|].
  split; [discriminate|]. cbn. intros a a' E1 E2. injection E1 as <-. injection E2 as <-. discriminate.
Qed.

(** ** dtype *)
Lemma dtype_both :
  (forall d v, conforms_v d v -> dtype_v d v = Some (declared_dtype d)) /\ (forall c o, conforms c o -> dtype_fields c o = Some (declared_dtypes c)).
Proof.
  apply desc_class_ind.
  - intros dt ish bits pb fill v H. destruct v; [|destruct H]. destruct H as [<- _]. reflexivity.
  - intros c IH ish v H. destruct v as [|o]; [destruct H|]. cbn [dtype_v conforms_v declared_dtype] in *. now rewrite (IH o H).
  - intros o H. destruct o; [reflexivity|destruct H].
  - intros n d IHd r IHr o H. destruct o as [|m v q]; [destruct H|]. destruct H as [<- [H1 H2]]. cbn [dtype_fields declared_dtypes]. now rewrite (IHd v H1), (IHr q H2).
Qed.
Theorem C82_dtype : forall c o, conforms c o -> get_dtype c o = Some (DNode (declared_dtypes c)).
Proof. intros c o H. unfold get_dtype. now rewrite (proj2 dtype_both c o H). Qed.
Fixpoint dtype_of (fs : dfields) (n : string) : option dtree :=
  match fs with DNil => None | DCons m t r => if String.eqb m n then Some t else dtype_of r n end.
(** the instance has the right fields, whatever the dtypes and shapes of the arrays *)
Fixpoint kind_v (d : desc) (v : value) : Prop :=
  match d, v with Prim _ _ _ _ _, VArr _ => True | Nest c _, VObj o => kind c o | _, _ => False end
with kind (c : class) (o : obj) : Prop :=
  match c, o with CNil, ONil => True | CCons n d r, OCons m v q => n = m /\ kind_v d v /\ kind r q | _, _ => False end.
(** each entry of [x.dtype] is the dtype of the array the field holds, declared or not *)
Theorem C82_dtype_actual : forall c o, kind c o -> exists fs, get_dtype c o = Some (DNode fs) /\
  forall n v, field_of o n = Some v -> match v with
    | VArr a => dtype_of fs n = Some (DLeaf (adtype a))
    | VObj u => exists k ish, find_desc c n = Some (Nest k ish) /\ dtype_of fs n = get_dtype k u
    end.
Proof.
  assert (K : (forall d v, kind_v d v -> dtype_v d v <> None) /\ (forall c o, kind c o -> dtype_fields c o <> None)).
  { apply desc_class_ind.
    - intros dt ish bits pb fill v H. destruct v; [discriminate|destruct H].
    - intros c IH ish v H. destruct v as [|o]; [destruct H|]. cbn [dtype_v kind_v] in *. specialize (IH o H). destruct (dtype_fields c o); congruence.
    - intros o H. destruct o; [discriminate|destruct H].
    - intros n d IHd r IHr o H. destruct o as [|m v q]; [destruct H|]. destruct H as [_ [H1 H2]]. cbn [dtype_fields]. specialize (IHd v H1). specialize (IHr q H2).
      destruct (dtype_v d v); [|congruence]. destruct (dtype_fields r q); congruence. }
  destruct K as [Kv Ko]. unfold get_dtype.
  induction c as [|m d r IH]; intros o H; destruct o as [|m' w q]; try (destruct H; fail).
  - exists DNil. split; [reflexivity|]. discriminate.
  - destruct H as [<- [H1 H2]]. cbn [dtype_fields]. destruct (IH q H2) as [fs [E HF]]. destruct (dtype_fields r q) as [fs0|]; [|discriminate]. cbn [option_map] in E. injection E as ->.
    specialize (Kv d w H1). destruct (dtype_v d w) as [t|] eqn:E1; [|congruence]. exists (DCons m t fs). split; [reflexivity|]. intros n v HV. cbn [field_of dtype_of find_desc] in *.
    destruct (String.eqb m n).
    + injection HV as ->. destruct v as [a|u].
      * destruct d; [|destruct H1]. cbn in E1. injection E1 as <-. reflexivity.
      * destruct d as [|k ish]; [destruct H1|]. exists k, ish. split; [reflexivity|]. cbn [dtype_v] in E1. destruct (dtype_fields k u); [|discriminate]. cbn. congruence.
    + exact (HF n v HV).
Qed.
(** the class attribute [default_dtype] agrees with [x.dtype] on array fields; for a nested field it is the nested class *)
Theorem C82_default_dtype : forall c n t, In (n, t) (default_dtype c) -> NoDup (names c) ->
  match t with
  | inl dt => dtype_of (declared_dtypes c) n = Some (DLeaf dt)
  | inr k => dtype_of (declared_dtypes c) n = Some (DNode (declared_dtypes k))
  end.
Proof.
  induction c as [|m d r IH]; intros n t HI HD; [destruct HI|]. cbn [default_dtype declared_dtypes dtype_of names] in *.
  inversion HD as [|? ? Hm HD']; subst. destruct HI as [HI|HI].
  - injection HI as <- <-. rewrite String.eqb_refl. destruct d; reflexivity.
  - destruct (String.eqb_spec m n) as [->|NE].
    + exfalso. apply Hm. clear - HI. induction r as [|k e r IH]; [destruct HI|]. cbn in *. destruct HI as [HI|HI]; [injection HI as -> _; auto|auto].
    + now apply IH.
Qed.
