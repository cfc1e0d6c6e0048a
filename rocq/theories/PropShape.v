(** * PropShape.v — property C40: the batch shape an instance reports. *)
From Coq Require Import String.
From Verif Require Import Jax StructModel ArrayModel ArrayFacts ShapeModel.

(** ** Specification: every field's shape is [s] followed by the declared shape *)
Fixpoint has_v (s : list nat) (d : desc) (v : value) {struct d} : Prop :=
  match d, v with
  | Prim _ ish _ _ _, VArr a => ashape a = s ++ ish
  | Nest c ish, VObj o => has_batch (s ++ ish) c o
  | _, _ => False
  end
with has_batch (s : list nat) (c : class) (o : obj) {struct c} : Prop :=
  match c, o with
  | CNil, ONil => True
  | CCons n d r, OCons m v q => n = m /\ has_v s d v /\ has_batch s r q
  | _, _ => False
  end.
(** no nested class is without fields *)
Fixpoint solid_d (d : desc) : Prop := match d with Prim _ _ _ _ _ => True | Nest c _ => c <> CNil /\ solid c end
with solid (c : class) : Prop := match c with CNil => True | CCons _ d r => solid_d d /\ solid r end.

Lemma strip_spec s ish t : strip s ish = Batch t <-> s = t ++ ish.
Proof.
  unfold strip. destruct ish as [|d ish]; [rewrite app_nil_r; split; congruence|]. set (I := d :: ish). destruct (shape_eqb _ I) eqn:E.
  - apply shape_eqb_eq in E. split.
    + intros H. injection H as <-. transitivity (firstn (length s - length I) s ++ skipn (length s - length I) s); [symmetry; apply firstn_skipn|now rewrite E].
    + intros ->. f_equal. rewrite app_length. replace (length t + length I - length I) with (length t) by lia. rewrite firstn_app, Nat.sub_diag, firstn_all. cbn. apply app_nil_r.
  - split; [discriminate|]. intros ->. exfalso. rewrite app_length in E. replace (length t + length I - length I) with (length t) in E by lia.
    rewrite skipn_app, skipn_all, Nat.sub_diag in E. cbn [app skipn] in E. now rewrite shape_eqb_refl in E.
Qed.
Lemma batch_eqb_eq a b : batch_eqb a b = true <-> a = b.
Proof. destruct a, b; cbn; try (split; congruence). rewrite shape_eqb_eq. split; congruence. Qed.
Lemma final_batch bs s : bs <> [] -> (final bs = Batch s <-> Forall (fun b => b = Batch s) bs).
Proof.
  intros HN. destruct bs as [|b r]; [congruence|]. unfold final. destruct (existsb _ r) eqn:E.
  - split; [discriminate|]. intros H. inversion H as [|? ? Hb Hr]; subst. apply existsb_exists in E. destruct E as [x [Hx HE]]. rewrite Forall_forall in Hr.
    rewrite (Hr x Hx) in HE. rewrite (proj2 (batch_eqb_eq (Batch s) (Batch s)) eq_refl) in HE. discriminate.
  - split.
    + intros ->. constructor; [reflexivity|]. apply Forall_forall. intros x Hx.
      assert (HE : (match x with Unstr => true | Batch _ => negb (batch_eqb (Batch s) x) end) = false).
      { destruct (match x with Unstr => true | Batch _ => negb (batch_eqb (Batch s) x) end) eqn:EX; [|reflexivity]. exfalso.
        assert (existsb (fun x => match x with Unstr => true | Batch _ => negb (batch_eqb (Batch s) x) end) r = true) by (apply existsb_exists; eauto). congruence. }
      destruct x; [discriminate|]. apply negb_false_iff, batch_eqb_eq in HE. congruence.
    + intros H. now inversion H.
Qed.
Lemma reports_both :
  (forall d v s, solid_d d -> conforms_v d v -> (batch_v d v = Some (Batch s) <-> has_v s d v)) /\
  (forall c o s, solid c -> conforms c o -> ((exists bs, batches c o = Some bs /\ Forall (fun b => b = Batch s) bs) <-> has_batch s c o)).
Proof.
  apply desc_class_ind.
  - intros dt ish bits pb fill v s _ HC. destruct v as [a|o]; [|destruct HC]. cbn [batch_v has_v]. rewrite <- strip_spec. split; congruence.
  - intros c IH ish v s [HN HS] HC. destruct v as [a|o]; [destruct HC|]. cbn [batch_v has_v conforms_v] in *.
    rewrite <- (IH o (s ++ ish) HS HC).
    destruct c as [|n d r]; [congruence|]. destruct o as [|m v q]; [destruct HC|].
    destruct (batches (CCons n d r) (OCons m v q)) as [bs|] eqn:E.
    2:{ split; [discriminate|]. intros [bs [E2 _]]. discriminate. }
    assert (HNE : bs <> []) by (cbn [batches] in E; destruct (batch_v d v), (batches r q); try discriminate; injection E as <-; discriminate).
    assert (K : final bs = Batch (s ++ ish) <-> (exists bs0, Some bs = Some bs0 /\ Forall (fun b => b = Batch (s ++ ish)) bs0)).
    { rewrite final_batch by exact HNE. split; [eauto|]. intros [bs0 [E2 H]]. now injection E2 as <-. }
    rewrite <- K. destruct (final bs) as [|t].
    + destruct ish; split; discriminate.
    + split; [intros H; injection H as H; apply strip_spec in H; congruence|]. intros H. injection H as H. f_equal. apply strip_spec. exact H.
  - intros o s _ HC. destruct o; [|destruct HC]. cbn. split; [tauto|]. intros _. exists []. auto.
  - intros n d IHd r IHr o s [S1 S2] HC. destruct o as [|m v q]; [destruct HC|]. destruct HC as [Hn [C1 C2]]. cbn [batches has_batch].
    rewrite <- (IHd v s S1 C1), <- (IHr q s S2 C2). split.
    + intros [bs [E HF]]. destruct (batch_v d v) as [b|]; [|discriminate]. destruct (batches r q) as [bs'|]; [|discriminate]. injection E as <-.
      inversion HF; subst. split; [reflexivity|]. split; [reflexivity|]. eauto.
    + intros [_ [Eb [bs' [E HF]]]]. rewrite Eb, E. exists (Batch s :: bs'). auto.
Qed.

(** ** C40 *)
(** an instance reports the batch shape [s] exactly when every field has it *)
Theorem C40_reports : forall c o s, c <> CNil -> solid c -> conforms c o -> (get_batch c o = Some (Batch s) <-> has_batch s c o).
Proof.
  intros c o s HN HS HC. rewrite <- (proj2 reports_both c o s HS HC). unfold get_batch.
  destruct c as [|n d r]; [congruence|]. destruct o as [|m v q]; [destruct HC|].
  destruct (batches (CCons n d r) (OCons m v q)) as [bs|] eqn:E; cbn [option_map].
  - assert (HNE : bs <> []) by (cbn [batches] in E; destruct (batch_v d v), (batches r q); try discriminate; injection E as <-; discriminate).
    split.
    + intros H. injection H as H. exists bs. split; [reflexivity|]. now apply final_batch.
    + intros [bs0 [E2 H]]. injection E2 as <-. f_equal. now apply final_batch.
  - split; [discriminate|]. intros [bs0 [E2 _]]. discriminate.
Qed.
Theorem C40_unique : forall c o s t, c <> CNil -> solid c -> conforms c o -> has_batch s c o -> has_batch t c o -> s = t.
Proof.
  intros c o s t HN HS HC H1 H2. apply C40_reports in H1; auto. apply C40_reports in H2; auto. congruence.
Qed.
(** "unstructured" (or an exception) is reported exactly when no batch shape fits *)
Theorem C40_unstructured : forall c o, c <> CNil -> solid c -> conforms c o ->
  ((get_batch c o = Some Unstr \/ get_batch c o = None) <-> forall s, ~ has_batch s c o).
Proof.
  intros c o HN HS HC. split.
  - intros H s HB. apply C40_reports in HB; auto. destruct H; congruence.
  - intros H. destruct (get_batch c o) as [[|s]|] eqn:E; auto. exfalso. apply (H s). now apply C40_reports.
Qed.
(** a class without nested array-shaped instances never raises *)
Fixpoint flat_d (d : desc) : Prop := match d with Prim _ _ _ _ _ => True | Nest c ish => ish = [] /\ flat_c c end
with flat_c (c : class) : Prop := match c with CNil => True | CCons _ d r => flat_d d /\ flat_c r end.
Lemma no_exn_both :
  (forall d v, flat_d d -> conforms_v d v -> batch_v d v <> None) /\ (forall c o, flat_c c -> conforms c o -> batches c o <> None).
Proof.
  apply desc_class_ind.
  - intros dt ish bits pb fill v _ HC. destruct v; [|destruct HC]. discriminate.
  - intros c IH ish v [-> HF] HC. destruct v as [|o]; [destruct HC|]. cbn [batch_v conforms_v] in *. specialize (IH o HF HC). destruct (batches c o) as [bs|]; [|congruence].
    destruct (final bs); discriminate.
  - intros o _ HC. destruct o; [discriminate|destruct HC].
  - intros n d IHd r IHr o [F1 F2] HC. destruct o as [|m v q]; [destruct HC|]. destruct HC as [_ [C1 C2]]. cbn [batches].
    specialize (IHd v F1 C1). specialize (IHr q F2 C2). destruct (batch_v d v); [|congruence]. destruct (batches r q); [discriminate|congruence].
Qed.
Theorem C40_no_exception : forall c o, flat_c c -> conforms c o -> exists b, get_batch c o = Some b.
Proof. intros c o HF HC. pose proof (proj2 no_exn_both c o HF HC) as H. unfold get_batch. destruct (batches c o); [cbn; eauto|congruence]. Qed.

(** the default instance of batch shape [s] *)
Lemma default_both :
  (forall d s, conforms_v d (default_v s d) /\ has_v s d (default_v s d)) /\ (forall c s, conforms c (default_obj s c) /\ has_batch s c (default_obj s c)).
Proof.
  apply desc_class_ind.
  - intros dt ish bits pb fill s. cbn. rewrite repeat_length. auto.
  - intros c IH ish s. apply (IH (s ++ ish)).
  - intros s. cbn. auto.
  - intros n d IHd r IHr s. destruct (IHd s), (IHr s). cbn. auto.
Qed.
Theorem C40_default : forall c s, c <> CNil -> solid c -> get_batch c (default_obj s c) = Some (Batch s).
Proof. intros c s HN HS. apply C40_reports; auto; apply default_both. Qed.

(** length, number of batch dimensions and structured type follow the batch shape *)
Theorem C40_len : forall c o s, c <> CNil -> solid c -> conforms c o -> has_batch s c o ->
  exists b, get_batch c o = Some b /\ get_ndim b = Some (length s) /\ get_len b = Some (nth 0 s 1) /\
    structured_type b = match s with [] => SINGLE | _ => BATCHED end.
Proof.
  intros c o s HN HS HC HB. apply C40_reports in HB; auto. exists (Batch s). split; [exact HB|]. destruct s; auto.
Qed.

(** refutation: with a nested class that has no fields, a batched default instance is
    reported unstructured although every array has the batch shape *)
Theorem C40_empty_nested_refuted : exists c, c <> CNil /\
  forall s, has_batch s c (default_obj s c) /\ (s <> [] -> get_batch c (default_obj s c) = Some Unstr).
Proof.
  exists (CCons "x" (Prim (DUInt 32) [] None false 0%Z) (CCons "e" (Nest CNil []) CNil))%string. split; [discriminate|].
  intros s. split; [cbn; auto|]. intros HS. cbn. rewrite app_nil_r. destruct s; [congruence|]. cbn. reflexivity.
Qed.
(** an inconsistent nested instance in an array-shaped field makes the query raise *)
Theorem C40_nested_unstructured_raises : exists c o, c <> CNil /\ solid c /\ conforms c o /\ get_batch c o = None.
Proof.
  exists (CCons "q" (Nest (CCons "u" (Prim (DUInt 8) [] None false 0%Z) (CCons "w" (Prim (DUInt 8) [] None false 0%Z) CNil)) [2]) CNil)%string.
  exists (OCons "q" (VObj (OCons "u" (VArr (full (DUInt 8) [2] 0%Z)) (OCons "w" (VArr (full (DUInt 8) [3] 0%Z)) ONil))) ONil)%string.
  split; [discriminate|]. split; [cbn; intuition discriminate|]. split; [cbn; tauto|]. reflexivity.
Qed.

(** ** The cache *)
Definition cache_ok (c : class) (i : inst) : Prop := match icache i with None => True | Some b => get_batch c (iobj i) = Some b end.
(** reading never changes the answer, for any number of reads of an unmodified instance *)
Theorem C40_cached_reads : forall c o k,
  let i := Nat.iter k (fun i => snd (read_shape c i)) (fresh o) in fst (read_shape c i) = get_batch c o.
Proof.
  intros c o k i. assert (H : iobj i = o /\ cache_ok c i).
  { unfold i. clear i. induction k as [|k [IH1 IH2]]; [split; [reflexivity|exact I]|]. cbn [Nat.iter nat_rect].
    change (nat_rect _ _ _ k) with (Nat.iter k (fun i => snd (read_shape c i)) (fresh o)) in *. set (j := Nat.iter k _ _) in *.
    unfold read_shape. unfold cache_ok in IH2. destruct (icache j) as [b|] eqn:E; cbn [snd]; [split; [exact IH1|unfold cache_ok; now rewrite E]|].
    rewrite IH1. destruct (get_batch c o) as [b|] eqn:EB; cbn [snd]; [split; [reflexivity|exact EB]|]. split; [exact IH1|unfold cache_ok; now rewrite E]. }
  destruct H as [H1 H2]. unfold read_shape. unfold cache_ok in H2. rewrite H1 in *. destruct (icache i) as [b|]; [symmetry; exact H2|].
  destruct (get_batch c o); reflexivity.
Qed.
(** refutation: assigning a field after a read leaves the old answer *)
Theorem C40_stale_cache_refuted : exists c o n v, conforms c o /\
  let i := setattr (snd (read_shape c (fresh o))) n v in conforms c (iobj i) /\
  fst (read_shape c i) <> get_batch c (iobj i).
Proof.
  exists (CCons "x" (Prim (DUInt 8) [] None false 0%Z) CNil)%string. exists (OCons "x" (VArr (full (DUInt 8) [2] 0%Z)) ONil)%string.
  exists "x"%string. exists (VArr (full (DUInt 8) [5] 0%Z)). split; [cbn; auto|]. cbn zeta. split; [cbn; auto|]. cbn. discriminate.
Qed.

(** ** A concrete nested class *)
Definition ex_cls : class := (CCons "pos" (Prim (DUInt 8) [2; 3] None false 255%Z) (CCons "sub" (Nest (CCons "u" (Prim (DInt 32) [] None false 0%Z) (CCons "w" (Prim DBool [4] None false 0%Z) CNil)) [5]) CNil))%string.
Example C40_example : ex_cls <> CNil /\ solid ex_cls /\ conforms ex_cls (default_obj [7; 2] ex_cls) /\ get_batch ex_cls (default_obj [7; 2] ex_cls) = Some (Batch [7; 2]).
Proof. split; [discriminate|]. split; [cbn; intuition discriminate|]. split; [apply default_both|]. reflexivity. Qed.
Example C40_example_unstructured : get_batch ex_cls (set_field (default_obj [7] ex_cls) "pos"%string (VArr (full (DUInt 8) [6; 2; 3] 0%Z))) = Some Unstr.
Proof. reflexivity. Qed.
Print Assumptions C40_reports.
