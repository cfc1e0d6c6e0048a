(** * PropDescriptor.v — property C50: field descriptors and the defaults they declare. *)
From Coq Require Import String.
From Verif Require Import Jax StructModel ArrayModel ArrayFacts ShapeModel PropShape RowsModel RowsLift PropRows EqModel FloatEq PropEq BitpackModel BitpackBytes PropIO PropAgg2 ConstructModel.
Local Open Scope nat_scope.

(** ** Construction *)
Definition bits_ok (b : option Z) : Prop := forall z, b = Some z -> (1 <= z <= 32)%Z.
Lemma in_1_32_spec b : in_1_32 b = true <-> bits_ok b.
Proof.
  unfold bits_ok. destruct b as [z|]; cbn [in_1_32]; [|split; [intros _ z E; discriminate|auto]]. rewrite andb_true_iff, !Z.leb_le. split; [intros H y E; injection E as <-; exact H|auto].
Qed.
Lemma is_some_spec {A} (x : option A) : is_some x = true <-> x <> None.
Proof. destruct x; cbn; split; congruence. Qed.
(** accepted arguments *)
Theorem C50_accepts : forall t s fill bits packed ud us fac val,
  (exists d, new_descriptor t s fill bits packed ud us fac val = Some d) <-> (fill = None \/ fac = None) /\ bits_ok bits /\ bits_ok packed.
Proof.
  intros t s fill bits packed ud us fac val. unfold new_descriptor.
  assert (K : is_some fill && is_some fac = false <-> (fill = None \/ fac = None)) by (destruct fill, fac; cbn; intuition discriminate).
  destruct (is_some fill && is_some fac) eqn:E1.
  - split; [intros [d H]; discriminate|]. intros [H _]. apply K in H. discriminate.
  - destruct (in_1_32 bits) eqn:E2; cbn [negb].
    + destruct (in_1_32 packed) eqn:E3; cbn [negb].
      * split; [|eauto]. intros _. split; [now apply K|]. split; now apply in_1_32_spec.
      * split; [intros [d H]; discriminate|]. intros (_ & _ & H). apply in_1_32_spec in H. congruence.
    + split; [intros [d H]; discriminate|]. intros (_ & H & _). apply in_1_32_spec in H. congruence.
Qed.
(** and what the descriptor then says *)
Theorem C50_attributes : forall t s fill bits packed ud us fac val d, new_descriptor t s fill bits packed ud us fac val = Some d ->
  f_dtype d = t /\ f_shape d = s /\ f_factory d = fac /\ f_bits d = bits /\ f_packed_bits d = packed /\ f_unpacked_dtype d = ud /\ f_unpacked_shape d = us /\ f_validator d = val /\
  (forall z, fill = Some z -> f_fill d = Some z) /\ (fac <> None -> f_fill d = None) /\ (fill = None -> fac = None -> f_fill d = fill_for t).
Proof.
  intros t s fill bits packed ud us fac val d H. unfold new_descriptor in H. destruct (is_some fill && is_some fac) eqn:E; [discriminate|].
  destruct (negb (in_1_32 bits)); [discriminate|]. destruct (negb (in_1_32 packed)); [discriminate|]. injection H as <-. cbn [f_dtype f_shape f_factory f_bits f_packed_bits f_unpacked_dtype f_unpacked_shape f_validator f_fill].
  repeat split; try reflexivity.
  - intros z ->. reflexivity.
  - intros HN. destruct fill, fac; cbn in E; try discriminate; congruence.
  - intros -> ->. reflexivity.
Qed.

(** ** Defaults *)
(** the largest value of the dtype ([+inf] for floats) *)
Definition greatest (dt : dtype) (z : Z) : Prop :=
  in_dtype dt z /\
  match dt with
  | DFloat w => exists v, fval w z = Some v /\ forall y u, in_dtype dt y -> fval w y = Some u -> (u <= v)%Z
  | _ => forall y, in_dtype dt y -> (y <= z)%Z
  end.
Lemma inf_greatest w : float_width w -> greatest (DFloat w) (inf_pat w).
Proof.
  intros HW. pose proof (man_range w HW) as HM. pose proof (M_pos w HW) as HMp. pose proof (E1_pos w HW) as HEp. pose proof (half_eq w HW) as HH. pose proof (full_eq w HW) as HF.
  assert (R : in_dtype (DFloat w) (inf_pat w)) by (cbn [in_dtype]; unfold inf_pat; rewrite HF, HH; set (M := (2 ^ man_bits w)%Z) in *; set (E1 := (2 ^ (Z.of_nat w - 1 - man_bits w))%Z) in *; nia).
  split; [exact R|]. set (M := (2 ^ man_bits w)%Z) in *. set (E1 := (2 ^ (Z.of_nat w - 1 - man_bits w))%Z) in *.
  assert (EI : inf_pat w = ((E1 - 1) * M)%Z) by (unfold inf_pat; rewrite HH; fold M; lia).
  exists (fmagval M (E1 - 1) 0). split.
  - unfold fval. fold M E1. rewrite EI, Z.mod_mul, Z.div_mul by lia. replace (E1 - 1 + 1)%Z with E1 by lia. rewrite (Z.mod_small (E1 - 1)) by lia.
    rewrite Z.eqb_refl. cbn [andb negb Z.eqb]. rewrite HH. destruct (Z.leb_spec (E1 * M) ((E1 - 1) * M)); [nia|]. unfold fmagval. now rewrite Z.mul_1_l.
  - intros y u Hy HU. cbn [in_dtype] in Hy. destruct (parts w HW y Hy) as (sg & e & m & Hs & He & Hm & EZ & EF & E2 & E3 & E4).
    unfold fval in HU. fold M E1 in HU. replace (E1 - 1 + 1)%Z with E1 in HU by lia. fold M E1 in He, Hm, EZ, E2, E3. rewrite E2, E3, E4 in HU.
    pose proof (fmagval_pos M e m ltac:(lia) ltac:(lia) Hm) as [P1 _]. pose proof (fmagval_pos M (E1 - 1) 0 ltac:(lia) ltac:(lia) ltac:(lia)) as [P2 _].
    destruct ((e =? E1 - 1)%Z && negb (m =? 0)%Z) eqn:EN; [discriminate|]. fold (fmagval M e m) in HU. injection HU as HU.
    assert (K : (fmagval M e m <= fmagval M (E1 - 1) 0)%Z).
    { destruct (Z.eqb_spec e (E1 - 1)) as [-> |NE]; [|pose proof (fmagval_lt M e m (E1 - 1) 0 ltac:(lia) ltac:(lia) Hm ltac:(lia)); lia].
      cbn [andb] in EN. apply negb_false_iff, Z.eqb_eq in EN. subst m. lia. }
    destruct (sg =? 1)%Z; lia.
Qed.
(** a field declared without a fill value or factory: batches of False, of the largest value,
    of 0 or of +inf, by dtype *)
Definition supported (dt : dtype) : Prop := match dt with DUInt w => True | DFloat w => float_width w | _ => True end.
Theorem C50_default_fill : forall dt s bits packed ud us val d B, supported dt -> new_descriptor (TArr dt) s None bits packed ud us None val = Some d ->
  exists a, default_field B d = Some (VArr a) /\ adtype a = dt /\ ashape a = B ++ s /\ wfa a /\
    Forall (fun z => match dt with DBool | DInt _ => z = 0%Z | DUInt _ | DFloat _ => greatest dt z end) (adata a).
Proof.
  intros dt s bits packed ud us val d B HS HD. destruct (C50_attributes _ _ _ _ _ _ _ _ _ _ HD) as (E1 & E2 & E3 & _ & _ & _ & _ & _ & _ & _ & E4). specialize (E4 eq_refl eq_refl).
  unfold default_field. rewrite E1, E2, E3, E4. assert (exists z, fill_for (TArr dt) = Some z /\ match dt with DBool | DInt _ => z = 0%Z | DUInt _ | DFloat _ => greatest dt z end) as (z & -> & HZ).
  { destruct dt as [|w|w|w]; cbn [fill_for]; eexists; (split; [reflexivity|]); try reflexivity; [|now apply inf_greatest].
    assert (0 < 2 ^ Z.of_nat w)%Z by (apply Z.pow_pos_nonneg; lia). split; cbn [in_dtype]; [lia|]. intros y Hy. lia. }
  exists (full dt (B ++ s) z). split; [reflexivity|]. split; [reflexivity|]. split; [reflexivity|]. split; [unfold wfa; cbn; now rewrite repeat_length|].
  apply Forall_forall. intros x Hx. cbn in Hx. apply repeat_spec in Hx. now subst.
Qed.
(** the two models of the default fill value agree: a field declared without a fill value or
    factory has [default_fill] of its dtype *)
Theorem C50_same_default : forall dt, supported dt -> fill_for (TArr dt) = Some (default_fill dt).
Proof. intros [|w|w|w] H; try reflexivity. destruct H as [->|[->| ->]]; reflexivity. Qed.
(** a declared fill value is every element; a factory that gives an array of the asked shape
    and dtype is used as is, and it is asked for the batched shape *)
Theorem C50_declared_fill : forall dt s z bits packed ud us val d B, new_descriptor (TArr dt) s (Some z) bits packed ud us None val = Some d ->
  default_field B d = Some (VArr (MkArr dt (B ++ s) (repeat z (prod (B ++ s))))).
Proof.
  intros dt s z bits packed ud us val d B HD. destruct (C50_attributes _ _ _ _ _ _ _ _ _ _ HD) as (E1 & E2 & E3 & _ & _ & _ & _ & _ & E4 & _).
  unfold default_field. rewrite E1, E2, E3, (E4 z eq_refl). reflexivity.
Qed.
Theorem C50_factory : forall dt s fac bits packed ud us val d B, new_descriptor (TArr dt) s None bits packed ud us (Some fac) val = Some d ->
  let a := fac (B ++ s) dt in ashape a = B ++ s -> adtype a = dt -> wfa a -> Forall (in_dtype dt) (adata a) -> match dt with DInt w | DUInt w => 1 <= w | _ => True end ->
  default_field B d = Some (VArr a).
Proof.
  intros dt s fac bits packed ud us val d B HD a ES ED W HV HW. destruct (C50_attributes _ _ _ _ _ _ _ _ _ _ HD) as (E1 & E2 & E3 & _).
  unfold default_field. rewrite E1, E2, E3. fold a. unfold full_array. pose proof (broadcast_batch [] (B ++ s) a ES) as EB. cbn [app length skipn] in EB.
  rewrite <- ES in EB at 2. change (fun idx => get a idx) with (get a) in EB. rewrite (build_get a W) in EB. rewrite EB. cbn [option_map]. do 2 f_equal.
  rewrite <- ES. transitivity (MkArr (adtype a) (ashape a) (adata a)); [|now destruct a]. rewrite ED. f_equal.
  clear - HV HW. induction HV as [|z l Hz HV IH]; [reflexivity|]. cbn [map]. rewrite IH. f_equal. destruct dt; [now apply cast_in|now apply cast_in|now apply cast_in|reflexivity].
Qed.
Theorem C50_nested : forall c s fill bits packed ud us fac val d B, new_descriptor (TCls c) s fill bits packed ud us fac val = Some d ->
  default_field B d = Some (VObj (default_obj (B ++ s) c)).
Proof. intros. destruct (C50_attributes _ _ _ _ _ _ _ _ _ _ H) as (E1 & E2 & _). unfold default_field. now rewrite E1, E2. Qed.

(** ** Packed fields *)
(** the declared storage has exactly the length that packing the values gives, and the default
    logical dtype holds every value of that many bits *)
Theorem C50_packed_length : forall ud s us packed storage fill fac val d, packed_tensor ud (Some s) us packed storage fill fac val = Some d ->
  (1 <= packed <= 32)%Z /\ f_dtype d = TArr storage /\ f_packed_bits d = Some packed /\ f_unpacked_shape d = Some s /\
  (forall vals, length vals = prod s -> (N.of_nat (prod s * Z.to_nat packed) < 2 ^ 32)%N -> f_shape d = [length (pack_value (Z.to_nat packed) vals)]) /\
  (exists u, f_unpacked_dtype d = Some u /\ (ud = Some u \/ (ud = None /\ forall z, (0 <= z < 2 ^ packed)%Z -> in_dtype u z))).
Proof.
  intros ud s us packed storage fill fac val d H. unfold packed_tensor in H. destruct (negb _); [discriminate|].
  pose proof (proj1 (C50_accepts _ _ _ _ _ _ _ _ _) (ex_intro _ d H)) as (_ & _ & HP). specialize (HP packed eq_refl).
  destruct (C50_attributes _ _ _ _ _ _ _ _ _ _ H) as (E1 & E2 & _ & _ & E3 & E4 & E5 & _). split; [exact HP|]. split; [exact E1|]. split; [exact E3|]. split; [exact E5|]. split.
  - intros vals EL HB. rewrite E2. f_equal. rewrite <- EL. symmetry. apply field_roundtrip; [lia|]. now rewrite EL.
  - eexists. split; [exact E4|]. destruct ud as [u|]; [now left|right]. split; [reflexivity|]. intros z Hz. destruct (Z.eqb_spec packed 1) as [-> |]; [cbn; lia|]. destruct (Z.leb_spec packed 8).
    + cbn [in_dtype]. assert (2 ^ packed <= 2 ^ 8)%Z by (apply Z.pow_le_mono_r; lia). change (Z.of_nat 8) with 8%Z. lia.
    + cbn [in_dtype]. assert (2 ^ packed <= 2 ^ 32)%Z by (apply Z.pow_le_mono_r; lia). change (Z.of_nat 32) with 32%Z. lia.
Qed.
Theorem C50_packed_accepts : forall ud shape us packed storage fill fac val,
  (exists d, packed_tensor ud shape us packed storage fill fac val = Some d) <->
  (shape <> None \/ us <> None) /\ (forall s u, shape = Some s -> us = Some u -> u = s) /\ (1 <= packed <= 32)%Z /\ (fill = None \/ fac = None).
Proof.
  intros ud shape us packed storage fill fac val.
  assert (K : forall t s ud' us', (exists d, new_descriptor t s fill None (Some packed) ud' us' fac val = Some d) <-> (1 <= packed <= 32)%Z /\ (fill = None \/ fac = None)).
  { intros. rewrite C50_accepts. unfold bits_ok. split; [intros (H1 & _ & H2); split; [now apply H2|exact H1]|]. intros [H1 H2]. split; [exact H2|]. split; [discriminate|]. intros z E. now injection E as <-. }
  unfold packed_tensor. destruct shape as [s|], us as [u|]; cbn [negb].
  - destruct (shape_eqb u s) eqn:E; cbn [negb].
    + apply shape_eqb_eq in E. subst u. rewrite K. split; [intros [H1 H2]; split; [left; discriminate|]; split; [congruence|auto]|tauto].
    + split; [intros [d H]; discriminate|]. intros (_ & H & _). rewrite (H s u eq_refl eq_refl), shape_eqb_refl in E. discriminate.
  - rewrite K. split; [intros [H1 H2]; split; [left; discriminate|]; split; [congruence|auto]|tauto].
  - rewrite shape_eqb_refl. cbn [negb]. rewrite K. split; [intros [H1 H2]; split; [right; discriminate|]; split; [congruence|auto]|tauto].
  - split; [intros [d H]; discriminate|]. intros [[H|H] _]; congruence.
Qed.
(** refuted: [packed_tensor] accepts a factory.  Its fill value defaults to 0, not to None, so
    a factory without [fill_value=None] is always rejected *)
Theorem C50_packed_factory_refuted : forall ud shape us packed storage fac val, packed_tensor ud shape us packed storage (Some 0%Z) (Some fac) val = None.
Proof.
  intros. destruct (packed_tensor ud shape us packed storage (Some 0%Z) (Some fac) val) as [d|] eqn:E; [|reflexivity].
  pose proof (proj1 (C50_packed_accepts _ _ _ _ _ _ _ _) (ex_intro _ d E)) as (_ & _ & _ & [H|H]); discriminate.
Qed.

(** ** The bracket notation *)
Theorem C50_getitem : forall t s z,
  class_getitem t [] = tensor t [] None None None None None None None /\
  class_getitem t [ITuple s] = tensor t s None None None None None None None /\
  class_getitem t [IValue z] = scalar t None None None None z None None /\
  class_getitem t [ITuple s; IValue z] = tensor t s None None None None z None None /\
  forall a b c r, class_getitem t (a :: b :: c :: r) = None.
Proof. intros t s z. split; [reflexivity|]. split; [reflexivity|]. split; [reflexivity|]. split; [reflexivity|]. intros [] [] c r; reflexivity. Qed.

(** ** Cloning *)
Definition declared (d : fdesc) : Prop := exists t s fill bits packed ud us fac val, new_descriptor t s fill bits packed ud us fac val = Some d.
Lemma declared_facts d : declared d -> bits_ok (f_bits d) /\ bits_ok (f_packed_bits d) /\ (f_fill d = None \/ f_factory d = None) /\ (f_fill d = None -> f_factory d = None -> fill_for (f_dtype d) = None).
Proof.
  intros (t & s & fill & bits & packed & ud & us & fac & val & H). pose proof (proj1 (C50_accepts _ _ _ _ _ _ _ _ _) (ex_intro _ d H)) as (HX & H1 & H2).
  destruct (C50_attributes _ _ _ _ _ _ _ _ _ _ H) as (E1 & _ & E2 & E3 & E4 & _ & _ & _ & E5 & E6 & E7). rewrite E1, E2, E3, E4. split; [exact H1|]. split; [exact H2|]. split.
  - destruct fac as [f|]; [left; now apply E6|now right].
  - intros HF ->. destruct fill as [z|]; [rewrite (E5 z eq_refl) in HF; discriminate|]. now rewrite <- E7.
Qed.
(** a clone without overrides is the same descriptor; overrides change only what they name *)
Theorem C50_clone_same : forall d, declared d -> clone d None None None None None = Some d.
Proof.
  intros d HD. destruct (declared_facts d HD) as (H1 & H2 & H3 & H4). unfold clone. cbn [is_some andb]. unfold new_descriptor.
  assert (is_some (f_fill d) && is_some (f_factory d) = false) as -> by (destruct H3 as [-> | ->]; [reflexivity|destruct (f_fill d); reflexivity]).
  apply in_1_32_spec in H1. apply in_1_32_spec in H2. rewrite H1, H2. cbn [negb]. f_equal. destruct d as [t s fl fc bt pk ud us vl]. cbn [f_dtype f_shape f_fill f_factory f_bits f_packed_bits f_unpacked_dtype f_unpacked_shape f_validator] in *. f_equal.
  destruct fl as [z|]; [reflexivity|]. destruct fc as [f|]; [reflexivity|]. now apply H4.
Qed.
Theorem C50_clone : forall d dt sh fl fc vl d', declared d -> clone d dt sh fl fc vl = Some d' ->
  f_dtype d' = match dt with Some t => t | None => f_dtype d end /\
  f_shape d' = match sh with Some s => s | None => f_shape d end /\
  f_validator d' = match vl with Some v => v | None => f_validator d end /\
  f_bits d' = f_bits d /\ f_packed_bits d' = f_packed_bits d /\ f_unpacked_dtype d' = f_unpacked_dtype d /\ f_unpacked_shape d' = f_unpacked_shape d /\
  (fl = None -> fc = None -> f_factory d' = f_factory d /\ (f_fill d <> None \/ f_factory d <> None -> f_fill d' = f_fill d)) /\
  (forall z, fl = Some z -> fc = None /\ f_factory d' = None /\ f_fill d' = match z with Some _ => z | None => fill_for (f_dtype d') end) /\
  (forall f, fc = Some f -> fl = None /\ f_factory d' = f /\ f_fill d' = match f with Some _ => None | None => fill_for (f_dtype d') end).
Proof.
  intros d dt sh fl fc vl d' HD H. unfold clone in H. destruct (is_some fl && is_some fc) eqn:EX; [discriminate|].
  destruct fl as [fl|], fc as [fc|]; cbn in EX; try discriminate; cbv iota in H;
    destruct (C50_attributes _ _ _ _ _ _ _ _ _ _ H) as (E1 & E2 & E3 & E4 & E5 & E6 & E7 & E8 & E9 & E10 & E11);
    (split; [exact E1|]; split; [exact E2|]; split; [exact E8|]; split; [exact E4|]; split; [exact E5|]; split; [exact E6|]; split; [exact E7|]).
  - split; [discriminate|]. split; [|discriminate]. intros z E. injection E as <-. split; [reflexivity|]. split; [exact E3|]. destruct fl as [z|]; [now apply E9|]. rewrite E1. now apply E11.
  - split; [discriminate|]. split; [discriminate|]. intros f E. injection E as <-. split; [reflexivity|]. split; [exact E3|]. destruct fc as [f|]; [apply E10; discriminate|]. rewrite E1. now apply E11.
  - split; [|split; discriminate]. intros _ _. split; [exact E3|]. intros [HF|HF]; [destruct (f_fill d) as [z|]; [now apply E9|congruence]|].
    destruct (declared_facts d HD) as (_ & _ & [HN|HN] & _); [|congruence]. rewrite HN. apply E10. exact HF.
Qed.
(** refuted: changing the dtype by a clone gives the new dtype's default fill.  The old
    default stays, and need not be a value of the new dtype *)
Theorem C50_clone_dtype_fill_refuted : exists d d', tensor (TArr (DUInt 8)) [] None None None None None None None = Some d /\ clone d (Some (TArr (DInt 8))) None None None None = Some d' /\
  f_fill d' <> fill_for (f_dtype d') /\ exists z, f_fill d' = Some z /\ ~ in_dtype (DInt 8) z.
Proof.
  eexists. eexists. split; [reflexivity|]. split; [reflexivity|]. split; [discriminate|]. eexists. split; [reflexivity|]. cbn. lia.
Qed.
(** prepending a batch to the declared shape is the same as asking [default] for that batch *)
Theorem C50_broadcast : forall d B d' s, declared d -> broadcast_intrinsic_shape d B = Some d' -> default_field s d' = default_field (s ++ B) d.
Proof.
  intros d B d' s HD H. pose proof (C50_clone d None (Some (B ++ f_shape d)) None None None d' HD H) as (E1 & E2 & _ & _ & _ & _ & _ & E3 & _). destruct (E3 eq_refl eq_refl) as [E4 E5].
  unfold default_field. rewrite E1, E2, E4, app_assoc. destruct (f_dtype d) as [dt|c] eqn:ET; [|reflexivity]. destruct (f_factory d) as [f|] eqn:EF; [reflexivity|].
  destruct (declared_facts d HD) as (_ & _ & _ & H4). destruct (f_fill d) as [z|] eqn:EZ; [rewrite E5 by (left; discriminate); reflexivity|].
  specialize (H4 eq_refl EF). rewrite ET in H4. destruct dt; discriminate.
Qed.
Theorem C50_broadcast_accepts : forall d B, declared d -> exists d', broadcast_intrinsic_shape d B = Some d'.
Proof.
  intros d B HD. destruct (declared_facts d HD) as (H1 & H2 & H3 & _). unfold broadcast_intrinsic_shape, clone. cbn [is_some andb]. apply C50_accepts. auto.
Qed.
(** giving a descriptor another intrinsic shape always works and changes nothing else: not the
    fill value, factory, bit widths, unpacked view or validator.  The last shape given counts;
    giving back the old one gives back the descriptor; prepending a batch is one such change *)
Theorem C50_with_shape : forall d s, declared d -> exists d', with_intrinsic_shape d s = Some d' /\
  f_shape d' = s /\
  f_dtype d' = f_dtype d /\ f_fill d' = f_fill d /\ f_factory d' = f_factory d /\ f_bits d' = f_bits d /\ f_packed_bits d' = f_packed_bits d /\
  f_unpacked_dtype d' = f_unpacked_dtype d /\ f_unpacked_shape d' = f_unpacked_shape d /\ f_validator d' = f_validator d /\
  (forall s', with_intrinsic_shape d' s' = with_intrinsic_shape d s') /\
  with_intrinsic_shape d' (f_shape d) = Some d /\
  (forall B, s = B ++ f_shape d -> broadcast_intrinsic_shape d B = Some d') /\
  (forall B, default_field B d' = default_field (B ++ s) (match with_intrinsic_shape d [] with Some e => e | None => d end)).
Proof.
  intros d s HD. assert (K : forall e x, declared e -> with_intrinsic_shape e x = Some {| f_dtype := f_dtype e; f_shape := x; f_fill := f_fill e; f_factory := f_factory e; f_bits := f_bits e; f_packed_bits := f_packed_bits e; f_unpacked_dtype := f_unpacked_dtype e; f_unpacked_shape := f_unpacked_shape e; f_validator := f_validator e |}).
  { intros e x HE. destruct (declared_facts e HE) as (H1 & H2 & H3 & H4). unfold with_intrinsic_shape, clone. cbn [is_some andb]. unfold new_descriptor.
    assert (is_some (f_fill e) && is_some (f_factory e) = false) as -> by (destruct H3 as [-> | ->]; [reflexivity|destruct (f_fill e); reflexivity]).
    apply in_1_32_spec in H1. apply in_1_32_spec in H2. rewrite H1, H2. cbn [negb]. f_equal. f_equal. destruct (f_fill e) as [z|] eqn:EZ; [reflexivity|]. destruct (f_factory e) as [f|] eqn:EF; [reflexivity|]. now apply H4. }
  pose proof (K d s HD) as E. eexists. split; [exact E|].
  assert (HD' : declared {| f_dtype := f_dtype d; f_shape := s; f_fill := f_fill d; f_factory := f_factory d; f_bits := f_bits d; f_packed_bits := f_packed_bits d; f_unpacked_dtype := f_unpacked_dtype d; f_unpacked_shape := f_unpacked_shape d; f_validator := f_validator d |}).
  { unfold with_intrinsic_shape, clone in E. cbn [is_some andb] in E. do 9 eexists. exact E. }
  do 9 (split; [reflexivity|]). split; [|split; [|split]].
  - intros s'. rewrite (K _ s' HD'), (K d s' HD). reflexivity.
  - rewrite (K _ _ HD'). destruct d; reflexivity.
  - intros B ->. exact E.
  - intros B. rewrite (K d [] HD). unfold default_field. cbn [f_dtype f_shape f_fill f_factory]. rewrite app_nil_r. reflexivity.
Qed.

(** ** Concrete cases *)
Example ex_descriptors : exists d d', packed_tensor None (Some [3; 5]) None 12 (DUInt 8) (Some 0%Z) None None = Some d /\ f_shape d = [24] /\ f_unpacked_dtype d = Some (DUInt 32) /\
  broadcast_intrinsic_shape d [2] = Some d' /\ f_shape d' = [2; 24] /\ new_descriptor (TArr (DUInt 8)) [] None (Some 33%Z) None None None None None = None.
Proof. eexists. eexists. split; [reflexivity|]. split; [reflexivity|]. split; [reflexivity|]. split; [reflexivity|]. split; reflexivity. Qed.
