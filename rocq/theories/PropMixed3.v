(** * PropMixed3.v — property C73: [==], [.at[...].set] and [pad] with other dtypes. *)
From Coq Require Import String.
From Verif Require Import Jax StructModel ArrayModel ArrayFacts ShapeModel PropShape RowsModel RowsLift PropRows PropRows2 PropRows3 PropRows4 EqModel FloatEq PropEq RowsModel2 PropRows5 PropRows6 PropRows7 CompareModel PropCompare PropSafeCast PropBlock PromoteModel FloatRound PropPromote PropRandom PropMixed PropMixed2.

(** ** Specification: two entries, of two dtypes, that are the same number (or the same infinity) *)
Definition infinite (dt : dtype) (neg : bool) (z : Z) : Prop := match dt with DFloat w => fmag w z = inf_pat w /\ (2 ^ (Z.of_nat w - 1) <=? z)%Z = neg | _ => False end.
Definition same_value (f g : dtype) (z z' : Z) : Prop :=
  (exists x, represents f z x /\ represents g z' x) \/ exists neg, infinite f neg z /\ infinite g neg z'.

Local Open Scope Z_scope.
Lemma entry_cases f z : standard f -> in_dtype f z -> (exists x, represents f z x) \/ (exists v neg, f = DFloat v /\ infinite f neg z) \/ (exists v, f = DFloat v /\ is_nan v z = true).
Proof.
  intros Hf HD. destruct f as [|w|w|w]; try (left; eexists; reflexivity). cbn [standard] in Hf. destruct (is_nan w z) eqn:EN; [right; right; eauto|]. unfold is_nan in EN. apply Z.ltb_ge in EN. destruct (Z.eq_dec (fmag w z) (inf_pat w)) as [E|NE].
  - right; left. exists w, (2 ^ (Z.of_nat w - 1) <=? z). split; [reflexivity|]. split; [exact E|reflexivity].
  - left. eexists. apply (represents_float w Hf z _ HD). split; [lia|reflexivity].
Qed.
Lemma represents_fun f z x x' : represents f z x -> represents f z x' -> x = x'.
Proof. destruct f as [|w|w|w]; cbn [represents]; intros H H'; try congruence. destruct H as (v & E & _ & ->), H' as (v' & E' & _ & ->). congruence. Qed.
Lemma finite_not_inf f z x neg : represents f z x -> ~ infinite f neg z.
Proof. destruct f as [|w|w|w]; cbn [represents infinite]; [tauto..|]. intros (v & _ & NI & _) [E _]. congruence. Qed.
Lemma finite_not_nan w z x : float_width w -> in_dtype (DFloat w) z -> represents (DFloat w) z x -> is_nan w z = false.
Proof. intros HW HD HR. apply (represents_float w HW z x HD) in HR. unfold is_nan. apply Z.ltb_ge. lia. Qed.
Lemma inf_not_nan w z neg : infinite (DFloat w) neg z -> is_nan w z = false.
Proof. intros [E _]. unfold is_nan. apply Z.ltb_ge. lia. Qed.
Lemma inf_conv v w z neg : float_width v -> float_width w -> in_dtype (DFloat v) z -> infinite (DFloat v) neg z -> infinite (DFloat w) neg (conv (DFloat v) (DFloat w) z).
Proof.
  intros HV HW HD [E1 E2]. unfold conv, dtype_eqb. destruct (dtype_eq_dec (DFloat v) (DFloat w)) as [E|NE]; [injection E as <-; split; assumption|]. assert (is_nan v z = false) as -> by (unfold is_nan; apply Z.ltb_ge; lia). rewrite E1, Z.eqb_refl, E2.
  assert (HI : 0 <= inf_pat w <= inf_pat w) by (pose proof (inf_form w HW); pose proof (E1_four w HW); pose proof (M_pos w HW); nia). split; [now apply (signed_parts w HW)|now apply sign_bit].
Qed.
(** equality of two entries of one dtype *)
Lemma eqb_numbers t z z' : standard t -> in_dtype t z -> in_dtype t z' -> (elt_eqb t z z' = true <-> same_value t t z z').
Proof.
  intros Ht HD HD'. destruct t as [|w|w|w].
  1-3: cbn [elt_eqb]; rewrite Z.eqb_eq; unfold same_value; cbn [represents infinite]; split; [intros ->; left; eauto|intros [(x & -> & E)|(neg & [] & _)]]; apply Z.mul_reg_r in E; [exact E|apply Z.pow_nonzero; lia].
  cbn [standard] in Ht. rewrite (fval_inj w Ht z z' HD HD'). pose proof (low_range w Ht) as LR. assert (HU : 0 < 2 ^ low_exp w) by (apply Z.pow_pos_nonneg; lia). split.
  - intros (v & E1 & E2). destruct (entry_cases (DFloat w) z Ht HD) as [[x Hx]|[(v0 & neg & _ & Hi)|(v0 & [= <-] & Hn)]].
    + left. exists x. split; [exact Hx|]. destruct Hx as (v' & E3 & NI & ->). assert (v' = v) by congruence. subst v'. exists v. split; [exact E2|]. split; [|reflexivity]. intros EI.
      assert (K : infinite (DFloat w) (2 ^ (Z.of_nat w - 1) <=? z') z') by (split; [exact EI|reflexivity]). destruct (pattern_split w Ht z HD) as [PZ K0]. assert (LZ : fmag w z < inf_pat w) by (assert (is_nan w z = false) as EN by (destruct (is_nan w z) eqn:EN; [apply (is_nan_spec w Ht) in EN; [congruence|exact HD]|reflexivity]); unfold is_nan in EN; apply Z.ltb_ge in EN; lia).
      destruct (signed_parts w Ht (2 ^ (Z.of_nat w - 1) <=? z) (fmag w z) ltac:(lia)) as (_ & _ & V1). rewrite <- PZ in V1. destruct (pattern_split w Ht z' HD') as [PZ' K0']. destruct (signed_parts w Ht (2 ^ (Z.of_nat w - 1) <=? z') (fmag w z') ltac:(lia)) as (_ & _ & V2). rewrite <- PZ' in V2. rewrite EI in V2.
      pose proof (magval_lt w Ht (fmag w z) (inf_pat w) ltac:(lia)). pose proof (magval_nonneg w Ht (fmag w z) K0). assert (EQ : v = (if 2 ^ (Z.of_nat w - 1) <=? z then -1 else 1) * magval w (fmag w z)) by congruence. assert (EQ' : v = (if 2 ^ (Z.of_nat w - 1) <=? z' then -1 else 1) * magval w (inf_pat w)) by congruence.
      destruct (_ <=? z), (_ <=? z'); lia.
    + right. exists neg. split; [exact Hi|]. destruct Hi as [EI EN]. destruct (pattern_split w Ht z HD) as [PZ K0]. rewrite EN, EI in PZ. assert (HI : 0 <= inf_pat w <= inf_pat w) by lia. destruct (signed_parts w Ht neg (inf_pat w) HI) as (_ & _ & V1). rewrite <- PZ, E1 in V1. injection V1 as ->.
      destruct (pattern_split w Ht z' HD') as [PZ' K0']. assert (LZ' : fmag w z' <= inf_pat w) by (assert (is_nan w z' = false) as EN' by (destruct (is_nan w z') eqn:EN'; [apply (is_nan_spec w Ht) in EN'; [congruence|exact HD']|reflexivity]); unfold is_nan in EN'; apply Z.ltb_ge in EN'; lia).
      destruct (signed_parts w Ht (2 ^ (Z.of_nat w - 1) <=? z') (fmag w z') ltac:(lia)) as (_ & _ & V2). rewrite <- PZ', E2 in V2. injection V2 as V2. pose proof (magval_nonneg w Ht (fmag w z') K0') as N1. assert (N2 : 0 < magval w (inf_pat w)).
      { assert (0 < inf_pat w) by (pose proof (inf_form w Ht); pose proof (E1_four w Ht); pose proof (M_pos w Ht); nia). pose proof (magval_lt w Ht 0 (inf_pat w) ltac:(lia)). pose proof (magval_nonneg w Ht 0 ltac:(lia)). lia. }
      destruct (2 ^ (Z.of_nat w - 1) <=? z') eqn:ES, neg; try lia; (split; [|exact ES]); apply (magval_inj w Ht); lia.
    + exfalso. apply (is_nan_spec w Ht) in Hn; [congruence|exact HD].
  - intros [(x & (v & E1 & N1 & ->) & (v' & E2 & N2 & EX))|(neg & [I1 S1] & [I2 S2])].
    + exists v. split; [exact E1|]. rewrite <- low_units in EX. apply Z.mul_reg_r in EX; [|lia]. congruence.
    + assert (EZ : z = z') by (destruct (pattern_split w Ht z HD) as [-> _]; destruct (pattern_split w Ht z' HD') as [-> _]; congruence). subst z'. destruct (pattern_split w Ht z HD) as [PZ K0]. destruct (signed_parts w Ht neg (inf_pat w) ltac:(lia)) as (_ & _ & V1). rewrite I1, S1 in PZ. rewrite <- PZ in V1. eauto.
Qed.
(** converted without loss, [==] says whether the numbers are the same *)
Lemma conv_eqb f g t z z' : standard f -> standard g -> standard t -> keeps_numbers f t -> keeps_numbers g t -> in_dtype f z -> in_dtype g z' ->
  (elt_eqb t (conv f t z) (conv g t z') = true <-> same_value f g z z').
Proof.
  intros Hf Hg Ht Kf Kg HD HD'. pose proof (C72_lands f t z Hf Ht HD) as L1. pose proof (C72_lands g t z' Hg Ht HD') as L2. rewrite (eqb_numbers t _ _ Ht L1 L2).
  assert (X1 : forall x, represents f z x -> represents t (conv f t z) x) by (intros x Hx; destruct (Kf z x HD Hx) as (y & ? & ?); apply C72_exact; eauto). assert (X2 : forall x, represents g z' x -> represents t (conv g t z') x) by (intros x Hx; destruct (Kg z' x HD' Hx) as (y & ? & ?); apply C72_exact; eauto).
  assert (I1 : forall neg, infinite f neg z -> infinite t neg (conv f t z)).
  { intros neg HI. destruct f as [|v|v|v]; [destruct HI..|]. cbn [standard] in Hf. destruct (is_float t) eqn:Ft; [|exfalso; revert Kf; now apply float_to_int]. destruct t as [|w|w|w]; try discriminate. now apply inf_conv. }
  assert (I2 : forall neg, infinite g neg z' -> infinite t neg (conv g t z')).
  { intros neg HI. destruct g as [|v|v|v]; [destruct HI..|]. cbn [standard] in Hg. destruct (is_float t) eqn:Ft; [|exfalso; revert Kg; now apply float_to_int]. destruct t as [|w|w|w]; try discriminate. now apply inf_conv. }
  assert (N1 : forall v, f = DFloat v -> is_nan v z = true -> exists w, t = DFloat w /\ is_nan w (conv f t z) = true).
  { intros v -> HN. destruct (is_float t) eqn:Ft; [|exfalso; revert Kf; now apply float_to_int]. destruct t as [|w|w|w]; try discriminate. exists w. split; [reflexivity|]. now apply C72_specials. }
  assert (N2 : forall v, g = DFloat v -> is_nan v z' = true -> exists w, t = DFloat w /\ is_nan w (conv g t z') = true).
  { intros v -> HN. destruct (is_float t) eqn:Ft; [|exfalso; revert Kg; now apply float_to_int]. destruct t as [|w|w|w]; try discriminate. exists w. split; [reflexivity|]. now apply C72_specials. }
  split.
  - intros [(x & R1 & R2)|(neg & R1 & R2)].
    + left. exists x. split.
      * destruct (entry_cases f z Hf HD) as [[y Hy]|[(v & neg & _ & Hi)|(v & Ev & Hn)]]; [now rewrite (represents_fun t _ x y R1 (X1 y Hy))|exfalso; exact (finite_not_inf t _ x neg R1 (I1 neg Hi))|]. destruct (N1 v Ev Hn) as (w & Et & EN). subst t. rewrite (finite_not_nan w _ x Ht L1 R1) in EN. discriminate.
      * destruct (entry_cases g z' Hg HD') as [[y Hy]|[(v & neg & _ & Hi)|(v & Ev & Hn)]]; [now rewrite (represents_fun t _ x y R2 (X2 y Hy))|exfalso; exact (finite_not_inf t _ x neg R2 (I2 neg Hi))|]. destruct (N2 v Ev Hn) as (w & Et & EN). subst t. rewrite (finite_not_nan w _ x Ht L2 R2) in EN. discriminate.
    + right. exists neg. split.
      * destruct (entry_cases f z Hf HD) as [[y Hy]|[(v & neg' & _ & Hi)|(v & Ev & Hn)]]; [exfalso; exact (finite_not_inf t _ y neg (X1 y Hy) R1)| |].
        -- pose proof (I1 neg' Hi) as R3. assert (neg' = neg) by (destruct t; [destruct R1..|]; destruct R1, R3; congruence). now subst neg'.
        -- exfalso. destruct (N1 v Ev Hn) as (w & Et & EN). subst t. rewrite (inf_not_nan w _ neg R1) in EN. discriminate.
      * destruct (entry_cases g z' Hg HD') as [[y Hy]|[(v & neg' & _ & Hi)|(v & Ev & Hn)]]; [exfalso; exact (finite_not_inf t _ y neg (X2 y Hy) R2)| |].
        -- pose proof (I2 neg' Hi) as R3. assert (neg' = neg) by (destruct t; [destruct R2..|]; destruct R2, R3; congruence). now subst neg'.
        -- exfalso. destruct (N2 v Ev Hn) as (w & Et & EN). subst t. rewrite (inf_not_nan w _ neg R2) in EN. discriminate.
  - intros [(x & R1 & R2)|(neg & R1 & R2)]; [left; exists x; auto|right; exists neg; auto].
Qed.
Local Close Scope Z_scope.

(** ** [==] and [!=] *)
Lemma loose_arrays : (forall d s v w, loose_v s d v -> loose_v s d w -> Forall2 (fun a b => ashape a = ashape b /\ wfa a /\ wfa b) (arrays_v v) (arrays_v w)) /\
  (forall c s o q, loose s c o -> loose s c q -> Forall2 (fun a b => ashape a = ashape b /\ wfa a /\ wfa b) (arrays o) (arrays q)).
Proof.
  apply desc_class_ind.
  - intros dt ish bits pb fill s [a|o] [b|q] H1 H2; try contradiction. cbn in *. constructor; [|constructor]. destruct H1, H2. split; [congruence|]. split; assumption.
  - intros c IH ish s [a|o] [b|q] H1 H2; try contradiction. cbn in H1, H2. cbn [arrays_v]. eapply IH; eassumption.
  - intros s [|] [|] H1 H2; try contradiction. constructor.
  - intros n d IHd r IHr s [|m v o] [|m' v' q] H1 H2; try contradiction. cbn [loose] in H1, H2. cbn [arrays]. apply Forall2_app; [apply (IHd s); tauto|apply (IHr s); tauto].
Qed.
Lemma loose_zip f : (forall d s v w, loose_v s d v -> loose_v s d w -> zip_v f v w = sequence (map (fun p => f (fst p) (snd p)) (combine (arrays_v v) (arrays_v w)))) /\
  (forall c s o q, loose s c o -> loose s c q -> zip_obj f o q = sequence (map (fun p => f (fst p) (snd p)) (combine (arrays o) (arrays q)))).
Proof.
  apply desc_class_ind.
  - intros dt ish bits pb fill s [a|o] [b|q] H1 H2; try contradiction. cbn. destruct (f a b); reflexivity.
  - intros c IH ish s [a|o] [b|q] H1 H2; try contradiction. exact (IH _ o q H1 H2).
  - intros s [|] [|] H1 H2; try contradiction. reflexivity.
  - intros n d IHd r IHr s [|m v o] [|m' v' q] H1 H2; try contradiction. cbn [loose] in *. cbn [zip_obj arrays].
    assert (String.eqb m m' = true) as -> by (apply String.eqb_eq; destruct H1, H2; congruence).
    rewrite (IHd s v v'), (IHr s o q) by tauto.
    assert (EL : length (arrays_v v) = length (arrays_v v')) by (apply (Forall2_len _ _ _ (proj1 loose_arrays d s v v' ltac:(tauto) ltac:(tauto)))).
    assert (EC : forall (x y u t : list array), length x = length u -> combine (x ++ y) (u ++ t) = (combine x u ++ combine y t)%list).
    { clear. induction x as [|k x IH]; intros y [|k' u] t E; cbn in *; try discriminate; [reflexivity|]. f_equal. apply IH. lia. }
    rewrite EC, map_app, sequence_app by exact EL. reflexivity.
Qed.
Lemma solid_arrays : (forall d s v, solid_d d -> loose_v s d v -> arrays_v v <> []) /\ (forall c s o, (c <> CNil /\ solid c) -> loose s c o -> arrays o <> []).
Proof.
  apply desc_class_ind.
  - intros dt ish bits pb fill s [a|o] _ H; [discriminate|destruct H].
  - intros c IH ish s [a|o] HS H; [destruct H|]. cbn [arrays_v]. eapply IH; [exact HS|exact H].
  - intros s o [HN _]. congruence.
  - intros n d IHd r IHr s [|m v o] [_ [H1 H2]] H; [destruct H|]. destruct H as (_ & K1 & K2). cbn [arrays]. specialize (IHd s v H1 K1). destruct (arrays_v v); [congruence|discriminate].
Qed.
(** [==] of two instances: every pair of entries, converted to the common dtype of its field, is
    the same number *)
Definition same_converted (x64 : bool) (a b : array) : Prop :=
  let t := result_type x64 [adtype a; adtype b] in
  forall idx, inb idx (ashape a) -> same_value t t (conv (adtype a) t (get a idx)) (conv (adtype b) t (get b idx)).
Definition legal_array (x64 : bool) (a : array) : Prop := available x64 (adtype a) /\ Forall (in_dtype (adtype a)) (adata a).
Definition legal (x64 : bool) (o : obj) : Prop := Forall (legal_array x64) (arrays o).
Lemma available_standard x64 dt : available x64 dt -> standard dt.
Proof. unfold available. tauto. Qed.
Lemma legal_get x64 a idx : legal_array x64 a -> wfa a -> inb idx (ashape a) -> in_dtype (adtype a) (get a idx).
Proof. intros [_ H] HW HI. rewrite Forall_forall in H. apply H. unfold get. apply nth_In. rewrite HW. now apply ravel_lt. Qed.
Lemma pair_eq x64 a b : legal_array x64 a -> legal_array x64 b -> ashape a = ashape b -> wfa a -> wfa b ->
  exists r, leaf2_p x64 leaf_eq a b = Some r /\ (r = true <-> same_converted x64 a b).
Proof.
  intros La Lb ES Wa Wb. unfold leaf2_p. set (t := result_type x64 [adtype a; adtype b]).
  destruct (leaf_eq_batch [] (ashape a) (a_conv t a) (a_conv t b)) as (r & E1 & E2); [split; [reflexivity|split; now apply conv_wfa]|reflexivity|symmetry; exact ES|].
  exists r. split; [exact E1|]. rewrite E2. unfold same_converted. fold t. cbn [adtype a_conv].
  assert (At : standard t).
  { apply (available_standard x64). apply C72_available. destruct La, Lb. constructor; [assumption|constructor; [assumption|constructor]]. }
  assert (K : forall idx, inb idx (ashape a) -> (elt_eqb t (get (a_conv t a) idx) (get (a_conv t b) idx) = true <-> same_value t t (conv (adtype a) t (get a idx)) (conv (adtype b) t (get b idx)))).
  { intros idx HI. assert (HI' : inb idx (ashape b)) by congruence. rewrite !conv_get by assumption. apply eqb_numbers; [exact At| |]; apply C72_lands; try exact At; try (eapply available_standard; first [apply La|apply Lb]); eapply legal_get; eassumption. }
  split.
  - intros H idx HI. apply K; [exact HI|]. apply (H [] idx); [constructor|exact HI].
  - intros H i u Hi Hu. inversion Hi; subst. cbn [app]. apply K; [exact Hu|]. now apply H.
Qed.
Theorem C73_eq : forall x64 c B o q, c <> CNil -> solid c -> loose B c o -> loose B c q -> legal x64 o -> legal x64 q ->
  exists r, obj_eq_p x64 o q = Some r /\ (r = true <-> Forall2 (same_converted x64) (arrays o) (arrays q)).
Proof.
  intros x64 c B o q HN HS Ho Hq Lo Lq. unfold obj_eq_p. rewrite (proj2 (loose_zip _) c B o q Ho Hq).
  destruct (sequence_combine (leaf2_p x64 leaf_eq) (same_converted x64) (arrays o) (arrays q)) as (rs & -> & EL & E).
  { pose proof (proj2 loose_arrays c B o q Ho Hq) as HF. unfold legal in Lo, Lq. clear - HF Lo Lq. induction HF as [|a b l m (H1 & H2 & H3) HF IH]; constructor; [|apply IH; [exact (Forall_inv_tail Lo)|exact (Forall_inv_tail Lq)]]. apply pair_eq; auto; [exact (Forall_inv Lo)|exact (Forall_inv Lq)]. }
  assert (NR : rs <> []) by (intros ->; apply (proj2 solid_arrays c B o (conj HN HS) Ho); destruct (arrays o); [reflexivity|discriminate]). rewrite reduce_and by exact NR. eauto.
Qed.
(** when the common dtype of every field represents all numbers of both, [==] compares the
    numbers themselves *)
Definition same_numbers (a b : array) : Prop := forall idx, inb idx (ashape a) -> same_value (adtype a) (adtype b) (get a idx) (get b idx).
Definition lossless (x64 : bool) (a b : array) : Prop := let t := result_type x64 [adtype a; adtype b] in keeps_numbers (adtype a) t /\ keeps_numbers (adtype b) t.
Theorem C73_eq_numbers : forall x64 c B o q, c <> CNil -> solid c -> loose B c o -> loose B c q -> legal x64 o -> legal x64 q -> Forall2 (lossless x64) (arrays o) (arrays q) ->
  exists r, obj_eq_p x64 o q = Some r /\ (r = true <-> Forall2 same_numbers (arrays o) (arrays q)).
Proof.
  intros x64 c B o q HN HS Ho Hq Lo Lq HK. destruct (C73_eq x64 c B o q HN HS Ho Hq Lo Lq) as (r & E1 & E2). exists r. split; [exact E1|]. rewrite E2. pose proof (proj2 loose_arrays c B o q Ho Hq) as HF. unfold legal in Lo, Lq. clear - HK HF Lo Lq.
  assert (P : forall a b, lossless x64 a b -> ashape a = ashape b /\ wfa a /\ wfa b -> legal_array x64 a -> legal_array x64 b -> (same_converted x64 a b <-> same_numbers a b)).
  { intros a b [K1 K2] (ES & Wa & Wb) La Lb. unfold same_converted, same_numbers. set (t := result_type x64 [adtype a; adtype b]) in *.
    assert (At : standard t) by (apply (available_standard x64), C72_available; destruct La, Lb; constructor; [assumption|constructor; [assumption|constructor]]).
    assert (K : forall idx, inb idx (ashape a) -> (same_value t t (conv (adtype a) t (get a idx)) (conv (adtype b) t (get b idx)) <-> same_value (adtype a) (adtype b) (get a idx) (get b idx))).
    { intros idx HI. assert (HI' : inb idx (ashape b)) by congruence. pose proof (legal_get x64 a idx La Wa HI) as D1. pose proof (legal_get x64 b idx Lb Wb HI') as D2. pose proof (available_standard x64 _ (proj1 La)) as S1. pose proof (available_standard x64 _ (proj1 Lb)) as S2.
      rewrite <- (eqb_numbers t); [apply conv_eqb; assumption|exact At|now apply C72_lands|now apply C72_lands]. }
    split; intros H idx HI; apply K; auto. }
  induction HF as [|a b l m HP HF IH]; [split; constructor|]. inversion HK as [|? ? ? ? K1 K2]; subst. specialize (IH (Forall_inv_tail Lo) (Forall_inv_tail Lq) K2). specialize (P a b K1 HP (Forall_inv Lo) (Forall_inv Lq)).
  split; intros H; inversion H; subst; constructor; tauto.
Qed.
Lemma zip_neg_p x64 : (forall v w, zip_v (leaf2_p x64 leaf_ne) v w = option_map (map negb) (zip_v (leaf2_p x64 leaf_eq) v w)) /\
  (forall o q, zip_obj (leaf2_p x64 leaf_ne) o q = option_map (map negb) (zip_obj (leaf2_p x64 leaf_eq) o q)).
Proof.
  apply value_obj_ind.
  - intros a [b|q]; [|reflexivity]. cbn [zip_v]. unfold leaf2_p. rewrite leaf_ne_neg. destruct (leaf_eq _ _); reflexivity.
  - intros o IH [b|q]; [reflexivity|]. apply IH.
  - intros [|]; reflexivity.
  - intros n v IHv r IHr [|m w s]; [reflexivity|]. cbn [zip_obj]. destruct (String.eqb n m); [|reflexivity]. rewrite IHv, IHr.
    destruct (zip_v _ v w), (zip_obj _ r s); try reflexivity. cbn [option_map]. now rewrite map_app.
Qed.
Theorem C73_ne : forall x64 o q, obj_ne_p x64 o q = option_map negb (obj_eq_p x64 o q).
Proof.
  intros x64 o q. unfold obj_ne_p, obj_eq_p. rewrite (proj2 (zip_neg_p x64)). destruct (zip_obj _ o q) as [l|]; [|reflexivity]. cbn [option_map].
  destruct l as [|b r]; [reflexivity|]. rewrite reduce_and, reduce_or by discriminate. cbn [option_map]. f_equal.
  induction (b :: r) as [|c t IH]; [reflexivity|]. cbn [map existsb forallb]. rewrite IH. now rewrite negb_andb.
Qed.

(** ** [.at[...].set(value)] and [pad] *)
(** [x]: the entries of one array, converted to the dtype of [x] *)
Definition converted (l : list array) (x : array) : Prop :=
  match l with [a] => ashape x = ashape a /\ entries x (fun idx z => z = conv (adtype a) (adtype x) (get a idx)) | _ => False end.
Lemma conv_like_both :
  (forall d s s' v w, conforms_v d v -> has_v s d v -> loose_v s' d w -> exists u, tmap_v conv_like v [w] = Some u /\ conforms_v d u /\ has_v s' d u /\ each_v converted [w] u) /\
  (forall c s s' o q, conforms c o -> has_batch s c o -> loose s' c q -> exists r, tmap conv_like o [q] = Some r /\ conforms c r /\ has_batch s' c r /\ each converted [q] r).
Proof.
  apply desc_class_ind.
  - intros dt ish bits pb fill s s' [a|o] [b|q] H1 H2 H3; try contradiction. cbn in H1, H2, H3. destruct H1 as [H1 W1], H3 as [W3 H3]. exists (VArr (a_conv (adtype a) b)). split; [reflexivity|]. split; [split; [exact H1|now apply conv_wfa]|]. split; [exact H3|].
    exists [b]. split; [reflexivity|]. cbn [converted]. split; [reflexivity|]. intros idx HI. cbn [adtype a_conv]. apply conv_get; [exact W3|exact HI].
  - intros c IH ish s s' [a|o] [b|q] H1 H2 H3; try contradiction. destruct (IH _ _ o q H1 H2 H3) as (r & E1 & E2 & E3 & E4). exists (VObj r). cbn [tmap_v]. cbn [map as_obj sequence option_map]. rewrite E1. split; [reflexivity|]. split; [exact E2|]. split; [exact E3|]. exists [q]. split; [reflexivity|exact E4].
  - intros s s' [|] [|] H1 H2 H3; try contradiction. exists ONil. split; [reflexivity|]. split; [exact Coq.Init.Logic.I|]. split; [exact Coq.Init.Logic.I|]. repeat constructor.
  - intros n d IHd r IHr s s' [|m v o] [|m' w q] H1 H2 H3; try contradiction. cbn [conforms has_batch loose] in *. destruct H1 as (<- & A1 & A2), H2 as (_ & A3 & A4), H3 as (<- & A5 & A6). destruct (IHd s s' v w A1 A3 A5) as (u & U1 & U2 & U3 & U4). destruct (IHr s s' o q A2 A4 A6) as (z & Z1 & Z2 & Z3 & Z4).
    exists (OCons n u z). cbn [tmap map head_field sequence option_map]. rewrite String.eqb_refl. cbn [map fst snd option_map]. rewrite U1, Z1. split; [reflexivity|]. split; [cbn; auto|]. split; [cbn; auto|]. exists [w], [q]. split; [reflexivity|]. split; [reflexivity|]. split; assumption.
Qed.
Lemma conv_like_ok c B V o v : batched c B o -> loose V c v -> exists v', tree_mapn conv_like [o; v] = Some v' /\ batched c V v' /\ each converted [v] v'.
Proof. intros [H1 H2] H3. destruct (proj2 conv_like_both c B V o v H1 H2 H3) as (r & E1 & E2 & E3 & E4). exists r. split; [exact E1|]. split; [split; assumption|exact E4]. Qed.
Theorem C73_at_set : forall c B o box V v, batched c B o -> box_ok box B -> loose V c v -> V = box_shape box B ->
  exists v' o', each converted [v] v' /\ batched c V v' /\ obj_set_p box o v = Some o' /\ batched c B o' /\
    (forall b, inb b B -> in_box box b = true -> inb (offset box b) V /\ elem b o' = elem (offset box b) v') /\
    (forall b, inb b B -> in_box box b = false -> elem b o' = elem b o).
Proof.
  intros c B o box V v Ho HK Hv HV. destruct (conv_like_ok c B V o v Ho Hv) as (v' & E1 & E2 & E3). exists v', (set_box box o v'). split; [exact E3|]. split; [exact E2|]. split; [unfold obj_set_p; now rewrite E1|]. exact (C41_at_set c B o box V v' Ho HK E2 HV).
Qed.
Theorem C73_at_set_one : forall c B o box v, batched c B o -> box_ok box B -> loose [] c v ->
  exists v' o', each converted [v] v' /\ batched c [] v' /\ obj_set_p box o v = Some o' /\ batched c B o' /\
    (forall b, inb b B -> in_box box b = true -> elem b o' = v') /\
    (forall b, inb b B -> in_box box b = false -> elem b o' = elem b o).
Proof.
  intros c B o box v Ho HK Hv. destruct (conv_like_ok c B [] o v Ho Hv) as (v' & E1 & E2 & E3). exists v', (set_box box o v'). split; [exact E3|]. split; [exact E2|]. split; [unfold obj_set_p; now rewrite E1|]. exact (C41_at_set_one c B o box v' Ho HK E2).
Qed.
Definition no_padding (pads : list (nat * nat)) : Prop := Forall (eq (0, 0)) pads.
Lemma no_padding_spec pads : forallb (fun p => (fst p =? 0) && (snd p =? 0)) pads = true <-> no_padding pads.
Proof.
  rewrite forallb_forall. unfold no_padding. rewrite Forall_forall. split; intros H p Hp; specialize (H p Hp).
  - apply andb_true_iff in H. destruct H as [H1 H2]. apply Nat.eqb_eq in H1, H2. destruct p; cbn in *; congruence.
  - now subst p.
Qed.
(** [pad] that adds something gives the declared dtypes: the numbers are converted to them; [pad]
    that adds nothing returns the instance with its own dtypes *)
Theorem C73_pad : forall c B o pads, c <> CNil -> solid c -> loose B c o -> B <> [] -> length pads = length B ->
  (no_padding pads -> obj_pad_p c pads o = Some o) /\
  (~ no_padding pads -> exists v' r, each converted [o] v' /\ batched c B v' /\ obj_pad_p c pads o = Some r /\ batched c (pad_shape B pads) r /\
     (forall s, inb s B -> elem (shifted pads s) r = elem s v') /\
     (forall b, inb b (pad_shape B pads) -> (forall s, inb s B -> b <> shifted pads s) -> elem b r = default_obj [] c)).
Proof.
  intros c B o pads HN HS Ho HB HL. unfold obj_pad_p. rewrite (loose_get c B o HN HS Ho). destruct B as [|d B]; [congruence|]. rewrite HL, Nat.eqb_refl. rewrite <- no_padding_spec. split; [intros ->; reflexivity|]. intros HP. apply not_true_is_false in HP. rewrite HP.
  destruct (proj2 default_both c (pad_shape (d :: B) pads)) as [D1 D2]. destruct (conv_like_ok c _ (d :: B) (default_obj (pad_shape (d :: B) pads) c) o (conj D1 D2) Ho) as (v' & E1 & E2 & E3).
  destruct (C41_pad c (d :: B) v' pads HN HS E2 HB HL) as (r & F1 & F2 & F3 & F4). exists v', r. split; [exact E3|]. split; [exact E2|]. split; [|split; [exact F2|split; [exact F3|exact F4]]].
  rewrite <- F1. unfold obj_pad. destruct E2 as [C1 C2]. rewrite (proj2 (C40_reports c v' (d :: B) HN HS C1) C2), HL, Nat.eqb_refl, HP. unfold obj_set_p. fold (pad_shape (d :: B) pads). now rewrite E1.
Qed.
(** one instance, padded to a row of [1 + x + y] *)
Theorem C73_pad_one : forall c o x y, c <> CNil -> solid c -> loose [] c o ->
  (x + y = 0 -> obj_pad_p c [(x, y)] o = Some o) /\
  (x + y <> 0 -> exists v' r, each converted [o] v' /\ batched c [] v' /\ obj_pad_p c [(x, y)] o = Some r /\ batched c [1 + x + y] r /\
     forall i, i < 1 + x + y -> elem [i] r = if i =? x then v' else default_obj [] c).
Proof.
  intros c o x y HN HS Ho. unfold obj_pad_p. rewrite (loose_get c [] o HN HS Ho). split.
  - intros E. assert (x = 0 /\ y = 0) as [-> ->] by lia. reflexivity.
  - intros HP. assert (HZ : (x =? 0) && (y =? 0) = false) by (destruct (Nat.eqb_spec x 0), (Nat.eqb_spec y 0); try reflexivity; lia). rewrite HZ.
    destruct (proj2 default_both c [1 + x + y]) as [D1 D2]. destruct (conv_like_ok c _ [] (default_obj [1 + x + y] c) o (conj D1 D2) Ho) as (v' & E1 & E2 & E3).
    destruct (C41_pad_one c v' x y HN HS E2) as (r & F1 & F2). rewrite HZ in F2. exists v', r. split; [exact E3|]. split; [exact E2|]. split; [|exact F2].
    rewrite <- F1. unfold obj_pad. destruct E2 as [C1 C2]. rewrite (proj2 (C40_reports c v' [] HN HS C1) C2), HZ. unfold obj_set_p. now rewrite E1.
Qed.

(** ** Instances of one class: nothing is converted *)
Lemma same_type x64 dt l : available x64 dt -> l <> [] -> Forall (eq dt) l -> result_type x64 l = dt.
Proof.
  intros HA HN HF. rewrite (C72_order x64 l [dt]); [|intros d; rewrite Forall_forall in HF; split; [intros Hd; left; now apply HF|intros [<- |[]]; destruct l as [|e l]; [congruence|left; symmetry; apply HF; now left]]].
  destruct x64; unfold available in HA; destruct HA as [HS HA]; destruct dt as [|w|w|w]; try reflexivity; unfold result_type, canon; cbn [map fold_right join]; destruct (w =? 64) eqn:E; try reflexivity; exfalso; apply Nat.eqb_eq in E; subst w; destruct (HA eq_refl) as (N1 & N2 & N3); congruence.
Qed.
Lemma conv_same t a : adtype a = t -> a_conv t a = a.
Proof. intros <-. unfold a_conv. destruct a as [dt s d]. cbn. f_equal. unfold conv. rewrite dtype_eqb_refl. now rewrite map_id. Qed.
Lemma promoted_same x64 dt f l : available x64 dt -> l <> [] -> Forall (fun a => adtype a = dt) l -> promoted x64 f l = f l.
Proof.
  intros HA HN HF. unfold promoted. rewrite (same_type x64 dt); [|exact HA|destruct l; [congruence|discriminate]|clear HN; induction HF; cbn [map]; constructor; auto].
  f_equal. clear HN. induction HF as [|a l H HF IH]; [reflexivity|]. cbn [map]. now rewrite IH, conv_same.
Qed.
Lemma agree_both x64 f :
  (forall d v vs, dtypes_d (available x64) d -> conforms_v d v -> Forall (conforms_v d) vs -> tmap_v (promoted x64 f) v vs = tmap_v f v vs) /\
  (forall c o os, dtypes (available x64) c -> conforms c o -> Forall (conforms c) os -> tmap (promoted x64 f) o os = tmap f o os).
Proof.
  apply desc_class_ind.
  - intros dt ish bits pb fill [a|o] vs HD H1 H2; [|destruct H1]. cbn [tmap_v].
    assert (K : exists l, vs = map VArr l /\ Forall (fun a => adtype a = dt) l).
    { clear H1. induction H2 as [|v vs H H2 (l & -> & HL)]; [exists []; auto|]. destruct v as [b|]; [|destruct H]. exists (b :: l). split; [reflexivity|]. constructor; [apply H|exact HL]. }
    destruct K as (l & -> & HL). rewrite seq_arr. rewrite (promoted_same x64 dt); [reflexivity|exact HD|discriminate|]. constructor; [apply H1|exact HL].
  - intros c IH ish [a|o] vs HD H1 H2; [destruct H1|]. cbn [tmap_v].
    assert (K : exists l, vs = map VObj l /\ Forall (conforms c) l).
    { clear H1. induction H2 as [|v vs H H2 (l & -> & HL)]; [exists []; auto|]. destruct v as [|b]; [destruct H|]. exists (b :: l). split; [reflexivity|]. constructor; [exact H|exact HL]. }
    destruct K as (l & -> & HL). rewrite seq_obj. now rewrite (IH o l HD H1 HL).
  - intros [|] os HD H1 H2; [|destruct H1]. reflexivity.
  - intros n d IHd r IHr [|m v q] os HD H1 H2; [destruct H1|]. cbn [conforms] in H1. destruct H1 as (<- & A1 & A2). destruct HD as [D1 D2].
    assert (K : exists l, os = map (fun p => OCons n (fst p) (snd p)) l /\ Forall (conforms_v d) (map fst l) /\ Forall (conforms r) (map snd l)).
    { induction H2 as [|o os H H2 (l & -> & L1 & L2)]; [exists []; cbn; auto|]. destruct o as [|m w p]; [destruct H|]. destruct H as (<- & B1 & B2). exists ((w, p) :: l). split; [reflexivity|]. cbn [map fst snd]. split; constructor; assumption. }
    destruct K as (l & -> & L1 & L2). cbn [tmap]. rewrite seq_head. rewrite (IHd v _ D1 A1 L1), (IHr q _ D2 A2 L2). reflexivity.
Qed.
Lemma agree x64 f c os : dtypes (available x64) c -> Forall (conforms c) os -> tree_mapn (promoted x64 f) os = tree_mapn f os.
Proof. intros HD HO. destruct os as [|o os]; [reflexivity|]. cbn [tree_mapn]. apply (proj2 (agree_both x64 f) c); [exact HD|exact (Forall_inv HO)|exact (Forall_inv_tail HO)]. Qed.
Theorem C73_agree : forall x64 c os axis, dtypes (available x64) c -> Forall (conforms c) os ->
  obj_concat_p x64 c axis os = obj_concat c axis os /\ obj_stack_p x64 c axis os = obj_stack c axis os /\
  (forall o q, conforms c o -> conforms c q -> obj_eq_p x64 o q = obj_eq o q /\ (forall cond, obj_where_p x64 cond o q = obj_where cond o q) /\
     (forall box, obj_set_p box o q = Some (set_box box o q))).
Proof.
  intros x64 c os axis HD HO. assert (ES : obj_stack_p x64 c axis os = obj_stack c axis os).
  { unfold obj_stack_p, obj_stack. destruct os as [|o1 [|o2 os]]; [reflexivity|reflexivity|]. now rewrite (agree x64 _ c _ HD HO). }
  split; [|split; [exact ES|]].
  - unfold obj_concat_p, obj_concat. destruct os as [|o1 [|o2 os]]; [reflexivity|reflexivity|]. now rewrite (agree x64 _ c _ HD HO), ES.
  - intros o q Ho Hq. split; [|split].
    + unfold obj_eq_p, obj_eq. rewrite (proj2 (zip_sequence _) c o q Ho Hq), (proj2 (zip_sequence _) c o q Ho Hq). f_equal. 
      assert (E : map (fun p => leaf2_p x64 leaf_eq (fst p) (snd p)) (combine (arrays o) (arrays q)) = map (fun p => leaf_eq (fst p) (snd p)) (combine (arrays o) (arrays q))); [|now rewrite E].
      assert (K : (forall d v w, dtypes_d (available x64) d -> conforms_v d v -> conforms_v d w -> Forall2 (fun a b => available x64 (adtype a) /\ adtype b = adtype a) (arrays_v v) (arrays_v w)) /\ (forall c o q, dtypes (available x64) c -> conforms c o -> conforms c q -> Forall2 (fun a b => available x64 (adtype a) /\ adtype b = adtype a) (arrays o) (arrays q))).
      { clear. apply desc_class_ind.
        - intros dt ish bits pb fill [a|o] [b|q] HD H1 H2; try contradiction. cbn [dtypes_d conforms_v arrays_v] in *. destruct H1 as [E1 _], H2 as [E2 _]. constructor; [rewrite E1; auto|constructor].
        - intros c IH ish [a|o] [b|q] HD H1 H2; try contradiction. exact (IH o q HD H1 H2).
        - intros [|] [|] HD H1 H2; try contradiction. constructor.
        - intros n d IHd r IHr [|m v o] [|m' v' q] HD H1 H2; try contradiction. cbn [conforms dtypes] in *. cbn [arrays]. apply Forall2_app; [apply IHd; tauto|apply IHr; tauto]. }
      pose proof (proj2 K c o q HD Ho Hq) as HF. clear - HF. induction HF as [|a b l m [HA HE] HF IH]; [reflexivity|]. cbn [combine map fst snd]. rewrite IH. f_equal. unfold leaf2_p. rewrite (same_type x64 (adtype a)); [now rewrite !conv_same|exact HA|discriminate|]. constructor; [reflexivity|]. constructor; [now rewrite HE|constructor].
    + intros cond. unfold obj_where_p, obj_where. apply (agree x64 _ c); [exact HD|]. constructor; [exact Ho|]. constructor; [exact Hq|constructor].
    + intros box. unfold obj_set_p.
      assert (K : (forall d v w, conforms_v d v -> conforms_v d w -> tmap_v conv_like v [w] = Some w) /\ (forall c o q, conforms c o -> conforms c q -> tmap conv_like o [q] = Some q)).
      { clear. apply desc_class_ind.
        - intros dt ish bits pb fill [a|o] [b|q] H1 H2; try contradiction. cbn in *. destruct H1 as [E1 _], H2 as [E2 _]. rewrite conv_same; [reflexivity|congruence].
        - intros c IH ish [a|o] [b|q] H1 H2; try contradiction. cbn [tmap_v map as_obj sequence option_map]. now rewrite (IH o q H1 H2).
        - intros [|] [|] H1 H2; try contradiction. reflexivity.
        - intros n d IHd r IHr [|m v o] [|m' w q] H1 H2; try contradiction. cbn [conforms] in *. destruct H1 as (<- & A1 & A2), H2 as (<- & B1 & B2). cbn [tmap map head_field sequence option_map]. rewrite String.eqb_refl. cbn [map fst snd option_map sequence]. now rewrite (IHd v w A1 B1), (IHr o q A2 B2). }
      cbn [tree_mapn]. now rewrite (proj2 K c o q Ho Hq).
Qed.

(** ** Comparing numbers of different dtypes can lose them *)
Definition num (dt : dtype) (z : Z) : obj := OCons "x"%string (VArr (MkArr dt [] [z])) ONil.
(** [==] is not transitive: the int32 2^24+1 equals the float32 2^24, which equals the int32 2^24;
    without x64 the uint32 2^32-1 equals the int32 -1 *)
Theorem C73_eq_lossy :
  obj_eq_p false (num (DInt 32) 16777217) (num (DFloat 32) 1266679808) = Some true /\
  obj_eq_p false (num (DFloat 32) 1266679808) (num (DInt 32) 16777216) = Some true /\
  obj_eq_p false (num (DInt 32) 16777217) (num (DInt 32) 16777216) = Some false /\
  obj_eq_p false (num (DUInt 32) 4294967295) (num (DInt 32) (-1)) = Some true /\
  obj_eq_p true (num (DUInt 32) 4294967295) (num (DInt 32) (-1)) = Some false.
Proof. vm_compute. repeat split; reflexivity. Qed.

(** ** A concrete case *)
Definition point : class := CCons "x"%string (Prim (DInt 16) [] None false 0%Z) CNil.
Definition line (dt : dtype) (d : list Z) : obj := OCons "x"%string (VArr (MkArr dt [length d] d)) ONil.
(** int16 300 and float16 0.5 (0x3800), 65504 (0x7BFF): concat is float16; set into int16 truncates;
    pad with nothing keeps float16, pad by one gives int16 *)
Example C73_example :
  loose [2] point (line (DFloat 16) [14336; 31743]%Z) /\ ~ batched point [2] (line (DFloat 16) [14336; 31743]%Z) /\ legal false (line (DFloat 16) [14336; 31743]%Z) /\
  obj_concat_p false point 0%Z [line (DInt 16) [300]%Z; line (DFloat 16) [14336; 31743]%Z] = Some (line (DFloat 16) [23728; 14336; 31743]%Z) /\
  obj_set_p [(1, 2)] (line (DInt 16) [7; 8; 9]%Z) (line (DFloat 16) [15872; 23728]%Z) = Some (line (DInt 16) [7; 1; 300]%Z) /\
  obj_pad_p point [(0, 0)] (line (DFloat 16) [15872; 23728]%Z) = Some (line (DFloat 16) [15872; 23728]%Z) /\
  obj_pad_p point [(1, 0)] (line (DFloat 16) [15872; 23728]%Z) = Some (line (DInt 16) [0; 1; 300]%Z) /\
  obj_result_type false [line (DInt 16) [300]%Z; line (DFloat 16) [14336; 31743]%Z] = Some [DFloat 16] /\
  obj_eq_p false (num (DInt 8) 3) (num (DFloat 16) 16896) = Some true /\ lossless false (MkArr (DInt 8) [] [3%Z]) (MkArr (DFloat 16) [] [16896%Z]).
Proof.
  split; [cbn; repeat split; reflexivity|]. split; [intros [H _]; cbn in H; destruct H as (_ & [H _] & _); discriminate|].
  split; [constructor; [|constructor]; split; [split; [now left|intros _; repeat split; discriminate]|]; repeat constructor; cbn; lia|].
  split; [vm_compute; reflexivity|]. split; [vm_compute; reflexivity|]. split; [vm_compute; reflexivity|]. split; [vm_compute; reflexivity|]. split; [vm_compute; reflexivity|]. split; [vm_compute; reflexivity|].
  split; [|intros z x HD HR; exists z; auto].
  apply C70_safe_rule; [now left|now left|discriminate|reflexivity].
Qed.
Print Assumptions C73_bring. Print Assumptions C73_concat. Print Assumptions C73_stack. Print Assumptions C73_where. Print Assumptions C73_equal. Print Assumptions C73_result_type. Print Assumptions C73_astype. Print Assumptions C73_eq. Print Assumptions C73_eq_numbers. Print Assumptions C73_ne. Print Assumptions C73_at_set. Print Assumptions C73_at_set_one. Print Assumptions C73_pad. Print Assumptions C73_agree. Print Assumptions C73_eq_lossy.
