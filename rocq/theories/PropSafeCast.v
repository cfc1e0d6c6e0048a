(** * PropSafeCast.v — property C70: what a "safe" cast keeps. *)
From Coq Require Import String.
From Verif Require Import Jax StructModel ArrayModel ArrayFacts ShapeModel PropShape RowsModel RowsLift PropRows PropRows4 EqModel FloatEq PropEq RowsModel2 PropRows7 CompareModel PropCompare.

(** ** Specification: the finite number an entry stands for, in units of 2^-1074 (the smallest
    positive binary64 number), so that every number of every dtype is an integer *)
Definition units (w : nat) : Z := (man_bits w + 2 ^ (Z.of_nat w - 2 - man_bits w) - 2)%Z.
Definition represents (dt : dtype) (z x : Z) : Prop :=
  match dt with
  | DFloat w => exists v, fval w z = Some v /\ fmag w z <> inf_pat w /\ x = (v * 2 ^ (1074 - units w))%Z
  | _ => x = (z * 2 ^ 1074)%Z
  end.
Definition standard (dt : dtype) : Prop :=
  match dt with
  | DBool => True
  | DUInt w | DInt w => w = 8 \/ w = 16 \/ w = 32 \/ w = 64
  | DFloat w => float_width w
  end.
(** every number of [f] is a number of [t] *)
Definition keeps_numbers (f t : dtype) : Prop :=
  forall z x, in_dtype f z -> represents f z x -> exists z', in_dtype t z' /\ represents t z' x.

Local Open Scope Z_scope.
Lemma units16 : units 16 = 24. Proof. reflexivity. Qed.
Lemma units32 : units 32 = 149. Proof. reflexivity. Qed.
Lemma units64 : units 64 = 1074. Proof. reflexivity. Qed.
(** 1.0 has the value 2^units *)
Lemma units_one w : float_width w -> represents (DFloat w) (one_of (DFloat w)) (2 ^ 1074).
Proof. intros [-> |[-> | ->]]; (eexists; split; [vm_compute; reflexivity|]; split; [vm_compute; discriminate|vm_compute; reflexivity]). Qed.

Section Enc.
Variable w : nat.
Hypothesis HW : float_width w.
Notation man := (man_bits w).
Notation M := (2 ^ man).
Notation E1 := (2 ^ (Z.of_nat w - 1 - man)).
Lemma pattern_parts s e m : s = 0 \/ s = 1 -> 0 <= e < E1 -> 0 <= m < M -> let z := s * (E1 * M) + e * M + m in
  in_dtype (DFloat w) z /\ fmag w z = e * M + m /\ fval w z = (if (e =? E1 - 1) && negb (m =? 0) then None else Some ((if s =? 1 then -1 else 1) * fmagval M e m)).
Proof.
  intros Hs He Hm z. pose proof (M_pos w HW) as HM. pose proof (E1_pos w HW) as HE. assert (HD : in_dtype (DFloat w) z).
  { cbn [in_dtype]. rewrite (full_eq w HW). unfold z. set (P := M) in *. set (Q := E1) in *. destruct Hs as [-> | ->]; nia. }
  split; [exact HD|]. cbn [in_dtype] in HD. destruct (parts w HW z HD) as (s' & e' & m' & Hs' & He' & Hm' & EZ & EF & E2 & E3 & E4). unfold z in EZ.
  assert (s = s' /\ e * M + m = e' * M + m') as [-> EE].
  { apply (digits_inj (E1 * M)); [apply Z.mul_pos_pos; lia|now apply digits_lt|now apply digits_lt|rewrite !Z.add_assoc; exact EZ]. }
  apply digits_inj in EE; [|lia..]. destruct EE as [-> ->]. split; [exact EF|]. unfold fval. rewrite E2. replace (E1 - 1 + 1) with E1 by lia. rewrite E3, E4. reflexivity.
Qed.
Lemma inf_eq : inf_pat w = (E1 - 1) * M.
Proof. unfold inf_pat. rewrite (half_eq w HW). lia. Qed.
(** every n * 2^j whose n fits the significand, and whose exponent fits, is a number *)
Lemma encode s n j : s = 0 \/ s = 1 -> 0 <= n < 2 * M -> 0 <= j -> (n = 0 \/ j + Z.log2 n <= man + E1 - 3) ->
  exists z, in_dtype (DFloat w) z /\ fval w z = Some ((if s =? 1 then -1 else 1) * (n * 2 ^ j)) /\ fmag w z <> inf_pat w.
Proof.
  intros Hs Hn Hj HX. pose proof (M_pos w HW) as HM. pose proof (E1_pos w HW) as HE. pose proof (man_range w HW) as HR. assert (HE2 : 2 <= E1) by lia. assert (HE4 : 4 <= E1).
  { change 4 with (2 ^ 2). apply Z.pow_le_mono_r; [lia|]. unfold man_bits. destruct HW as [-> |[-> | ->]]; cbn; lia. }
  assert (KEY : exists e m, 0 <= e < E1 - 1 /\ 0 <= m < M /\ fmagval M e m = n * 2 ^ j).
  { destruct HX as [-> |HX]; [exists 0, 0; split; [lia|]; split; [lia|]; unfold fmagval; rewrite Z.eqb_refl; lia|].
    assert (n = 0 \/ 0 < n) as [-> |Hp] by lia; [exists 0, 0; split; [lia|]; split; [lia|]; unfold fmagval; rewrite Z.eqb_refl; lia|].
    pose proof (Z.log2_spec n Hp) as [L1 L2]. pose proof (Z.log2_nonneg n) as L0. set (k := Z.log2 n) in *. assert (Hk : k <= man).
    { assert (k < Z.succ man); [|lia]. apply (Z.pow_lt_mono_r_iff 2); [lia|lia|]. rewrite Z.pow_succ_r by lia. lia. }
    destruct (Z.lt_ge_cases (k + j) man) as [C|C].
    - exists 0, (n * 2 ^ j). unfold fmagval. rewrite Z.eqb_refl. split; [lia|]. split; [|reflexivity]. assert (0 < 2 ^ j) by (apply Z.pow_pos_nonneg; lia). split; [nia|].
      assert (n * 2 ^ j < 2 ^ Z.succ k * 2 ^ j) by nia. rewrite <- Z.pow_add_r in H0 by lia. assert (2 ^ (Z.succ k + j) <= M) by (apply Z.pow_le_mono_r; lia). lia.
    - exists (k + j - man + 1), (n * 2 ^ (man - k) - M). split; [lia|]. assert (0 < 2 ^ (man - k)) as HP by (apply Z.pow_pos_nonneg; lia). assert (EM : M = 2 ^ k * 2 ^ (man - k)) by (rewrite <- Z.pow_add_r by lia; f_equal; lia).
      rewrite Z.pow_succ_r in L2 by lia. split; [rewrite EM at 1 3; nia|].
      unfold fmagval. destruct (Z.eqb_spec (k + j - man + 1) 0); [lia|]. replace (M + (n * 2 ^ (man - k) - M)) with (n * 2 ^ (man - k)) by lia. rewrite <- Z.mul_assoc, <- Z.pow_add_r by lia. f_equal. f_equal. lia. }
  destruct KEY as (e & m & He & Hm & EV). destruct (pattern_parts s e m Hs ltac:(lia) Hm) as (H1 & H2 & H3). exists (s * (E1 * M) + e * M + m). split; [exact H1|]. split.
  - rewrite H3, EV. destruct (Z.eqb_spec e (E1 - 1)); [lia|]. reflexivity.
  - rewrite H2, inf_eq. nia.
Qed.
(** and every finite number is of that form *)
Lemma decode z v : in_dtype (DFloat w) z -> fval w z = Some v -> fmag w z <> inf_pat w ->
  exists s n j, (s = 0 \/ s = 1) /\ 0 <= n < 2 * M /\ 0 <= j <= E1 - 3 /\ v = (if s =? 1 then -1 else 1) * (n * 2 ^ j).
Proof.
  intros HD HV HI. cbn [in_dtype] in HD. destruct (parts w HW z HD) as (s & e & m & Hs & He & Hm & EZ & EF & E2 & E3 & E4). unfold fval in HV. rewrite E2 in HV. replace (E1 - 1 + 1) with E1 in HV by lia. rewrite E3, E4 in HV.
  pose proof (M_pos w HW) as HM. assert (HE4 : 4 <= E1).
  { change 4 with (2 ^ 2). apply Z.pow_le_mono_r; [lia|]. pose proof (man_range w HW). unfold man_bits in *. destruct HW as [-> |[-> | ->]]; cbn; lia. }
  destruct ((e =? E1 - 1) && negb (m =? 0)) eqn:EB; [discriminate|]. injection HV as <-. rewrite EF, inf_eq in HI.
  assert (He' : e <> E1 - 1).
  { intros ->. rewrite Z.eqb_refl in EB. cbn [andb] in EB. apply negb_false_iff, Z.eqb_eq in EB. lia. }
  destruct (Z.eqb_spec e 0) as [-> |Hne].
  - exists s, m, 0. split; [exact Hs|]. split; [lia|]. split; [lia|]. now rewrite Z.pow_0_r, Z.mul_1_r.
  - exists s, (M + m), (e - 1). split; [exact Hs|]. split; [lia|]. split; [lia|]. reflexivity.
Qed.
End Enc.
Lemma sgn_form z : exists s, (s = 0 \/ s = 1) /\ z = (if s =? 1 then -1 else 1) * Z.abs z.
Proof. destruct (Z.le_gt_cases 0 z); [exists 0; change (0 =? 1) with false|exists 1; change (1 =? 1) with true]; lia. Qed.
(** integers of at most man+1 bits are numbers of a float dtype *)
Lemma int_to_float v z : float_width v -> Z.abs z < 2 * 2 ^ man_bits v -> Z.log2 (Z.abs z) + units v <= man_bits v + 2 ^ (Z.of_nat v - 1 - man_bits v) - 3 ->
  exists z', in_dtype (DFloat v) z' /\ represents (DFloat v) z' (z * 2 ^ 1074).
Proof.
  intros HV HA HL. destruct (sgn_form z) as (s & Hs & EZ). assert (HU : 0 <= units v <= 1074) by (destruct HV as [-> |[-> | ->]]; vm_compute; split; discriminate).
  destruct (encode v HV s (Z.abs z) (units v) Hs ltac:(lia) ltac:(lia) ltac:(right; lia)) as (z' & H1 & H2 & H3). exists z'. split; [exact H1|]. eexists. split; [exact H2|]. split; [exact H3|].
  rewrite EZ at 1. rewrite <- !Z.mul_assoc, <- Z.pow_add_r by lia. do 3 f_equal. lia.
Qed.
Lemma log2_bound n k : 0 <= k -> 0 <= n < 2 ^ Z.succ k -> Z.log2 n <= k.
Proof. intros Hk Hn. assert (n = 0 \/ 0 < n) as [-> |H] by lia; [cbn; lia|]. assert (Z.log2 n < Z.succ k) by (apply Z.log2_lt_pow2; lia). lia. Qed.
Lemma units_small v : float_width v -> 0 <= units v <= 1074 /\ units v <= 2 ^ (Z.of_nat v - 1 - man_bits v) - 3.
Proof. intros [-> |[-> | ->]]; vm_compute; repeat split; discriminate. Qed.
Lemma small_to_float v z k : float_width v -> 0 <= k <= man_bits v -> Z.abs z <= 2 ^ k -> exists z', in_dtype (DFloat v) z' /\ represents (DFloat v) z' (z * 2 ^ 1074).
Proof.
  intros HV Hk HA. assert (2 ^ k <= 2 ^ man_bits v) by (apply Z.pow_le_mono_r; lia). assert (0 < 2 ^ k) by (apply Z.pow_pos_nonneg; lia). apply int_to_float; [exact HV|lia|].
  pose proof (log2_bound (Z.abs z) k ltac:(lia)) as HL. rewrite Z.pow_succ_r in HL by lia. specialize (HL ltac:(lia)). pose proof (units_small v HV). lia.
Qed.
Lemma widen_float w v : float_width w -> float_width v -> (w < v)%nat -> keeps_numbers (DFloat w) (DFloat v).
Proof.
  intros HW HV HL z x HD (u & EU & HI & ->). destruct (decode w HW z u HD EU HI) as (s & n & j & Hs & Hn & Hj & ->).
  assert (A1 : 0 < man_bits w < man_bits v /\ 0 <= units w <= units v /\ units v <= 1074 /\
    2 ^ (Z.of_nat w - 1 - man_bits w) - 3 + units v - units w + man_bits w <= man_bits v + 2 ^ (Z.of_nat v - 1 - man_bits v) - 3).
  { destruct HW as [-> |[-> | ->]], HV as [-> |[-> | ->]]; try lia; vm_compute; repeat split; try discriminate. }
  assert (2 ^ man_bits w <= 2 ^ man_bits v) by (apply Z.pow_le_mono_r; lia). pose proof (log2_bound n (man_bits w) ltac:(lia)) as LB. rewrite Z.pow_succ_r in LB by lia. specialize (LB ltac:(lia)).
  destruct (encode v HV s n (j + (units v - units w)) Hs ltac:(lia) ltac:(lia) ltac:(right; lia)) as (z' & K1 & K2 & K3). exists z'. split; [exact K1|]. eexists. split; [exact K2|]. split; [exact K3|].
  rewrite <- !Z.mul_assoc, <- !Z.pow_add_r by lia. do 3 f_equal. lia.
Qed.
Lemma pow_split k : 0 <= k -> 2 ^ (k + 1) = 2 * 2 ^ k.
Proof. intros H. rewrite Z.pow_add_r by lia. lia. Qed.
(** one half is a number of every float dtype and of no integer dtype *)
Lemma half_number w : float_width w -> exists z, in_dtype (DFloat w) z /\ represents (DFloat w) z (2 ^ 1073).
Proof.
  intros HW. pose proof (units_small w HW) as [HU HE]. pose proof (M_pos w HW) as HM. pose proof (man_range w HW) as HR. assert (1 <= units w) by (destruct HW as [-> |[-> | ->]]; vm_compute; discriminate).
  destruct (encode w HW 0 1 (units w - 1) (or_introl eq_refl) ltac:(lia) ltac:(lia) ltac:(right; change (Z.log2 1) with 0; lia)) as (z & K1 & K2 & K3). exists z. split; [exact K1|]. eexists. split; [exact K2|]. split; [exact K3|].
  change (0 =? 1) with false. rewrite !Z.mul_1_l, <- Z.pow_add_r by lia. f_equal. lia.
Qed.
Lemma half_not_int z : z * 2 ^ 1074 <> 2 ^ 1073.
Proof. change 1074 with (1073 + 1). rewrite pow_split by lia. assert (0 < 2 ^ 1073) by (apply Z.pow_pos_nonneg; lia). set (h := 2 ^ 1073) in *. clearbody h. intros E. assert (2 * z = 1) by nia. lia. Qed.
(** an odd integer of more than man+1 bits is not a number of a float dtype *)
Lemma odd_not_float v n z' : float_width v -> Z.odd n = true -> 2 * 2 ^ man_bits v <= n -> in_dtype (DFloat v) z' -> ~ represents (DFloat v) z' (n * 2 ^ 1074).
Proof.
  intros HV HO HN HD (u & EU & HI & EX). destruct (decode v HV z' u HD EU HI) as (s & m & j & Hs & Hm & Hj & ->). pose proof (units_small v HV) as [HU _]. pose proof (M_pos v HV) as HM.
  assert (PU : 2 ^ 1074 = 2 ^ units v * 2 ^ (1074 - units v)) by (rewrite <- Z.pow_add_r by lia; f_equal; lia). assert (0 < 2 ^ (1074 - units v)) as HP by (apply Z.pow_pos_nonneg; lia). rewrite PU, Z.mul_assoc in EX. apply Z.mul_reg_r in EX; [|lia]. clear PU.
  assert (0 < 2 ^ units v) by (apply Z.pow_pos_nonneg; lia). assert (0 < 2 ^ j) by (apply Z.pow_pos_nonneg; lia).
  assert (EX' : n * 2 ^ units v = m * 2 ^ j).
  { destruct Hs as [-> | ->]; [change (n * 2 ^ units v = 1 * (m * 2 ^ j)) in EX; lia|]. change (n * 2 ^ units v = -1 * (m * 2 ^ j)) in EX. assert (0 < n * 2 ^ units v) by (apply Z.mul_pos_pos; lia). assert (0 <= m * 2 ^ j) by (apply Z.mul_nonneg_nonneg; lia). lia. }
  destruct (Z.le_gt_cases j (units v)) as [C|C].
  - assert (2 ^ units v = 2 ^ (units v - j) * 2 ^ j) as EP by (rewrite <- Z.pow_add_r by lia; f_equal; lia). rewrite EP, Z.mul_assoc in EX'. apply Z.mul_reg_r in EX'; [|lia]. assert (0 < 2 ^ (units v - j)) by (apply Z.pow_pos_nonneg; lia). nia.
  - assert (2 ^ j = 2 * 2 ^ (j - units v - 1) * 2 ^ units v) as EP.
    { rewrite <- pow_split by lia. rewrite <- Z.pow_add_r by lia. f_equal. lia. }
    rewrite EP, Z.mul_assoc in EX'. apply Z.mul_reg_r in EX'; [|lia]. rewrite EX' in HO. rewrite Z.odd_mul, Z.odd_mul in HO. cbn in HO. now rewrite andb_false_r in HO.
Qed.
(** the smallest positive number of a wider float dtype is not a number of a narrower one *)
Lemma narrow_float w v : float_width w -> float_width v -> (v < w)%nat -> ~ keeps_numbers (DFloat w) (DFloat v).
Proof.
  intros HW HV HL K. assert (A1 : 0 <= units v < units w /\ units w <= 1074) by (destruct HW as [-> |[-> | ->]], HV as [-> |[-> | ->]]; try lia; vm_compute; repeat split; try discriminate).
  destruct (K 1 (2 ^ (1074 - units w))) as (z' & HD & u & EU & HI & EX).
  - cbn [in_dtype]. rewrite (full_eq w HW). pose proof (M_pos w HW). pose proof (E1_pos w HW). nia.
  - exists 1. split; [destruct HW as [-> |[-> | ->]]; vm_compute; reflexivity|]. split; [destruct HW as [-> |[-> | ->]]; vm_compute; discriminate|lia].
  - assert (2 ^ (1074 - units v) = 2 * 2 ^ (units w - units v - 1) * 2 ^ (1074 - units w)) as EP.
    { rewrite <- pow_split by lia. rewrite <- Z.pow_add_r by lia. f_equal. lia. }
    rewrite EP in EX. assert (0 < 2 ^ (1074 - units w)) by (apply Z.pow_pos_nonneg; lia). set (A := 2 ^ (1074 - units w)) in *. set (B := 2 ^ (units w - units v - 1)) in *. clearbody A B. assert (1 = u * (2 * B)) by nia. lia.
Qed.
Lemma int_incl f t : (match f with DFloat _ => False | _ => True end) -> (match t with DFloat _ => False | _ => True end) -> (forall z, in_dtype f z -> in_dtype t z) -> keeps_numbers f t.
Proof. intros Hf Ht H z x HD HR. exists z. split; [auto|]. destruct f, t; try contradiction; exact HR. Qed.
Lemma int_excl f t z : (match f with DFloat _ => False | _ => True end) -> (match t with DFloat _ => False | _ => True end) -> in_dtype f z -> ~ in_dtype t z -> ~ keeps_numbers f t.
Proof.
  intros Hf Ht H1 H2 K. destruct (K z (z * 2 ^ 1074) H1) as (z' & D & R); [destruct f; try contradiction; reflexivity|]. assert (z = z'); [|congruence].
  assert (E : z * 2 ^ 1074 = z' * 2 ^ 1074) by (destruct t; try contradiction; exact R). apply Z.mul_reg_r in E; [exact E|]. apply Z.pow_nonzero; lia.
Qed.
Definition is_float (dt : dtype) : bool := match dt with DFloat _ => true | _ => false end.
Lemma float_to_int w t : float_width w -> is_float t = false -> ~ keeps_numbers (DFloat w) t.
Proof.
  intros HW Ht K. destruct (half_number w HW) as (z & HD & HR). destruct (K z _ HD HR) as (z' & _ & R). assert (E : 2 ^ 1073 = z' * 2 ^ 1074) by (destruct t; try discriminate; exact R). now apply (half_not_int z').
Qed.
Lemma man_vals v : float_width v -> (v = 16%nat /\ man_bits v = 10) \/ (v = 32%nat /\ man_bits v = 23) \/ (v = 64%nat /\ man_bits v = 52).
Proof. intros [-> |[-> | ->]]; auto. Qed.
Lemma int_float_no f v : is_float f = false -> float_width v -> in_dtype f (4 * 2 ^ man_bits v + 1) -> ~ keeps_numbers f (DFloat v).
Proof.
  intros Hf HV HD K. destruct (K (4 * 2 ^ man_bits v + 1) ((4 * 2 ^ man_bits v + 1) * 2 ^ 1074) HD) as (z' & D & R); [destruct f; try discriminate; reflexivity|]. revert R. apply odd_not_float; [exact HV| |pose proof (M_pos v HV); lia|exact D].
  rewrite Z.add_comm, Z.odd_add, Z.odd_mul. reflexivity.
Qed.
(** the rule allows exactly the casts that keep every number, 64-bit integers to binary64 aside *)
Theorem C70_safe_rule : forall f t, standard f -> standard t -> (t = DFloat 64 -> f <> DInt 64 /\ f <> DUInt 64) ->
  (safe_cast f t = true <-> keeps_numbers f t).
Proof.
  intros f t Hf Ht HX. destruct (safe_cast f t) eqn:ES; (split; [intros HH|try reflexivity; intros HH; exfalso; revert HH]); try discriminate.
  - destruct t as [|v|v|v].
    + destruct f; try discriminate. now apply int_incl.
    + destruct f as [|w|w|w]; try discriminate; apply int_incl; auto; intros z; cbn [in_dtype standard safe_cast] in *.
      * intros HZ. assert (1 < 2 ^ Z.of_nat v) by (change 1 with (2 ^ 0); apply Z.pow_lt_mono_r; lia). lia.
      * apply Nat.leb_le in ES. assert (2 ^ Z.of_nat w <= 2 ^ Z.of_nat v) by (apply Z.pow_le_mono_r; lia). lia.
    + destruct f as [|w|w|w]; try discriminate; apply int_incl; auto; intros z; cbn [in_dtype standard safe_cast] in *.
      * intros HZ. assert (1 < 2 ^ (Z.of_nat v - 1)) by (change 1 with (2 ^ 0); apply Z.pow_lt_mono_r; lia). lia.
      * apply Nat.ltb_lt in ES. assert (2 ^ Z.of_nat w <= 2 ^ (Z.of_nat v - 1)) by (apply Z.pow_le_mono_r; lia). lia.
      * apply Nat.leb_le in ES. assert (2 ^ (Z.of_nat w - 1) <= 2 ^ (Z.of_nat v - 1)) by (apply Z.pow_le_mono_r; lia). lia.
    + destruct f as [|w|w|w]; cbn [safe_cast standard] in *.
      * intros z x HZ ->. apply (small_to_float v z 0); [exact Ht|destruct (man_vals v Ht) as [[_ ->]|[[_ ->]|[_ ->]]]; lia|]. cbn [in_dtype] in HZ. change (2 ^ 0) with 1. lia.
      * intros z x HZ ->. assert (KW : (w < v)%nat).
        { apply orb_true_iff in ES. destruct ES as [ES|ES]; [now apply Nat.ltb_lt|]. apply andb_true_iff in ES. destruct ES as [E1 E2]. apply Nat.eqb_eq in E1, E2. subst. destruct (HX eq_refl) as [_ K]. congruence. }
        apply (small_to_float v z (Z.of_nat w)); [exact Ht|destruct (man_vals v Ht) as [[-> ->]|[[-> ->]|[-> ->]]]; lia|]. cbn [in_dtype] in HZ. lia.
      * intros z x HZ ->. assert (KW : (w < v)%nat).
        { apply orb_true_iff in ES. destruct ES as [ES|ES]; [now apply Nat.ltb_lt|]. apply andb_true_iff in ES. destruct ES as [E1 E2]. apply Nat.eqb_eq in E1, E2. subst. destruct (HX eq_refl) as [K _]. congruence. }
        apply (small_to_float v z (Z.of_nat w - 1)); [exact Ht|destruct (man_vals v Ht) as [[-> ->]|[[-> ->]|[-> ->]]]; lia|]. cbn [in_dtype] in HZ. lia.
      * apply Nat.leb_le in ES. destruct (Nat.eq_dec w v) as [-> |]; [intros z x HD HR; eauto|]. apply widen_float; auto. lia.
  - destruct f as [|w|w|w]; [destruct t; discriminate| | |].
    + destruct t as [|v|v|v]; cbn [safe_cast standard] in *.
      * apply (int_excl _ _ 2); auto; cbn [in_dtype]; [|lia]. assert (2 ^ 8 <= 2 ^ Z.of_nat w) by (apply Z.pow_le_mono_r; lia). lia.
      * apply Nat.leb_gt in ES. apply (int_excl _ _ (2 ^ Z.of_nat v)); auto; cbn [in_dtype]; [|lia]. split; [apply Z.pow_nonneg; lia|apply Z.pow_lt_mono_r; lia].
      * apply Nat.ltb_ge in ES. apply (int_excl _ _ (2 ^ (Z.of_nat v - 1))); auto; cbn [in_dtype]; [|lia]. split; [apply Z.pow_nonneg; lia|apply Z.pow_lt_mono_r; lia].
      * apply orb_false_iff in ES. destruct ES as [E1 _]. apply Nat.ltb_ge in E1. apply int_float_no; [reflexivity|exact Ht|]. cbn [in_dtype].
        assert (KW : 2 ^ (man_bits v + 3) <= 2 ^ Z.of_nat w) by (apply Z.pow_le_mono_r; [lia|]; destruct (man_vals v Ht) as [[-> ->]|[[-> ->]|[-> ->]]]; lia). rewrite Z.pow_add_r in KW by (destruct (man_vals v Ht) as [[_ EQ]|[[_ EQ]|[_ EQ]]]; lia). change (2 ^ 3) with 8 in KW. pose proof (M_pos v Ht). lia.
    + destruct t as [|v|v|v]; cbn [safe_cast standard] in *.
      * apply (int_excl _ _ 2); auto; cbn [in_dtype]; [|lia]. assert (2 ^ 7 <= 2 ^ (Z.of_nat w - 1)) by (apply Z.pow_le_mono_r; lia). lia.
      * apply (int_excl _ _ (-1)); auto; cbn [in_dtype]; [|lia]. assert (0 < 2 ^ (Z.of_nat w - 1)) by (apply Z.pow_pos_nonneg; lia). lia.
      * apply Nat.leb_gt in ES. apply (int_excl _ _ (2 ^ (Z.of_nat v - 1))); auto; cbn [in_dtype]; [|lia]. assert (0 < 2 ^ (Z.of_nat w - 1)) by (apply Z.pow_pos_nonneg; lia). split; [assert (0 <= 2 ^ (Z.of_nat v - 1)) by (apply Z.pow_nonneg; lia); lia|apply Z.pow_lt_mono_r; lia].
      * apply orb_false_iff in ES. destruct ES as [E1 _]. apply Nat.ltb_ge in E1. apply int_float_no; [reflexivity|exact Ht|]. cbn [in_dtype].
        assert (KW : 2 ^ (man_bits v + 3) <= 2 ^ (Z.of_nat w - 1)) by (apply Z.pow_le_mono_r; [lia|]; destruct (man_vals v Ht) as [[-> ->]|[[-> ->]|[-> ->]]]; lia). rewrite Z.pow_add_r in KW by (destruct (man_vals v Ht) as [[_ EQ]|[[_ EQ]|[_ EQ]]]; lia). change (2 ^ 3) with 8 in KW. pose proof (M_pos v Ht). lia.
    + destruct t as [|v|v|v]; cbn [safe_cast standard] in *; try (now apply float_to_int).
      apply Nat.leb_gt in ES. now apply narrow_float.
Qed.
(** 64-bit integers to binary64 are called safe although 2^54 + 1 is not kept *)
Theorem C70_safe_int64_refuted : forall f, f = DInt 64 \/ f = DUInt 64 -> safe_cast f (DFloat 64) = true /\
  in_dtype f (2 ^ 54 + 1) /\ ~ exists z', in_dtype (DFloat 64) z' /\ represents (DFloat 64) z' ((2 ^ 54 + 1) * 2 ^ 1074).
Proof.
  intros f Hf. split; [destruct Hf as [-> | ->]; reflexivity|]. split; [destruct Hf as [-> | ->]; cbn; lia|]. intros (z' & HD & HR). revert HR. apply odd_not_float; [right; right; reflexivity|reflexivity|vm_compute; discriminate|exact HD].
Qed.
(** can_cast True: astype to an integer or boolean dtype keeps every entry *)
Definition same_entries (a x : array) : Prop := ashape x = ashape a /\ forall idx, inb idx (ashape a) -> get x idx = get a idx.
Theorem C70_safe_astype : forall c B o dt, non_float dt -> standard dt -> batched c B o -> valid o -> Forall (fun a => standard (adtype a)) (arrays o) ->
  obj_can_cast safe_cast o (ToDtype dt) = Some true ->
  exists r, obj_astype dt o = Some r /\ batched (retype (fun _ => dt) c) B r /\ Forall2 same_entries (arrays o) (arrays r).
Proof.
  intros c B o dt HN HS HO HV HSA HC. destruct (C53_astype c B o dt HN HO) as (r & E1 & E2 & E3 & _). exists r. split; [exact E1|]. split; [exact E2|].
  destruct (C70_can_cast safe_cast o dt) as (b & EB & HB). rewrite HC in EB. injection EB as <-. pose proof (proj1 HB eq_refl) as HR. clear HB HC.
  assert (W : Forall wfa (arrays o)).
  { pose proof (pair_facts_same c B o o HO HO) as HF. clear - HF. remember (arrays o) as l eqn:El. rewrite El in HF at 2. assert (K : Forall2 (fun a _ => wfa a) l (arrays o)) by (revert HF; apply Forall2_impl; intros a b (_ & _ & ? & _); assumption). clear - K. induction K; constructor; auto. }
  assert (F : Forall2 (fun a x => converted dt [a] x) (arrays o) (arrays r)).
  { revert E3. assert (K : (forall u v, each_v (converted dt) [v] u -> Forall2 (fun a x => converted dt [a] x) (arrays_v v) (arrays_v u)) /\ (forall r o, each (converted dt) [o] r -> Forall2 (fun a x => converted dt [a] x) (arrays o) (arrays r))).
    { apply value_obj_ind.
      - intros x v (l & E & H). destruct l as [|a [|]]; try discriminate. cbn in E. injection E as ->. cbn. constructor; [exact H|constructor].
      - intros r0 IH v (os & E & H). destruct os as [|a [|]]; try discriminate. cbn in E. injection E as ->. cbn. now apply IH.
      - intros o0 H. inversion H as [|? ? <- _]; subst. constructor.
      - intros n u IHu r0 IHr o0 (vs & qs & HL & E & H1 & H2). destruct vs as [|v [|]], qs as [|q [|]]; try discriminate. cbn in E. injection E as ->. cbn [arrays]. apply Forall2_app; auto. }
    apply (proj2 K). }
  unfold valid in HV. revert F W HV HSA HR. clear - HN HS. generalize (arrays o) (arrays r). intros l m F. induction F as [|a x l m HX F IH]; intros W V SA R; [constructor|]. inversion W; inversion V; inversion SA; inversion R; subst. constructor; [|auto].
  cbn [converted] in HX. destruct HX as (_ & X2 & X3). split; [exact X2|]. intros idx HI.
  assert (NF : non_float (adtype a)) by (destruct dt, (adtype a); cbn in *; try discriminate; try contradiction; lia).
  specialize (X3 NF idx ltac:(now rewrite X2)). cbv beta in X3. pose proof (valid_get a idx H5 H1 HI) as HD.
  apply (C53_casted_fits dt _ _ HN); [|exact X3]. assert (KP : keeps_numbers (adtype a) dt) by (apply C70_safe_rule; auto; intros ->; destruct HN).
  destruct (KP (get a idx) (get a idx * 2 ^ 1074) HD) as (z' & D & RP); [destruct (adtype a); try destruct NF; reflexivity|]. assert (E : get a idx * 2 ^ 1074 = z' * 2 ^ 1074) by (destruct dt; try destruct HN; exact RP).
  apply Z.mul_reg_r in E; [now rewrite E|apply Z.pow_nonzero; lia].
Qed.
(** can_cast False: some valid instance of the class loses an entry *)
Theorem C70_unsafe_loses : forall f dt, standard f -> standard dt -> non_float f -> non_float dt -> safe_cast f dt = false ->
  exists z, in_dtype f z /\ forall z', casted dt z z' -> z' <> z.
Proof.
  intros f dt Hf Hd Nf Nd ES. assert (E : forall w, (1 <= w)%nat -> 0 < 2 ^ (Z.of_nat w - 1)) by (intros w Hw; apply Z.pow_pos_nonneg; lia).
  destruct f as [|w|w|w]; [destruct dt; discriminate| | |destruct Nf]; (destruct dt as [|v|v|v]; [| | |destruct Nd]); cbn [safe_cast standard non_float in_dtype casted] in *.
  - exists 2. split; [assert (2 ^ 8 <= 2 ^ Z.of_nat w) by (apply Z.pow_le_mono_r; lia); lia|]. intros z' ->. discriminate.
  - apply Nat.leb_gt in ES. exists (2 ^ Z.of_nat v). split; [split; [apply Z.pow_nonneg; lia|apply Z.pow_lt_mono_r; lia]|]. intros z' HZ. lia.
  - apply Nat.ltb_ge in ES. exists (2 ^ (Z.of_nat v - 1)). split; [split; [apply Z.pow_nonneg; lia|apply Z.pow_lt_mono_r; lia]|]. intros z' HZ. lia.
  - exists 2. split; [assert (2 ^ 7 <= 2 ^ (Z.of_nat w - 1)) by (apply Z.pow_le_mono_r; lia); lia|]. intros z' ->. discriminate.
  - exists (-1). split; [pose proof (E w Nf); lia|]. intros z' HZ. lia.
  - apply Nat.leb_gt in ES. exists (2 ^ (Z.of_nat v - 1)). pose proof (E w Nf). pose proof (E v Nd). split; [split; [lia|apply Z.pow_lt_mono_r; lia]|]. intros z' HZ. lia.
Qed.
Local Close Scope Z_scope.
Definition within_ten (_ : dtype) (x y : Z) : bool := (Z.abs (x - y) <=? 10)%Z.
Example C70_example : exists r, obj_isclose within_ten (cell2 1) (cell2 2) = Some r /\ obj_allclose within_ten (cell2 1) (cell2 2) = Some true /\ obj_allclose within_ten (cell2 1) (cell2 5) = Some false /\
  obj_can_cast safe_cast (cell2 1) (ToDtype (DInt 64)) = Some true /\ obj_can_cast safe_cast (cell2 1) (ToDtype (DInt 8)) = Some false /\ batched PropRows4.cell [2] (cell2 1) /\ Forall (fun a => standard (adtype a)) (arrays (cell2 1)) /\ valid (cell2 1).
Proof. eexists. split; [reflexivity|]. split; [reflexivity|]. split; [reflexivity|]. split; [vm_compute; reflexivity|]. split; [vm_compute; reflexivity|]. split; [apply cell2_batched|]. split; [cbn; repeat constructor; cbn; auto|]. unfold valid. cbn. repeat constructor; cbn; auto; lia. Qed.
Print Assumptions C70_isclose. Print Assumptions C70_allclose. Print Assumptions C70_allclose_elem. Print Assumptions C70_can_cast. Print Assumptions C70_can_cast_like. Print Assumptions C70_safe_rule. Print Assumptions C70_safe_astype. Print Assumptions C70_safe_int64_refuted.
