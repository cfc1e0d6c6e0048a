(** * IntCost.v — integer costs become floats (definitions, specification, rounding facts).

    hash_utils.py 276 and 414 [jnp.where(sorted_filled, sorted_unique_key, jnp.inf)]: when
    [unique_key] is an integer array the Python float [inf] promotes it to the default
    float type: float32 (24 significant bits), or float64 (53) with [jax_enable_x64].
    XLA converts integers to floats by rounding to nearest, ties to even. *)
From Verif Require Import Jax.
From Coq Require Import ZArith Lia.
Local Open Scope Z_scope.

(** ** Model of the conversion: [p] significant bits *)
Definition round_abs (p a : Z) : Z :=
  let n := if a =? 0 then 0 else Z.log2 a + 1 in
  if n <=? p then a
  else let e := n - p in
       let q := a / 2 ^ e in let r := a mod 2 ^ e in let h := 2 ^ (e - 1) in
       (if r <? h then q else if h <? r then q + 1 else if Z.even q then q else q + 1) * 2 ^ e.
Definition round_int (p z : Z) : Z := Z.sgn z * round_abs p (Z.abs z).

(** ** Specification *)
(** integers representable with [p] significant bits (the exponent range of the float
    formats exceeds that of every integer type, so it is not a constraint) *)
Definition representable (p y : Z) : Prop := exists m e, 0 <= e /\ Z.abs m < 2 ^ p /\ y = m * 2 ^ e.
(** the number whose significand of [p] bits is even *)
Definition even_significand (p y : Z) : Prop := exists m e, 0 <= e /\ 2 ^ (p - 1) <= Z.abs m < 2 ^ p /\ Z.even m = true /\ y = m * 2 ^ e.

(** ** Facts *)
Lemma pow2_pos k : 0 <= k -> 0 < 2 ^ k.
Proof. intros H. apply Z.pow_pos_nonneg; lia. Qed.
Section P.
Variable p : Z.
Hypothesis p2 : 2 <= p.

Record big (a e q r : Z) : Prop := {
  b_e : 0 < e; b_q : 2 ^ (p - 1) <= q < 2 ^ p; b_r : 0 <= r < 2 ^ e; b_a : a = q * 2 ^ e + r;
  b_h : 2 ^ e = 2 * 2 ^ (e - 1);
  b_v : round_abs p a = (if r <? 2 ^ (e - 1) then q else if 2 ^ (e - 1) <? r then q + 1 else if Z.even q then q else q + 1) * 2 ^ e }.
Lemma cases (a : Z) : 0 <= a -> (a < 2 ^ p /\ round_abs p a = a) \/ exists e q r, big a e q r.
Proof.
  intros Ha. unfold round_abs. destruct (Z.eqb_spec a 0) as [->|N0].
  { left. split; [apply pow2_pos; lia|]. destruct (0 <=? p) eqn:E; [reflexivity|]. apply Z.leb_gt in E. lia. }
  pose proof (Z.log2_spec a ltac:(lia)) as [L1 L2]. pose proof (Z.log2_nonneg a) as L0. set (n := Z.log2 a) in *.
  destruct (Z.leb_spec (n + 1) p) as [H|H].
  { left. split; [|reflexivity]. apply Z.lt_le_trans with (2 ^ Z.succ n); [exact L2|]. apply Z.pow_le_mono_r; lia. }
  right. exists (n + 1 - p), (a / 2 ^ (n + 1 - p)), (a mod 2 ^ (n + 1 - p)). set (e := n + 1 - p) in *.
  assert (PE : 0 < 2 ^ e) by (apply pow2_pos; lia).
  assert (E1 : 2 ^ n = 2 ^ (p - 1) * 2 ^ e) by (rewrite <- Z.pow_add_r by lia; f_equal; lia).
  assert (E2 : 2 ^ Z.succ n = 2 ^ p * 2 ^ e) by (rewrite <- Z.pow_add_r by lia; f_equal; lia).
  pose proof (Z.div_mod a (2 ^ e) ltac:(lia)) as DM. pose proof (Z.mod_pos_bound a (2 ^ e) PE) as RB.
  constructor.
  - lia.
  - split; [apply Z.div_le_lower_bound; lia|apply Z.div_lt_upper_bound; lia].
  - exact RB.
  - lia.
  - rewrite <- (Z.pow_succ_r 2 (e - 1)) by lia. f_equal. lia.
  - unfold round_abs. rewrite (proj2 (Z.eqb_neq a 0) N0). cbv zeta. fold n. rewrite (proj2 (Z.leb_gt (n + 1) p) H). reflexivity.
Qed.
(** no representable number lies strictly between the two neighbours *)
Lemma gap a e q r (y : Z) : big a e q r -> representable p y -> y <= q * 2 ^ e \/ (q + 1) * 2 ^ e <= y.
Proof.
  intros B (m & k & Hk & Hm & ->). pose proof (b_e _ _ _ _ B) as He. pose proof (b_q _ _ _ _ B) as Hq.
  assert (PE : 0 < 2 ^ e) by (apply pow2_pos; lia). assert (PK : 0 < 2 ^ k) by (apply pow2_pos; lia).
  destruct (Z.le_gt_cases e k) as [H|H].
  - replace (2 ^ k) with (2 ^ (k - e) * 2 ^ e) by (rewrite <- Z.pow_add_r by lia; f_equal; lia). rewrite Z.mul_assoc. set (j := m * 2 ^ (k - e)).
    destruct (Z.le_gt_cases j q) as [J|J]; [left|right]; apply Z.mul_le_mono_nonneg_r; lia.
  - left. destruct (Z.le_gt_cases m 0) as [M|M]; [nia|].
    assert (2 ^ e = 2 * 2 ^ (e - 1)) as HH by apply (b_h _ _ _ _ B).
    assert (2 ^ k <= 2 ^ (e - 1)) by (apply Z.pow_le_mono_r; lia).
    assert (2 ^ p = 2 * 2 ^ (p - 1)) as HP by (rewrite <- (Z.pow_succ_r 2 (p - 1)) by lia; f_equal; lia).
    assert (m * 2 ^ k <= 2 ^ p * 2 ^ (e - 1)) by (apply Z.mul_le_mono_nonneg; lia).
    assert (2 ^ (p - 1) * 2 ^ e <= q * 2 ^ e) by (apply Z.mul_le_mono_nonneg_r; lia).
    assert (2 ^ p * 2 ^ (e - 1) = 2 ^ (p - 1) * 2 ^ e) by (rewrite HP, HH; ring). lia.
Qed.
Lemma rep_mul q e : 0 <= e -> 0 <= q <= 2 ^ p -> representable p (q * 2 ^ e).
Proof.
  intros He Hq. destruct (Z.eq_dec q (2 ^ p)) as [->|N].
  - exists (2 ^ (p - 1)), (e + 1). assert (0 < 2 ^ (p - 1)) by (apply pow2_pos; lia). assert (2 ^ p = 2 * 2 ^ (p - 1)) as HP by (rewrite <- (Z.pow_succ_r 2 (p - 1)) by lia; f_equal; lia).
    split; [lia|]. split; [lia|]. rewrite HP, Z.pow_add_r by lia. change (2 ^ 1) with 2. ring.
  - exists q, e. split; [exact He|]. split; [lia|reflexivity].
Qed.
Lemma even_mul q e : 0 <= e -> 2 ^ (p - 1) <= q <= 2 ^ p -> Z.even q = true -> even_significand p (q * 2 ^ e).
Proof.
  intros He Hq EV. assert (P1 : 0 < 2 ^ (p - 1)) by (apply pow2_pos; lia). destruct (Z.eq_dec q (2 ^ p)) as [->|N].
  - exists (2 ^ (p - 1)), (e + 1). assert (2 ^ p = 2 * 2 ^ (p - 1)) as HP by (rewrite <- (Z.pow_succ_r 2 (p - 1)) by lia; f_equal; lia).
    split; [lia|]. split; [lia|]. split.
    + rewrite Z.even_pow by lia. reflexivity.
    + rewrite HP, Z.pow_add_r by lia. change (2 ^ 1) with 2. ring.
  - exists q, e. split; [exact He|]. split; [lia|]. split; [exact EV|reflexivity].
Qed.
Lemma round_abs_nonneg a : 0 <= a -> 0 <= round_abs p a.
Proof.
  intros Ha. destruct (cases a Ha) as [[_ E]|(e & q & r & B)]; [lia|]. rewrite (b_v _ _ _ _ B). pose proof (b_q _ _ _ _ B). pose proof (b_e _ _ _ _ B).
  assert (0 < 2 ^ (p - 1)) by (apply pow2_pos; lia). assert (0 < 2 ^ e) by (apply pow2_pos; lia).
  apply Z.mul_nonneg_nonneg; [|lia]. destruct (r <? _); [lia|]. destruct (_ <? r); [lia|]. destruct (Z.even q); lia.
Qed.
Lemma abs_facts a : 0 <= a ->
  representable p (round_abs p a) /\
  (forall y, representable p y -> Z.abs (a - round_abs p a) <= Z.abs (a - y)) /\
  (forall y, representable p y -> Z.abs (a - round_abs p a) = Z.abs (a - y) -> y <> round_abs p a -> even_significand p (round_abs p a)) /\
  Z.abs (a - round_abs p a) * 2 ^ p <= a.
Proof.
  intros Ha. destruct (cases a Ha) as [[H E]|(e & q & r & B)].
  - rewrite E. split; [exists a, 0; repeat split; lia|]. split; [lia|]. split; [intros y _ EY NY; lia|]. rewrite Z.sub_diag. cbn [Z.abs]. lia.
  - pose proof (gap a e q r) as G. pose proof (b_e _ _ _ _ B) as He. pose proof (b_q _ _ _ _ B) as Hq. pose proof (b_r _ _ _ _ B) as Hr. pose proof (b_h _ _ _ _ B) as Hh.
    pose proof (b_a _ _ _ _ B) as EA.
    assert (PP : 0 < 2 ^ (p - 1)) by (apply pow2_pos; lia). assert (P1 : 0 < 2 ^ (e - 1)) by (apply pow2_pos; lia).
    assert (HP : 2 ^ p = 2 * 2 ^ (p - 1)) by (rewrite <- (Z.pow_succ_r 2 (p - 1)) by lia; f_equal; lia).
    rewrite (b_v _ _ _ _ B). set (c := if r <? 2 ^ (e - 1) then q else if 2 ^ (e - 1) <? r then q + 1 else if Z.even q then q else q + 1).
    assert (CQ : (c = q /\ r <= 2 ^ (e - 1)) \/ (c = q + 1 /\ 2 ^ (e - 1) <= r)).
    { unfold c. destruct (Z.ltb_spec r (2 ^ (e - 1))); [left; lia|]. destruct (Z.ltb_spec (2 ^ (e - 1)) r); [right; lia|]. destruct (Z.even q); [left|right]; lia. }
    assert (CE : r = 2 ^ (e - 1) -> Z.even c = true).
    { intros Er. unfold c. rewrite Er, Z.ltb_irrefl. destruct (Z.even q) eqn:EV; [exact EV|]. rewrite Z.even_add, EV. reflexivity. }
    assert (E1 : (q + 1) * 2 ^ e = q * 2 ^ e + 2 ^ e) by ring.
    assert (D : Z.abs (a - c * 2 ^ e) <= 2 ^ (e - 1)) by (destruct CQ as [[-> H]|[-> H]]; lia).
    split; [apply rep_mul; lia|]. split; [|split].
    + intros y HY. destruct (G y B HY), CQ as [[-> H1]|[-> H1]]; lia.
    + intros y HY EY NY. apply even_mul; [lia|lia|]. apply CE. destruct (G y B HY), CQ as [[-> H1]|[-> H1]]; lia.
    + assert (2 ^ (e - 1) * 2 ^ p <= a); [|nia]. rewrite HP. assert (2 ^ (p - 1) * 2 ^ e <= q * 2 ^ e) by (apply Z.mul_le_mono_nonneg_r; lia). rewrite Hh in *. lia.
Qed.
Lemma rep_opp y : representable p y -> representable p (- y).
Proof. intros (m & e & H1 & H2 & ->). exists (- m), e. rewrite Z.abs_opp. repeat split; auto; ring. Qed.
Lemma even_opp y : even_significand p y -> even_significand p (- y).
Proof. intros (m & e & H1 & H2 & H3 & ->). exists (- m), e. rewrite Z.abs_opp, Z.even_opp. repeat split; auto; try apply H2; ring. Qed.
Lemma round_opp z : round_int p (- z) = - round_int p z.
Proof. unfold round_int. rewrite Z.sgn_opp, Z.abs_opp. ring. Qed.
Lemma round_pos z : 0 <= z -> round_int p z = round_abs p z.
Proof.
  intros H. unfold round_int. rewrite Z.abs_eq by exact H. destruct (Z.eq_dec z 0) as [->|N]; [|rewrite Z.sgn_pos by lia; ring].
  cbn [Z.sgn]. unfold round_abs. cbn [Z.eqb]. destruct (0 <=? p) eqn:E; [reflexivity|apply Z.leb_gt in E; lia].
Qed.
(** ** The converted cost is a nearest representable number, ties to even *)
Theorem round_spec z :
  representable p (round_int p z) /\
  (forall y, representable p y -> Z.abs (z - round_int p z) <= Z.abs (z - y)) /\
  (forall y, representable p y -> Z.abs (z - round_int p z) = Z.abs (z - y) -> y <> round_int p z -> even_significand p (round_int p z)) /\
  Z.abs (z - round_int p z) * 2 ^ p <= Z.abs z.
Proof.
  destruct (Z.le_gt_cases 0 z) as [H|H].
  - rewrite (round_pos z H). destruct (abs_facts z H) as (A1 & A2 & A3 & A4). split; [exact A1|]. split; [exact A2|]. split; [exact A3|]. lia.
  - assert (H' : 0 <= - z) by lia. destruct (abs_facts (- z) H') as (A1 & A2 & A3 & A4). rewrite <- (round_pos (- z) H'), round_opp in *.
    assert (F : forall u v, Z.abs (- u - - v) = Z.abs (u - v)) by (intros; lia).
    split; [apply rep_opp in A1; now rewrite Z.opp_involutive in A1|]. split; [|split].
    + intros y HY. specialize (A2 (- y) (rep_opp y HY)). now rewrite !F in A2.
    + intros y HY EY NY. specialize (A3 (- y) (rep_opp y HY)). rewrite !F in A3. specialize (A3 EY ltac:(lia)). apply even_opp in A3. now rewrite Z.opp_involutive in A3.
    + rewrite F in A4. lia.
Qed.
Lemma representable_small z : Z.abs z <= 2 ^ p -> representable p z.
Proof.
  intros H. destruct (Z.le_gt_cases 0 z) as [H0|H0].
  - rewrite <- (Z.mul_1_r z). change 1 with (2 ^ 0). apply rep_mul; lia.
  - replace z with (- - z) by lia. apply rep_opp. rewrite <- (Z.mul_1_r (- z)). change 1 with (2 ^ 0). apply rep_mul; lia.
Qed.
Lemma round_exact z : representable p z -> round_int p z = z.
Proof. intros H. destruct (round_spec z) as (_ & N & _). specialize (N z H). lia. Qed.
Lemma round_mono a b : a <= b -> round_int p a <= round_int p b.
Proof.
  intros H. destruct (Z.eq_dec a b) as [->|N]; [lia|]. destruct (round_spec a) as (A1 & A2 & _). destruct (round_spec b) as (B1 & B2 & _).
  specialize (A2 _ B1). specialize (B2 _ A1). lia.
Qed.
Lemma round_close a b : round_int p a = round_int p b -> Z.abs (a - b) * 2 ^ p <= Z.abs a + Z.abs b.
Proof.
  intros E. destruct (round_spec a) as (_ & _ & _ & A). destruct (round_spec b) as (_ & _ & _ & B). rewrite E in A.
  assert (0 < 2 ^ p) by (apply pow2_pos; lia). assert (Z.abs (a - b) <= Z.abs (a - round_int p b) + Z.abs (b - round_int p b)) by lia. nia.
Qed.
End P.
