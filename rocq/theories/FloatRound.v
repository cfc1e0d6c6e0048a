(** * FloatRound.v — rounding to a float dtype is exact on its numbers, monotone and nearest. *)
From Coq Require Import String.
From Verif Require Import Jax StructModel ArrayModel RowsModel EqModel FloatEq RowsModel2 CompareModel PropCompare PropSafeCast PromoteModel.
Local Open Scope Z_scope.

Section R.
Variable w : nat.
Hypothesis HW : float_width w.
Notation man := (man_bits w).
Notation M := (2 ^ man).
Notation E1 := (2 ^ (Z.of_nat w - 1 - man)).
Notation u := (low_exp w).
Lemma low_units : u = 1074 - units w.
Proof. reflexivity. Qed.
Lemma low_range : 0 <= u <= 1050.
Proof. destruct HW as [-> |[-> | ->]]; vm_compute; split; discriminate. Qed.
(** the value of a pattern without sign, in units of the smallest number *)
Definition magval (k : Z) : Z := fmagval M (k / M) (k mod M).
Lemma magval_form a q : 0 <= a -> 0 <= q <= 2 * M -> (a = 0 \/ M <= q) -> magval (a * M + q) = q * 2 ^ a.
Proof.
  intros Ha Hq HC. pose proof (M_pos w HW) as HM. unfold magval.
  assert (q < M \/ M <= q < 2 * M \/ q = 2 * M) as [C|[C| ->]] by lia.
  - destruct HC as [-> |]; [|lia]. replace (0 * M + q) with q by lia. rewrite Z.div_small, Z.mod_small by lia. unfold fmagval. rewrite Z.eqb_refl, Z.pow_0_r. lia.
  - replace (a * M + q) with ((a + 1) * M + (q - M)) by lia. rewrite Z.div_add_l by lia. rewrite Z.div_small by lia. rewrite (Z.add_comm ((a + 1) * M)), Z.mod_add, Z.mod_small by lia. unfold fmagval. destruct (Z.eqb_spec (a + 1 + 0) 0); [lia|]. replace (a + 1 + 0 - 1) with a by lia. f_equal. lia.
  - replace (a * M + 2 * M) with ((a + 2) * M + 0) by lia. rewrite Z.div_add_l by lia. rewrite Z.div_small by lia. rewrite (Z.add_comm ((a + 2) * M)), Z.mod_add, Z.mod_small by lia. unfold fmagval. destruct (Z.eqb_spec (a + 2 + 0) 0); [lia|]. replace (a + 2 + 0 - 1) with (1 + a) by lia. rewrite Z.pow_add_r by lia. lia.
Qed.
Lemma magval_lt k k' : 0 <= k < k' -> magval k < magval k'.
Proof.
  intros H. pose proof (M_pos w HW) as HM. unfold magval. pose proof (Z.div_mod k M ltac:(lia)) as D. pose proof (Z.div_mod k' M ltac:(lia)) as D'. pose proof (Z.mod_pos_bound k M ltac:(lia)) as B. pose proof (Z.mod_pos_bound k' M ltac:(lia)) as B'.
  assert (0 <= k / M) by (apply Z.div_pos; lia). assert (k / M <= k' / M) by (apply Z.div_le_mono; lia). assert (k / M < k' / M \/ k / M = k' / M) as [C|C] by lia.
  - apply fmagval_lt; lia.
  - rewrite C in *. set (m := k mod M) in *. set (m' := k' mod M) in *. unfold fmagval. destruct (Z.eqb_spec (k' / M) 0); [lia|]. assert (0 < 2 ^ (k' / M - 1)) by (apply Z.pow_pos_nonneg; lia). nia.
Qed.
Lemma magval_nonneg k : 0 <= k -> 0 <= magval k.
Proof. intros H. pose proof (M_pos w HW). apply fmagval_pos; [lia|apply Z.div_pos; lia|apply Z.mod_pos_bound; lia]. Qed.
Lemma fnum_magval z : fnum w z = magval (fmag w z) * 2 ^ u.
Proof. reflexivity. Qed.

(** ** rounding without overflow *)
Definition rexp (n : Z) : Z := Z.max u (Z.log2 n - man).
Definition rq (n : Z) : Z := n / 2 ^ rexp n.
Definition rq' (n : Z) : Z := if ((2 * (n mod 2 ^ rexp n) <? 2 ^ rexp n) || ((2 * (n mod 2 ^ rexp n) =? 2 ^ rexp n) && Z.even (rq n))) then rq n else rq n + 1.
Definition rmag (n : Z) : Z := (rexp n - u) * M + rq' n.
Lemma round_rmag n : round_mag w n = Z.min (rmag n) (inf_pat w).
Proof. reflexivity. Qed.
Lemma rexp_pos n : 0 <= u <= rexp n /\ 0 < 2 ^ rexp n.
Proof. pose proof low_range. unfold rexp. split; [lia|]. apply Z.pow_pos_nonneg; lia. Qed.
(** the significand: at most man+1 bits, and exactly man+1 unless subnormal *)
Lemma rq_range n : 0 <= n -> 0 <= rq n < 2 * M /\ (rexp n = u \/ M <= rq n).
Proof.
  intros Hn. pose proof (rexp_pos n) as [HR HP]. pose proof (man_range w HW) as [HMN _]. unfold rq. split.
  - split; [apply Z.div_pos; lia|]. apply Z.div_lt_upper_bound; [exact HP|]. replace (2 * M) with (2 ^ (man + 1)) by (rewrite Z.pow_add_r by lia; lia). rewrite <- Z.pow_add_r by lia.
    assert (n = 0 \/ 0 < n) as [-> |Hp] by lia; [apply Z.pow_pos_nonneg; lia|]. apply Z.log2_lt_pow2; [exact Hp|]. unfold rexp. lia.
  - unfold rexp in *. destruct (Z.le_gt_cases (Z.log2 n - man) u); [left; lia|right]. rewrite Z.max_r in * by lia. assert (0 < n) by (assert (n = 0 \/ 0 < n) as [-> |] by lia; [change (Z.log2 0) with 0 in *; lia|lia]).
    apply Z.div_le_lower_bound; [lia|]. rewrite <- Z.pow_add_r by lia. replace (Z.log2 n - man + man) with (Z.log2 n) by lia. now apply Z.log2_spec.
Qed.
Lemma rq'_range n : 0 <= n -> rq n <= rq' n <= rq n + 1.
Proof. intros _. unfold rq'. destruct (_ || _); lia. Qed.
Lemma rmag_nonneg n : 0 <= n -> 0 <= rmag n.
Proof. intros Hn. pose proof (rexp_pos n). pose proof (rq_range n Hn). pose proof (rq'_range n Hn). pose proof (M_pos w HW). unfold rmag. nia. Qed.
Lemma rmag_value n : 0 <= n -> magval (rmag n) * 2 ^ u = rq' n * 2 ^ rexp n.
Proof.
  intros Hn. pose proof (rexp_pos n) as [R1 R2]. pose proof (rq_range n Hn) as [Q1 Q2]. pose proof (rq'_range n Hn) as Q3. unfold rmag. rewrite magval_form by lia. rewrite <- Z.mul_assoc, <- Z.pow_add_r by lia. do 2 f_equal. lia.
Qed.
(** exact on the numbers of the dtype *)
Lemma rmag_exact k : 0 <= k -> rmag (magval k * 2 ^ u) = k.
Proof.
  intros Hk. pose proof (M_pos w HW) as HM. pose proof (man_range w HW) as [HMN _]. pose proof low_range as HU. set (e := k / M). set (m := k mod M).
  assert (EK : k = e * M + m) by (unfold e, m; pose proof (Z.div_mod k M ltac:(lia)); lia). assert (Hm : 0 <= m < M) by (apply Z.mod_pos_bound; lia). assert (He : 0 <= e) by (apply Z.div_pos; lia).
  assert (EV : exists a q, 0 <= a /\ 0 <= q < 2 * M /\ (a = 0 \/ M <= q) /\ k = a * M + q) by (destruct (Z.eq_dec e 0) as [E0|NE]; [exists 0, m; rewrite E0 in EK; lia|exists (e - 1), (M + m); lia]).
  clear e m EK Hm He. destruct EV as (a & q & Ha & Hq & HC & ->). rewrite magval_form by lia. rewrite <- Z.mul_assoc, <- Z.pow_add_r by lia. set (n := q * 2 ^ (a + u)).
  assert (HP : 0 < 2 ^ (a + u)) by (apply Z.pow_pos_nonneg; lia).
  assert (ER : rexp n = a + u).
  { unfold rexp, n. assert (q = 0 \/ 0 < q) as [-> |Hp] by lia; [change (Z.log2 (0 * _)) with 0; lia|]. rewrite Z.log2_mul_pow2 by lia. assert (HL : Z.log2 q < man + 1) by (apply Z.log2_lt_pow2; [lia|]; rewrite Z.pow_add_r by lia; lia).
    destruct HC as [-> |HC]; [lia|]. assert (man <= Z.log2 q) by (apply Z.log2_le_pow2; lia). lia. }
  assert (EQ : rq n = q) by (unfold rq; rewrite ER; unfold n; now rewrite Z.div_mul by lia).
  unfold rmag, rq'. rewrite EQ, ER. replace (n mod 2 ^ (a + u)) with 0 by (unfold n; now rewrite Z.mod_mul by lia). replace (2 * 0 <? 2 ^ (a + u)) with true by (symmetry; apply Z.ltb_lt; lia). cbn [orb]. lia.
Qed.
(** nearest *)
Lemma rmag_nearest n k : 0 <= n -> 0 <= k -> Z.abs (magval (rmag n) * 2 ^ u - n) <= Z.abs (magval k * 2 ^ u - n).
Proof.
  intros Hn Hk. rewrite rmag_value by exact Hn. pose proof (rexp_pos n) as [R1 R2]. pose proof (rq_range n Hn) as [Q1 Q2]. pose proof low_range as HU.
  set (P := 2 ^ rexp n) in *. pose proof (Z.div_mod n P ltac:(lia)) as D. pose proof (Z.mod_pos_bound n P ltac:(lia)) as B. change (n / P) with (rq n) in D. set (r := n mod P) in *.
  assert (HD : Z.abs (rq' n * P - n) <= r /\ Z.abs (rq' n * P - n) <= P - r).
  { unfold rq'. fold P. fold r. destruct (Z.ltb_spec (2 * r) P) as [C|C]; cbn [orb]; [nia|]. destruct (Z.eqb_spec (2 * r) P) as [C'|C']; cbn [andb]; [|nia]. destruct (Z.even (rq n)); nia. }
  set (v := magval k * 2 ^ u). destruct (Z.le_gt_cases v (rq n * P)) as [C|C]; [nia|]. destruct (Z.le_gt_cases ((rq n + 1) * P) v) as [C'|C']; [nia|]. exfalso.
  set (k0 := (rexp n - u) * M + rq n). assert (HP : 0 < 2 ^ u) by (apply Z.pow_pos_nonneg; lia).
  assert (EP : P = 2 ^ (rexp n - u) * 2 ^ u) by (unfold P; rewrite <- Z.pow_add_r by lia; f_equal; lia).
  assert (V0 : magval k0 = rq n * 2 ^ (rexp n - u)) by (apply magval_form; lia). assert (V1 : magval (k0 + 1) = (rq n + 1) * 2 ^ (rexp n - u)) by (unfold k0; rewrite <- Z.add_assoc; apply magval_form; lia).
  assert (C1 : magval k0 < magval k) by (apply (Z.mul_lt_mono_pos_r (2 ^ u)); [exact HP|]; rewrite V0, <- Z.mul_assoc, <- EP; exact C).
  assert (C2 : magval k < magval (k0 + 1)) by (apply (Z.mul_lt_mono_pos_r (2 ^ u)); [exact HP|]; rewrite V1, <- Z.mul_assoc, <- EP; exact C').
  assert (K0 : 0 <= k0) by (pose proof (M_pos w HW); unfold k0; nia).
  assert (k0 < k). { destruct (Z.lt_ge_cases k0 k); [assumption|exfalso]. assert (k = k0 \/ k < k0) as [-> |L] by lia; [lia|]. pose proof (magval_lt k k0 ltac:(lia)). lia. }
  assert (k < k0 + 1). { destruct (Z.lt_ge_cases k (k0 + 1)); [assumption|exfalso]. assert (k = k0 + 1 \/ k0 + 1 < k) as [-> |L] by lia; [lia|]. pose proof (magval_lt (k0 + 1) k ltac:(lia)). lia. }
  lia.
Qed.
(** monotone *)
Lemma rmag_mono n n' : 0 <= n <= n' -> rmag n <= rmag n'.
Proof.
  intros H. pose proof (rexp_pos n) as [R1 R2]. pose proof (rexp_pos n') as [R1' R2']. pose proof (rq_range n ltac:(lia)) as [Q1 Q2]. pose proof (rq_range n' ltac:(lia)) as [Q1' Q2']. pose proof (rq'_range n ltac:(lia)) as Q3. pose proof (rq'_range n' ltac:(lia)) as Q3'. pose proof (M_pos w HW) as HM.
  assert (HE : rexp n <= rexp n') by (unfold rexp; pose proof (Z.log2_le_mono n n' ltac:(lia)); lia). unfold rmag. assert (rexp n = rexp n' \/ rexp n < rexp n') as [E|C] by lia.
  - rewrite E in *. assert (rq' n <= rq' n'); [|nia]. unfold rq'. rewrite E. set (P := 2 ^ rexp n') in *. assert (EQ : rq n = n / P) by (unfold rq; now rewrite E). assert (EQ' : rq n' = n' / P) by reflexivity.
    assert (rq n <= rq n') by (rewrite EQ, EQ'; apply Z.div_le_mono; lia). assert (rq n = rq n' \/ rq n < rq n') as [S|S] by lia.
    + rewrite S. pose proof (Z.div_mod n P ltac:(lia)) as D. pose proof (Z.div_mod n' P ltac:(lia)) as D'. rewrite <- EQ in D. rewrite <- EQ' in D'. set (r := n mod P) in *. set (r' := n' mod P) in *. assert (r <= r') by nia.
      destruct (Z.ltb_spec (2 * r') P) as [C'|C']; cbn [orb].
      * destruct (Z.ltb_spec (2 * r) P); cbn [orb]; [lia|lia].
      * destruct (Z.eqb_spec (2 * r') P) as [F|F]; cbn [andb]; [|destruct (_ || _); lia]. destruct (Z.even (rq n')); [|destruct (_ || _); lia]. destruct (Z.ltb_spec (2 * r) P); cbn [orb]; [lia|]. destruct (Z.eqb_spec (2 * r) P); cbn [andb]; lia.
    + destruct (_ || _), (_ || _); lia.
  - destruct Q2' as [Q2'|Q2']; [lia|]. nia.
Qed.
(** no number lies strictly between the two neighbours *)
Lemma rgap n k : 0 <= n -> 0 <= k -> ~ (rq n * 2 ^ rexp n < magval k * 2 ^ u < (rq n + 1) * 2 ^ rexp n).
Proof.
  intros Hn Hk [C C']. pose proof (rexp_pos n) as [R1 R2]. pose proof (rq_range n Hn) as [Q1 Q2]. pose proof low_range as HU. set (P := 2 ^ rexp n) in *.
  set (k0 := (rexp n - u) * M + rq n). assert (HP : 0 < 2 ^ u) by (apply Z.pow_pos_nonneg; lia).
  assert (EP : P = 2 ^ (rexp n - u) * 2 ^ u) by (unfold P; rewrite <- Z.pow_add_r by lia; f_equal; lia).
  assert (V0 : magval k0 = rq n * 2 ^ (rexp n - u)) by (apply magval_form; lia). assert (V1 : magval (k0 + 1) = (rq n + 1) * 2 ^ (rexp n - u)) by (unfold k0; rewrite <- Z.add_assoc; apply magval_form; lia).
  assert (C1 : magval k0 < magval k) by (apply (Z.mul_lt_mono_pos_r (2 ^ u)); [exact HP|]; rewrite V0, <- Z.mul_assoc, <- EP; exact C).
  assert (C2 : magval k < magval (k0 + 1)) by (apply (Z.mul_lt_mono_pos_r (2 ^ u)); [exact HP|]; rewrite V1, <- Z.mul_assoc, <- EP; exact C').
  assert (K0 : 0 <= k0) by (pose proof (M_pos w HW); unfold k0; nia).
  assert (k0 < k). { destruct (Z.lt_ge_cases k0 k); [assumption|exfalso]. assert (k = k0 \/ k < k0) as [-> |L] by lia; [lia|]. pose proof (magval_lt k k0 ltac:(lia)). lia. }
  assert (k < k0 + 1). { destruct (Z.lt_ge_cases k (k0 + 1)); [assumption|exfalso]. assert (k = k0 + 1 \/ k0 + 1 < k) as [-> |L] by lia; [lia|]. pose proof (magval_lt (k0 + 1) k ltac:(lia)). lia. }
  lia.
Qed.
Lemma magval_inj k k' : 0 <= k -> 0 <= k' -> magval k = magval k' -> k = k'.
Proof. intros H H' E. destruct (Z.lt_trichotomy k k') as [L|[L|L]]; [pose proof (magval_lt k k' ltac:(lia)); lia|exact L|pose proof (magval_lt k' k ltac:(lia)); lia]. Qed.
(** a tie goes to the even pattern *)
Lemma M_even : Z.even M = true.
Proof. pose proof (man_range w HW). replace man with (1 + (man - 1)) by lia. rewrite Z.pow_add_r by lia. change (2 ^ 1) with 2. now rewrite Z.even_mul. Qed.
Lemma rmag_tie n k : 0 <= n -> 0 <= k -> k <> rmag n -> Z.abs (magval k * 2 ^ u - n) = Z.abs (magval (rmag n) * 2 ^ u - n) -> Z.even (rmag n) = true.
Proof.
  intros Hn Hk NE ED. pose proof (rmag_nonneg n Hn) as HR. pose proof (rgap n k Hn Hk) as HG. pose proof (rmag_value n Hn) as RV. pose proof low_range as HU. assert (HP : 0 < 2 ^ u) by (apply Z.pow_pos_nonneg; lia).
  assert (NV : magval k * 2 ^ u <> rq' n * 2 ^ rexp n). { rewrite <- RV. intros E. apply Z.mul_reg_r in E; [|lia]. apply NE. now apply magval_inj. }
  rewrite RV in ED. pose proof (rexp_pos n) as [R1 R2].
  set (v := magval k * 2 ^ u) in *. set (P := 2 ^ rexp n) in *. pose proof (Z.div_mod n P ltac:(lia)) as D. pose proof (Z.mod_pos_bound n P ltac:(lia)) as B. change (n / P) with (rq n) in D.
  assert (TE : Z.even (rq' n) = true).
  { unfold rq' in *. fold P in ED, NV |- *. set (r := n mod P) in *. destruct (Z.ltb_spec (2 * r) P) as [C|C]; cbn [orb] in *; [exfalso; nia|]. destruct (Z.eqb_spec (2 * r) P) as [C'|C']; cbn [andb] in *; [|exfalso; nia].
    destruct (Z.even (rq n)) eqn:EV; [exact EV|]. rewrite Z.even_add, EV. reflexivity. }
  unfold rmag. rewrite Z.even_add, Z.even_mul, M_even, orb_true_r, TE. reflexivity.
Qed.
(** overflow: from half way between the largest number and the next power of two *)
Lemma inf_form : inf_pat w = (E1 - 2) * M + M.
Proof. rewrite (inf_eq w HW). lia. Qed.
Lemma E1_four : 4 <= E1.
Proof. change 4 with (2 ^ 2). apply Z.pow_le_mono_r; [lia|]. pose proof (man_range w HW). unfold man_bits in *. destruct HW as [-> |[-> | ->]]; cbn; lia. Qed.
Lemma rmag_overflow n : 0 <= n -> (inf_pat w <= rmag n <-> (4 * M - 1) * 2 ^ (E1 - 3 + u) <= 2 * n).
Proof.
  intros Hn. pose proof E1_four as HE. pose proof (M_pos w HW) as HM. pose proof low_range as HU. pose proof (man_range w HW) as [HMN _].
  assert (EI : inf_pat w = (E1 - 3) * M + 2 * M) by (rewrite inf_form; lia). set (T := 2 ^ (E1 - 3 + u)).
  assert (ET : T = 2 ^ (E1 - 3) * 2 ^ u) by (unfold T; rewrite <- Z.pow_add_r by lia; reflexivity). assert (HT : 0 < T) by (apply Z.pow_pos_nonneg; lia).
  assert (VI : magval (inf_pat w) * 2 ^ u = 2 * M * T) by (rewrite EI, magval_form by lia; rewrite ET; lia).
  assert (VM : magval (inf_pat w - 1) * 2 ^ u = (2 * M - 1) * T) by (replace (inf_pat w - 1) with ((E1 - 3) * M + (2 * M - 1)) by lia; rewrite magval_form by lia; rewrite ET; lia).
  assert (HI : 0 <= inf_pat w - 1) by nia.
  destruct (Z.le_gt_cases (2 * M * T) n) as [C|C].
  { split; [nia|]. intros _. rewrite <- (rmag_exact (inf_pat w)) by lia. apply rmag_mono. rewrite VI. nia. }
  destruct (Z.le_gt_cases n ((2 * M - 1) * T)) as [C'|C'].
  { split; [|nia]. intros H. assert (rmag n <= inf_pat w - 1); [|lia]. rewrite <- (rmag_exact (inf_pat w - 1)) by lia. apply rmag_mono. rewrite VM. lia. }
  assert (HP : 2 * M = 2 ^ (man + 1)) by (rewrite Z.pow_add_r by lia; lia).
  assert (ELG : Z.log2 n = man + (E1 - 3 + u)).
  { apply Z.log2_unique; [lia|]. rewrite Z.pow_succ_r, Z.pow_add_r by lia. fold T. split; [nia|]. lia. }
  assert (ER : rexp n = E1 - 3 + u) by (unfold rexp; rewrite ELG; lia).
  assert (EQ : rq n = 2 * M - 1). { unfold rq. rewrite ER. fold T. symmetry. apply (Z.div_unique _ _ _ (n - (2 * M - 1) * T)); lia. }
  assert (EM : n mod T = n - (2 * M - 1) * T). { symmetry. apply (Z.mod_unique _ _ (2 * M - 1)); lia. }
  assert (EO : Z.even (2 * M - 1) = false) by (rewrite Z.even_sub, Z.even_mul; reflexivity).
  unfold rmag, rq'. rewrite EQ, ER. fold T. rewrite EM, EO, andb_false_r, orb_false_r, EI. destruct (Z.ltb_spec (2 * (n - (2 * M - 1) * T)) T); split; intros; nia.
Qed.
(** ** patterns with a sign *)
Lemma signed_parts neg k : 0 <= k <= inf_pat w -> in_dtype (DFloat w) (fsign w neg + k) /\ fmag w (fsign w neg + k) = k /\ fval w (fsign w neg + k) = Some ((if neg then -1 else 1) * magval k).
Proof.
  intros Hk. pose proof (M_pos w HW) as HM. pose proof E1_four as HE. rewrite (inf_eq w HW) in Hk. set (e := k / M). set (m := k mod M).
  assert (EK : k = e * M + m) by (unfold e, m; pose proof (Z.div_mod k M ltac:(lia)); lia). assert (Hm : 0 <= m < M) by (apply Z.mod_pos_bound; lia). assert (He : 0 <= e) by (apply Z.div_pos; lia).
  assert (He' : e <= E1 - 1) by (apply Z.div_le_upper_bound; lia). set (s := if neg then 1 else 0).
  destruct (pattern_parts w HW s e m ltac:(unfold s; destruct neg; auto) ltac:(lia) Hm) as (H1 & H2 & H3).
  assert (EP : fsign w neg + k = s * (E1 * M) + e * M + m) by (unfold fsign, s; rewrite (half_eq w HW); destruct neg; lia). rewrite EP. split; [exact H1|]. split; [now rewrite <- EK in H2|]. rewrite H3.
  assert (EB : (e =? E1 - 1) && negb (m =? 0) = false).
  { destruct (Z.eqb_spec e (E1 - 1)) as [Q|]; [|reflexivity]. destruct (Z.eqb_spec m 0); [reflexivity|]. exfalso. rewrite Q in EK. lia. }
  rewrite EB. unfold s, magval. destruct neg; reflexivity.
Qed.
Lemma pattern_split z : in_dtype (DFloat w) z -> z = fsign w (2 ^ (Z.of_nat w - 1) <=? z) + fmag w z /\ 0 <= fmag w z.
Proof.
  intros HD. cbn [in_dtype] in HD. destruct (parts w HW z HD) as (s & e & m & Hs & He & Hm & EZ & EF & E2 & E3 & E4). pose proof (M_pos w HW) as HM. rewrite E4, EF. unfold fsign. rewrite (half_eq w HW). split; [|nia]. rewrite EZ at 1. destruct Hs as [-> | ->]; [change (0 =? 1) with false|change (1 =? 1) with true]; cbv iota; lia.
Qed.
Lemma represents_float z x : in_dtype (DFloat w) z -> (represents (DFloat w) z x <-> fmag w z < inf_pat w /\ x = (if 2 ^ (Z.of_nat w - 1) <=? z then -1 else 1) * fnum w z).
Proof.
  intros HD. destruct (pattern_split z HD) as [EZ H0]. cbn [represents]. destruct (Z.le_gt_cases (fmag w z) (inf_pat w)) as [C|C].
  - destruct (signed_parts (2 ^ (Z.of_nat w - 1) <=? z) (fmag w z) ltac:(lia)) as (_ & _ & V). rewrite <- EZ in V. rewrite V, fnum_magval, low_units. split.
    + intros (v & [= <-] & NI & ->). split; [lia|]. now rewrite Z.mul_assoc.
    + intros [L ->]. eexists. split; [reflexivity|]. split; [lia|]. now rewrite Z.mul_assoc.
  - split; [|lia]. intros (v & V & _). exfalso. cbn [in_dtype] in HD. assert (fval w z = None); [|congruence]. apply (is_nan_spec w HW); [exact HD|]. unfold is_nan. now apply Z.ltb_lt.
Qed.
Lemma fnum_nonneg z : in_dtype (DFloat w) z -> 0 <= fnum w z.
Proof. intros HD. rewrite fnum_magval. pose proof low_range. apply Z.mul_nonneg_nonneg; [apply magval_nonneg; now apply pattern_split|apply Z.pow_nonneg; lia]. Qed.
End R.
(** ** [conv] to a float dtype rounds the magnitude and keeps the sign *)
Definition sg (neg : bool) : Z := if neg then -1 else 1.
Lemma conv_float f w z x : standard f -> float_width w -> in_dtype f z -> represents f z x ->
  exists neg, conv f (DFloat w) z = fsign w neg + round_mag w (Z.abs x) /\ x = sg neg * Z.abs x.
Proof.
  intros Hf HW HD HR. unfold conv, dtype_eqb. destruct (dtype_eq_dec f (DFloat w)) as [ED|ED].
  - subst f. destruct (pattern_split w HW z HD) as [EZ H0]. apply (represents_float w HW z x HD) in HR. destruct HR as [L EX]. exists (2 ^ (Z.of_nat w - 1) <=? z). pose proof (fnum_nonneg w HW z HD) as FN.
    assert (EA : Z.abs x = fnum w z) by (rewrite EX; destruct (_ <=? _); lia). rewrite EA. split; [|unfold sg; exact EX]. rewrite round_rmag, fnum_magval, (rmag_exact w HW), Z.min_l by lia. exact EZ.
  - destruct f as [|v|v|v]; cbn [represents] in HR.
    1-3: exists (z <? 0); rewrite HR, Z.abs_mul; assert (0 < 2 ^ 1074) by (apply Z.pow_pos_nonneg; lia); rewrite (Z.abs_eq (2 ^ 1074)) by lia; split; [reflexivity|]; unfold sg; destruct (Z.ltb_spec z 0); lia.
    cbn [standard] in Hf. pose proof HR as HR'. apply (represents_float v Hf z x HD) in HR'. destruct HR' as [L EX]. exists (2 ^ (Z.of_nat v - 1) <=? z). pose proof (fnum_nonneg v Hf z HD) as FN.
    assert (EA : Z.abs x = fnum v z) by (rewrite EX; destruct (_ <=? _); lia). rewrite EA. split; [|unfold sg; exact EX].
    assert (is_nan v z = false) as -> by (unfold is_nan; apply Z.ltb_ge; lia). assert ((fmag v z =? inf_pat v) = false) as -> by (apply Z.eqb_neq; lia). reflexivity.
Qed.
