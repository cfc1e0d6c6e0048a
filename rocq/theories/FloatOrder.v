(** * FloatOrder.v — the order on bit patterns is the order of the represented numbers. *)
From Verif Require Import Jax StructModel EqModel FloatEq KeyModel HeapFloat.
Local Open Scope Z_scope.

Lemma mag_le M e m e' m' : 0 < M -> 0 <= e -> 0 <= e' -> 0 <= m < M -> 0 <= m' < M ->
  (e * M + m <= e' * M + m' <-> fmagval M e m <= fmagval M e' m').
Proof.
  intros HM He He' Hm Hm'. assert (e < e' \/ e' < e \/ e = e') as [H|[H| ->]] by lia.
  - pose proof (fmagval_lt M e m e' m' HM ltac:(lia) Hm Hm'). split; intros; [lia|]. nia.
  - pose proof (fmagval_lt M e' m' e m HM ltac:(lia) Hm' Hm). split; intros; [|lia]. exfalso. nia.
  - unfold fmagval. destruct (Z.eqb_spec e' 0); [lia|]. assert (0 < 2 ^ (e' - 1)) by (apply Z.pow_pos_nonneg; lia). nia.
Qed.
Section F.
Variables (w : nat).
Hypothesis HW : float_width w.
Notation man := (man_bits w).
Notation M := (2 ^ man).
Notation E1 := (2 ^ (Z.of_nat w - 1 - man)).
(** valid bit patterns *)
Definition pat (z : Z) : Prop := 0 <= z < 2 ^ Z.of_nat w.
Lemma fval_ford x y vx vy : pat x -> pat y -> fval w x = Some vx -> fval w y = Some vy ->
  (ford w x <= ford w y <-> vx <= vy).
Proof.
  intros Hx Hy VX VY. unfold pat in *.
  destruct (parts w HW x Hx) as (s & e & m & Hs & He & Hm & EZ & EF & E2 & E3 & E4). destruct (parts w HW y Hy) as (s' & e' & m' & Hs' & He' & Hm' & EZ' & EF' & E2' & E3' & E4').
  unfold fval in VX, VY. replace (E1 - 1 + 1) with E1 in * by lia. rewrite E2, E3, E4 in VX. rewrite E2', E3', E4' in VY.
  destruct ((e =? E1 - 1) && negb (m =? 0)); [discriminate|]. destruct ((e' =? E1 - 1) && negb (m' =? 0)); [discriminate|].
  fold (fmagval M e m) in VX. fold (fmagval M e' m') in VY. pose proof (M_pos w HW). pose proof (E1_pos w HW).
  assert (EX : vx = (if s =? 1 then -1 else 1) * fmagval M e m) by congruence. assert (EY : vy = (if s' =? 1 then -1 else 1) * fmagval M e' m') by congruence. clear VX VY.
  pose proof (mag_le M e m e' m' ltac:(lia) ltac:(lia) ltac:(lia) Hm Hm') as L1. pose proof (mag_le M e' m' e m ltac:(lia) ltac:(lia) ltac:(lia) Hm' Hm) as L2.
  pose proof (fmagval_pos M e m ltac:(lia) ltac:(lia) Hm) as [P1 P2]. pose proof (fmagval_pos M e' m' ltac:(lia) ltac:(lia) Hm') as [P1' P2'].
  unfold ford, fneg. rewrite E4, E4', EF, EF'.
  assert (Q1 : 0 <= e * M + m) by (apply Z.add_nonneg_nonneg; [apply Z.mul_nonneg_nonneg|]; lia). assert (Q2 : 0 <= e' * M + m') by (apply Z.add_nonneg_nonneg; [apply Z.mul_nonneg_nonneg|]; lia).
  assert (Z1 : e * M + m = 0 <-> fmagval M e m = 0) by (rewrite P2; apply digits_zero; lia).
  assert (Z2 : e' * M + m' = 0 <-> fmagval M e' m' = 0) by (rewrite P2'; apply digits_zero; lia).
  set (A := e * M + m) in *. set (B := e' * M + m') in *. set (A' := fmagval M e m) in *. set (B' := fmagval M e' m') in *. clearbody A B A' B'.
  subst vx vy. clear - Hs Hs' L1 L2 P1 P1' Z1 Z2 Q1 Q2. destruct Hs as [-> | ->]; destruct Hs' as [-> | ->]; cbn [Z.eqb Pos.eqb]; lia.
Qed.
(** finite: smaller in magnitude than infinity *)
Lemma fmag_range z : 0 <= fmag w z < 2 ^ (Z.of_nat w - 1).
Proof. unfold fmag. apply Z.mod_pos_bound. apply Z.pow_pos_nonneg; [lia|]. destruct HW as [-> |[-> | ->]]; lia. Qed.
Lemma inf_pat_pos : 0 < inf_pat w < 2 ^ (Z.of_nat w - 1).
Proof.
  unfold inf_pat. assert (0 < M) by (apply Z.pow_pos_nonneg; [lia|]; pose proof (man_range w HW); lia).
  assert (M < 2 ^ (Z.of_nat w - 1)) by (apply Z.pow_lt_mono_r; pose proof (man_range w HW); lia). lia.
Qed.
Lemma inf_pat_facts : pat (inf_pat w) /\ fneg w (inf_pat w) = false /\ fmag w (inf_pat w) = inf_pat w /\ is_nan w (inf_pat w) = false /\ ffinite w (inf_pat w) = false.
Proof.
  pose proof inf_pat_pos as [H1 H2]. assert (H3 : 2 ^ (Z.of_nat w - 1) < 2 ^ Z.of_nat w) by (apply Z.pow_lt_mono_r; destruct HW as [-> |[-> | ->]]; lia).
  assert (F : fmag w (inf_pat w) = inf_pat w) by (unfold fmag; apply Z.mod_small; lia).
  split; [unfold pat; lia|]. split; [unfold fneg; apply Z.leb_gt; lia|]. split; [exact F|]. unfold is_nan, ffinite. rewrite F, Z.ltb_irrefl. auto.
Qed.
Lemma nan_not_finite z : is_nan w z = true -> ffinite w z = false.
Proof. unfold is_nan, ffinite. rewrite Z.ltb_lt, Z.ltb_ge. lia. Qed.
Lemma fmag_split z : pat z -> z = (if fneg w z then 2 ^ (Z.of_nat w - 1) else 0) + fmag w z.
Proof.
  intros H. unfold pat in H. assert (E : 2 ^ Z.of_nat w = 2 * 2 ^ (Z.of_nat w - 1)) by (rewrite <- Z.pow_succ_r by (destruct HW as [-> |[-> | ->]]; lia); f_equal; lia).
  rewrite E in H. unfold fneg, fmag. set (P := 2 ^ (Z.of_nat w - 1)) in *. destruct (Z.leb_spec P z).
  - replace (z mod P) with (z - P); [lia|]. apply (Z.mod_unique z P 1); lia.
  - rewrite Z.mod_small; lia.
Qed.
(** the key of KeyModel.v a pattern stands for; NaN stands with +inf *)
Definition kof (z : Z) : key :=
  if is_nan w z then PInf else if ffinite w z then Fin (ford w z) else if fneg w z then NInf else PInf.
Lemma kof_finite z : finite (kof z) = ffinite w z.
Proof.
  unfold kof. destruct (is_nan w z) eqn:N; [now rewrite (nan_not_finite z N)|]. destruct (ffinite w z); [reflexivity|]. destruct (fneg w z); reflexivity.
Qed.
Lemma ford_finite z : ffinite w z = true -> - inf_pat w < ford w z < inf_pat w.
Proof. unfold ffinite, ford. rewrite Z.ltb_lt. pose proof (fmag_range z). destruct (fneg w z); lia. Qed.
Lemma ford_infinite z : is_nan w z = false -> ffinite w z = false -> ford w z = if fneg w z then - inf_pat w else inf_pat w.
Proof. unfold is_nan, ffinite, ford. rewrite !Z.ltb_ge. intros. destruct (fneg w z); lia. Qed.
Lemma kof_le x y : is_nan w x = false -> is_nan w y = false -> kle (kof x) (kof y) = (ford w x <=? ford w y).
Proof.
  intros NX NY. pose proof inf_pat_pos. unfold kof. rewrite NX, NY.
  destruct (ffinite w x) eqn:FX; destruct (ffinite w y) eqn:FY.
  - reflexivity.
  - pose proof (ford_finite x FX). rewrite (ford_infinite y NY FY). destruct (fneg w y); cbn [kle]; symmetry; [apply Z.leb_gt|apply Z.leb_le]; lia.
  - pose proof (ford_finite y FY). rewrite (ford_infinite x NX FX). destruct (fneg w x); cbn [kle]; symmetry; [apply Z.leb_le|apply Z.leb_gt]; lia.
  - rewrite (ford_infinite x NX FX), (ford_infinite y NY FY). destruct (fneg w x); destruct (fneg w y); cbn [kle]; symmetry; first [apply Z.leb_le|apply Z.leb_gt]; lia.
Qed.
Lemma kof_gt x y : is_nan w x = false -> is_nan w y = false -> kgt (kof x) (kof y) = fgt w x y.
Proof. intros NX NY. unfold kgt, fgt. rewrite kof_le by assumption. rewrite NX, NY. cbn [negb andb]. now rewrite Z.ltb_antisym. Qed.
Lemma kof_min x y : is_nan w x = false -> is_nan w y = false -> kmin (kof x) (kof y) = kof (fminimum w x y) /\ is_nan w (fminimum w x y) = false.
Proof. intros NX NY. unfold kmin, fminimum. rewrite kof_le by assumption. rewrite NX, NY. destruct (ford w x <=? ford w y); auto. Qed.
Lemma kof_inf : kof (inf_pat w) = PInf.
Proof. destruct inf_pat_facts as (_ & A & _ & B & C). unfold kof. now rewrite A, B, C. Qed.
End F.
