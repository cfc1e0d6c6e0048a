(** * FloatEq.v — IEEE equality on bit patterns is equality of the represented numbers. *)
From Verif Require Import Jax StructModel EqModel.
Local Open Scope Z_scope.

(** ** Specification: the number a pattern stands for, scaled by a fixed power of two so
    that it is an integer; [None] is NaN.  Infinities are larger than every finite number. *)
Definition float_width (w : nat) : Prop := w = 16%nat \/ w = 32%nat \/ w = 64%nat.
Definition fval (w : nat) (z : Z) : option Z :=
  let M := 2 ^ man_bits w in
  let emax := 2 ^ (Z.of_nat w - 1 - man_bits w) - 1 in
  let m := z mod M in
  let e := (z / M) mod (emax + 1) in
  let sign := if 2 ^ (Z.of_nat w - 1) <=? z then -1 else 1 in
  if (e =? emax) && negb (m =? 0) then None
  else Some (sign * (if e =? 0 then m else (M + m) * 2 ^ (e - 1))).

Definition fmagval (M e m : Z) : Z := if e =? 0 then m else (M + m) * 2 ^ (e - 1).
Lemma fmagval_pos M e m : 0 < M -> 0 <= e -> 0 <= m < M -> 0 <= fmagval M e m /\ (fmagval M e m = 0 <-> e = 0 /\ m = 0).
Proof.
  intros HM He Hm. unfold fmagval. destruct (Z.eqb_spec e 0) as [->|]; [lia|]. assert (0 < 2 ^ (e - 1)) by (apply Z.pow_pos_nonneg; lia). nia.
Qed.
Lemma fmagval_lt M e m e' m' : 0 < M -> 0 <= e < e' -> 0 <= m < M -> 0 <= m' < M -> fmagval M e m < fmagval M e' m'.
Proof.
  intros HM He Hm Hm'. unfold fmagval. destruct (Z.eqb_spec e' 0); [lia|].
  assert (HP : 0 < 2 ^ (e' - 1)) by (apply Z.pow_pos_nonneg; lia). destruct (Z.eqb_spec e 0) as [->|]; [nia|].
  assert (HE : 2 ^ (e' - 1) = 2 * 2 ^ (e - 1) * 2 ^ (e' - 1 - e)).
  { rewrite <- (Z.pow_1_r 2) at 2. rewrite <- !Z.pow_add_r by lia. f_equal. lia. }
  assert (0 < 2 ^ (e' - 1 - e)) by (apply Z.pow_pos_nonneg; lia). assert (0 < 2 ^ (e - 1)) by (apply Z.pow_pos_nonneg; lia).
  set (A := 2 ^ (e - 1)) in *. set (B := 2 ^ (e' - 1 - e)) in *. rewrite HE. nia.
Qed.
Lemma fmagval_inj M e m e' m' : 0 < M -> 0 <= e -> 0 <= e' -> 0 <= m < M -> 0 <= m' < M -> fmagval M e m = fmagval M e' m' -> e = e' /\ m = m'.
Proof.
  intros HM He He' Hm Hm' E. assert (e < e' \/ e' < e \/ e = e') as [H|[H| ->]] by lia.
  - pose proof (fmagval_lt M e m e' m' HM ltac:(lia) Hm Hm'). lia.
  - pose proof (fmagval_lt M e' m' e m HM ltac:(lia) Hm' Hm). lia.
  - split; [reflexivity|]. unfold fmagval in E. destruct (Z.eqb_spec e' 0); [exact E|]. assert (0 < 2 ^ (e' - 1)) by (apply Z.pow_pos_nonneg; lia).
    assert (M + m = M + m') by (apply (Z.mul_reg_r _ _ (2 ^ (e' - 1))); lia). lia.
Qed.

Lemma digits_zero P a b : 0 < P -> 0 <= a -> 0 <= b < P -> (a * P + b = 0 <-> a = 0 /\ b = 0).
Proof. intros HP Ha Hb. split; [|intros [-> ->]; reflexivity]. intros E. assert (a = 0 \/ 1 <= a) as [-> |H] by lia; [lia|]. nia. Qed.
Lemma digits_inj P a b a' b' : 0 < P -> 0 <= b < P -> 0 <= b' < P -> a * P + b = a' * P + b' -> a = a' /\ b = b'.
Proof. intros HP Hb Hb' E. assert (a = a') as -> by nia. split; lia. Qed.
Lemma digits_lt P Q a b : 0 <= a < Q -> 0 <= b < P -> 0 <= a * P + b < Q * P.
Proof. intros Ha Hb. split; [nia|]. assert ((a + 1) * P <= Q * P) by (apply Z.mul_le_mono_nonneg_r; lia). lia. Qed.
Section F.
Variables (w : nat).
Hypothesis HW : float_width w.
Notation man := (man_bits w).
Notation M := (2 ^ man).
Notation E1 := (2 ^ (Z.of_nat w - 1 - man)).
Lemma man_range : 0 < man /\ man + 2 < Z.of_nat w.
Proof. unfold man_bits. destruct HW as [-> |[-> | ->]]; cbn; lia. Qed.
Lemma M_pos : 1 < M.
Proof. pose proof man_range. change 1 with (2 ^ 0). apply Z.pow_lt_mono_r; lia. Qed.
Lemma E1_pos : 1 < E1.
Proof. pose proof man_range. change 1 with (2 ^ 0). apply Z.pow_lt_mono_r; lia. Qed.
Lemma half_eq : 2 ^ (Z.of_nat w - 1) = E1 * M.
Proof. pose proof man_range. rewrite <- Z.pow_add_r by lia. f_equal. lia. Qed.
Lemma full_eq : 2 ^ Z.of_nat w = 2 * (E1 * M).
Proof. rewrite <- half_eq. pose proof man_range. replace (Z.of_nat w) with (1 + (Z.of_nat w - 1)) at 1 by lia. rewrite Z.pow_add_r by lia. reflexivity. Qed.
(** the three parts of a pattern *)
Lemma parts z : 0 <= z < 2 ^ Z.of_nat w ->
  exists s e m, (s = 0 \/ s = 1) /\ 0 <= e < E1 /\ 0 <= m < M /\ z = s * (E1 * M) + e * M + m /\
    fmag w z = e * M + m /\ z mod M = m /\ (z / M) mod E1 = e /\ (2 ^ (Z.of_nat w - 1) <=? z) = (s =? 1).
Proof.
  rewrite full_eq. intros Hz. pose proof M_pos. pose proof E1_pos. set (P := M) in *. set (Q := E1) in *. unfold fmag. rewrite half_eq. fold P Q.
  assert (HQP : 0 < Q * P) by nia.
  exists (z / (Q * P)), ((z / P) mod Q), (z mod P).
  assert (Hs : 0 <= z / (Q * P) < 2) by (split; [apply Z.div_pos; lia|apply Z.div_lt_upper_bound; lia]).
  assert (Hm : 0 <= z mod P < P) by (apply Z.mod_pos_bound; lia). assert (He : 0 <= (z / P) mod Q < Q) by (apply Z.mod_pos_bound; lia).
  assert (HD : z / P / Q = z / (Q * P)) by (rewrite Z.div_div by lia; f_equal; lia).
  pose proof (Z.div_mod z P ltac:(lia)) as D1. pose proof (Z.div_mod (z / P) Q ltac:(lia)) as D2. rewrite HD in D2.
  assert (EZ : z = z / (Q * P) * (Q * P) + (z / P) mod Q * P + z mod P) by nia.
  split; [lia|]. split; [exact He|]. split; [exact Hm|]. split; [exact EZ|]. split; [|split; [reflexivity|split; [reflexivity|]]].
  - symmetry. apply (Zmod_unique z (Q * P) (z / (Q * P))); nia.
  - destruct (Z.leb_spec (Q * P) z); destruct (Z.eqb_spec (z / (Q * P)) 1) as [E|E]; try reflexivity; exfalso.
    + apply E. assert (1 <= z / (Q * P)) by (apply Z.div_le_lower_bound; lia). lia.
    + assert (z / (Q * P) = 0) by (apply Z.div_small; lia). lia.
Qed.
Lemma is_nan_spec z : 0 <= z < 2 ^ Z.of_nat w -> (is_nan w z = true <-> fval w z = None).
Proof.
  intros Hz. destruct (parts z Hz) as (s & e & m & Hs & He & Hm & EZ & EF & E2 & E3 & E4). unfold is_nan, inf_pat, fval. rewrite EF, half_eq, E2.
  replace (E1 - 1 + 1) with E1 by lia. rewrite E3. pose proof M_pos. pose proof E1_pos. set (P := M) in *. set (Q := E1) in *. rewrite Z.ltb_lt.
  destruct (Z.eqb_spec e (Q - 1)) as [-> |]; cbn [andb]; [destruct (Z.eqb_spec m 0) as [-> |]; cbn [negb]|]; split; try discriminate; try reflexivity; intros H'; nia.
Qed.
Lemma fval_inj x y : 0 <= x < 2 ^ Z.of_nat w -> 0 <= y < 2 ^ Z.of_nat w ->
  (elt_eqb (DFloat w) x y = true <-> exists v, fval w x = Some v /\ fval w y = Some v).
Proof.
  intros Hx Hy. cbn [elt_eqb].
  destruct (is_nan w x) eqn:NX; cbn [negb andb].
  { split; [discriminate|]. intros (v & E & _). apply is_nan_spec in NX; [congruence|exact Hx]. }
  destruct (is_nan w y) eqn:NY; cbn [negb andb].
  { split; [discriminate|]. intros (v & _ & E). apply is_nan_spec in NY; [congruence|exact Hy]. }
  assert (FX : fval w x <> None) by (intros K; apply is_nan_spec in K; [congruence|exact Hx]).
  assert (FY : fval w y <> None) by (intros K; apply is_nan_spec in K; [congruence|exact Hy]).
  destruct (parts x Hx) as (s & e & m & Hs & He & Hm & EZ & EF & E2 & E3 & E4). destruct (parts y Hy) as (s' & e' & m' & Hs' & He' & Hm' & EZ' & EF' & E2' & E3' & E4').
  unfold fval in *. replace (E1 - 1 + 1) with E1 in * by lia. rewrite E2, E3, E4 in *. rewrite E2', E3', E4' in *. rewrite EF, EF'.
  destruct ((e =? E1 - 1) && negb (m =? 0)); [congruence|]. destruct ((e' =? E1 - 1) && negb (m' =? 0)); [congruence|]. clear FX FY NX NY.
  fold (fmagval M e m). fold (fmagval M e' m'). pose proof M_pos. pose proof E1_pos.
  pose proof (fmagval_pos M e m ltac:(lia) ltac:(lia) Hm) as [P1 P2]. pose proof (fmagval_pos M e' m' ltac:(lia) ltac:(lia) Hm') as [P1' P2'].
  rewrite orb_true_iff, andb_true_iff, !Z.eqb_eq, !(digits_zero M) by lia. split.
  - intros [-> |[[-> ->] [-> ->]]].
    + rewrite EZ in EZ'. assert (s = s' /\ e * M + m = e' * M + m') as [-> EE].
      { apply (digits_inj (E1 * M)); [apply Z.mul_pos_pos; lia|now apply digits_lt|now apply digits_lt|rewrite !Z.add_assoc; exact EZ']. }
      apply digits_inj in EE; [|lia..]. destruct EE as [-> ->]. eauto.
    + exists 0. split; f_equal; unfold fmagval; cbn; lia.
  - intros (v & V1 & V2). assert (V : (if s =? 1 then -1 else 1) * fmagval M e m = (if s' =? 1 then -1 else 1) * fmagval M e' m') by congruence. clear V1 V2.
    destruct (Z.eq_dec s s') as [-> |NS].
    + left. assert (fmagval M e m = fmagval M e' m') as EV by (clear - V; destruct (s' =? 1); lia). apply fmagval_inj in EV; [|lia..]. destruct EV as [-> ->]. rewrite EZ, EZ'. reflexivity.
    + right. assert (fmagval M e m = 0 /\ fmagval M e' m' = 0) as [K1 K2].
      { clear - V NS Hs Hs' P1 P1'. destruct Hs as [-> | ->], Hs' as [-> | ->]; cbn [Z.eqb Pos.eqb] in V; lia. }
      tauto.
Qed.
End F.
