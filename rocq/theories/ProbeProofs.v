(** * ProbeProofs.v — sizing of the table and the probe sequence. *)
From Verif Require Import Jax HashModel HashProofs StableSort TableModel.

Lemma land_mask (x : N) k : N.land x (N.of_nat (2 ^ k) - 1) = (x mod 2 ^ N.of_nat k)%N.
Proof.
  replace (N.of_nat (2 ^ k) - 1)%N with (N.ones (N.of_nat k)).
  - apply N.land_ones.
  - rewrite N.ones_equiv, Nat2N.inj_pow. rewrite N.sub_1_r. reflexivity.
Qed.
Lemma pow2N k : N.of_nat (2 ^ k) = (2 ^ N.of_nat k)%N.
Proof. rewrite Nat2N.inj_pow. reflexivity. Qed.
Lemma pow2_pos k : 0 < 2 ^ k. Proof. pose proof (Nat.pow_nonzero 2 k). lia. Qed.

Section P.
Context {item : Type} (hp : item -> N * N).
Variable c : nat.
Variable k : nat.
Hypothesis Hc : c = 2 ^ k.
Hypothesis Hk : k <= 32.

Lemma start_lt x : start_of hp c x < c.
Proof.
  unfold start_of, mask_of. rewrite Hc, land_mask.
  pose proof (N.mod_lt (fst (hp x)) (2 ^ N.of_nat k) ltac:(apply N.pow_nonzero; discriminate)) as H.
  rewrite <- pow2N in *. lia.
Qed.
Lemma next_bucket_eq (s : N) b : next_bucket c s b = (b + N.to_nat (s mod 2 ^ N.of_nat k)%N) mod c.
Proof.
  unfold next_bucket, mask_of. rewrite Hc, land_mask. unfold w32, W32.
  replace (2 ^ 32)%N with (2 ^ N.of_nat k * 2 ^ (32 - N.of_nat k))%N.
  2:{ rewrite <- N.pow_add_r. f_equal. lia. }
  assert (2 ^ N.of_nat k <> 0)%N as Hnz by (apply N.pow_nonzero; discriminate).
  assert (2 ^ (32 - N.of_nat k) <> 0)%N as Hnz2 by (apply N.pow_nonzero; discriminate).
  rewrite N.mod_mul_r by assumption.
  rewrite N.add_mod, (N.mul_comm (2 ^ N.of_nat k)), N.mod_mul, N.add_0_r, !N.mod_mod by assumption.
  rewrite <- N.add_mod_idemp_r by assumption.
  set (r := (s mod 2 ^ N.of_nat k)%N). rewrite <- pow2N.
  rewrite <- (N2Nat.id r) at 1. rewrite <- Nat2N.inj_add.
  rewrite N2Nat.inj_mod. rewrite !Nat2N.id. reflexivity.
Qed.
Lemma next_bucket_lt s b : next_bucket c s b < c.
Proof. rewrite next_bucket_eq. apply Nat.mod_upper_bound. rewrite Hc. pose proof (pow2_pos k). lia. Qed.

Definition stride (x : item) : nat := N.to_nat (step_of hp c x mod 2 ^ N.of_nat k)%N.
(** the j-th bucket visited *)
Definition probe (x : item) (j : nat) : nat := (start_of hp c x + j * stride x) mod c.
Lemma c_nz : c <> 0. Proof. rewrite Hc. pose proof (pow2_pos k). lia. Qed.
Lemma probe_0 x : probe x 0 = start_of hp c x.
Proof. unfold probe. rewrite Nat.mul_0_l, Nat.add_0_r. apply Nat.mod_small, start_lt. Qed.
Lemma probe_S x j : probe x (S j) = next_bucket c (step_of hp c x) (probe x j).
Proof.
  rewrite next_bucket_eq. fold (stride x). unfold probe.
  rewrite Nat.add_mod_idemp_l by apply c_nz. f_equal. lia.
Qed.
Lemma probe_lt x j : probe x j < c. Proof. apply Nat.mod_upper_bound, c_nz. Qed.

Lemma step_odd x : N.testbit (step_of hp c x) 0 = true.
Proof. unfold step_of. rewrite N.lor_spec. change (N.testbit 1 0) with true. apply orb_true_r. Qed.
Lemma stride_odd x : k <> 0 -> Nat.odd (stride x) = true.
Proof.
  intros Hk0. unfold stride.
  assert (N.testbit (step_of hp c x mod 2 ^ N.of_nat k) 0 = true) as H.
  { rewrite N.mod_pow2_bits_low by lia. apply step_odd. }
  rewrite N.bit0_odd in H. rewrite <- Nat.bit0_odd.
  destruct (step_of hp c x mod 2 ^ N.of_nat k)%N as [|p]; [discriminate|].
  destruct p; cbn in H; try discriminate; cbn; try reflexivity.
  rewrite Pos2Nat.inj_xI. unfold Nat.odd. rewrite Nat.even_succ, Nat.odd_mul. reflexivity.
Qed.

Lemma odd_div (s : nat) : Nat.odd s = true -> forall m j, (exists q, s * j = 2 ^ m * q) -> exists q, j = 2 ^ m * q.
Proof.
  intros Hs. induction m as [|m IH]; intros j [q Hq].
  - exists j. cbn. lia.
  - assert (Nat.even (s * j) = true) as HE.
    { rewrite Hq. cbn [Nat.pow]. rewrite <- Nat.mul_assoc, Nat.even_mul. reflexivity. }
    rewrite Nat.even_mul in HE. unfold Nat.odd in Hs. destruct (Nat.even s); [discriminate|]. cbn in HE.
    apply Nat.even_spec in HE. destruct HE as [h ->].
    destruct (IH h) as [q' ->].
    { exists q. cbn [Nat.pow] in Hq. lia. }
    exists q'. cbn [Nat.pow]. lia.
Qed.
Lemma mod_eq_mul a b : a <= b -> a mod c = b mod c -> exists q, b - a = c * q.
Proof.
  intros HL HE. exists (b / c - a / c).
  pose proof (Nat.div_mod a c c_nz). pose proof (Nat.div_mod b c c_nz).
  rewrite Nat.mul_sub_distr_l. pose proof (Nat.div_le_mono a b c c_nz HL). nia.
Qed.
Lemma probe_inj_le x i j : i <= j -> j < c -> probe x i = probe x j -> i = j.
Proof.
  intros Hij Hj E. destruct (Nat.eq_dec k 0) as [H0|H0].
  { rewrite H0 in Hc. cbn in Hc. lia. }
  unfold probe in E. apply mod_eq_mul in E; [|nia]. destruct E as [q Hq].
  assert (exists q', j - i = 2 ^ k * q') as [q' Hq'].
  { apply (odd_div (stride x)); [apply stride_odd; exact H0|]. exists q. rewrite <- Hc. nia. }
  rewrite <- Hc in Hq'. destruct q' as [|q']; nia.
Qed.
Lemma probe_inj x i j : i < c -> j < c -> probe x i = probe x j -> i = j.
Proof.
  intros Hi Hj E. destruct (Nat.le_ge_cases i j) as [H|H].
  - apply probe_inj_le with x; auto.
  - symmetry. apply probe_inj_le with x; auto.
Qed.
Lemma probe_nodup x : NoDup (map (probe x) (seq 0 c)).
Proof.

  assert (forall n, n <= c -> NoDup (map (probe x) (seq 0 n))) as H; [|apply H; lia].
  induction n as [|n IH]; intros Hn; [constructor|].
  rewrite seq_S, map_app. cbn [map].
  rewrite Nat.add_0_l. apply Permutation_NoDup with (l := probe x n :: map (probe x) (seq 0 n)).
  - apply Permutation_cons_append.
  - constructor; [|apply IH; lia]. intros HI. apply in_map_iff in HI. destruct HI as (i & E & Hi).
    apply in_seq in Hi. apply probe_inj in E; lia.
Qed.
Lemma probe_onto x b : b < c -> exists j, j < c /\ probe x j = b.
Proof.
  intros Hb.
  assert (incl (seq 0 c) (map (probe x) (seq 0 c))) as H.
  { apply NoDup_length_incl.
    - apply probe_nodup.
    - rewrite map_length. lia.
    - intros y Hy. apply in_map_iff in Hy. destruct Hy as (j & <- & _). apply in_seq. pose proof (probe_lt x j). lia. }
  specialize (H b ltac:(apply in_seq; lia)). apply in_map_iff in H. destruct H as (j & E & Hj).
  apply in_seq in Hj. exists j. split; [lia|exact E].
Qed.
Lemma probe_period x j : probe x (c + j) = probe x j.
Proof.
  unfold probe. rewrite Nat.mul_add_distr_r, (Nat.mul_comm c), Nat.add_assoc, (Nat.add_comm (start_of hp c x)).
  rewrite <- Nat.add_assoc, Nat.add_comm, Nat.mod_add by apply c_nz. reflexivity.
Qed.
End P.

(** sizing *)
Lemma table_cap_pow2 target : exists k, table_cap target = 2 ^ k.
Proof. unfold table_cap. destruct (target <=? 1); [exists 0; reflexivity|eexists; reflexivity]. Qed.
Lemma table_cap_ge target : target <= table_cap target.
Proof.
  unfold table_cap. destruct (Nat.leb_spec target 1) as [H|H]; [lia|].
  pose proof (N.size_gt (N.of_nat (target - 1))) as HS.
  rewrite <- (N2Nat.id (N.size (N.of_nat (target - 1)))) in HS. rewrite <- pow2N in HS. lia.
Qed.
Lemma table_cap_lt target : 1 <= target -> table_cap target < 2 * target.
Proof.
  intros HT. unfold table_cap. destruct (Nat.leb_spec target 1) as [H|H]; [lia|].
  pose proof (N.size_le (N.of_nat (target - 1))) as HS.
  rewrite <- (N2Nat.id (N.size (N.of_nat (target - 1)))) in HS. rewrite <- pow2N in HS.
  rewrite N.succ_double_spec in HS.
  set (m := 2 ^ N.to_nat (N.size (N.of_nat (target - 1)))) in *. lia.
Qed.
