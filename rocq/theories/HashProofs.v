(** * HashProofs.v — facts about the hash functions. *)
From Verif Require Import Jax HashModel.
Local Open Scope N_scope.

Lemma W32_val : W32 = 4294967296. Proof. reflexivity. Qed.
Definition word (x : N) : Prop := x < W32.

Lemma word_lt_log2 x : word x -> x = 0 \/ N.log2 x < 32.
Proof.
  intros H. destruct (N.eq_dec x 0) as [->|Hx]; [left; reflexivity|right].
  apply N.log2_lt_pow2; [lia|exact H].
Qed.
Lemma lt_pow2_bits x k : (forall i, k <= i -> N.testbit x i = false) -> x < 2 ^ k.
Proof.
  intros H. destruct (N.eq_dec x 0) as [->|Hx]; [apply N.neq_0_lt_0, N.pow_nonzero; lia|].
  apply N.log2_lt_pow2; [lia|]. destruct (N.lt_ge_cases (N.log2 x) k) as [HL|HL]; [exact HL|].
  specialize (H _ HL). rewrite N.bit_log2 in H by exact Hx. discriminate.
Qed.
Lemma bits_lt_pow2 x k i : x < 2 ^ k -> k <= i -> N.testbit x i = false.
Proof.
  intros H Hi. destruct (N.eq_dec x 0) as [->|Hx]; [apply N.bits_0|].
  apply N.bits_above_log2. apply N.log2_lt_pow2 in H; lia.
Qed.
Lemma lxor_lt x y k : x < 2 ^ k -> y < 2 ^ k -> N.lxor x y < 2 ^ k.
Proof.
  intros Hx Hy. apply lt_pow2_bits. intros i Hi. rewrite N.lxor_spec.
  rewrite (bits_lt_pow2 x k i), (bits_lt_pow2 y k i) by assumption. reflexivity.
Qed.
Lemma lxor_word x y : word x -> word y -> word (N.lxor x y). Proof. apply lxor_lt. Qed.
Lemma shiftr_le x k : N.shiftr x k <= x.
Proof.
  rewrite N.shiftr_div_pow2. apply N.div_le_upper_bound; [apply N.pow_nonzero; lia|].
  assert (1 <= 2 ^ k) by (pose proof (N.pow_nonzero 2 k); lia). nia.
Qed.
Lemma shiftr_word x k : word x -> word (N.shiftr x k).
Proof. unfold word. intros H. pose proof (shiftr_le x k). lia. Qed.
Lemma w32_word x : word (w32 x). Proof. apply N.mod_lt. discriminate. Qed.
Lemma w32_small x : word x -> w32 x = x. Proof. apply N.mod_small. Qed.
Lemma mul32_word a b : word (mul32 a b). Proof. apply w32_word. Qed.

(** the inverse mixer *)
Definition avalanche32_inv (y : N) : N :=
  let h := N.lxor y (N.shiftr y 16) in
  let h := mul32 h 0xA89ED915 in
  let h := N.lxor (N.lxor h (N.shiftr h 13)) (N.shiftr h 26) in
  let h := mul32 h 0xB6C92F47 in
  N.lxor h (N.shiftr h 16).

Lemma shiftr_word_0 x k : word x -> 32 <= k -> N.shiftr x k = 0.
Proof.
  intros H Hk. apply N.bits_inj. intros i. rewrite N.shiftr_spec', N.bits_0.
  apply (bits_lt_pow2 x 32); [exact H|lia].
Qed.
Lemma xorshift16_inv x : word x ->
  let y := N.lxor x (N.shiftr x 16) in N.lxor y (N.shiftr y 16) = x.
Proof.
  intros H y. subst y. rewrite N.shiftr_lxor, N.shiftr_shiftr.
  rewrite (shiftr_word_0 x (16 + 16)) by (auto; lia).
  rewrite N.lxor_0_r, N.lxor_assoc, N.lxor_nilpotent, N.lxor_0_r. reflexivity.
Qed.
Lemma lxor_cancel_mid a b c d : N.lxor (N.lxor a b) (N.lxor (N.lxor b c) d) = N.lxor a (N.lxor c d).
Proof.
  apply N.bits_inj. intros i. rewrite !N.lxor_spec.
  destruct (N.testbit a i), (N.testbit b i), (N.testbit c i), (N.testbit d i); reflexivity.
Qed.
Lemma xorshift13_inv x : word x ->
  let y := N.lxor x (N.shiftr x 13) in N.lxor (N.lxor y (N.shiftr y 13)) (N.shiftr y 26) = x.
Proof.
  intros H y. subst y. rewrite !N.shiftr_lxor, !N.shiftr_shiftr.
  rewrite (shiftr_word_0 x (13 + 26)) by (auto; lia).
  change (13 + 13) with 26. apply N.bits_inj. intros i. rewrite !N.lxor_spec, N.bits_0.
  destruct (N.testbit x i), (N.testbit (N.shiftr x 13) i), (N.testbit (N.shiftr x 26) i); reflexivity.
Qed.
Lemma xorshift13_inv' y : word y ->
  let x := N.lxor (N.lxor y (N.shiftr y 13)) (N.shiftr y 26) in N.lxor x (N.shiftr x 13) = y.
Proof.
  intros H x. subst x. rewrite !N.shiftr_lxor, !N.shiftr_shiftr.
  rewrite (shiftr_word_0 y (26 + 13)) by (auto; lia).
  change (13 + 13) with 26. apply N.bits_inj. intros i. rewrite !N.lxor_spec, N.bits_0.
  destruct (N.testbit y i), (N.testbit (N.shiftr y 13) i), (N.testbit (N.shiftr y 26) i); reflexivity.
Qed.
Lemma mul32_inv h a b : word h -> (a * b) mod W32 = 1 -> mul32 (mul32 h a) b = h.
Proof.
  intros H E. unfold mul32, w32. rewrite N.mul_mod_idemp_l by discriminate.
  rewrite <- N.mul_assoc, <- N.mul_mod_idemp_r by discriminate. rewrite E, N.mul_1_r.
  apply N.mod_small. exact H.
Qed.
Ltac word_tac := repeat first [assumption | apply lxor_word | apply shiftr_word | apply mul32_word | apply w32_word].
Lemma avalanche32_word x : word x -> word (avalanche32 x).
Proof. intros H. unfold avalanche32. word_tac. Qed.
Lemma avalanche32_inv_word x : word x -> word (avalanche32_inv x).
Proof. intros H. unfold avalanche32_inv. word_tac. Qed.

Lemma avalanche32_left x : word x -> avalanche32_inv (avalanche32 x) = x.
Proof.
  intros H. unfold avalanche32, avalanche32_inv. cbv zeta.
  set (a := N.lxor x (N.shiftr x 16)). set (b := mul32 a 0x85EBCA77).
  set (c := N.lxor b (N.shiftr b 13)). set (d := mul32 c 0xC2B2AE3D).
  rewrite (xorshift16_inv d) by apply mul32_word. unfold d.
  rewrite mul32_inv; [|unfold c, b; word_tac|reflexivity]. unfold c.
  rewrite (xorshift13_inv b) by apply mul32_word. unfold b.
  rewrite mul32_inv; [|unfold a; word_tac|reflexivity]. unfold a.
  apply xorshift16_inv. exact H.
Qed.
Lemma avalanche32_right y : word y -> avalanche32 (avalanche32_inv y) = y.
Proof.
  intros H. unfold avalanche32, avalanche32_inv. cbv zeta.
  set (a := N.lxor y (N.shiftr y 16)). set (b := mul32 a 0xA89ED915).
  set (c := N.lxor (N.lxor b (N.shiftr b 13)) (N.shiftr b 26)). set (d := mul32 c 0xB6C92F47).
  rewrite (xorshift16_inv d) by apply mul32_word. unfold d.
  rewrite mul32_inv; [|unfold c, b; word_tac|reflexivity]. unfold c.
  rewrite (xorshift13_inv' b) by apply mul32_word. unfold b.
  rewrite mul32_inv; [|unfold a; word_tac|reflexivity]. unfold a.
  apply xorshift16_inv. exact H.
Qed.
Lemma avalanche32_inj x y : word x -> word y -> avalanche32 x = avalanche32 y -> x = y.
Proof. intros Hx Hy E. rewrite <- (avalanche32_left x), <- (avalanche32_left y), E by assumption. reflexivity. Qed.

(** ** xor reductions *)
Lemma xor_fold_acc l a : fold_left N.lxor l a = N.lxor a (xor_reduce l).
Proof.
  unfold xor_reduce. revert a; induction l as [|x l IH]; intros a; cbn [fold_left].
  - rewrite N.lxor_0_r. reflexivity.
  - rewrite IH, (IH (N.lxor 0 x)). rewrite N.lxor_0_l, N.lxor_assoc. reflexivity.
Qed.
Lemma xor_reduce_cons x l : xor_reduce (x :: l) = N.lxor x (xor_reduce l).
Proof. unfold xor_reduce at 1. cbn [fold_left]. rewrite xor_fold_acc, N.lxor_0_l. reflexivity. Qed.
Lemma xor_reduce_app l m : xor_reduce (l ++ m) = N.lxor (xor_reduce l) (xor_reduce m).
Proof. unfold xor_reduce at 1. rewrite fold_left_app, xor_fold_acc. reflexivity. Qed.
Lemma xor_reduce_nil : xor_reduce [] = 0. Proof. reflexivity. Qed.
Lemma xor_reduce_word l : Forall word l -> word (xor_reduce l).
Proof.
  induction 1 as [|x l Hx Hl IH]; [reflexivity|]. rewrite xor_reduce_cons. word_tac.
Qed.

Lemma salts_length o n : length (salts o n) = n.
Proof. unfold salts. rewrite map_length, seq_length. reflexivity. Qed.
Lemma salts_app o n m : salts o (n + m) = salts o n ++ salts (o + n) m.
Proof. unfold salts. rewrite seq_app, map_app. reflexivity. Qed.
Lemma combine_app {A B} (a b : list A) (c d : list B) : length a = length c ->
  combine (a ++ b) (c ++ d) = combine a c ++ combine b d.
Proof.
  revert c; induction a as [|x a IH]; intros [|y c] E; cbn in *; try discriminate; auto.
  f_equal. apply IH. lia.
Qed.
Lemma lanes_length o ws s : length (lanes o ws s) = length ws.
Proof. unfold lanes. rewrite map_length, combine_length, salts_length. lia. Qed.
Lemma lanes_app o a b s : lanes o (a ++ b) s = lanes o a s ++ lanes (o + length a) b s.
Proof.
  unfold lanes. rewrite app_length, salts_app, combine_app, map_app by (rewrite salts_length; reflexivity).
  reflexivity.
Qed.
Lemma lanes1_app o a b s : lanes1 o (a ++ b) s = lanes1 o a s ++ lanes1 (o + length a) b s.
Proof.
  unfold lanes1. rewrite lanes_app, app_length, salts_app, combine_app, map_app
    by (rewrite salts_length, lanes_length; reflexivity).
  reflexivity.
Qed.

(** ** streaming *)
Lemma stream_go_spec leaves s o c0 c1 :
  stream_go leaves s o c0 c1 =
  ((o + length (concat leaves))%nat, N.lxor c0 (xor_reduce (lanes o (concat leaves) s)),
   N.lxor c1 (xor_reduce (lanes1 o (concat leaves) s))).
Proof.
  revert o c0 c1; induction leaves as [|lf t IH]; intros o c0 c1; cbn [stream_go concat].
  - cbn [length]. rewrite Nat.add_0_r. unfold lanes1, lanes. cbn. rewrite !N.lxor_0_r. reflexivity.
  - destruct lf as [|w lf].
    + apply IH.
    + rewrite IH, app_length, lanes_app, lanes1_app, !xor_reduce_app, !N.lxor_assoc, Nat.add_assoc. reflexivity.
Qed.

(** second hash = first combined with a constant of the length *)
Definition saltK (n : nat) : N := xor_reduce (map (fun x => mul32 x CB) (salts 0 n)).
Lemma xor_reduce_zip (ls ss : list N) : length ls = length ss ->
  xor_reduce (map (fun p => N.lxor (fst p) (mul32 (snd p) CB)) (combine ls ss)) =
  N.lxor (xor_reduce ls) (xor_reduce (map (fun x => mul32 x CB) ss)).
Proof.
  revert ss; induction ls as [|l ls IH]; intros [|x ss] E; cbn [length] in E; try discriminate; [reflexivity|].
  cbn [combine map]. rewrite !xor_reduce_cons, IH by lia. cbn [fst snd].
  apply N.bits_inj. intros i. rewrite !N.lxor_spec.
  destruct (N.testbit l i), (N.testbit (mul32 x CB) i), (N.testbit (xor_reduce ls) i); 
   destruct (N.testbit (xor_reduce (map (fun x0 : N => mul32 x0 CB) ss)) i); reflexivity.
Qed.
Lemma lanes1_lanes ws s : xor_reduce (lanes1 0 ws s) = N.lxor (xor_reduce (lanes 0 ws s)) (saltK (length ws)).
Proof.
  unfold lanes1, saltK. apply xor_reduce_zip. rewrite lanes_length, salts_length. reflexivity.
Qed.

Lemma salts_word o n : Forall word (salts o n).
Proof. apply Forall_forall. intros x H. apply in_map_iff in H. destruct H as (i & <- & _). apply mul32_word. Qed.
Lemma lanes_word o ws s : Forall word ws -> word s -> Forall word (lanes o ws s).
Proof.
  intros Hw Hs. apply Forall_forall. intros x H. unfold lanes in H. apply in_map_iff in H.
  destruct H as ([a b] & <- & H). cbn [fst snd].
  pose proof (in_combine_l _ _ _ _ H) as Ha. pose proof (in_combine_r _ _ _ _ H) as Hb.
  apply avalanche32_word. word_tac.
  - eapply Forall_forall in Hw; eauto.
  - eapply Forall_forall in Hb; [|apply salts_word]. exact Hb.
Qed.
Lemma saltK_word n : word (saltK n).
Proof. apply xor_reduce_word, Forall_forall. intros x H. apply in_map_iff in H. destruct H as (i & <- & _). apply mul32_word. Qed.
Lemma length_mix_word n : word (length_mix n). Proof. apply w32_word. Qed.
Lemma lxor_cancel_l a b c : N.lxor a b = N.lxor a c -> b = c.
Proof.
  intros E. assert (N.lxor a (N.lxor a b) = N.lxor a (N.lxor a c)) as H by (rewrite E; reflexivity).
  rewrite <- !N.lxor_assoc, N.lxor_nilpotent, !N.lxor_0_l in H. exact H.
Qed.
Lemma lxor_cancel_r a b c : N.lxor b a = N.lxor c a -> b = c.
Proof. rewrite !(N.lxor_comm _ a). apply lxor_cancel_l. Qed.

Lemma hash_fast_eq ws s : ws <> [] ->
  hash_fast ws s = avalanche32 (N.lxor (N.lxor (xor_reduce (lanes 0 ws s)) (length_mix (length ws))) s).
Proof. destruct ws; [congruence|reflexivity]. Qed.
Lemma hash_fast_pair_eq ws s : ws <> [] ->
  hash_fast_pair ws s = 
  (avalanche32 (N.lxor (N.lxor (xor_reduce (lanes 0 ws s)) (length_mix (length ws))) s),
   avalanche32 (N.lxor (N.lxor (xor_reduce (lanes1 0 ws s)) (length_mix (length ws))) (N.lxor s CC))).
Proof. destruct ws; [congruence|reflexivity]. Qed.

(** ** serialisation of leaves *)
Definition leaf_ok (lf : leaf) : Prop := Forall (fun x => x < 2 ^ wbits (lwidth lf)) (lelems lf).
Definition same_layout (a b : list leaf) : Prop :=
  Forall2 (fun x y => lwidth x = lwidth y /\ length (lelems x) = length (lelems y)) a b.

Lemma list_ind2 {A} (P : list A -> Prop) : P [] -> (forall a, P [a]) ->
  (forall a b l, P l -> P (a :: b :: l)) -> forall l, P l.
Proof. intros H0 H1 H2. fix IH 1. intros [|a [|b l]]; [exact H0|apply H1|apply H2, IH]. Qed.
Lemma list_ind4 {A} (P : list A -> Prop) : P [] -> (forall a, P [a]) -> (forall a b, P [a; b]) -> (forall a b c, P [a; b; c]) ->
  (forall a b c d l, P l -> P (a :: b :: c :: d :: l)) -> forall l, P l.
Proof. intros H0 H1 H2 H3 H4. fix IH 1. intros [|a [|b [|c [|d l]]]]; [exact H0|apply H1|apply H2|apply H3|apply H4, IH]. Qed.

Lemma bytes_to_u32_inj : forall a b, length a = length b ->
  Forall (fun x => x < 2 ^ 8) a -> Forall (fun x => x < 2 ^ 8) b ->
  bytes_to_u32 a = bytes_to_u32 b -> a = b.
Proof.
  change (2 ^ 8) with 256.
  intros a. induction a as [|a0|a0 a1|a0 a1 a2|a0 a1 a2 a3 a IH] using list_ind4; intros b HL Ha Hb E; destruct b as [|b0 [|b1 [|b2 [|b3 b]]]]; cbn [length] in HL; try lia;
    repeat match goal with H : Forall _ (_ :: _) |- _ => inversion H; clear H; subst end;
    cbn [bytes_to_u32] in E.
  - reflexivity.
  - congruence.
  - injection E as E. f_equal; [|f_equal]; lia.
  - injection E as E. f_equal; [|f_equal; [|f_equal]]; lia.
  - injection E as E E2. assert (a = b) as -> by (apply IH; auto; lia).
    f_equal; [|f_equal; [|f_equal; [|f_equal]]]; lia.
Qed.
Lemma pack16_word a b : a < 2 ^ 16 -> N.lor a (N.shiftl b 16) = a + b * 2 ^ 16.
Proof.
  intros H. rewrite <- N.shiftl_mul_pow2. symmetry. rewrite N.add_nocarry_lxor.
  - rewrite N.lxor_lor; [reflexivity|].
    apply N.bits_inj. intros i. rewrite N.land_spec, N.bits_0.
    destruct (N.lt_ge_cases i 16); [rewrite N.shiftl_spec_low by assumption; apply andb_false_r|].
    rewrite (bits_lt_pow2 a 16 i) by assumption. reflexivity.
  - apply N.bits_inj. intros i. rewrite N.land_spec, N.bits_0.
    destruct (N.lt_ge_cases i 16); [rewrite N.shiftl_spec_low by assumption; apply andb_false_r|].
    rewrite (bits_lt_pow2 a 16 i) by assumption. reflexivity.
Qed.
Lemma pack16_inj : forall a b, length a = length b ->
  Forall (fun x => x < 2 ^ 16) a -> Forall (fun x => x < 2 ^ 16) b ->
  pack16 a = pack16 b -> a = b.
Proof.
  intros a. induction a as [|a0|a0 a1 a IH] using list_ind2; intros b HL Ha Hb E; destruct b as [|b0 [|b1 b]]; cbn [length] in HL; try lia;
    repeat match goal with H : Forall _ (_ :: _) |- _ => inversion H; clear H; subst end;
    cbn [pack16] in E.
  - reflexivity.
  - congruence.
  - injection E as E E2. assert (a = b) as -> by (apply IH; auto; lia).
    rewrite !pack16_word in E by assumption. change (2 ^ 16) with 65536 in *.
    f_equal; [|f_equal]; lia.
Qed.
Lemma cons2_inj {A} (a b c d : A) l m : a :: b :: l = c :: d :: m -> a = c /\ b = d /\ l = m.
Proof. intros E. injection E. auto. Qed.
Lemma split64_cons x l : split64 (x :: l) = N.land x 4294967295 :: N.shiftr x 32 :: split64 l.
Proof. reflexivity. Qed.
Lemma split64_inj : forall a b, split64 a = split64 b -> a = b.
Proof.
  induction a as [|x a IH]; intros [|y b] E; try reflexivity; try (rewrite split64_cons in E; discriminate).
  rewrite !split64_cons in E. apply cons2_inj in E. destruct E as (E1 & E2 & E3).
  f_equal; [|apply IH; assumption].
  change 4294967295 with (N.ones 32) in *. rewrite !N.land_ones in E1. rewrite !N.shiftr_div_pow2 in E2.
  rewrite (N.div_mod x (2 ^ 32)), (N.div_mod y (2 ^ 32)) by discriminate. congruence.
Qed.
Lemma leaf_words_inj a b : leaf_ok a -> leaf_ok b -> lwidth a = lwidth b ->
  length (lelems a) = length (lelems b) -> leaf_words a = leaf_words b -> lelems a = lelems b.
Proof.
  unfold leaf_ok, leaf_words. intros Ha Hb Hw HL E. rewrite <- Hw in *.
  destruct (lwidth a); [apply bytes_to_u32_inj|apply pack16_inj| |apply split64_inj]; assumption.
Qed.
Lemma leaf_words_length a b : lwidth a = lwidth b -> length (lelems a) = length (lelems b) ->
  length (leaf_words a) = length (leaf_words b).
Proof.
  unfold leaf_words. intros Hw HL. rewrite <- Hw. destruct (lwidth a).
  - revert HL. generalize (lelems b). induction (lelems a) as [|a0|a0 a1|a0 a1 a2|a0 a1 a2 a3 a' IH] using list_ind4; intros [|b0 [|b1 [|b2 [|b3 b']]]] HL;
      cbn [length] in HL; try lia; try reflexivity. cbn [bytes_to_u32 length]. f_equal. apply IH. lia.
  - revert HL. generalize (lelems b). induction (lelems a) as [|a0|a0 a1 a' IH] using list_ind2; intros [|b0 [|b1 b']] HL;
      cbn [length] in HL; try lia; try reflexivity. cbn [pack16 length]. f_equal. apply IH. lia.
  - exact HL.
  - revert HL. generalize (lelems a) (lelems b). induction l as [|x l IH]; intros [|y m] HL; cbn in *; try lia.
    do 2 f_equal. apply IH. lia.
Qed.
Lemma app_eq_len {A} (a b c d : list A) : length a = length c -> a ++ b = c ++ d -> a = c /\ b = d.
Proof.
  revert c; induction a as [|x a IH]; intros [|y c] HL E; cbn in *; try discriminate; auto.
  injection E as -> E. destruct (IH c) as [-> ->]; auto.
Qed.
Lemma uint32ed_inj a b : Forall leaf_ok a -> Forall leaf_ok b -> same_layout a b ->
  uint32ed a = uint32ed b -> a = b.
Proof.
  intros Ha Hb HL. unfold uint32ed. induction HL as [|x y a b [Hw HE] HL IH]; [reflexivity|].
  cbn [map concat]. intros E. inversion Ha; inversion Hb; subst.
  apply app_eq_len in E; [|apply leaf_words_length; assumption]. destruct E as [E1 E2].
  f_equal; [|apply IH; assumption].
  destruct x as [wx ex], y as [wy ey]. cbn in Hw. subst wy. f_equal.
  apply (leaf_words_inj (MkLeaf wx ex) (MkLeaf wx ey)); auto.
Qed.
Lemma le_bytes_length n x : length (le_bytes n x) = n.
Proof. revert x; induction n; intros x; cbn; auto. Qed.
Lemma le_bytes_inj n : forall x y, x < 2 ^ (8 * N.of_nat n) -> y < 2 ^ (8 * N.of_nat n) ->
  le_bytes n x = le_bytes n y -> x = y.
Proof.
  induction n as [|n IH]; intros x y Hx Hy E.
  - cbn in *. lia.
  - cbn [le_bytes] in E. injection E as E1 E2. change (2 ^ 8) with 256 in *.
    assert (2 ^ (8 * N.of_nat (S n)) = 256 * 2 ^ (8 * N.of_nat n)) as HP.
    { replace (8 * N.of_nat (S n)) with (8 + 8 * N.of_nat n) by lia. rewrite N.pow_add_r. reflexivity. }
    rewrite HP in *. apply IH in E2; [lia| |]; apply N.div_lt_upper_bound; lia.
Qed.
Lemma wbits_bytes w : N.of_nat (N.to_nat (wbits w) / 8) * 8 = wbits w.
Proof. destruct w; reflexivity. Qed.
Lemma flat_bytes_inj n : forall a b, length a = length b ->
  Forall (fun x => x < 2 ^ (8 * N.of_nat n)) a -> Forall (fun x => x < 2 ^ (8 * N.of_nat n)) b ->
  flat_map (le_bytes n) a = flat_map (le_bytes n) b -> a = b.
Proof.
  induction a as [|x a IH]; intros [|y b] HL Ha Hb E; cbn [length] in HL; try discriminate; [reflexivity|].
  cbn [flat_map] in E. inversion Ha; inversion Hb; subst.
  apply app_eq_len in E; [|rewrite !le_bytes_length; reflexivity]. destruct E as [E1 E2].
  f_equal; [apply (le_bytes_inj n); assumption|apply IH; auto].
Qed.
Lemma leaf_bytes_inj a b : leaf_ok a -> leaf_ok b -> lwidth a = lwidth b ->
  length (lelems a) = length (lelems b) -> leaf_bytes a = leaf_bytes b -> lelems a = lelems b.
Proof.
  unfold leaf_ok, leaf_bytes. intros Ha Hb Hw HL. rewrite <- Hw in *. apply flat_bytes_inj; [exact HL| |];
    rewrite N.mul_comm, wbits_bytes; assumption.
Qed.
Lemma leaf_bytes_length a : length (leaf_bytes a) = (length (lelems a) * (N.to_nat (wbits (lwidth a)) / 8))%nat.
Proof.
  unfold leaf_bytes. generalize (N.to_nat (wbits (lwidth a)) / 8)%nat. intros n.
  induction (lelems a) as [|x l IH]; [reflexivity|]. cbn [flat_map length]. rewrite app_length, le_bytes_length, IH. lia.
Qed.
Lemma bytes_inj a b : Forall leaf_ok a -> Forall leaf_ok b -> same_layout a b ->
  bytes a = bytes b -> a = b.
Proof.
  intros Ha Hb HL. unfold bytes. induction HL as [|x y a b [Hw HE] HL IH]; [reflexivity|].
  cbn [map concat]. intros E. inversion Ha; inversion Hb; subst.
  apply app_eq_len in E; [|rewrite !leaf_bytes_length, Hw, HE; reflexivity]. destruct E as [E1 E2].
  f_equal; [|apply IH; assumption].
  destruct x as [wx ex], y as [wy ey]. cbn in Hw. subst wy. f_equal.
  apply (leaf_bytes_inj (MkLeaf wx ex) (MkLeaf wx ey)); auto.
Qed.
Lemma leaf_words_word a : leaf_ok a -> Forall word (leaf_words a).
Proof.
  unfold leaf_ok, leaf_words, word, W32. destruct (lwidth a); cbn [wbits].
  - induction (lelems a) as [|a0|a0 a1|a0 a1 a2|a0 a1 a2 a3 a' IH] using list_ind4; intros H;
      repeat match goal with H : Forall _ (_ :: _) |- _ => inversion H; clear H; subst end; cbn [bytes_to_u32];
      change (2 ^ 8) with 256 in *; change (2 ^ 16) with 65536; change (2 ^ 24) with 16777216; change (2 ^ 32) with 4294967296 in *;
      repeat constructor; try lia. apply IH. assumption.
  - induction (lelems a) as [|a0|a0 a1 a' IH] using list_ind2; intros H;
      repeat match goal with H : Forall _ (_ :: _) |- _ => inversion H; clear H; subst end; cbn [pack16];
      repeat constructor.
    + change (2 ^ 16) with 65536 in *. change (2 ^ 32) with 4294967296. lia.
    + rewrite pack16_word by assumption. change (2 ^ 16) with 65536 in *. change (2 ^ 32) with 4294967296. lia.
    + apply IH. assumption.
  - auto.
  - intros H. apply Forall_forall. intros x Hx. unfold split64 in Hx. apply in_flat_map in Hx.
    destruct Hx as (y & Hy & Hx). eapply Forall_forall in H; [|exact Hy].
    destruct Hx as [<-|[<-|[]]].
    + change 4294967295 with (N.ones 32). rewrite N.land_ones. apply N.mod_lt. discriminate.
    + rewrite N.shiftr_div_pow2. apply N.div_lt_upper_bound; [discriminate|]. exact H.
Qed.
Lemma uint32ed_word a : Forall leaf_ok a -> Forall word (uint32ed a).
Proof.
  unfold uint32ed. induction 1; cbn [map concat]; [constructor|]. apply Forall_app. split; auto using leaf_words_word.
Qed.
