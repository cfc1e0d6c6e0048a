(** * BitpackBytes.v — byte streams: to_uint8 / from_uint8 and packed tensor fields. *)
From Coq Require Import String.
From Verif Require Import Jax HashModel HashProofs BitpackModel BitpackSpec BitpackProofs BitpackAgg.
Local Open Scope nat_scope.

(** ** Chunks *)
Lemma chunks_length {A} n : forall k (l : list A), length (chunks n k l) = n.
Proof. induction n as [|n IH]; intros k l; cbn; [reflexivity|]. now rewrite IH. Qed.
Lemma chunks_concat {A} n : forall k (l : list A), length l = n * k -> concat (chunks n k l) = l.
Proof.
  induction n as [|n IH]; intros k l H; cbn [chunks concat].
  - destruct l; [reflexivity|discriminate].
  - rewrite IH by (rewrite skipn_length; lia). apply firstn_skipn.
Qed.
Lemma chunks_each {A} n : forall k (l : list A), length l = n * k -> Forall (fun g => length g = k) (chunks n k l).
Proof.
  induction n as [|n IH]; intros k l H; cbn [chunks]; constructor.
  - rewrite firstn_length. lia.
  - apply IH. rewrite skipn_length. lia.
Qed.
Lemma chunks_of_concat {A} k (gs : list (list A)) : Forall (fun g => length g = k) gs -> chunks (length gs) k (concat gs) = gs.
Proof.
  induction 1 as [|g gs H Hg IH]; [reflexivity|]. cbn [length chunks concat].
  rewrite firstn_app, skipn_app, <- H, firstn_all, skipn_all, Nat.sub_diag. cbn [firstn skipn app]. rewrite app_nil_r. f_equal.
  rewrite H. exact IH.
Qed.
Lemma flat_map_concat_id {A B} (f : A -> list B) l : flat_map f l = concat (map f l).
Proof. apply flat_map_concat_map. Qed.
Lemma concat_length_const {A} k (gs : list (list A)) : Forall (fun g => length g = k) gs -> length (concat gs) = length gs * k.
Proof. induction 1 as [|g gs H Hg IH]; [reflexivity|]. cbn [concat length]. rewrite app_length. lia. Qed.
Lemma pad_to_exists {A} k (z : A) l : 1 <= k -> exists m, pad_to k z l = l ++ repeat z m /\ m < k /\ (length l + m) mod k = 0.
Proof.
  intros Hk. exists ((k - length l mod k) mod k). split; [reflexivity|]. split; [apply Nat.mod_upper_bound; lia|].
  pose proof (Nat.mod_upper_bound (length l) k ltac:(lia)) as Hm. pose proof (Nat.div_mod (length l) k ltac:(lia)) as Hd.
  destruct (Nat.eq_dec (length l mod k) 0) as [E|E].
  - rewrite E, Nat.sub_0_r, Nat.mod_same, Nat.add_0_r by lia. exact E.
  - rewrite (Nat.mod_small (k - length l mod k)) by lia. symmetry. apply Nat.mod_unique with (length l / k + 1); nia.
Qed.
Lemma pad_to_id {A} k (z : A) l : 1 <= k -> length l mod k = 0 -> pad_to k z l = l.
Proof. intros Hk H. unfold pad_to. rewrite H, Nat.sub_0_r, Nat.mod_same by lia. cbn. apply app_nil_r. Qed.
Lemma pad_to_length {A} k (z : A) l : 1 <= k -> length (pad_to k z l) = (length l + k - 1) / k * k.
Proof.
  intros Hk. destruct (pad_to_exists k z l Hk) as [m [E [Hm H0]]]. rewrite E, app_length, repeat_length.
  pose proof (Nat.div_mod (length l + m) k ltac:(lia)) as Hd. rewrite H0, Nat.add_0_r in Hd.
  rewrite Hd, (Nat.mul_comm k). f_equal. apply Nat.div_unique with (k - 1 - m); lia.
Qed.

(** ** Blocks of L = lcm(bits, 8) bits *)
Section Lcm.
Variable bits : nat.
Hypothesis Hb : 1 <= bits <= 32.
Let L := lcm8 bits.
Let vpb := L / bits.
Let bpb := L / 8.
Lemma lcm_pos : 1 <= L.
Proof. unfold L, lcm8. assert (Nat.lcm bits 8 <> 0); [|lia]. intros H. apply Nat.lcm_eq_0 in H. lia. Qed.
Lemma vpb_bits : vpb * bits = L.
Proof.
  unfold vpb. destruct (Nat.divide_lcm_l bits 8) as [q E]. unfold L, lcm8. rewrite E, Nat.div_mul by lia. reflexivity.
Qed.
Lemma bpb_8 : bpb * 8 = L.
Proof. unfold bpb. destruct (Nat.divide_lcm_r bits 8) as [q E]. unfold L, lcm8. rewrite E, Nat.div_mul by lia. reflexivity. Qed.
Lemma vpb_pos : 1 <= vpb.
Proof. pose proof vpb_bits. pose proof lcm_pos. destruct vpb; lia. Qed.
Lemma bpb_pos : 1 <= bpb.
Proof. pose proof bpb_8. pose proof lcm_pos. destruct bpb; lia. Qed.
Lemma lcm_le : L <= 256.
Proof.
  assert (H : forallb (fun b => lcm8 b <=? 256) (seq 1 32) = true) by (vm_compute; reflexivity).
  rewrite forallb_forall in H. apply Nat.leb_le. apply H. apply in_seq. lia.
Qed.
(** one formula for the packed length *)
Lemma packed_num_bytes_eq n : packed_num_bytes n bits = (n + vpb - 1) / vpb * bpb.
Proof.
  unfold packed_num_bytes. pose proof vpb_pos as Hp. destruct (Nat.eqb_spec n 0) as [->|E].
  - rewrite Nat.div_small by lia. reflexivity.
  - destruct (Nat.eqb_spec bits 8) as [E8|E8].
    { assert (L = 8) by (unfold L; rewrite E8; reflexivity). unfold vpb, bpb. rewrite H, E8. change (8 / 8) with 1. rewrite Nat.mul_1_r, Nat.div_1_r. lia. }
    destruct (Nat.eqb_spec bits 1) as [E1|E1].
    { assert (L = 8) by (unfold L; rewrite E1; reflexivity). unfold vpb, bpb. rewrite H, E1. change (8 / 1) with 8. change (8 / 8) with 1. rewrite Nat.mul_1_r. f_equal. lia. }
    destruct ((bits =? 2) || (bits =? 4)) eqn:E24; [|reflexivity].
    assert (L = 8) by (unfold L; apply orb_true_iff in E24; destruct E24 as [E24|E24]; apply Nat.eqb_eq in E24; rewrite E24; reflexivity).
    unfold vpb, bpb. rewrite H. change (8 / 8) with 1. now rewrite Nat.mul_1_r.
Qed.
End Lcm.

(** ** Words from bytes *)
Lemma byte_bit_firstn m l p : byte_bit (firstn m l) p = (p <? 8 * m) && byte_bit l p.
Proof.
  unfold byte_bit. pose proof (Nat.div_mod p 8 ltac:(lia)) as Hd. pose proof (Nat.mod_upper_bound p 8 ltac:(lia)) as Hm.
  destruct (Nat.ltb_spec p (8 * m)) as [H|H]; cbn [andb].
  - rewrite nth_firstn by lia. reflexivity.
  - rewrite nth_overflow; [apply N.bits_0|]. rewrite firstn_length. lia.
Qed.
Lemma byte_bit_pad l k p : byte_bit (l ++ repeat 0%N k) p = byte_bit l p.
Proof.
  unfold byte_bit. destruct (Nat.lt_ge_cases (p / 8) (length l)) as [H|H].
  - now rewrite app_nth1.
  - rewrite app_nth2 by exact H. rewrite nth_repeat. now rewrite nth_overflow.
Qed.
Lemma bytes_word_testbit bs k : length bs = 4 -> Forall (fun b => (b < 256)%N) bs -> N.testbit (bytes_word bs) (N.of_nat k) = byte_bit bs k.
Proof. intros Hl Hb. unfold bytes_word. rewrite <- Hl. now apply bytes_assemble_testbit. Qed.
Lemma bytes_word_word bs : length bs = 4 -> Forall (fun b => (b < 256)%N) bs -> word (bytes_word bs).
Proof.
  intros Hl Hb. apply (lt_pow2_bits _ 32). intros i Hi. destruct (N_of_nat_ex i) as [k ->]. rewrite bytes_word_testbit by assumption.
  unfold byte_bit. rewrite nth_overflow; [apply N.bits_0|]. rewrite Hl. apply Nat.div_le_lower_bound; lia.
Qed.
Lemma words_of_bytes n : forall l, length l = n * 4 -> Forall (fun b => (b < 256)%N) l ->
  Forall word (map bytes_word (chunks n 4 l)) /\ forall p, word_bit (map bytes_word (chunks n 4 l)) p = byte_bit l p.
Proof.
  induction n as [|n IH]; intros l Hl Hb; cbn [chunks map].
  - split; [constructor|]. intros p. destruct l; [|discriminate]. unfold word_bit, byte_bit. now rewrite !nth_overflow by (cbn; lia).
  - assert (Hf : length (firstn 4 l) = 4) by (rewrite firstn_length; lia).
    assert (HbF : Forall (fun b => (b < 256)%N) (firstn 4 l) /\ Forall (fun b => (b < 256)%N) (skipn 4 l)).
    { pose proof Hb as H. rewrite <- (firstn_skipn 4 l) in H. now apply Forall_app in H. }
    destruct HbF as [Hb1 Hb2]. destruct (IH (skipn 4 l) ltac:(rewrite skipn_length; lia) Hb2) as [H1 H2].
    split; [constructor; [now apply bytes_word_word|exact H1]|].
    intros p. rewrite word_bit_cons, H2, bytes_word_testbit by assumption.
    rewrite <- (firstn_skipn 4 l) at 3. rewrite byte_bit_app, Hf. change (8 * 4) with 32. reflexivity.
Qed.
Lemma word_bytes_lt w : Forall (fun b => (b < 256)%N) (word_bytes w).
Proof. apply bytes_of_word_lt. Qed.
Lemma words_bytes_lt ws : Forall (fun b => (b < 256)%N) (flat_map word_bytes ws).
Proof. induction ws as [|w ws IH]; cbn [flat_map]; [constructor|]. apply Forall_app. split; [apply word_bytes_lt|exact IH]. Qed.
Lemma Forall_firstn {A} (P : A -> Prop) n l : Forall P l -> Forall P (firstn n l).
Proof. intros H. rewrite <- (firstn_skipn n l) in H. apply Forall_app in H. tauto. Qed.
Lemma Forall_repeat {A} (P : A -> Prop) x n : P x -> Forall P (repeat x n).
Proof. intros H. induction n; cbn; constructor; assumption. Qed.

(** ** Packing [m] values of [bits] bits from offset 0 and reading them back from bytes *)
Section Leaf.
Variables (bits m : nat) (name : list string).
Hypothesis Hb : 1 <= bits <= 32.
Let sp := MkSpec name bits m 0.
Lemma leaf_words_bit nw vals p : length vals = m -> m * bits <= 32 * nw ->
  word_bit (pack_words [sp] nw vals) p = nth p (stream (map (fun e => (bits, e)) vals)) false.
Proof.
  intros Hl Hn. rewrite pack_words_word_bit.
  - f_equal. unfold widths. cbn [flat_map lbits lnvalues sp]. rewrite app_nil_r, <- Hl. f_equal. apply combine_repeat.
  - cbn. split; [reflexivity|exact I].
  - rewrite Hl. cbn. lia.
  - unfold spec_bits. cbn [map lnvalues lbits sp]. change (m * bits + 0 <= 32 * nw). lia.
Qed.
Lemma decode_from_bytes nw vals nb l j :
  length vals = m -> m * bits <= 32 * nw -> m * bits <= 8 * nb -> nb <= 4 * nw ->
  length l = nw * 4 -> (exists z, l = firstn nb (flat_map word_bytes (pack_words [sp] nw vals)) ++ repeat 0%N z) ->
  j < m ->
  decode_at (map bytes_word (chunks nw 4 l)) (N.of_nat (j * bits)) bits = (nth j vals 0 mod 2 ^ N.of_nat bits)%N.
Proof.
  intros Hl Hn Hnb Hnb2 Hll [z El] Hj.
  assert (Hlt : Forall (fun b => (b < 256)%N) l).
  { rewrite El. apply Forall_app. split; [apply Forall_firstn, words_bytes_lt|apply Forall_repeat; reflexivity]. }
  destruct (words_of_bytes nw l Hll Hlt) as [W1 W2].
  assert (Hjb : j * bits + bits <= m * bits) by nia.
  apply decode_at_value; [exact W1|lia| |].
  - rewrite map_length, chunks_length. lia.
  - intros k Hk. rewrite W2, El, byte_bit_pad, byte_bit_firstn.
    replace (j * bits + k <? 8 * nb) with true by (symmetry; apply Nat.ltb_lt; lia). cbn [andb].
    rewrite words_byte_bit by apply pack_words_word. rewrite leaf_words_bit by assumption.
    apply flat_bits_nth; [exact Hk|lia].
Qed.
End Leaf.

(** ** One-bit fields *)
Lemma packbits_length l : length (packbits l) = (length l + 7) / 8.
Proof. unfold packbits. rewrite map_length, seq_length. unfold ceil_div. f_equal. lia. Qed.
Lemma fold_setbit_testbit (f : nat -> bool) n : forall k acc, 
  N.testbit (fold_left (fun a j => if f j then N.setbit a (N.of_nat j) else a) (seq 0 n) acc) (N.of_nat k) =
  N.testbit acc (N.of_nat k) || ((k <? n) && f k).
Proof.
  intros k. induction n as [|n IH]; intros acc; [cbn; now rewrite orb_false_r|].
  rewrite seq_S, fold_left_app. cbn [fold_left]. set (r := fold_left _ (seq 0 n) acc) in *.
  assert (Hr : N.testbit r (N.of_nat k) = N.testbit acc (N.of_nat k) || ((k <? n) && f k)) by apply IH.
  destruct (Nat.eq_dec k n) as [->|E].
  - rewrite Nat.ltb_irrefl in Hr. cbn [andb] in Hr. rewrite orb_false_r in Hr.
    replace (n <? S n) with true by (symmetry; apply Nat.ltb_lt; lia). cbn [andb Nat.add].
    destruct (f n); [rewrite N.setbit_eq; now rewrite orb_true_r|]. now rewrite Hr, orb_false_r.
  - replace (k <? S n) with (k <? n) by (destruct (Nat.ltb_spec k n), (Nat.ltb_spec k (S n)); lia || reflexivity).
    rewrite <- Hr. cbn [Nat.add]. destruct (f n); [|reflexivity]. apply N.setbit_neq. lia.
Qed.
Lemma packbits_roundtrip l : unpackbits (length l) (packbits l) = l.
Proof.
  unfold unpackbits. apply nth_ext_len with (d := false); [now rewrite map_length, seq_length|].
  intros i Hi. rewrite map_length, seq_length in Hi. rewrite nth_map_seq by exact Hi.
  pose proof (Nat.div_mod i 8 ltac:(lia)) as Hd. pose proof (Nat.mod_upper_bound i 8 ltac:(lia)) as Hm.
  unfold packbits. rewrite nth_map_seq.
  2:{ unfold ceil_div. apply Nat.div_lt_upper_bound; [lia|].
      pose proof (Nat.div_mod (length l + 8 - 1) 8 ltac:(lia)). pose proof (Nat.mod_upper_bound (length l + 8 - 1) 8 ltac:(lia)). lia. }
  rewrite (fold_setbit_testbit (fun j => nth (8 * (i / 8) + j) l false)), N.bits_0. cbn [orb].
  replace (i mod 8 <? 8) with true by (symmetry; apply Nat.ltb_lt; lia). cbn [andb]. f_equal. lia.
Qed.

(** ** to_uint8 / from_uint8 *)
(** what survives a round trip *)
Definition kept (bits : nat) (v : N) : N := if bits =? 1 then (if (v =? 0)%N then 0 else 1)%N else (v mod 2 ^ N.of_nat bits)%N.
Lemma firstn_map_app {A B} (f : A -> B) l z : firstn (length l) (map f (l ++ z)) = map f l.
Proof. rewrite map_app, firstn_app, map_length, Nat.sub_diag. cbn [firstn]. rewrite app_nil_r. rewrite <- (map_length f l). apply firstn_all. Qed.
Lemma chunks_in {A} n : forall k (l : list A) g, length l = n * k -> In g (chunks n k l) -> length g = k.
Proof. intros k l g H Hin. pose proof (chunks_each n k l H) as Hf. rewrite Forall_forall in Hf. now apply Hf. Qed.
Lemma map_nth_self {A} (l : list A) d : map (fun i => nth i l d) (seq 0 (length l)) = l.
Proof. apply nth_ext_len with (d := d); [now rewrite map_length, seq_length|]. intros i Hi. rewrite map_length, seq_length in Hi. now rewrite nth_map_seq. Qed.
Lemma concat_map_map {A B} (f : A -> B) gs : concat (map (map f) gs) = map f (concat gs).
Proof. symmetry. apply concat_map. Qed.
Lemma mod256_low bits v : bits <= 8 -> ((v mod 2 ^ N.of_nat bits) mod 256 = v mod 2 ^ N.of_nat bits)%N.
Proof.
  intros H. apply N.mod_small. eapply N.lt_le_trans; [apply N.mod_lt, N.pow_nonzero; discriminate|].
  change 256%N with (2 ^ 8)%N. apply N.pow_le_mono_r; lia.
Qed.
Lemma padded_blocks {A} k (z : A) l : 1 <= k -> length (pad_to k z l) = length (pad_to k z l) / k * k.
Proof. intros Hk. rewrite pad_to_length by exact Hk. now rewrite Nat.div_mul by lia. Qed.
Lemma w32_mod_bits bits v : bits <= 32 -> (w32 v mod 2 ^ N.of_nat bits = v mod 2 ^ N.of_nat bits)%N.
Proof.
  intros H. apply N.bits_inj. intros i. destruct (N_of_nat_ex i) as [k ->]. destruct (Nat.lt_ge_cases k bits) as [L|L].
  - rewrite !N.mod_pow2_bits_low by lia. rewrite w32_testbit. replace (N.of_nat k <? 32)%N with true by (symmetry; apply N.ltb_lt; lia). reflexivity.
  - rewrite !N.mod_pow2_bits_high by lia. reflexivity.
Qed.
Lemma mod256_mod_bits bits v : bits <= 8 -> ((v mod 256) mod 2 ^ N.of_nat bits = v mod 2 ^ N.of_nat bits)%N.
Proof.
  intros H. change 256%N with (2 ^ 8)%N. apply N.bits_inj. intros i. destruct (N_of_nat_ex i) as [k ->]. destruct (Nat.lt_ge_cases k bits) as [L|L].
  - rewrite !N.mod_pow2_bits_low by lia. reflexivity.
  - rewrite !N.mod_pow2_bits_high by lia. reflexivity.
Qed.
Lemma fourths (x : nat) : 4 * ((8 * x + 31) / 32) >= x.
Proof. pose proof (Nat.div_mod (8 * x + 31) 32 ltac:(lia)). pose proof (Nat.mod_upper_bound (8 * x + 31) 32 ltac:(lia)). lia. Qed.

(** a nibble group *)
Definition nib (bits vpb : nat) (g : list N) : N :=
  or_reduce (map (fun q => (N.shiftl (N.land (snd q mod 256) (N.shiftl 1 (N.of_nat bits) - 1)) (N.of_nat (fst q * bits))) mod 256)%N (combine (seq 0 vpb) g)).
Lemma nib_decode bits vpb g j : 1 <= bits -> vpb * bits = 8 -> length g = vpb -> j < vpb ->
  N.land (N.shiftr (nib bits vpb g) (N.of_nat (j * bits))) (N.shiftl 1 (N.of_nat bits) - 1) = (nth j g 0 mod 2 ^ N.of_nat bits)%N.
Proof.
  intros Hb Hv Hl Hj. rewrite ones_sub. apply N.bits_inj. intros i. destruct (N_of_nat_ex i) as [k ->].
  rewrite N.land_spec, ones_testbit, ltb_of_nat, N.shiftr_spec'.
  replace (N.of_nat k + N.of_nat (j * bits))%N with (N.of_nat (j * bits + k)) by lia.
  destruct (Nat.ltb_spec k bits) as [Hk|Hk]; [|rewrite andb_false_r, N.mod_pow2_bits_high by lia; reflexivity].
  rewrite andb_true_r, N.mod_pow2_bits_low by lia.
  unfold nib. rewrite <- Hl, or_reduce_testbit, existsb_map, (existsb_combine_seq _ g 0%N). cbn [fst snd]. rewrite Hl.
  assert (Hp : j * bits + k < 8) by nia.
  assert (B : forall i, N.testbit ((N.shiftl (N.land (nth i g 0 mod 256) (N.ones (N.of_nat bits))) (N.of_nat (i * bits))) mod 256)%N (N.of_nat (j * bits + k)) =
     (i * bits <=? j * bits + k) && (j * bits + k - i * bits <? bits) && N.testbit (nth i g 0%N) (N.of_nat (j * bits + k - i * bits))).
  { intros i. change 256%N with (2 ^ 8)%N. rewrite N.mod_pow2_bits_low by lia. rewrite shiftl_testbit, leb_of_nat.
    destruct (Nat.leb_spec (i * bits) (j * bits + k)) as [L|L]; [|reflexivity]. cbn [andb].
    replace (N.of_nat (j * bits + k) - N.of_nat (i * bits))%N with (N.of_nat (j * bits + k - i * bits)) by lia.
    rewrite N.land_spec, ones_testbit, ltb_of_nat, N.mod_pow2_bits_low by lia. apply andb_comm. }
  rewrite ones_sub. rewrite (existsb_seq_hit _ vpb j Hj).
  - rewrite B. replace (j * bits <=? j * bits + k) with true by (symmetry; apply Nat.leb_le; lia).
    replace (j * bits + k - j * bits) with k by lia. replace (k <? bits) with true by (symmetry; apply Nat.ltb_lt; lia). reflexivity.
  - intros i Hi Hne. rewrite B. destruct (Nat.leb_spec (i * bits) (j * bits + k)) as [L|L]; [|reflexivity].
    replace (j * bits + k - i * bits <? bits) with false; [reflexivity|]. symmetry. apply Nat.ltb_ge. nia.
Qed.

Theorem uint8_roundtrip bits vals : 1 <= bits <= 32 -> from_uint8 bits (to_uint8 bits vals) (length vals) = map (kept bits) vals.
Proof.
  intros Hb. unfold from_uint8. destruct (Nat.eqb_spec (length vals) 0) as [E0|E0]; [destruct vals; [reflexivity|discriminate]|].
  unfold to_uint8. destruct (Nat.eqb_spec bits 1) as [->|E1].
  { rewrite <- (map_length (fun v => negb (v =? 0)%N) vals), packbits_roundtrip, map_map. apply map_ext. intros v. unfold kept. cbn [Nat.eqb]. now destruct (v =? 0)%N. }
  assert (K : forall v, kept bits v = (v mod 2 ^ N.of_nat bits)%N).
  { intros v. unfold kept. apply Nat.eqb_neq in E1. now rewrite E1. }
  destruct (Nat.eqb_spec bits 8) as [->|E8].
  { rewrite <- (map_length (fun v => (v mod 256)%N) vals), firstn_all. apply map_ext. intros v. now rewrite K. }
  destruct ((bits =? 2) || (bits =? 4)) eqn:E24.
  { set (vpb := 8 / bits).
    assert (Hv : vpb * bits = 8) by (unfold vpb; apply orb_true_iff in E24; destruct E24 as [E|E]; apply Nat.eqb_eq in E; rewrite E; reflexivity).
    assert (Hv1 : 1 <= vpb) by lia. cbv zeta.
    set (padded := pad_to vpb 0%N vals). set (n := length padded / vpb).
    assert (Hn : length padded = n * vpb) by (apply padded_blocks; lia).
    change (fun g => or_reduce (map (fun q => ((N.shiftl (N.land (snd q mod 256) (N.shiftl 1 (N.of_nat bits) - 1)) (N.of_nat (fst q * bits))) mod 256)%N) (combine (seq 0 vpb) g))) with (nib bits vpb).
    rewrite flat_map_concat_map, map_map.
    assert (E : map (fun g => map (fun i => N.land (N.shiftr (nib bits vpb g) (N.of_nat (i * bits))) (N.shiftl 1 (N.of_nat bits) - 1)) (seq 0 vpb)) (chunks n vpb padded)
              = map (map (kept bits)) (chunks n vpb padded)).
    { apply map_ext_in. intros g Hg. apply chunks_in in Hg; [|exact Hn].
      transitivity (map (kept bits) (map (fun i => nth i g 0%N) (seq 0 (length g)))); [|now rewrite map_nth_self]. rewrite map_map, Hg. apply map_ext_in. intros j Hj. apply in_seq in Hj.
      rewrite K. apply nib_decode; lia. }
    rewrite E, concat_map_map, chunks_concat by exact Hn.
    destruct (pad_to_exists vpb 0%N vals Hv1) as [z [Ez _]]. unfold padded. rewrite Ez. apply firstn_map_app. }
  set (L := lcm8 bits). set (vpb := L / bits). set (bpb := L / 8). set (nw := block_words bits). cbv zeta.
  pose proof (vpb_bits bits Hb) as Hvb. pose proof (bpb_8 bits Hb) as Hb8. pose proof (vpb_pos bits Hb) as Hv1. pose proof (bpb_pos bits Hb) as Hb1.
  pose proof (lcm_le bits Hb) as HL. fold L in HL, Hvb, Hb8, Hv1, Hb1. fold vpb in Hvb, Hv1. fold bpb in Hb8, Hb1.
  set (padded := map w32 (pad_to vpb 0%N vals)). set (n := length padded / vpb).
  assert (Hn : length padded = n * vpb).
  { unfold n, padded. rewrite !map_length. apply padded_blocks; lia. }
  set (enc := fun g => firstn bpb (flat_map word_bytes (pack_words [block_spec bits] nw g))).
  assert (Hnw : 4 * nw >= bpb /\ nw = (L + 31) / 32).
  { split; [|reflexivity]. unfold nw, block_words. fold L. rewrite <- Hb8. rewrite (Nat.mul_comm bpb 8). apply fourths. }
  destruct Hnw as [Hnw EnW].
  assert (Henc : forall g, length (enc g) = bpb).
  { intros g. unfold enc. rewrite firstn_length, words_bytes_length, pack_words_length. lia. }
  rewrite (flat_map_concat_map enc). set (blocks := map enc (chunks n vpb padded)).
  assert (Hblocks : Forall (fun g => length g = bpb) blocks).
  { apply Forall_forall. intros x Hx. apply in_map_iff in Hx. destruct Hx as [g [<- _]]. apply Henc. }
  assert (Elen : length (concat blocks) = length blocks * bpb) by (now apply concat_length_const).
  rewrite (pad_to_id bpb 0%N (concat blocks)); [|lia|rewrite Elen; apply Nat.mod_mul; lia].
  rewrite Elen, Nat.div_mul by lia. rewrite chunks_of_concat by exact Hblocks. unfold blocks.
  rewrite flat_map_concat_map, map_map.
  match goal with |- firstn _ (concat (map ?F _)) = _ => assert (E : map F (chunks n vpb padded) = map (map (kept bits)) (chunks n vpb padded)) end.
  { apply map_ext_in. intros g Hg. apply chunks_in in Hg; [|exact Hn].
    transitivity (map (kept bits) (map (fun i => nth i g 0%N) (seq 0 (length g)))); [|now rewrite map_nth_self]. rewrite map_map, Hg. apply map_ext_in. intros j Hj. apply in_seq in Hj. cbv zeta.
    assert (Hjb : j * bits + bits <= L) by nia.
    assert (Epos : w32 (N.of_nat j * N.of_nat bits) = N.of_nat (j * bits)).
    { unfold w32. rewrite N.mod_small; [lia|]. change W32 with 4294967296%N. lia. }
    rewrite Epos.
    rewrite (decode_from_bytes bits vpb ["leaf"%string] Hb nw g bpb (pad_to 4 0%N (enc g)) j).
    - rewrite K. destruct (Nat.leb_spec bits 8) as [L8|L8]; [now apply mod256_low|reflexivity].
    - exact Hg.
    - rewrite Hvb. lia.
    - lia.
    - lia.
    - rewrite pad_to_length by lia. rewrite Henc. f_equal. rewrite EnW. rewrite <- Hb8.
      replace (bpb * 8 + 31) with (bpb * 8 + 3 * 8 + 7) by lia.
      pose proof (Nat.div_mod (bpb + 4 - 1) 4 ltac:(lia)). pose proof (Nat.mod_upper_bound (bpb + 4 - 1) 4 ltac:(lia)).
      apply Nat.div_unique with (8 * ((bpb + 4 - 1) mod 4) + 7); lia.
    - destruct (pad_to_exists 4 0%N (enc g) ltac:(lia)) as [z [Ez _]]. exists z. exact Ez.
    - lia. }
  rewrite E, concat_map_map, chunks_concat by exact Hn.
  unfold padded. destruct (pad_to_exists vpb 0%N vals Hv1) as [z [Ez _]]. rewrite Ez, map_map.
  assert (Ek : map (fun x => kept bits (w32 x)) (vals ++ repeat 0%N z) = map (kept bits) (vals ++ repeat 0%N z)).
  { apply map_ext. intros v. rewrite !K. apply w32_mod_bits. lia. }
  rewrite Ek. apply firstn_map_app.
Qed.

Theorem uint8_length bits vals : 1 <= bits <= 32 -> length (to_uint8 bits vals) = packed_num_bytes (length vals) bits.
Proof.
  intros Hb. rewrite packed_num_bytes_eq by exact Hb.
  pose proof (vpb_pos bits Hb) as Hv1. pose proof (bpb_pos bits Hb) as Hb1. pose proof (bpb_8 bits Hb) as Hb8.
  unfold to_uint8. destruct (Nat.eqb_spec bits 1) as [->|E1].
  { rewrite packbits_length, map_length. change (lcm8 1 / 1) with 8. change (lcm8 1 / 8) with 1. rewrite Nat.mul_1_r. f_equal. lia. }
  destruct (Nat.eqb_spec bits 8) as [->|E8].
  { rewrite map_length. change (lcm8 8 / 8) with 1. rewrite Nat.mul_1_r, Nat.div_1_r. lia. }
  destruct ((bits =? 2) || (bits =? 4)) eqn:E24.
  { assert (E : lcm8 bits = 8) by (apply orb_true_iff in E24; destruct E24 as [E|E]; apply Nat.eqb_eq in E; rewrite E; reflexivity).
    cbv zeta. rewrite E in *. rewrite map_length, chunks_length, pad_to_length, Nat.div_mul by lia. change (8 / 8) with 1. lia. }
  cbv zeta. rewrite flat_map_concat_map, (concat_length_const (lcm8 bits / 8)).
  - rewrite map_length, chunks_length, map_length, pad_to_length, Nat.div_mul by lia. reflexivity.
  - apply Forall_forall. intros x Hx. apply in_map_iff in Hx. destruct Hx as [g [<- _]].
    rewrite firstn_length, words_bytes_length, pack_words_length. unfold block_words.
    rewrite <- Hb8 at 2. rewrite (Nat.mul_comm _ 8). pose proof (fourths (lcm8 bits / 8)). lia.
Qed.

(** ** Packed tensor fields *)
Theorem field_roundtrip bits vals : 1 <= bits <= 32 -> (N.of_nat (length vals * bits) < 2 ^ 32)%N ->
  unpack_value bits (length vals) (pack_value bits vals) = map (kept bits) vals /\
  length (pack_value bits vals) = packed_num_bytes (length vals) bits.
Proof.
  intros Hb Hsz. unfold unpack_value, pack_value.
  destruct (Nat.eqb_spec (length vals) 0) as [E0|E0]; [destruct vals; [split; [reflexivity|apply repeat_length]|discriminate]|].
  destruct (Nat.eqb_spec bits 1) as [->|E1].
  { split.
    - rewrite <- (map_length (fun v => negb (v =? 0)%N) vals), packbits_roundtrip, map_map. apply map_ext. intros v. unfold kept. cbn [Nat.eqb]. now destruct (v =? 0)%N.
    - rewrite packbits_length, map_length. unfold packed_num_bytes. apply Nat.eqb_neq in E0. rewrite E0. reflexivity. }
  assert (K : forall v, kept bits v = (v mod 2 ^ N.of_nat bits)%N).
  { intros v. unfold kept. apply Nat.eqb_neq in E1. now rewrite E1. }
  rewrite packed_num_bytes_eq by exact Hb.
  set (L := lcm8 bits). set (vpb := L / bits). set (bpb := L / 8). cbv zeta.
  pose proof (vpb_bits bits Hb) as Hvb. pose proof (bpb_8 bits Hb) as Hb8. pose proof (vpb_pos bits Hb) as Hv1. pose proof (bpb_pos bits Hb) as Hb1.
  fold L in Hvb, Hb8, Hv1, Hb1. fold vpb in Hvb, Hv1. fold bpb in Hb8, Hb1.
  set (n := length vals) in *. unfold ceil_div.
  set (nb := (n + vpb - 1) / vpb). set (padded := nb * vpb). set (plen := nb * bpb).
  assert (Epb : padded * bits = 8 * plen) by (unfold padded, plen; nia).
  assert (Hpn : n <= padded).
  { unfold padded, nb. pose proof (Nat.div_mod (n + vpb - 1) vpb ltac:(lia)). pose proof (Nat.mod_upper_bound (n + vpb - 1) vpb ltac:(lia)). lia. }
  assert (Hp0 : padded * bits <> 0) by nia.
  assert (Epb0 : (padded * bits =? 0) = false) by (now apply Nat.eqb_neq). rewrite Epb0.
  set (nw := (padded * bits + 32 - 1) / 32).
  assert (Hnw : nw = (8 * plen + 31) / 32) by (unfold nw; rewrite Epb; f_equal; lia).
  pose proof (fourths plen) as H4. rewrite <- Hnw in H4.
  assert (Hnw0 : nw <> 0) by lia. replace (nw =? 0) with false by (symmetry; now apply Nat.eqb_neq).
  set (flat := map w32 (vals ++ repeat 0%N (padded - n))).
  assert (Hfl : length flat = padded) by (unfold flat; rewrite map_length, app_length, repeat_length; lia).
  assert (Hlen : length (firstn plen (flat_map word_bytes (pack_words [MkSpec ["leaf"%string] bits padded 0] nw flat))) = plen).
  { rewrite firstn_length, words_bytes_length, pack_words_length. lia. }
  split; [|exact Hlen].
  transitivity (map (kept bits) (map (fun i => nth i vals 0%N) (seq 0 (length vals)))); [|now rewrite map_nth_self]. rewrite map_map. apply map_ext_in. intros j Hj. apply in_seq in Hj. fold n in Hj.
  set (l := firstn plen (flat_map word_bytes (pack_words [MkSpec ["leaf"%string] bits padded 0] nw flat))) in *.
  assert (Epl : length (pad_to 4 0%N l) = nw * 4).
  { rewrite pad_to_length by lia. rewrite Hlen. f_equal. rewrite Hnw.
    pose proof (Nat.div_mod (plen + 4 - 1) 4 ltac:(lia)). pose proof (Nat.mod_upper_bound (plen + 4 - 1) 4 ltac:(lia)).
    apply Nat.div_unique with (8 * ((plen + 4 - 1) mod 4) + 7); lia. }
  rewrite Epl, Nat.div_mul by lia.
  assert (Hjn : j * bits + bits <= n * bits) by nia.
  assert (Epos : w32 (N.of_nat j * N.of_nat bits) = N.of_nat (j * bits)).
  { unfold w32. change W32 with (2 ^ 32)%N. rewrite N.mod_small; [lia|]. lia. }
  rewrite Epos, (decode_from_bytes bits padded ["leaf"%string] Hb nw flat plen (pad_to 4 0%N l) j Hfl).
  - assert (En : (nth j flat 0 mod 2 ^ N.of_nat bits = nth j vals 0 mod 2 ^ N.of_nat bits)%N).
    { unfold flat. rewrite (nth_indep _ 0%N (w32 0%N)) by (rewrite map_length, app_length; lia). rewrite (map_nth w32), app_nth1 by lia. apply w32_mod_bits. lia. }
    rewrite En, K. destruct (Nat.leb_spec bits 8) as [L8|L8]; [now apply mod256_low|reflexivity].
  - lia.
  - lia.
  - lia.
  - exact Epl.
  - destruct (pad_to_exists 4 0%N l ltac:(lia)) as [z [Ez _]]. exists z. exact Ez.
  - lia.
Qed.
