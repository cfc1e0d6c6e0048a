(** * PropHashBytes.v — property C20: which bytes and words an instance consists of. *)
From Verif Require Import Jax HashModel HashProofs.
Open Scope N_scope.

(** the number whose little-endian bytes are [l] *)
Definition number (l : list N) : N := fold_right (fun b v => b + 256 * v) 0 l.
(** [n] entries of [l] from place [i] on (fewer at the end) *)
Definition slice (i n : nat) (l : list N) : list N := firstn n (skipn i l).

Lemma le_bytes_number n : forall x, x < 2 ^ (8 * N.of_nat n) -> number (le_bytes n x) = x /\ Forall (fun b => b < 256) (le_bytes n x).
Proof.
  induction n as [|n IH]; intros x Hx; [cbn in *; split; [lia|constructor]|]. cbn [le_bytes]. change (2 ^ 8) with 256.
  assert (HP : 2 ^ (8 * N.of_nat (S n)) = 256 * 2 ^ (8 * N.of_nat n)) by (replace (8 * N.of_nat (S n)) with (8 + 8 * N.of_nat n) by lia; rewrite N.pow_add_r; reflexivity).
  rewrite HP in Hx. destruct (IH (x / 256)) as [H1 H2]; [apply N.div_lt_upper_bound; lia|]. split.
  - change (number (?b :: ?l)) with (b + 256 * number l). rewrite H1. pose proof (N.div_mod x 256). lia.
  - constructor; [apply N.mod_lt; discriminate|exact H2].
Qed.
Lemma slice_flat n (l : list N) i : (i < length l)%nat -> slice (i * n) n (flat_map (le_bytes n) l) = le_bytes n (nth i l 0).
Proof.
  revert i. induction l as [|x l IH]; intros i Hi; cbn [length] in Hi; [lia|]. cbn [flat_map]. unfold slice in *. destruct i as [|i].
  - cbn [Nat.mul skipn nth]. rewrite firstn_app, le_bytes_length, Nat.sub_diag. cbn [firstn]. rewrite app_nil_r. rewrite firstn_all2 by (rewrite le_bytes_length; lia). reflexivity.
  - cbn [nth]. rewrite <- (IH i) by lia. f_equal. rewrite skipn_app, le_bytes_length. rewrite skipn_all2 by (rewrite le_bytes_length; lia). cbn [app]. f_equal. lia.
Qed.
(** [x.bytes]: every field contributes, element after element, the element's bytes, the least
    significant first *)
Theorem C20_bytes : forall lf, leaf_ok lf ->
  let k := (N.to_nat (wbits (lwidth lf)) / 8)%nat in
  length (leaf_bytes lf) = (length (lelems lf) * k)%nat /\
  Forall (fun b => b < 256) (leaf_bytes lf) /\
  forall i, (i < length (lelems lf))%nat -> number (slice (i * k) k (leaf_bytes lf)) = nth i (lelems lf) 0.
Proof.
  intros lf H k. split; [apply leaf_bytes_length|]. unfold leaf_ok in H. assert (EK : 8 * N.of_nat k = wbits (lwidth lf)) by (unfold k; destruct (lwidth lf); reflexivity). rewrite <- EK in H.
  split.
  - unfold leaf_bytes. apply Forall_forall. intros b Hb. apply in_flat_map in Hb as (x & Hx & Hb). rewrite Forall_forall in H. destruct (le_bytes_number k x (H x Hx)) as [_ F]. rewrite Forall_forall in F. now apply F.
  - intros i Hi. unfold leaf_bytes. fold k. rewrite slice_flat by exact Hi. apply le_bytes_number. rewrite Forall_forall in H. apply H. now apply nth_In.
Qed.

Lemma to_u32_nth l : length (bytes_to_u32 l) = ((length l + 3) / 4)%nat /\ forall i, nth i (bytes_to_u32 l) 0 = number (slice (4 * i) 4 l).
Proof.
  assert (NIL : forall i, number (slice i 4 []) = 0) by (intros i; unfold slice; rewrite skipn_nil; reflexivity).
  assert (SH : forall (l : list N) m, (length l <= m)%nat -> number (slice m 4 l) = 0) by (intros l' m Hm; unfold slice; rewrite skipn_all2 by exact Hm; reflexivity).
  induction l as [|a|a b|a b c|a b c d t IH] using list_ind4.
  - split; [reflexivity|]. intros i. rewrite NIL. now destruct i.
  - split; [reflexivity|]. intros [|i]; [unfold slice; cbn -[N.mul]; lia|]. rewrite SH by (cbn [length]; lia). cbn [bytes_to_u32 nth]. now destruct i.
  - split; [reflexivity|]. change (2 ^ 8) with 256. intros [|i]; [unfold slice; cbn -[N.mul]; lia|]. rewrite SH by (cbn [length]; lia). cbn [bytes_to_u32 nth]. now destruct i.
  - split; [reflexivity|]. intros [|i]; [unfold slice; change (4 * 0)%nat with 0%nat; cbn [skipn firstn bytes_to_u32 nth number fold_right]; change (2 ^ 8) with 256; change (2 ^ 16) with 65536; lia|]. rewrite SH by (cbn [length]; lia). cbn [bytes_to_u32 nth]. now destruct i.
  - destruct IH as [I1 I2]. cbn [bytes_to_u32 length]. split.
    + rewrite I1. replace (S (S (S (S (length t)))) + 3)%nat with (1 * 4 + (length t + 3))%nat by lia. rewrite Nat.div_add_l by lia. lia.
    + intros [|i].
      * unfold slice. change (4 * 0)%nat with 0%nat. cbn [skipn firstn nth number fold_right]. change (2 ^ 8) with 256. change (2 ^ 16) with 65536. change (2 ^ 24) with 16777216. lia.
      * cbn [nth]. rewrite I2. unfold slice. replace (4 * S i)%nat with (S (S (S (S (4 * i))))) by lia. reflexivity.
Qed.
Lemma le_bytes_split n m : forall x, le_bytes (n + m) x = le_bytes n (x mod 2 ^ (8 * N.of_nat n)) ++ le_bytes m (x / 2 ^ (8 * N.of_nat n)).
Proof.
  induction n as [|n IH]; intros x; [cbn [Nat.add le_bytes app]; change (2 ^ (8 * N.of_nat 0)) with 1; now rewrite N.div_1_r|].
  cbn [Nat.add le_bytes app]. replace (2 ^ (8 * N.of_nat (S n))) with (2 ^ 8 * 2 ^ (8 * N.of_nat n)) by (rewrite <- N.pow_add_r; f_equal; lia).
  rewrite IH. set (P := 2 ^ (8 * N.of_nat n)) in *. assert (HP : P <> 0) by (now apply N.pow_nonzero). assert (H8 : 2 ^ 8 <> 0) by discriminate.
  rewrite N.mod_mul_r by assumption. rewrite N.div_div by assumption. rewrite (N.mul_comm (2 ^ 8) (_ mod P)), N.mod_add, N.mod_mod by assumption. rewrite N.div_add by assumption. rewrite (N.div_small (x mod 2 ^ 8)) by (now apply N.mod_lt). reflexivity.
Qed.
Lemma le4 x : x < 2 ^ 32 -> exists a b c d, le_bytes 4 x = [a; b; c; d] /\ x = a + b * 2 ^ 8 + c * 2 ^ 16 + d * 2 ^ 24.
Proof.
  intros H. destruct (le_bytes_number 4 x H) as [E _]. do 4 eexists. split; [reflexivity|]. rewrite <- E at 1. unfold number. cbn [le_bytes fold_right]. change (2 ^ 8) with 256. change (2 ^ 16) with 65536. change (2 ^ 24) with 16777216. lia.
Qed.
Lemma le2 x : x < 2 ^ 16 -> exists a b, le_bytes 2 x = [a; b] /\ x = a + b * 2 ^ 8.
Proof.
  intros H. destruct (le_bytes_number 2 x H) as [E _]. do 2 eexists. split; [reflexivity|]. rewrite <- E at 1. unfold number. cbn [le_bytes fold_right]. change (2 ^ 8) with 256. lia.
Qed.
Lemma le1 x : x < 2 ^ 8 -> le_bytes 1 x = [x].
Proof. intros H. destruct (le_bytes_number 1 x H) as [E _]. cbn [le_bytes number fold_right] in *. f_equal. lia. Qed.
Lemma words_bytes lf : leaf_ok lf -> leaf_words lf = bytes_to_u32 (leaf_bytes lf).
Proof.
  unfold leaf_ok, leaf_words, leaf_bytes. destruct (lwidth lf); cbn [wbits]; intros H.
  - change (N.to_nat 8 / 8)%nat with 1%nat. f_equal. induction H as [|x l Hx H IH]; [reflexivity|]. cbn [flat_map]. rewrite (le1 x Hx), <- IH. reflexivity.
  - change (N.to_nat 16 / 8)%nat with 2%nat. induction (lelems lf) as [|x|x y l IH] using list_ind2; [reflexivity| |].
    + destruct (le2 x (Forall_inv H)) as (a & b & E & V). cbn [flat_map pack16]. rewrite E. cbn [app bytes_to_u32]. now rewrite V at 1.
    + pose proof (Forall_inv H) as Hx. pose proof (Forall_inv_tail H) as H1. pose proof (Forall_inv H1) as Hy. pose proof (Forall_inv_tail H1) as H2.
      destruct (le2 x Hx) as (a & b & E & V). destruct (le2 y Hy) as (c & d & E' & V'). cbn [flat_map pack16]. rewrite E, E'. cbn [app bytes_to_u32]. rewrite (IH H2). f_equal. rewrite pack16_word by assumption. change (2 ^ 16) with 65536 in *. change (2 ^ 8) with 256 in *. change (2 ^ 24) with 16777216. lia.
  - change (N.to_nat 32 / 8)%nat with 4%nat. induction H as [|x l Hx H IH]; [reflexivity|]. destruct (le4 x Hx) as (a & b & c & d & E & V). cbn [flat_map]. rewrite E. cbn [app bytes_to_u32]. now rewrite <- IH, <- V.
  - change (N.to_nat 64 / 8)%nat with 8%nat. unfold split64. induction H as [|x l Hx H IH]; [reflexivity|]. cbn [flat_map app]. rewrite IH.
    assert (L8 : le_bytes 8 x = le_bytes 4 (N.land x 0xFFFFFFFF) ++ le_bytes 4 (N.shiftr x 32)).
    { change 0xFFFFFFFF with (N.ones 32). rewrite N.land_ones, N.shiftr_div_pow2. exact (le_bytes_split 4 4 x). }
    rewrite L8. assert (H1 : N.land x 0xFFFFFFFF < 2 ^ 32) by (change 0xFFFFFFFF with (N.ones 32); rewrite N.land_ones; apply N.mod_lt; discriminate).
    assert (H2 : N.shiftr x 32 < 2 ^ 32) by (rewrite N.shiftr_div_pow2; apply N.div_lt_upper_bound; [discriminate|exact Hx]).
    destruct (le4 _ H1) as (a & b & c & d & E & V). destruct (le4 _ H2) as (a' & b' & c' & d' & E' & V'). rewrite E, E'. cbn [app bytes_to_u32]. now rewrite <- V, <- V'.
Qed.
(** [x.uint32ed]: the words of a field are its bytes, four at a time, the least significant
    first, the last word filled up with zero bytes *)
Theorem C20_words : forall lf, leaf_ok lf ->
  length (leaf_words lf) = ((length (leaf_bytes lf) + 3) / 4)%nat /\
  forall i, nth i (leaf_words lf) 0 = number (slice (4 * i) 4 (leaf_bytes lf)).
Proof. intros lf H. rewrite (words_bytes lf H). apply to_u32_nth. Qed.
(** and fields follow each other *)
Theorem C20_fields : forall lfs, bytes lfs = flat_map leaf_bytes lfs /\ uint32ed lfs = flat_map leaf_words lfs.
Proof. intros lfs. unfold bytes, uint32ed. now rewrite !flat_map_concat_map. Qed.
Example C20_bytes_case : leaf_ok (MkLeaf B16 [258; 772; 5]) /\ leaf_bytes (MkLeaf B16 [258; 772; 5]) = [2; 1; 4; 3; 5; 0] /\ leaf_words (MkLeaf B16 [258; 772; 5]) = [0x03040102; 5].
Proof. split; [repeat constructor|]. split; reflexivity. Qed.
Print Assumptions C20_words.
