(** * BitpackProofs.v — the pack tables lay the values out consecutively, decoding reads
      them back. *)
From Verif Require Import Jax HashModel HashProofs BitpackModel BitpackSpec.
Local Open Scope nat_scope.

(** ** Bits *)
Lemma nth_map_seq {A} (f : nat -> A) n i d : i < n -> nth i (map f (seq 0 n)) d = f i.
Proof. intros H. rewrite (nth_indep _ d (f 0)) by (rewrite map_length, seq_length; exact H).
  rewrite (map_nth f (seq 0 n) 0 i), seq_nth by exact H. reflexivity. Qed.
Lemma bits_of_length n v : length (bits_of n v) = n.
Proof. unfold bits_of. now rewrite map_length, seq_length. Qed.
Lemma bits_of_nth n v i : nth i (bits_of n v) false = (i <? n) && N.testbit v (N.of_nat i).
Proof.
  destruct (i <? n) eqn:E.
  - apply Nat.ltb_lt in E. unfold bits_of. rewrite nth_map_seq by exact E. reflexivity.
  - apply Nat.ltb_ge in E. rewrite nth_overflow; [reflexivity | now rewrite bits_of_length].
Qed.
Lemma stream_app a b : stream (a ++ b) = stream a ++ stream b.
Proof. unfold stream. apply flat_map_app. Qed.
Lemma stream_cons b v l : stream ((b, v) :: l) = bits_of b v ++ stream l.
Proof. reflexivity. Qed.
Lemma stream_length l : length (stream l) = list_sum (map fst l).
Proof. induction l as [|[b v] l IH]; [reflexivity|]. rewrite stream_cons, app_length, bits_of_length, IH. reflexivity. Qed.

Lemma fold_lor_testbit l : forall acc k, N.testbit (fold_left N.lor l acc) k = N.testbit acc k || existsb (fun x => N.testbit x k) l.
Proof.
  induction l as [|x l IH]; intros acc k; cbn [fold_left existsb].
  - now rewrite orb_false_r.
  - rewrite IH, N.lor_spec. now rewrite orb_assoc.
Qed.
Lemma or_reduce_testbit l k : N.testbit (or_reduce l) k = existsb (fun x => N.testbit x k) l.
Proof. unfold or_reduce. now rewrite fold_lor_testbit, N.bits_0. Qed.
Lemma w32_testbit x k : N.testbit (w32 x) k = (k <? 32)%N && N.testbit x k.
Proof.
  unfold w32. change W32 with (2 ^ 32)%N. destruct (k <? 32)%N eqn:E.
  - apply N.ltb_lt in E. now rewrite N.mod_pow2_bits_low.
  - apply N.ltb_ge in E. now rewrite N.mod_pow2_bits_high.
Qed.
Lemma ones_sub n : (N.shiftl 1 n - 1)%N = N.ones n.
Proof. unfold N.ones. now rewrite N.sub_1_r. Qed.
Lemma ones_testbit n k : N.testbit (N.ones n) k = (k <? n)%N.
Proof.
  destruct (k <? n)%N eqn:E.
  - apply N.ltb_lt in E. now apply N.ones_spec_low.
  - apply N.ltb_ge in E. now apply N.ones_spec_high.
Qed.
Lemma mask_testbit b k : b <= 32 -> N.testbit (mask_u32 b) k = (k <? N.of_nat b)%N.
Proof.
  intros H. unfold mask_u32. destruct (b =? 0) eqn:E.
  - apply Nat.eqb_eq in E. subst. rewrite N.bits_0. symmetry. apply N.ltb_ge. lia.
  - destruct (32 <=? b) eqn:E2.
    + apply Nat.leb_le in E2. assert (b = 32) by lia. subst. change 4294967295%N with (N.ones 32). apply ones_testbit.
    + rewrite ones_sub. apply ones_testbit.
Qed.
Lemma shiftl_testbit x n k : N.testbit (N.shiftl x n) k = (n <=? k)%N && N.testbit x (k - n).
Proof.
  destruct (n <=? k)%N eqn:E.
  - apply N.leb_le in E. now rewrite N.shiftl_spec_high'.
  - apply N.leb_gt in E. now rewrite N.shiftl_spec_low.
Qed.
Lemma ltb_of_nat a b : (N.of_nat a <? N.of_nat b)%N = (a <? b).
Proof. destruct (Nat.ltb_spec a b); [apply N.ltb_lt|apply N.ltb_ge]; lia. Qed.
Lemma leb_of_nat a b : (N.of_nat a <=? N.of_nat b)%N = (a <=? b).
Proof. destruct (Nat.leb_spec a b); [apply N.leb_le|apply N.leb_gt]; lia. Qed.
Lemma N_of_nat_ex k : exists k', k = N.of_nat k'.
Proof. exists (N.to_nat k). now rewrite N2Nat.id. Qed.

(** ** One value *)
Definition val_at (vals : list N) (i : nat) : N := nth i vals 0%N.
Lemma part_testbit vals total vi a b n k :
  vi < length vals -> b + n <= 32 ->
  N.testbit (part vals total (MkCb (Some vi) a b n)) (N.of_nat k) =
  (b <=? k) && (k <? b + n) && N.testbit (val_at vals vi) (N.of_nat (a + (k - b))).
Proof.
  intros Hv Hb. unfold part. cbn [cvi cvb cwb cnb].
  rewrite app_nth1 by exact Hv. fold (val_at vals vi).
  rewrite w32_testbit, shiftl_testbit, leb_of_nat, N.land_spec, N.shiftr_spec', mask_testbit by lia.
  change 32%N with (N.of_nat 32). rewrite ltb_of_nat.
  destruct (Nat.leb_spec b k) as [L|L]; cbn [andb]; [|now rewrite andb_false_r].
  replace (N.of_nat k - N.of_nat b)%N with (N.of_nat (k - b)) by lia. rewrite ltb_of_nat.
  replace (N.of_nat (k - b) + N.of_nat a)%N with (N.of_nat (a + (k - b))) by lia.
  destruct (Nat.ltb_spec (k - b) n) as [L2|L2].
  - replace (k <? 32) with true by (symmetry; apply Nat.ltb_lt; lia).
    replace (k <? b + n) with true by (symmetry; apply Nat.ltb_lt; lia). cbn [andb]. apply andb_true_r.
  - replace (k <? b + n) with false by (symmetry; apply Nat.ltb_ge; lia). now rewrite !andb_false_r.
Qed.
Definition hits (vals : list N) (total w k : nat) (e : nat * contrib) : bool :=
  (fst e =? w) && N.testbit (part vals total (snd e)) (N.of_nat k).
Lemma value_entries_bit vals total vi start bits w k : vi < length vals -> k < 32 ->
  existsb (hits vals total w k) (value_entries vi start bits) =
  (start <=? 32 * w + k) && (32 * w + k <? start + bits) && N.testbit (val_at vals vi) (N.of_nat (32 * w + k - start)).
Proof.
  intros Hv Hk. apply eq_true_iff_eq. rewrite existsb_exists, !andb_true_iff, Nat.leb_le, Nat.ltb_lt.
  unfold value_entries. split.
  - intros [e [Hin He]]. apply filter_In in Hin. destruct Hin as [Hin Hne]. apply in_map_iff in Hin.
    destruct Hin as [w' [<- Hw']]. cbn [fst snd cnb] in *. unfold hits in He. cbn [fst snd] in He.
    apply andb_true_iff in He. destruct He as [Ew Hb]. apply Nat.eqb_eq in Ew. subst w'.
    apply in_seq in Hw'. apply negb_true_iff, Nat.eqb_neq in Hne.
    rewrite part_testbit in Hb by lia.
    rewrite !andb_true_iff, Nat.leb_le, Nat.ltb_lt in Hb. destruct Hb as [[H1 H2] H3].
    split; [split; lia|]. rewrite <- H3. f_equal. lia.
  - intros [[H1 H2] H3].
    set (o_s := Nat.max start (32 * w)). set (o_e := Nat.min (start + bits) (32 * w + 32)).
    exists (w, MkCb (Some vi) (o_s - start) (o_s - 32 * w) (o_e - o_s)). split.
    + apply filter_In. split.
      * apply in_map_iff. exists w. split; [reflexivity|]. apply in_seq.
        pose proof (Nat.div_mod start 32 ltac:(lia)). pose proof (Nat.mod_upper_bound start 32 ltac:(lia)).
        pose proof (Nat.div_mod (start + bits - 1) 32 ltac:(lia)). pose proof (Nat.mod_upper_bound (start + bits - 1) 32 ltac:(lia)).
        split; lia.
      * cbn [snd cnb]. apply negb_true_iff, Nat.eqb_neq. subst o_s o_e. lia.
    + unfold hits. cbn [fst snd]. rewrite Nat.eqb_refl. cbn [andb]. rewrite part_testbit by (subst o_s o_e; lia).
      rewrite !andb_true_iff, Nat.leb_le, Nat.ltb_lt. split; [split; subst o_s o_e; lia|].
      rewrite <- H3. f_equal. subst o_s o_e. lia.
Qed.

(** ** All values, consecutively *)
Fixpoint vel (vi start : nat) (ws : list nat) : list (nat * contrib) :=
  match ws with [] => [] | b :: t => value_entries vi start b ++ vel (S vi) (start + b) t end.
Lemma vel_app a : forall vi start b, vel vi start (a ++ b) = vel vi start a ++ vel (vi + length a) (start + list_sum a) b.
Proof.
  induction a as [|x a IH]; intros vi start b; cbn [app vel length].
  - cbn. now rewrite !Nat.add_0_r.
  - rewrite IH, app_assoc. change (list_sum (x :: a)) with (x + list_sum a). f_equal. f_equal; lia.
Qed.
Definition widths (specs : list leafspec) : list nat := flat_map (fun s => repeat (lbits s) (lnvalues s)) specs.
Fixpoint consec (off : nat) (specs : list leafspec) : Prop :=
  match specs with [] => True | s :: t => loff s = off /\ consec (off + lnvalues s * lbits s) t end.
Definition spec_bits (specs : list leafspec) : nat := list_sum (map (fun s => lnvalues s * lbits s) specs).
Lemma list_sum_repeat b n : list_sum (repeat b n) = n * b.
Proof. induction n as [|n IH]; [reflexivity|]. cbn [repeat]. change (list_sum (b :: repeat b n)) with (b + list_sum (repeat b n)). lia. Qed.
Lemma list_sum_app' a b : list_sum (a ++ b) = list_sum a + list_sum b.
Proof. apply list_sum_app. Qed.
Lemma leaf_entries vi start b n :
  flat_map (fun i => value_entries (vi + i) (start + i * b) b) (seq 0 n) = vel vi start (repeat b n).
Proof.
  revert vi start. induction n as [|n IH]; intros vi start; [reflexivity|].
  cbn [seq flat_map repeat vel]. f_equal; [f_equal; lia|].
  rewrite <- IH, <- seq_shift, flat_map_concat_map, map_map, <- flat_map_concat_map.
  apply flat_map_ext. intros i. f_equal; lia.
Qed.
Lemma all_entries_vel specs : forall voff off, consec off specs -> all_entries voff specs = vel voff off (widths specs).
Proof.
  induction specs as [|s t IH]; intros voff off H; [reflexivity|].
  destruct H as [H1 H2]. cbn [all_entries widths flat_map]. rewrite H1, leaf_entries, vel_app, repeat_length, list_sum_repeat.
  fold (widths t). now rewrite (IH (voff + lnvalues s) (off + lnvalues s * lbits s) H2).
Qed.
Lemma vel_bit vals total w k : k < 32 -> forall ws vi start, vi + length ws <= length vals ->
  existsb (hits vals total w k) (vel vi start ws) =
  (start <=? 32 * w + k) && nth (32 * w + k - start) (stream (combine ws (skipn vi vals))) false.
Proof.
  intros Hk. induction ws as [|b ws IH]; intros vi start Hl.
  - cbn [vel combine existsb stream flat_map]. destruct (32 * w + k - start); cbn [nth]; now rewrite andb_false_r.
  - cbn [vel length] in *. rewrite existsb_app, value_entries_bit, IH by lia.
    destruct (skipn vi vals) as [|v vs] eqn:E.
    { apply (f_equal (@length N)) in E. rewrite skipn_length in E. cbn in E. lia. }
    assert (Ev : val_at vals vi = v).
    { unfold val_at. rewrite <- (Nat.add_0_r vi), <- nth_skipn, E. reflexivity. }
    assert (Es : skipn (S vi) vals = vs).
    { change (S vi) with (1 + vi). rewrite <- skipn_skipn, E. reflexivity. }
    rewrite Ev, Es. cbn [combine]. rewrite stream_cons. set (p := 32 * w + k).
    destruct (Nat.leb_spec start p) as [L|L]; cbn [andb].
    + destruct (Nat.ltb_spec p (start + b)) as [L2|L2]; cbn [andb].
      * rewrite app_nth1 by (rewrite bits_of_length; lia). rewrite bits_of_nth.
        replace (p - start <? b) with true by (symmetry; apply Nat.ltb_lt; lia).
        replace (start + b <=? p) with false by (symmetry; apply Nat.leb_gt; lia). cbn [andb]. apply orb_false_r.
      * rewrite app_nth2 by (rewrite bits_of_length; lia). rewrite bits_of_length.
        replace (start + b <=? p) with true by (symmetry; apply Nat.leb_le; lia). cbn [andb orb]. f_equal. lia.
    + replace (start + b <=? p) with false by (symmetry; apply Nat.leb_gt; lia). reflexivity.
Qed.

(** ** The tables *)
Lemma fold_contribs es : forall cs,
  (forall w, nth w (fold_left (fun cs e => upd cs (fst e) (nth (fst e) cs [] ++ [snd e])) es cs) [] =
     if w <? length cs then nth w cs [] ++ map snd (filter (fun e => fst e =? w) es) else @nil contrib) /\
  length (fold_left (fun cs e => upd cs (fst e) (nth (fst e) cs [] ++ [snd e])) es cs) = length cs.
Proof.
  induction es as [|e es IH]; intros cs; cbn [fold_left filter map].
  - split; [|reflexivity]. intros w. destruct (Nat.ltb_spec w (length cs)); [now rewrite app_nil_r|]. now apply nth_overflow.
  - destruct (IH (upd cs (fst e) (nth (fst e) cs [] ++ [snd e]))) as [H1 H2]. rewrite upd_length in *. split; [|exact H2].
    intros w. rewrite H1. destruct (Nat.ltb_spec w (length cs)) as [L|L]; [|reflexivity].
    destruct (Nat.eqb_spec (fst e) w) as [E|E].
    + rewrite E, nth_upd_eq by exact L. cbn [map]. now rewrite <- app_assoc.
    + now rewrite nth_upd_neq by exact E.
Qed.
Lemma contribs_nth specs nwords w : w < nwords ->
  nth w (contribs specs nwords) [] = map snd (filter (fun e => fst e =? w) (all_entries 0 specs)).
Proof.
  intros H. unfold contribs. destruct (fold_contribs (all_entries 0 specs) (repeat [] nwords)) as [H1 _]. rewrite H1, repeat_length.
  replace (w <? nwords) with true by (symmetry; now apply Nat.ltb_lt). rewrite nth_repeat. reflexivity.
Qed.
Lemma contribs_length specs nwords : length (contribs specs nwords) = nwords.
Proof. unfold contribs. destruct (fold_contribs (all_entries 0 specs) (repeat [] nwords)) as [_ H]. now rewrite H, repeat_length. Qed.
Lemma tables_length specs nwords : length (tables specs nwords) = nwords.
Proof. unfold tables. rewrite map_length. apply contribs_length. Qed.
Lemma pack_words_length specs nwords vals : length (pack_words specs nwords vals) = nwords.
Proof. unfold pack_words. rewrite map_length. apply tables_length. Qed.
Lemma existsb_map {A B} (f : A -> B) p l : existsb p (map f l) = existsb (fun x => p (f x)) l.
Proof. induction l; cbn; [reflexivity|]. now rewrite IHl. Qed.
Lemma existsb_filter {A} (q p : A -> bool) l : existsb p (filter q l) = existsb (fun x => q x && p x) l.
Proof. induction l as [|a l IH]; cbn; [reflexivity|]. destruct (q a); cbn; now rewrite IH. Qed.
Lemma existsb_repeat_false {A} p (x : A) n : p x = false -> existsb p (repeat x n) = false.
Proof. intros H. induction n; cbn; [reflexivity|]. now rewrite H. Qed.
Lemma part_pad vals total : total = length vals -> part vals total (MkCb None 0 0 0) = 0%N.
Proof. intros ->. unfold part. cbn [cvi cvb cnb cwb]. rewrite app_nth2, Nat.sub_diag by lia. reflexivity. Qed.
Lemma widths_length specs : length (widths specs) = total_values specs.
Proof. induction specs as [|s t IH]; [reflexivity|]. unfold widths in *. cbn [flat_map]. rewrite app_length, repeat_length, IH. reflexivity. Qed.

Lemma pack_words_bit specs nwords vals w k :
  consec 0 specs -> length vals = total_values specs -> w < nwords -> k < 32 ->
  N.testbit (nth w (pack_words specs nwords vals) 0%N) (N.of_nat k) =
  nth (32 * w + k) (stream (combine (widths specs) vals)) false.
Proof.
  intros Hc Hl Hw Hk. unfold pack_words.
  set (g := fun row => or_reduce (map (part vals (total_values specs)) row)).
  rewrite (nth_indep _ 0%N (g [])) by (rewrite map_length, tables_length; exact Hw).
  rewrite (map_nth g). unfold g. rewrite or_reduce_testbit, existsb_map.
  unfold tables. set (m := list_max (map (@length contrib) (contribs specs nwords))).
  set (f := fun row => row ++ repeat (MkCb None 0 0 0) (m - length row)).
  rewrite (nth_indep _ [] (f [])) by (rewrite map_length, contribs_length; exact Hw).
  rewrite (map_nth f). unfold f. rewrite existsb_app.
  rewrite (existsb_repeat_false _ (MkCb None 0 0 0)); [|rewrite part_pad by (symmetry; exact Hl); apply N.bits_0].
  rewrite orb_false_r, contribs_nth by exact Hw.
  rewrite existsb_map, existsb_filter. rewrite (all_entries_vel specs 0 0 Hc).
  change (existsb (hits vals (total_values specs) w k) (vel 0 0 (widths specs)) = nth (32 * w + k) (stream (combine (widths specs) vals)) false).
  rewrite vel_bit by (rewrite ?widths_length; lia). cbn [skipn]. cbn [Nat.leb andb]. now rewrite Nat.sub_0_r.
Qed.
Lemma pack_words_word specs nwords vals : Forall word (pack_words specs nwords vals).
Proof.
  unfold pack_words. apply Forall_forall. intros x Hx. apply in_map_iff in Hx. destruct Hx as [row [<- _]].
  apply lt_pow2_bits. intros i Hi. rewrite or_reduce_testbit. apply not_true_is_false. intros H.
  apply existsb_exists in H. destruct H as [y [Hy Hb]]. apply in_map_iff in Hy. destruct Hy as [c [<- _]].
  unfold part in Hb. rewrite w32_testbit in Hb. apply andb_true_iff in Hb. destruct Hb as [Hb _]. apply N.ltb_lt in Hb.
  change 32%N with (2 ^ 5)%N in *. lia.
Qed.
Lemma pack_words_word_bit specs nwords vals p :
  consec 0 specs -> length vals = total_values specs -> spec_bits specs <= 32 * nwords ->
  word_bit (pack_words specs nwords vals) p = nth p (stream (combine (widths specs) vals)) false.
Proof.
  intros Hc Hl Hb. unfold word_bit.
  pose proof (Nat.div_mod p 32 ltac:(lia)) as Hd. pose proof (Nat.mod_upper_bound p 32 ltac:(lia)) as Hm.
  destruct (Nat.lt_ge_cases (p / 32) nwords) as [L|L].
  - rewrite pack_words_bit by assumption. f_equal. lia.
  - rewrite nth_overflow by (rewrite pack_words_length; exact L). rewrite N.bits_0. symmetry. apply nth_overflow.
    rewrite stream_length.
    assert (E : map fst (combine (widths specs) vals) = widths specs).
    { clear Hb L. assert (Hlen : length (widths specs) = length vals) by (rewrite widths_length; lia).
      revert Hlen. generalize (widths specs) as l1. clear. induction vals as [|v vals IH]; intros [|a l1] H; cbn in *; try lia; [reflexivity|].
      now rewrite IH by lia. }
    rewrite E. assert (E2 : list_sum (widths specs) = spec_bits specs).
    { clear. induction specs as [|s t IH]; [reflexivity|]. unfold widths, spec_bits in *. cbn [flat_map map].
      rewrite list_sum_app, list_sum_repeat, IH. reflexivity. }
    lia.
Qed.

(** ** Decoding *)
Lemma shiftr_word_bit_low x s k : word x -> (32 <= k + s)%N -> N.testbit (N.shiftr x s) k = false.
Proof. intros H Hk. rewrite N.shiftr_spec'. apply (bits_lt_pow2 x 32); [exact H|exact Hk]. Qed.
Lemma decode_mask_testbit bits k : bits <= 32 ->
  N.testbit (if bits =? 32 then 0xFFFFFFFF%N else (N.shiftl 1 (N.of_nat bits) - 1)%N) (N.of_nat k) = (k <? bits).
Proof.
  intros H. destruct (Nat.eqb_spec bits 32) as [->|E].
  - change 4294967295%N with (N.ones 32). rewrite ones_testbit. apply (ltb_of_nat k 32).
  - rewrite ones_sub, ones_testbit. apply ltb_of_nat.
Qed.
Lemma land31 p : N.land (N.of_nat p) 31 = N.of_nat (p mod 32).
Proof.
  change 31%N with (N.ones 5). rewrite N.land_ones. change (2 ^ 5)%N with (N.of_nat 32). now rewrite Nat2N.inj_mod.
Qed.
Lemma shiftr5 p : N.to_nat (N.shiftr (N.of_nat p) 5) = p / 32.
Proof.
  rewrite N.shiftr_div_pow2. change (2 ^ 5)%N with (N.of_nat 32). now rewrite <- Nat2N.inj_div, Nat2N.id.
Qed.
Lemma take_fill_padded words i : i < length words -> take_fill (words ++ [0%N]) i = nth i words 0%N.
Proof. intros H. unfold take_fill. rewrite app_nth1 by exact H. now apply nth_indep. Qed.
Lemma take_fill_padded' words i : i <= length words -> take_fill (words ++ [0%N]) i = nth i words 0%N.
Proof.
  intros H. destruct (Nat.eq_dec i (length words)) as [->|E]; [|apply take_fill_padded; lia].
  unfold take_fill. rewrite app_nth2, Nat.sub_diag by lia. symmetry. now rewrite nth_overflow by lia.
Qed.
Lemma word_nth ws i : Forall word ws -> word (nth i ws 0%N).
Proof.
  intros H. destruct (Nat.lt_ge_cases i (length ws)) as [L|L].
  - rewrite Forall_forall in H. apply H. now apply nth_In.
  - rewrite nth_overflow by exact L. reflexivity.
Qed.
Lemma decode_at_testbit words pos bits k : Forall word words -> bits <= 32 -> pos + bits <= 32 * length words ->
  N.testbit (decode_at words (N.of_nat pos) bits) (N.of_nat k) = (k <? bits) && word_bit words (pos + k).
Proof.
  intros Hw Hb Hp. unfold decode_at. rewrite N.land_spec, N.lor_spec, decode_mask_testbit by exact Hb.
  destruct (Nat.ltb_spec k bits) as [L|L]; [|now rewrite andb_false_r]. rewrite andb_true_r. cbn [andb].
  rewrite shiftr5, land31.
  pose proof (Nat.div_mod pos 32 ltac:(lia)) as Hd. pose proof (Nat.mod_upper_bound pos 32 ltac:(lia)) as Hm.
  set (q := pos / 32) in *. set (r := pos mod 32) in *.
  rewrite take_fill_padded by lia. rewrite (take_fill_padded' words (q + 1)) by lia.
  rewrite N.shiftr_spec'. replace (N.of_nat k + N.of_nat r)%N with (N.of_nat (k + r)) by lia.
  unfold word_bit.
  pose proof (word_nth words q Hw) as Hq.
  destruct (Nat.lt_ge_cases (k + r) 32) as [L2|L2].
  - replace ((pos + k) / 32) with q by (apply Nat.div_unique with (k + r); lia).
    replace ((pos + k) mod 32) with (k + r) by (apply Nat.mod_unique with q; lia).
    replace (N.testbit _ (N.of_nat k)) with false; [apply orb_false_r|]. symmetry.
    destruct (N.eqb_spec (N.of_nat r) 0) as [E|E]; [apply N.bits_0|].
    rewrite w32_testbit, shiftl_testbit.
    replace (32 - N.of_nat r)%N with (N.of_nat (32 - r)) by lia. rewrite leb_of_nat.
    replace (32 - r <=? k) with false by (symmetry; apply Nat.leb_gt; lia). now rewrite andb_false_r.
  - replace ((pos + k) / 32) with (q + 1) by (apply Nat.div_unique with (k + r - 32); lia).
    replace ((pos + k) mod 32) with (k + r - 32) by (apply Nat.mod_unique with (q + 1); lia).
    rewrite (bits_lt_pow2 (nth q words 0%N) 32 (N.of_nat (k + r)) Hq) by lia. cbn [orb].
    destruct (N.eqb_spec (N.of_nat r) 0) as [E|E]; [exfalso; lia|].
    rewrite w32_testbit, shiftl_testbit.
    replace (32 - N.of_nat r)%N with (N.of_nat (32 - r)) by lia. rewrite leb_of_nat.
    change 32%N with (N.of_nat 32). rewrite ltb_of_nat.
    replace (32 - r <=? k) with true by (symmetry; apply Nat.leb_le; lia).
    replace (k <? 32) with true by (symmetry; apply Nat.ltb_lt; lia). cbn [andb]. f_equal. lia.
Qed.
(** decoding a position where the stream holds [v] gives the low bits of [v] *)
Lemma decode_at_value words pos bits v : Forall word words -> bits <= 32 -> pos + bits <= 32 * length words ->
  (forall k, k < bits -> word_bit words (pos + k) = N.testbit v (N.of_nat k)) ->
  decode_at words (N.of_nat pos) bits = (v mod 2 ^ N.of_nat bits)%N.
Proof.
  intros Hw Hb Hp H. apply N.bits_inj. intros k'. destruct (N_of_nat_ex k') as [k ->].
  rewrite decode_at_testbit by assumption. destruct (Nat.ltb_spec k bits) as [L|L]; cbn [andb].
  - rewrite H by exact L. rewrite N.mod_pow2_bits_low by lia. reflexivity.
  - rewrite N.mod_pow2_bits_high by lia. reflexivity.
Qed.
