(** * BitpackAgg.v — whole classes: layout, storage with a tail, round trip. *)
From Verif Require Import Jax HashModel HashProofs BitpackModel BitpackSpec BitpackProofs.
Local Open Scope nat_scope.

Scheme field_mut := Induction for field Sort Prop with fields_mut := Induction for fields Sort Prop.
Combined Scheme class_ind from field_mut, fields_mut.

(** ** The walk *)
Lemma consec_app a : forall off b, consec off a -> consec (off + spec_bits a) b -> consec off (a ++ b).
Proof.
  induction a as [|s a IH]; intros off b Ha Hb; cbn [app consec] in *.
  - unfold spec_bits in Hb. cbn in Hb. now rewrite Nat.add_0_r in Hb.
  - destruct Ha as [H1 H2]. split; [exact H1|]. apply IH; [exact H2|].
    unfold spec_bits in *. cbn [map] in Hb.
    change (list_sum (lnvalues s * lbits s :: map (fun s0 => lnvalues s0 * lbits s0) a)) with
      (lnvalues s * lbits s + list_sum (map (fun s0 => lnvalues s0 * lbits s0) a)) in Hb.
    now rewrite Nat.add_assoc in Hb.
Qed.
Lemma spec_bits_app a b : spec_bits (a ++ b) = spec_bits a + spec_bits b.
Proof. unfold spec_bits. now rewrite map_app, list_sum_app. Qed.
Lemma walk_layout :
  (forall f prefix off, consec off (fst (walk_field prefix off f)) /\
     spec_bits (fst (walk_field prefix off f)) = field_bits f /\ snd (walk_field prefix off f) = off + field_bits f) /\
  (forall c prefix off, consec off (fst (walk prefix off c)) /\
     spec_bits (fst (walk prefix off c)) = class_bits c /\ snd (walk prefix off c) = off + class_bits c).
Proof.
  apply class_ind.
  - intros b n prefix off. cbn [walk_field fst snd consec field_bits]. unfold spec_bits. cbn [map lnvalues lbits loff].
    split; [now split|]. split; [|reflexivity]. change (n * b + 0 = n * b). lia.
  - intros fs IH prefix off. exact (IH prefix off).
  - intros prefix off. cbn. split; [exact I|]. split; [reflexivity|lia].
  - intros n f IHf rest IHr prefix off. cbn [walk].
    destruct (walk_field (prefix ++ [n]) off f) as [s1 off1] eqn:E1.
    destruct (walk prefix off1 rest) as [s2 off2] eqn:E2. cbn [fst snd class_bits].
    destruct (IHf (prefix ++ [n]) off) as [A1 [A2 A3]]. rewrite E1 in *. cbn [fst snd] in *.
    destruct (IHr prefix off1) as [B1 [B2 B3]]. rewrite E2 in *. cbn [fst snd] in *.
    split; [apply consec_app; [exact A1|rewrite A2, <- A3; exact B1]|].
    split; [rewrite spec_bits_app; lia|lia].
Qed.
Lemma walk_good :
  (forall f prefix off, good_field f -> Forall (fun s => 1 <= lbits s <= 32) (fst (walk_field prefix off f))) /\
  (forall c prefix off, good_class c -> Forall (fun s => 1 <= lbits s <= 32) (fst (walk prefix off c))).
Proof.
  apply class_ind.
  - intros b n prefix off H. cbn. constructor; [exact H|constructor].
  - intros fs IH prefix off H. apply (IH prefix off H).
  - intros prefix off _. constructor.
  - intros n f IHf rest IHr prefix off [_ [H2 H3]]. cbn [walk].
    specialize (IHf (prefix ++ [n]) off H2). destruct (walk_field (prefix ++ [n]) off f) as [s1 off1].
    specialize (IHr prefix off1 H3). destruct (walk prefix off1 rest) as [s2 off2]. cbn [fst] in *.
    apply Forall_app. now split.
Qed.

(** paths *)
Definition under (prefix p : list string) : Prop := exists q, p = prefix ++ q.
Lemma walk_paths :
  (forall f prefix off s, In s (fst (walk_field prefix off f)) -> under prefix (lpath s)) /\
  (forall c prefix off s, In s (fst (walk prefix off c)) -> exists n, In n (names c) /\ under (prefix ++ [n]) (lpath s)).
Proof.
  apply class_ind.
  - intros b n prefix off s [<-|[]]. exists []. cbn. now rewrite app_nil_r.
  - intros fs IH prefix off s H. destruct (IH prefix off s H) as [n [_ [q E]]]. exists (n :: q). now rewrite E, <- app_assoc.
  - intros prefix off s [].
  - intros n f IHf rest IHr prefix off s H. cbn [walk] in H.
    specialize (IHf (prefix ++ [n]) off s). destruct (walk_field (prefix ++ [n]) off f) as [s1 off1].
    specialize (IHr prefix off1 s). destruct (walk prefix off1 rest) as [s2 off2]. cbn [fst] in *.
    apply in_app_or in H. destruct H as [H|H].
    + exists n. split; [now left|]. now apply IHf.
    + destruct (IHr H) as [m [Hm Hu]]. exists m. split; [now right|exact Hu].
Qed.
Lemma under_inj prefix n m p : under (prefix ++ [n]) p -> under (prefix ++ [m]) p -> n = m.
Proof. intros [q1 E1] [q2 E2]. rewrite E1, <- !app_assoc in E2. apply app_inv_head in E2. now injection E2. Qed.
Lemma NoDup_app_intro {A} (a b : list A) : NoDup a -> NoDup b -> (forall x, In x a -> In x b -> False) -> NoDup (a ++ b).
Proof.
  induction a as [|x a IH]; intros Ha Hb H; [exact Hb|]. inversion Ha; subst. cbn. constructor.
  - intros Hin. apply in_app_or in Hin. destruct Hin as [Hin|Hin]; [contradiction|]. apply (H x); [now left|exact Hin].
  - apply IH; [assumption|assumption|]. intros y Hy. apply H. now right.
Qed.
Lemma walk_paths_nodup :
  (forall f prefix off, good_field f -> NoDup (map lpath (fst (walk_field prefix off f)))) /\
  (forall c prefix off, good_class c -> NoDup (map lpath (fst (walk prefix off c)))).
Proof.
  apply class_ind.
  - intros b n prefix off _. cbn. constructor; [intros []|constructor].
  - intros fs IH prefix off H. apply (IH prefix off H).
  - intros prefix off _. constructor.
  - intros n f IHf rest IHr prefix off [H1 [H2 H3]]. cbn [walk].
    specialize (IHf (prefix ++ [n]) off H2). pose proof (proj1 walk_paths f (prefix ++ [n]) off) as P1.
    destruct (walk_field (prefix ++ [n]) off f) as [s1 off1].
    specialize (IHr prefix off1 H3). pose proof (proj2 walk_paths rest prefix off1) as P2.
    destruct (walk prefix off1 rest) as [s2 off2]. cbn [fst] in *.
    rewrite map_app. apply NoDup_app_intro; [assumption|assumption|].
    intros p Hp1 Hp2. apply in_map_iff in Hp1. destruct Hp1 as [a [<- Ha]]. apply in_map_iff in Hp2. destruct Hp2 as [b [Eb Hb]].
    specialize (P1 a Ha). destruct (P2 b Hb) as [m [Hm Hu]]. rewrite Eb in Hu.
    apply H1. now rewrite (under_inj prefix n m (lpath a) P1 Hu).
Qed.

(** values found by path *)
Definition leaf_of (root : ifield) (p : list string) : list N :=
  match get_path root p with Some (ILeaf v) => v | _ => [] end.
Lemma get_path_app root p q : get_path root (p ++ q) = match get_path root p with Some f => get_path f q | None => None end.
Proof.
  revert root. induction p as [|n p IH]; intros root; [reflexivity|]. cbn [app get_path].
  destruct root as [v|i]; [reflexivity|]. destruct (get_attr i n); [apply IH|reflexivity].
Qed.
Definition pairs_of (root : ifield) (s : leafspec) : list (nat * N) := map (fun e => (lbits s, e)) (leaf_of root (lpath s)).
Lemma walk_values root :
  (forall f prefix off x, is_field f x -> good_field f -> get_path root prefix = Some x ->
     flat_map (pairs_of root) (fst (walk_field prefix off f)) = field_elems f x /\
     Forall (fun s => length (leaf_of root (lpath s)) = lnvalues s) (fst (walk_field prefix off f))) /\
  (forall c prefix off i, is_instance c i -> good_class c ->
     (forall n x, In n (names c) -> get_attr i n = Some x -> get_path root (prefix ++ [n]) = Some x) ->
     flat_map (pairs_of root) (fst (walk prefix off c)) = elems c i /\
     Forall (fun s => length (leaf_of root (lpath s)) = lnvalues s) (fst (walk prefix off c))).
Proof.
  apply class_ind.
  - intros b n prefix off x Hi _ Hp. destruct x as [v|]; [|destruct Hi]. cbn in Hi.
    cbn [walk_field fst flat_map field_elems]. rewrite app_nil_r. unfold pairs_of. cbn [lbits lpath]. unfold leaf_of.
    split; [now rewrite Hp|]. constructor; [|constructor]. cbn [lpath lnvalues]. now rewrite Hp.
  - intros fs IH prefix off x Hi Hg Hp. destruct x as [|i]; [destruct Hi|]. cbn [walk_field field_elems].
    apply IH; [exact Hi|exact Hg|]. intros n x _ Ha. rewrite get_path_app, Hp. cbn [get_path]. now rewrite Ha.
  - intros prefix off i _ _ _. cbn. split; [reflexivity|constructor].
  - intros n f IHf rest IHr prefix off i Hi [H1 [H2 H3]] Hp. destruct i as [|m x irest]; [destruct Hi|].
    destruct Hi as [<- [Hx Hr]]. cbn [walk elems].
    assert (Hpx : get_path root (prefix ++ [n]) = Some x).
    { apply (Hp n x); [now left|]. cbn. now rewrite String.eqb_refl. }
    destruct (IHf (prefix ++ [n]) off x Hx H2 Hpx) as [A1 A2].
    destruct (walk_field (prefix ++ [n]) off f) as [s1 off1].
    assert (Hpr : forall n0 x0, In n0 (names rest) -> get_attr irest n0 = Some x0 -> get_path root (prefix ++ [n0]) = Some x0).
    { intros n0 x0 Hin Ha. apply Hp; [now right|]. cbn. destruct (String.eqb_spec n0 n) as [->|_]; [contradiction|exact Ha]. }
    destruct (IHr prefix off1 irest Hr H3 Hpr) as [B1 B2].
    destruct (walk prefix off1 rest) as [s2 off2]. cbn [fst] in *.
    rewrite flat_map_app, A1, B1. split; [reflexivity|]. apply Forall_app. now split.
Qed.

(** the stream packed by the tables is the specified one *)
Lemma combine_app {A B} (a a' : list A) (b b' : list B) : length a = length b -> combine (a ++ a') (b ++ b') = combine a b ++ combine a' b'.
Proof. revert b. induction a as [|x a IH]; intros [|y b] H; cbn in *; try lia; [reflexivity|]. now rewrite IH by lia. Qed.
Lemma combine_repeat {B} x (l : list B) : combine (repeat x (length l)) l = map (fun e => (x : nat, e)) l.
Proof. induction l; cbn; [reflexivity|]. now rewrite IHl. Qed.
Lemma combine_widths (g : leafspec -> list N) specs : Forall (fun s => length (g s) = lnvalues s) specs ->
  combine (widths specs) (flat_map g specs) = flat_map (fun s => map (fun e => (lbits s, e)) (g s)) specs.
Proof.
  induction 1 as [|s t H Ht IH]; [reflexivity|]. unfold widths in *. cbn [flat_map].
  rewrite combine_app by (rewrite repeat_length; lia). rewrite IH. f_equal. rewrite <- H. apply combine_repeat.
Qed.
Lemma flat_map_length_values (g : leafspec -> list N) specs : Forall (fun s => length (g s) = lnvalues s) specs ->
  length (flat_map g specs) = total_values specs.
Proof. induction 1 as [|s t H Ht IH]; [reflexivity|]. cbn [flat_map]. rewrite app_length, IH, H. reflexivity. Qed.
Lemma bits_of_w32 b v : b <= 32 -> bits_of b (w32 v) = bits_of b v.
Proof.
  intros H. unfold bits_of. apply map_ext_in. intros k Hk. apply in_seq in Hk. rewrite w32_testbit.
  change 32%N with (N.of_nat 32). rewrite ltb_of_nat. replace (k <? 32) with true by (symmetry; apply Nat.ltb_lt; lia). reflexivity.
Qed.
Lemma stream_w32 (g : leafspec -> list N) specs : Forall (fun s => 1 <= lbits s <= 32) specs ->
  stream (flat_map (fun s => map (fun e => (lbits s, e)) (map w32 (g s))) specs) =
  stream (flat_map (fun s => map (fun e => (lbits s, e)) (g s)) specs).
Proof.
  induction 1 as [|s t H Ht IH]; [reflexivity|]. cbn [flat_map]. rewrite !stream_app, IH. f_equal.
  induction (g s) as [|e l IHl]; [reflexivity|]. cbn [map]. rewrite !stream_cons, IHl, bits_of_w32 by lia. reflexivity.
Qed.

(** ** Storage *)
Lemma layout_words total : 32 * fst (fst (word_tail_layout total)) >= total /\
  (fst (fst (word_tail_layout total)) = (total + 31) / 32).
Proof.
  assert (E : fst (fst (word_tail_layout total)) = (total + 31) / 32).
  { unfold word_tail_layout. set (rb := if total mod 32 =? 0 then 0 else ceil_div (total mod 32) 8).
    destruct ((rb =? 1) || (rb =? 2)); cbn [fst]; destruct (Nat.eqb_spec total 0) as [->|E]; try reflexivity;
    unfold ceil_div; f_equal; lia. }
  rewrite E. split; [|reflexivity].
  pose proof (Nat.div_mod (total + 31) 32 ltac:(lia)). pose proof (Nat.mod_upper_bound (total + 31) 32 ltac:(lia)). lia.
Qed.
(** the three cases of the layout *)
Lemma layout_cases total : let q := total / 32 in let r := total mod 32 in
  word_tail_layout total =
    if r =? 0 then (q, q, 0) else if r <=? 8 then (q + 1, q, 1) else if r <=? 16 then (q + 1, q, 2) else (q + 1, q + 1, 0).
Proof.
  intros q r. unfold word_tail_layout. fold r.
  pose proof (Nat.div_mod total 32 ltac:(lia)) as Hd. pose proof (Nat.mod_upper_bound total 32 ltac:(lia)) as Hm. fold q r in Hd, Hm.
  assert (Ew : (if total =? 0 then 0 else ceil_div total 32) = if r =? 0 then q else q + 1).
  { unfold ceil_div. destruct (Nat.eqb_spec total 0) as [E|E].
    - assert (q = 0 /\ r = 0) as [-> ->] by lia. reflexivity.
    - destruct (Nat.eqb_spec r 0) as [E2|E2].
      + symmetry. apply Nat.div_unique with 31; lia.
      + symmetry. apply Nat.div_unique with (r - 1); lia. }
  rewrite Ew. destruct (Nat.eqb_spec r 0) as [E|E]; [reflexivity|].
  assert (Er : ceil_div r 8 = if r <=? 8 then 1 else if r <=? 16 then 2 else if r <=? 24 then 3 else 4).
  { unfold ceil_div. clear - Hm E. revert Hm E. generalize r. clear. intros r H1 H2.
    do 32 (destruct r as [|r]; [first [lia | reflexivity]|]). lia. }
  rewrite Er. destruct (r <=? 8); cbn [Nat.eqb orb]; [f_equal; f_equal; lia|].
  destruct (r <=? 16); cbn [Nat.eqb orb]; [f_equal; f_equal; lia|].
  destruct (r <=? 24); reflexivity.
Qed.
Lemma land255_testbit x k : N.testbit (N.land x 0xFF) (N.of_nat k) = (k <? 8) && N.testbit x (N.of_nat k).
Proof.
  rewrite N.land_spec. change 255%N with (N.ones 8). rewrite ones_testbit. change 8%N with (N.of_nat 8). rewrite ltb_of_nat. apply andb_comm.
Qed.
Lemma byte_of_testbit w i k : N.testbit (N.land (N.shiftr w (8 * N.of_nat i)) 0xFF) (N.of_nat k) = (k <? 8) && N.testbit w (N.of_nat (8 * i + k)).
Proof. rewrite land255_testbit, N.shiftr_spec'. do 2 f_equal. lia. Qed.
(** reassembling [n] bytes taken from [w] gives the low 8n bits *)
Lemma existsb_seq_hit (p : nat -> bool) n j : j < n -> (forall i, i < n -> i <> j -> p i = false) -> existsb p (seq 0 n) = p j.
Proof.
  intros Hj H. apply eq_true_iff_eq. rewrite existsb_exists. split.
  - intros [i [Hi Hp]]. apply in_seq in Hi. destruct (Nat.eq_dec i j) as [->|E]; [exact Hp|]. rewrite H in Hp by lia. discriminate.
  - intros Hp. exists j. split; [apply in_seq; lia|exact Hp].
Qed.
Lemma existsb_combine_seq {A} (p : nat * A -> bool) (l : list A) d : existsb p (combine (seq 0 (length l)) l) = existsb (fun i => p (i, nth i l d)) (seq 0 (length l)).
Proof.
  assert (G : forall o, existsb p (combine (seq o (length l)) l) = existsb (fun i => p (o + i, nth i l d)) (seq 0 (length l))).
  { induction l as [|x l IH]; intros o; [reflexivity|]. cbn [length seq combine existsb nth]. rewrite Nat.add_0_r. f_equal.
    rewrite IH, <- seq_shift, existsb_map. apply eq_true_iff_eq. rewrite !existsb_exists.
    split; intros [i [Hi Hp]]; exists i; (split; [exact Hi|]); cbn [nth] in *; rewrite ?Nat.add_succ_r in *; exact Hp. }
  apply (G 0).
Qed.
Lemma bytes_assemble_testbit bs k : Forall (fun b => (b < 256)%N) bs ->
  N.testbit (or_reduce (map (fun q => N.shiftl (snd q) (8 * N.of_nat (fst q))) (combine (seq 0 (length bs)) bs))) (N.of_nat k) = byte_bit bs k.
Proof.
  intros Hb. rewrite or_reduce_testbit, existsb_map, (existsb_combine_seq _ bs 0%N). unfold byte_bit. cbn [fst snd].
  pose proof (Nat.div_mod k 8 ltac:(lia)) as Hd. pose proof (Nat.mod_upper_bound k 8 ltac:(lia)) as Hm.
  assert (Hbyte : forall i, (nth i bs 0 < 256)%N).
  { intros i. destruct (Nat.lt_ge_cases i (length bs)) as [L|L]; [|rewrite nth_overflow by exact L; reflexivity].
    rewrite Forall_forall in Hb. apply Hb. now apply nth_In. }
  assert (Hz : forall i, i <> k / 8 -> N.testbit (N.shiftl (nth i bs 0%N) (8 * N.of_nat i)) (N.of_nat k) = false).
  { intros i Hi. rewrite shiftl_testbit. destruct (N.leb_spec (8 * N.of_nat i) (N.of_nat k)) as [L|L]; [|reflexivity]. cbn [andb].
    apply (bits_lt_pow2 _ 8); [apply Hbyte|]. lia. }
  destruct (Nat.lt_ge_cases (k / 8) (length bs)) as [L|L].
  - rewrite (existsb_seq_hit _ (length bs) (k / 8)); [|exact L|intros i _ Hi; now apply Hz].
    rewrite shiftl_testbit. replace (8 * N.of_nat (k / 8) <=? N.of_nat k)%N with true by (symmetry; apply N.leb_le; lia).
    cbn [andb]. f_equal. lia.
  - rewrite nth_overflow by exact L. rewrite N.bits_0. apply not_true_is_false. intros H. apply existsb_exists in H.
    destruct H as [i [Hi Hp]]. apply in_seq in Hi. rewrite Hz in Hp by lia. discriminate.
Qed.
Lemma bytes_of_word_lt w n : Forall (fun b => (b < 256)%N) (map (fun i => N.land (N.shiftr w (8 * N.of_nat i)) 0xFF) (seq 0 n)).
Proof.
  apply Forall_forall. intros b Hb. apply in_map_iff in Hb. destruct Hb as [i [<- _]].
  apply (lt_pow2_bits _ 8). intros k Hk. destruct (N_of_nat_ex k) as [k' ->]. rewrite byte_of_testbit.
  replace (k' <? 8) with false by (symmetry; apply Nat.ltb_ge; lia). reflexivity.
Qed.
Lemma bytes_of_word_bit w n k : byte_bit (map (fun i => N.land (N.shiftr w (8 * N.of_nat i)) 0xFF) (seq 0 n)) k = (k <? 8 * n) && N.testbit w (N.of_nat k).
Proof.
  unfold byte_bit.
  pose proof (Nat.div_mod k 8 ltac:(lia)) as Hd. pose proof (Nat.mod_upper_bound k 8 ltac:(lia)) as Hm.
  destruct (Nat.ltb_spec k (8 * n)) as [L|L]; cbn [andb].
  - rewrite nth_map_seq by lia. rewrite byte_of_testbit. replace (k mod 8 <? 8) with true by (symmetry; apply Nat.ltb_lt; lia).
    cbn [andb]. f_equal. lia.
  - rewrite nth_overflow by (rewrite map_length, seq_length; lia). apply N.bits_0.
Qed.
Lemma tail_roundtrip w n : (w < 2 ^ (8 * N.of_nat n))%N ->
  or_reduce (map (fun q => N.shiftl (snd q) (8 * N.of_nat (fst q)))
     (combine (seq 0 n) (map (fun i => N.land (N.shiftr w (8 * N.of_nat i)) 0xFF) (seq 0 n)))) = w.
Proof.
  intros H. apply N.bits_inj. intros k'. destruct (N_of_nat_ex k') as [k ->].
  set (bs := map (fun i => N.land (N.shiftr w (8 * N.of_nat i)) 0xFF) (seq 0 n)).
  assert (El : n = length bs) by (unfold bs; now rewrite map_length, seq_length).
  rewrite El at 1. rewrite bytes_assemble_testbit by apply bytes_of_word_lt. unfold bs. rewrite bytes_of_word_bit.
  destruct (Nat.ltb_spec k (8 * n)) as [L|L]; [reflexivity|]. symmetry. apply (bits_lt_pow2 w _ _ H). lia.
Qed.
Lemma last_nth (words : list N) q : length words = q + 1 -> last words 0%N = nth q words 0%N.
Proof.
  intros Ew. replace q with (length words - 1) by lia. destruct (exists_last (l := words)) as [l' [a E]]; [intros ->; cbn in Ew; lia|].
  rewrite E, last_last, app_length, app_nth2 by (cbn; lia). cbn [length]. replace (length l' + 1 - 1 - length l') with 0 by lia. reflexivity.
Qed.
Lemma removelast_last (words : list N) q : length words = q + 1 -> removelast words ++ [last words 0%N] = words.
Proof. intros Ew. symmetry. apply app_removelast_last. intros ->. cbn in Ew. lia. Qed.
Lemma removelast_len (words : list N) q : length words = q + 1 -> length (removelast words) = q.
Proof. intros Ew. pose proof (f_equal (@length N) (removelast_last words q Ew)) as H. rewrite app_length in H. cbn in H. lia. Qed.
Lemma last_small total words t : Forall word words -> length words = total / 32 + 1 -> (forall p, total <= p -> word_bit words p = false) ->
  total mod 32 <= 8 * t -> (last words 0 < 2 ^ (8 * N.of_nat t))%N.
Proof.
  intros Hw Hl Hz Ht. rewrite (last_nth words (total / 32) Hl).
  pose proof (Nat.div_mod total 32 ltac:(lia)) as Hd. set (q := total / 32) in *.
  apply lt_pow2_bits. intros i Hi. destruct (N_of_nat_ex i) as [j ->].
  destruct (Nat.lt_ge_cases j 32) as [L|L].
  - specialize (Hz (32 * q + j) ltac:(lia)). unfold word_bit in Hz.
    replace ((32 * q + j) / 32) with q in Hz by (apply Nat.div_unique with j; lia).
    replace ((32 * q + j) mod 32) with j in Hz by (apply Nat.mod_unique with q; lia). exact Hz.
  - apply (bits_lt_pow2 _ 32); [apply word_nth; exact Hw|lia].
Qed.
Lemma words_all_len total : (total + 31) / 32 = if total mod 32 =? 0 then total / 32 else total / 32 + 1.
Proof.
  pose proof (Nat.div_mod total 32 ltac:(lia)) as Hd. pose proof (Nat.mod_upper_bound total 32 ltac:(lia)) as Hm.
  destruct (Nat.eqb_spec (total mod 32) 0) as [E|E]; symmetry.
  - apply Nat.div_unique with 31; lia.
  - apply Nat.div_unique with (total mod 32 - 1); lia.
Qed.
Lemma load_store total words : Forall word words -> length words = (total + 31) / 32 -> (forall p, total <= p -> word_bit words p = false) ->
  load_words total (store total words) = words.
Proof.
  intros Hw Hl Hz. rewrite words_all_len in Hl. unfold load_words, store. rewrite layout_cases. cbv zeta.
  destruct (Nat.eqb_spec (total mod 32) 0) as [E|E]; [reflexivity|].
  assert (G : forall t, total mod 32 <= 8 * t ->
    (if total / 32 =? 0
     then [or_reduce (map (fun q0 => N.shiftl (snd q0) (8 * N.of_nat (fst q0)))
            (combine (seq 0 t) (map (fun i => N.land (N.shiftr (last words 0%N) (8 * N.of_nat i)) 0xFF) (seq 0 t))))]
     else removelast words ++ [or_reduce (map (fun q0 => N.shiftl (snd q0) (8 * N.of_nat (fst q0)))
            (combine (seq 0 t) (map (fun i => N.land (N.shiftr (last words 0%N) (8 * N.of_nat i)) 0xFF) (seq 0 t))))]) = words).
  { intros t Ht. rewrite tail_roundtrip by (now apply (last_small total)).
    destruct (Nat.eqb_spec (total / 32) 0) as [Eq|Eq].
    - pose proof (removelast_last words _ Hl) as R. pose proof (removelast_len words _ Hl) as R2.
      rewrite Eq in R2. destruct (removelast words); [exact R|discriminate].
    - now apply (removelast_last words (total / 32)). }
  destruct (Nat.leb_spec (total mod 32) 8) as [L|L].
  - cbn [Nat.eqb fst snd]. apply (G 1). lia.
  - destruct (Nat.leb_spec (total mod 32) 16) as [L2|L2]; [|reflexivity].
    cbn [Nat.eqb fst snd]. apply (G 2). lia.
Qed.
(** the stored bytes: words little endian, then the tail *)
Definition stored_bytes (p : list N * list N) : list N := flat_map word_bytes (fst p) ++ snd p.
Lemma word_bytes_length w : length (word_bytes w) = 4.
Proof. reflexivity. Qed.
Lemma words_bytes_length ws : length (flat_map word_bytes ws) = 4 * length ws.
Proof. induction ws as [|w ws IH]; [reflexivity|]. cbn [flat_map]. rewrite app_length, IH, word_bytes_length. cbn [length]. lia. Qed.
Lemma byte_bit_app a b p : byte_bit (a ++ b) p = if p <? 8 * length a then byte_bit a p else byte_bit b (p - 8 * length a).
Proof.
  unfold byte_bit. pose proof (Nat.div_mod p 8 ltac:(lia)) as Hd. pose proof (Nat.mod_upper_bound p 8 ltac:(lia)) as Hm.
  destruct (Nat.ltb_spec p (8 * length a)) as [L|L].
  - rewrite app_nth1 by lia. reflexivity.
  - rewrite app_nth2 by lia.
    replace ((p - 8 * length a) / 8) with (p / 8 - length a) by (apply Nat.div_unique with (p mod 8); lia).
    replace ((p - 8 * length a) mod 8) with (p mod 8) by (apply Nat.mod_unique with (p / 8 - length a); lia). reflexivity.
Qed.
Lemma byte_bit_word w p : Forall word [w] -> byte_bit (word_bytes w) p = N.testbit w (N.of_nat p).
Proof.
  intros Hw. unfold word_bytes. rewrite bytes_of_word_bit. destruct (Nat.ltb_spec p (8 * 4)) as [L|L]; [reflexivity|].
  inversion Hw; subst. symmetry. apply (bits_lt_pow2 w 32); [assumption|lia].
Qed.
Lemma word_bit_cons w ws p : word_bit (w :: ws) p = if p <? 32 then N.testbit w (N.of_nat p) else word_bit ws (p - 32).
Proof.
  unfold word_bit. pose proof (Nat.div_mod p 32 ltac:(lia)) as Hd. pose proof (Nat.mod_upper_bound p 32 ltac:(lia)) as Hm.
  destruct (Nat.ltb_spec p 32) as [L|L].
  - rewrite Nat.div_small, Nat.mod_small by lia. reflexivity.
  - replace ((p - 32) / 32) with (p / 32 - 1) by (apply Nat.div_unique with (p mod 32); lia).
    replace ((p - 32) mod 32) with (p mod 32) by (apply Nat.mod_unique with (p / 32 - 1); lia).
    destruct (p / 32) as [|d] eqn:E; [lia|]. cbn [nth]. now rewrite Nat.sub_succ, Nat.sub_0_r.
Qed.
Lemma words_byte_bit ws : forall p, Forall word ws -> byte_bit (flat_map word_bytes ws) p = word_bit ws p.
Proof.
  induction ws as [|w ws IH]; intros p Hw.
  - unfold byte_bit, word_bit. cbn [flat_map]. now rewrite !nth_overflow by (cbn; lia).
  - inversion Hw; subst. cbn [flat_map]. rewrite byte_bit_app, word_bit_cons. cbn [length]. rewrite word_bytes_length.
    destruct (Nat.ltb_spec p (8 * 4)) as [L|L].
    + replace (p <? 32) with true by (symmetry; apply Nat.ltb_lt; lia). apply byte_bit_word. now constructor.
    + replace (p <? 32) with false by (symmetry; apply Nat.ltb_ge; lia). rewrite IH by assumption. f_equal.
Qed.
Lemma word_bit_app a b p : word_bit (a ++ b) p = if p <? 32 * length a then word_bit a p else word_bit b (p - 32 * length a).
Proof.
  unfold word_bit. pose proof (Nat.div_mod p 32 ltac:(lia)) as Hd. pose proof (Nat.mod_upper_bound p 32 ltac:(lia)) as Hm.
  destruct (Nat.ltb_spec p (32 * length a)) as [L|L].
  - rewrite app_nth1 by lia. reflexivity.
  - rewrite app_nth2 by lia.
    replace ((p - 32 * length a) / 32) with (p / 32 - length a) by (apply Nat.div_unique with (p mod 32); lia).
    replace ((p - 32 * length a) mod 32) with (p mod 32) by (apply Nat.mod_unique with (p / 32 - length a); lia). reflexivity.
Qed.
Lemma store_bits total words p : Forall word words -> length words = (total + 31) / 32 -> (forall p, total <= p -> word_bit words p = false) ->
  byte_bit (stored_bytes (store total words)) p = word_bit words p.
Proof.
  intros Hw Hl Hz. rewrite words_all_len in Hl. unfold stored_bytes, store. rewrite layout_cases. cbv zeta.
  destruct (Nat.eqb_spec (total mod 32) 0) as [E|E]; [cbn [Nat.eqb fst snd]; rewrite app_nil_r; now apply words_byte_bit|].
  assert (G : forall t, total mod 32 <= 8 * t ->
    byte_bit (flat_map word_bytes (removelast words) ++ map (fun i => N.land (N.shiftr (last words 0%N) (8 * N.of_nat i)) 0xFF) (seq 0 t)) p = word_bit words p).
  { intros t Ht. transitivity (word_bit (removelast words ++ [last words 0%N]) p); [|now rewrite (removelast_last words _ Hl)].
    rewrite byte_bit_app, word_bit_app, words_bytes_length, (removelast_len words _ Hl).
    replace (8 * (4 * (total / 32))) with (32 * (total / 32)) by lia.
    assert (HwR : Forall word (removelast words)).
    { pose proof Hw as H. rewrite <- (removelast_last words _ Hl) in H. apply Forall_app in H. tauto. }
    destruct (Nat.ltb_spec p (32 * (total / 32))) as [L|L]; [now apply words_byte_bit|].
    set (j := p - 32 * (total / 32)). rewrite bytes_of_word_bit.
    pose proof (last_small total words t Hw Hl Hz Ht) as Hs.
    assert (Hsw : (last words 0 < 2 ^ 32)%N) by (rewrite (last_nth words _ Hl); now apply word_nth).
    assert (Ew : word_bit [last words 0%N] j = N.testbit (last words 0%N) (N.of_nat j)).
    { rewrite word_bit_cons. destruct (Nat.ltb_spec j 32) as [L1|L1]; [reflexivity|].
      unfold word_bit. rewrite nth_overflow by (cbn; lia). rewrite N.bits_0. symmetry. apply (bits_lt_pow2 _ 32 _ Hsw). lia. }
    rewrite Ew. destruct (Nat.ltb_spec j (8 * t)) as [L1|L1]; [reflexivity|]. cbn [andb]. symmetry. apply (bits_lt_pow2 _ _ _ Hs). lia. }
  destruct (Nat.leb_spec (total mod 32) 8) as [L|L].
  - cbn [Nat.eqb fst snd]. apply (G 1). lia.
  - destruct (Nat.leb_spec (total mod 32) 16) as [L2|L2].
    + cbn [Nat.eqb fst snd]. apply (G 2). lia.
    + cbn [Nat.eqb fst snd]. rewrite app_nil_r. now apply words_byte_bit.
Qed.
Lemma store_length total words : length words = (total + 31) / 32 ->
  length (fst (store total words)) = snd (fst (word_tail_layout total)) /\ length (snd (store total words)) = snd (word_tail_layout total).
Proof.
  intros Hl. rewrite words_all_len in Hl. unfold store. rewrite layout_cases. cbv zeta.
  destruct (Nat.eqb_spec (total mod 32) 0) as [E|E]; [cbn; split; [exact Hl|reflexivity]|].
  destruct (total mod 32 <=? 8); [cbn [Nat.eqb fst snd]; split; [now apply removelast_len|now rewrite map_length, seq_length]|].
  destruct (total mod 32 <=? 16); cbn [Nat.eqb fst snd]; [split; [now apply removelast_len|now rewrite map_length, seq_length]|].
  split; [exact Hl|reflexivity].
Qed.

(** ** Whole instances *)
Definition vals_of (root : instance) (specs : list leafspec) : list N := flat_map (fun s => map w32 (leaf_vals root (lpath s))) specs.
Lemma agg_facts c i : good_class c -> is_instance c i ->
  consec 0 (fst (agg_spec c)) /\ spec_bits (fst (agg_spec c)) = class_bits c /\ snd (agg_spec c) = class_bits c /\
  Forall (fun s => 1 <= lbits s <= 32) (fst (agg_spec c)) /\
  Forall (fun s => length (leaf_vals i (lpath s)) = lnvalues s) (fst (agg_spec c)) /\
  flat_map (pairs_of (INested i)) (fst (agg_spec c)) = elems c i.
Proof.
  intros Hg Hi. unfold agg_spec. destruct (proj2 walk_layout c [] 0) as [A1 [A2 A3]].
  assert (Hp : forall n x, In n (names c) -> get_attr i n = Some x -> get_path (INested i) ([] ++ [n]) = Some x).
  { intros n x _ H. cbn. now rewrite H. }
  destruct (proj2 (walk_values (INested i)) c [] 0 i Hi Hg Hp) as [B1 B2].
  split; [exact A1|]. split; [exact A2|]. split; [exact A3|]. split; [now apply walk_good|]. split; [exact B2|exact B1].
Qed.
Lemma leaf_vals_eq i p : leaf_vals i p = leaf_of (INested i) p.
Proof. reflexivity. Qed.
(** a field's slice of the stream *)
Lemma flat_bits_nth b l : forall j k, k < b -> j < length l ->
  nth (j * b + k) (stream (map (fun e => (b, e)) l)) false = N.testbit (nth j l 0%N) (N.of_nat k).
Proof.
  induction l as [|e l IH]; intros j k Hk Hj; cbn [length] in Hj; [lia|]. cbn [map]. rewrite stream_cons.
  destruct j as [|j].
  - rewrite app_nth1 by (rewrite bits_of_length; lia). rewrite bits_of_nth. cbn [Nat.mul Nat.add nth].
    replace (k <? b) with true by (symmetry; apply Nat.ltb_lt; lia). reflexivity.
  - rewrite app_nth2 by (rewrite bits_of_length; lia). rewrite bits_of_length.
    replace (S j * b + k - b) with (j * b + k) by lia. rewrite IH by lia. reflexivity.
Qed.
Lemma stream_const_length b (l : list N) : length (stream (map (fun e => (b, e)) l)) = length l * b.
Proof. induction l as [|e l IH]; [reflexivity|]. cbn [map]. rewrite stream_cons, app_length, bits_of_length, IH. reflexivity. Qed.
Lemma slice_nth (root : ifield) sp : forall off s j k, consec off sp -> Forall (fun s => length (leaf_of root (lpath s)) = lnvalues s) sp ->
  In s sp -> j < lnvalues s -> k < lbits s ->
  off <= loff s /\ loff s + j * lbits s + lbits s <= off + spec_bits sp /\
  nth (loff s - off + j * lbits s + k) (stream (flat_map (pairs_of root) sp)) false = N.testbit (nth j (leaf_of root (lpath s)) 0%N) (N.of_nat k).
Proof.
  induction sp as [|a t IH]; intros off s j k Hc Hl Hin Hj Hk; [destruct Hin|].
  destruct Hc as [Hc1 Hc2]. inversion Hl; subst. cbn [flat_map]. rewrite stream_app.
  assert (Esl : length (stream (pairs_of root a)) = lnvalues a * lbits a) by (unfold pairs_of; rewrite stream_const_length; congruence).
  assert (Esb : spec_bits (a :: t) = lnvalues a * lbits a + spec_bits t) by reflexivity.
  destruct Hin as [->|Hin].
  - assert (Hlt : j * lbits s + lbits s <= lnvalues s * lbits s).
    { replace (j * lbits s + lbits s) with (S j * lbits s) by lia. apply Nat.mul_le_mono_r. lia. }
    split; [lia|]. split; [lia|]. rewrite Nat.sub_diag, app_nth1 by lia. cbn [Nat.add]. unfold pairs_of. apply flat_bits_nth; [exact Hk|lia].
  - destruct (IH (loff a + lnvalues a * lbits a) s j k Hc2 H2 Hin Hj Hk) as [H3 [H4 H5]].
    split; [lia|]. split; [lia|]. rewrite app_nth2 by lia. rewrite Esl, <- H5. f_equal. lia.
Qed.
Lemma to_default_small bits v : (v < 2 ^ N.of_nat bits)%N -> to_default bits v = v.
Proof.
  intros H. unfold to_default. destruct (Nat.eqb_spec bits 1) as [->|E].
  - change (2 ^ N.of_nat 1)%N with 2%N in H. destruct (N.eqb_spec v 0) as [->|E]; [reflexivity|lia].
  - destruct (Nat.leb_spec bits 8) as [L|L]; [|reflexivity]. apply N.mod_small. eapply N.lt_le_trans; [exact H|].
    change 256%N with (2 ^ 8)%N. apply N.pow_le_mono_r; lia.
Qed.
Section Agg.
Variables (c : fields) (i : instance).
Hypotheses (Hg : good_class c) (Hi : is_instance c i).
Let specs := fst (agg_spec c).
Let nwords := (class_bits c + 31) / 32.
Let words := pack_words specs nwords (vals_of i specs).
Lemma facts : consec 0 specs /\ spec_bits specs = class_bits c /\ snd (agg_spec c) = class_bits c /\
  Forall (fun s => 1 <= lbits s <= 32) specs /\
  Forall (fun s => length (leaf_vals i (lpath s)) = lnvalues s) specs /\ flat_map (pairs_of (INested i)) specs = elems c i.
Proof. exact (agg_facts c i Hg Hi). Qed.
Lemma vals_len : length (vals_of i specs) = total_values specs.
Proof.
  destruct (facts) as [_ [_ [_ [_ [H _]]]]]. apply flat_map_length_values.
  eapply Forall_impl; [|exact H]. intros s Hs. cbn. now rewrite map_length.
Qed.
Lemma nwords_enough : spec_bits specs <= 32 * nwords.
Proof.
  destruct (facts) as [_ [H _]]. rewrite H. unfold nwords.
  pose proof (Nat.div_mod (class_bits c + 31) 32 ltac:(lia)). pose proof (Nat.mod_upper_bound (class_bits c + 31) 32 ltac:(lia)). lia.
Qed.
Lemma words_stream p : word_bit words p = nth p (stream (elems c i)) false.
Proof.
  destruct (facts) as [H1 [H2 [H3 [H4 [H5 H6]]]]].
  unfold words. rewrite pack_words_word_bit; [|exact H1|exact vals_len|exact nwords_enough]. f_equal.
  unfold vals_of. rewrite combine_widths.
  - rewrite stream_w32 by exact H4. rewrite <- H6. reflexivity.
  - eapply Forall_impl; [|exact H5]. intros s Hs. cbn. now rewrite map_length.
Qed.
Lemma elems_bits : length (stream (elems c i)) = class_bits c.
Proof.
  destruct (facts) as [H1 [H2 [H3 [H4 [H5 H6]]]]]. rewrite <- H6, <- H2, stream_length.
  clear - H5. induction H5 as [|s t H Ht IH]; [reflexivity|]. cbn [flat_map]. unfold spec_bits. cbn [map].
  rewrite map_app, list_sum_app, IH. unfold pairs_of at 1. rewrite map_map. cbn [fst].
  change (list_sum (lnvalues s * lbits s :: map (fun s0 => lnvalues s0 * lbits s0) t)) with (lnvalues s * lbits s + spec_bits t).
  f_equal. rewrite leaf_vals_eq in H. rewrite <- H. generalize (leaf_of (INested i) (lpath s)) as l. intros l.
  induction l as [|e l IHl]; [reflexivity|]. cbn [map length]. change (list_sum (lbits s :: map (fun _ => lbits s) l)) with (lbits s + list_sum (map (fun _ : N => lbits s) l)). lia.
Qed.
Lemma words_zero p : class_bits c <= p -> word_bit words p = false.
Proof. intros H. rewrite words_stream. apply nth_overflow. now rewrite elems_bits. Qed.
Lemma words_len : length words = (class_bits c + 31) / 32.
Proof. apply pack_words_length. Qed.
Lemma words_are_words : Forall word words.
Proof. apply pack_words_word. Qed.
Lemma pack_instance_eq : pack_instance c i = store (class_bits c) words.
Proof.
  destruct (facts) as [H1 [H2 [H3 _]]]. unfold pack_instance. unfold words, specs, nwords, vals_of.
  destruct (agg_spec c) as [sp total] eqn:E. cbn [fst snd] in *. subst total.
  destruct (word_tail_layout (class_bits c)) as [[nw st] tb] eqn:E2.
  pose proof (proj2 (layout_words (class_bits c))) as H. rewrite E2 in H. cbn [fst] in H. now rewrite H.
Qed.
Lemma load_packed : load_words (class_bits c) (pack_instance c i) = words.
Proof. rewrite pack_instance_eq. apply load_store; [exact words_are_words|exact words_len|exact words_zero]. Qed.

Lemma bit_pos_small s (j : nat) : (N.of_nat (class_bits c) < 2 ^ 32)%N -> loff s + j * lbits s + lbits s <= class_bits c -> 1 <= lbits s ->
  bit_pos s (Z.of_nat j) = N.of_nat (loff s + j * lbits s).
Proof.
  intros Hc Hle Hb. unfold bit_pos.
  assert (Hj : j <= j * lbits s) by nia.
  assert (Ej : Z.to_N (Z.of_nat j mod 2 ^ 32) = N.of_nat j).
  { rewrite Z.mod_small; [lia|]. change (2 ^ 32)%N with 4294967296%N in Hc. change (2 ^ 32)%Z with 4294967296%Z. lia. }
  rewrite Ej. unfold w32. change W32 with (2 ^ 32)%N. rewrite (N.mod_small (N.of_nat (loff s))) by lia.
  rewrite (N.mod_small (N.of_nat j * N.of_nat (lbits s))) by lia. rewrite N.mod_small by lia. lia.
Qed.
Lemma decode_one s j : (N.of_nat (class_bits c) < 2 ^ 32)%N -> In s specs -> j < lnvalues s ->
  to_default (lbits s) (decode_at words (bit_pos s (Z.of_nat j)) (lbits s)) = (nth j (leaf_vals i (lpath s)) 0 mod 2 ^ N.of_nat (lbits s))%N.
Proof.
  intros Hc Hin Hj. destruct (facts) as [H1 [H2 [H3 [H4 [H5 H6]]]]].
  assert (Hb : 1 <= lbits s <= 32) by (rewrite Forall_forall in H4; now apply H4).
  destruct (slice_nth (INested i) specs 0 s j 0 H1 H5 Hin Hj ltac:(lia)) as [_ [Hle _]]. cbn [Nat.add] in Hle. rewrite H2 in Hle.
  rewrite bit_pos_small by (assumption || lia).
  assert (E : decode_at words (N.of_nat (loff s + j * lbits s)) (lbits s) = (nth j (leaf_vals i (lpath s)) 0 mod 2 ^ N.of_nat (lbits s))%N).
  { apply decode_at_value; [exact words_are_words|lia| |].
    - rewrite words_len. pose proof nwords_enough as Hn. rewrite H2 in Hn. unfold nwords in Hn. lia.
    - intros k Hk. rewrite words_stream, <- H6.
      destruct (slice_nth (INested i) specs 0 s j k H1 H5 Hin Hj Hk) as [_ [_ E]]. rewrite Nat.sub_0_r in E.
      rewrite leaf_vals_eq. exact E. }
  rewrite E. apply to_default_small. apply N.mod_lt. apply N.pow_nonzero. discriminate.
Qed.
Lemma decode_all s : (N.of_nat (class_bits c) < 2 ^ 32)%N -> In s specs ->
  decode_field words s (all_indices s) = map (fun v => (v mod 2 ^ N.of_nat (lbits s))%N) (leaf_vals i (lpath s)).
Proof.
  intros Hc Hin. destruct (facts) as [_ [_ [_ [_ [H5 _]]]]]. rewrite Forall_forall in H5. specialize (H5 s Hin).
  unfold decode_field, all_indices. rewrite map_map. apply nth_ext_len with (d := 0%N).
  - rewrite !map_length, seq_length. now symmetry.
  - intros j Hj. rewrite map_length, seq_length in Hj. rewrite nth_map_seq by exact Hj. rewrite decode_one by assumption.
    rewrite (nth_indep (map _ _) 0%N (0 mod 2 ^ N.of_nat (lbits s))%N) by (rewrite map_length; lia).
    now rewrite (map_nth (fun v => (v mod 2 ^ N.of_nat (lbits s))%N)).
Qed.
End Agg.

(** rebuilding the view *)
Lemma dict_get_in (dict : list (list string * list N)) p v : NoDup (map fst dict) -> In (p, v) dict -> dict_get dict p = v.
Proof.
  unfold dict_get. induction dict as [|[q w] t IH]; intros Hn Hin; [destruct Hin|]. cbn [map fst] in Hn. inversion Hn; subst.
  cbn [find fst]. unfold path_eqb at 1. destruct (list_eq_dec String.string_dec q p) as [->|E].
  - destruct Hin as [Hin|Hin]; [now injection Hin as ->|]. exfalso. apply H1. apply in_map_iff. now exists (p, v).
  - destruct Hin as [Hin|Hin]; [injection Hin as -> ->; congruence|]. now apply IH.
Qed.
Lemma build_correct root dict (h : nat -> N -> N) :
  (forall f prefix off x, is_field f x -> good_field f -> get_path root prefix = Some x ->
     (forall s, In s (fst (walk_field prefix off f)) -> dict_get dict (lpath s) = map (h (lbits s)) (leaf_of root (lpath s))) ->
     build_field dict prefix f = map_field h f x) /\
  (forall c prefix off i, is_instance c i -> good_class c ->
     (forall n x, In n (names c) -> get_attr i n = Some x -> get_path root (prefix ++ [n]) = Some x) ->
     (forall s, In s (fst (walk prefix off c)) -> dict_get dict (lpath s) = map (h (lbits s)) (leaf_of root (lpath s))) ->
     build_view dict prefix c = map_instance h c i).
Proof.
  apply class_ind.
  - intros b n prefix off x Hi _ Hp Hd. destruct x as [v|]; [|destruct Hi]. cbn [build_field map_field].
    specialize (Hd (MkSpec prefix b n off) (or_introl eq_refl)). cbn [lpath lbits] in Hd. rewrite Hd. unfold leaf_of. now rewrite Hp.
  - intros fs IH prefix off x Hi Hg Hp Hd. destruct x as [|i]; [destruct Hi|]. cbn [build_field map_field]. f_equal.
    apply (IH prefix off i Hi Hg); [|exact Hd]. intros n x _ Ha. rewrite get_path_app, Hp. cbn [get_path]. now rewrite Ha.
  - intros prefix off i Hi _ _ _. destruct i; [reflexivity|destruct Hi].
  - intros n f IHf rest IHr prefix off i Hi [H1 [H2 H3]] Hp Hd. destruct i as [|m x irest]; [destruct Hi|].
    destruct Hi as [<- [Hx Hr]]. cbn [build_view map_instance].
    assert (Hpx : get_path root (prefix ++ [n]) = Some x).
    { apply (Hp n x); [now left|]. cbn. now rewrite String.eqb_refl. }
    cbn [walk] in Hd.
    specialize (IHf (prefix ++ [n]) off x Hx H2 Hpx).
    destruct (walk_field (prefix ++ [n]) off f) as [s1 off1].
    assert (Hpr : forall n0 x0, In n0 (names rest) -> get_attr irest n0 = Some x0 -> get_path root (prefix ++ [n0]) = Some x0).
    { intros n0 x0 Hin Ha. apply Hp; [now right|]. cbn. destruct (String.eqb_spec n0 n) as [->|_]; [contradiction|exact Ha]. }
    specialize (IHr prefix off1 irest Hr H3 Hpr).
    destruct (walk prefix off1 rest) as [s2 off2]. cbn [fst] in *.
    rewrite IHf; [|intros s Hs; apply Hd; apply in_or_app; now left].
    rewrite IHr; [reflexivity|]. intros s Hs. apply Hd. apply in_or_app. now right.
Qed.
Lemma unpacked_correct c i : good_class c -> is_instance c i -> (N.of_nat (class_bits c) < 2 ^ 32)%N ->
  unpacked c (pack_instance c i) = truncated c i.
Proof.
  intros Hg Hi Hc. unfold unpacked.
  pose proof (load_packed c i Hg Hi) as HL. pose proof (fun s => decode_all c i Hg Hi s Hc) as HD.
  destruct (agg_facts c i Hg Hi) as [_ [_ [H3 _]]].
  pose proof (proj2 walk_paths_nodup c [] 0 Hg) as Hnd. unfold truncated. unfold agg_spec in *.
  destruct (walk [] 0 c) as [specs total] eqn:E. cbn [fst snd] in *. subst total. rewrite HL.
  set (words := pack_words _ _ _) in *.
  apply (proj2 (build_correct (INested i) (map (fun s => (lpath s, decode_field words s (all_indices s))) specs)
           (fun b v => (v mod 2 ^ N.of_nat b)%N)) c [] 0 i Hi Hg).
  - intros n x _ H. cbn. now rewrite H.
  - rewrite E. cbn [fst]. intros s Hs. rewrite <- leaf_vals_eq, <- HD by exact Hs. apply dict_get_in.
    + rewrite map_map. cbn [fst]. exact Hnd.
    + apply in_map_iff. exists s. now split.
Qed.
