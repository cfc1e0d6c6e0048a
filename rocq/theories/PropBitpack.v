(** * PropBitpack.v — properties C32-C35. *)
From Coq Require Import String.
From Verif Require Import Jax HashModel HashProofs BitpackModel BitpackSpec BitpackProofs BitpackAgg BitpackBytes.
Local Open Scope nat_scope.

(** ** C32 *)
(** [x.packed.unpacked] is [x] with every element reduced modulo 2^bits *)
Theorem C32_roundtrip : forall (c : fields) (i : instance),
  good_class c -> is_instance c i -> (N.of_nat (class_bits c) < 2 ^ 32)%N ->
  unpacked c (pack_instance c i) = truncated c i.
Proof. exact unpacked_correct. Qed.
Lemma mod_fits (v : list N) b : Forall (fun e => (e < 2 ^ N.of_nat b)%N) v -> map (fun v => (v mod 2 ^ N.of_nat b)%N) v = v.
Proof. induction 1 as [|x l H Hl IH]; [reflexivity|]. cbn [map]. now rewrite IH, N.mod_small. Qed.
Lemma truncated_fits :
  (forall f x, is_field f x -> fits_field f x -> map_field (fun b v => (v mod 2 ^ N.of_nat b)%N) f x = x) /\
  (forall c i, is_instance c i -> fits c i -> truncated c i = i).
Proof.
  apply class_ind.
  - intros b n [v|] Hi Hf; [|destruct Hi]. cbn. f_equal. now apply mod_fits.
  - intros fs IH [|i] Hi Hf; [destruct Hi|]. cbn. f_equal. now apply IH.
  - intros [|] Hi _; [reflexivity|destruct Hi].
  - intros n f IHf rest IHr [|m x irest] Hi Hf; [destruct Hi|]. destruct Hi as [<- [H1 H2]]. destruct Hf as [F1 F2].
    unfold truncated in *. cbn. now rewrite IHf, IHr.
Qed.
(** hence exact when every element fits *)
Theorem C32_exact : forall (c : fields) (i : instance),
  good_class c -> is_instance c i -> (N.of_nat (class_bits c) < 2 ^ 32)%N -> fits c i ->
  unpacked c (pack_instance c i) = i.
Proof. intros c i Hg Hi Hc Hf. rewrite C32_roundtrip by assumption. now apply (proj2 truncated_fits). Qed.
(** the stored bytes (words little endian, then the tail) are the elements' bits in
    declaration order, zero padded *)
Theorem C32_layout : forall (c : fields) (i : instance) (p : nat),
  good_class c -> is_instance c i ->
  byte_bit (flat_map word_bytes (fst (pack_instance c i)) ++ snd (pack_instance c i)) p = nth p (stream (elems c i)) false.
Proof.
  intros c i p Hg Hi. rewrite (pack_instance_eq c i Hg Hi).
  change (byte_bit (stored_bytes (store (class_bits c) (pack_words (fst (agg_spec c)) ((class_bits c + 31) / 32) (vals_of i (fst (agg_spec c)))))) p = nth p (stream (elems c i)) false).
  rewrite store_bits.
  - now apply words_stream.
  - apply words_are_words.
  - apply words_len.
  - intros q Hq. now apply words_zero.
Qed.

(** ** C33 *)
Theorem C33_storage : forall (c : fields) (i : instance),
  good_class c -> is_instance c i ->
  let words := length (fst (pack_instance c i)) in
  let tail := length (snd (pack_instance c i)) in
  let needed := (class_bits c + 7) / 8 in
  tail <= 2 /\
  4 * words + tail = (if needed mod 4 =? 3 then needed + 1 else needed) /\
  class_bits c <= 32 * words + 8 * tail.
Proof.
  intros c i Hg Hi. cbv zeta. rewrite (pack_instance_eq c i Hg Hi).
  set (W := pack_words _ _ _).
  destruct (store_length (class_bits c) W (words_len c i)) as [E1 E2]. rewrite E1, E2.
  clear. rewrite layout_cases. cbv zeta. set (t := class_bits c). clearbody t.
  pose proof (Nat.div_mod t 32 ltac:(lia)) as Hd. pose proof (Nat.mod_upper_bound t 32 ltac:(lia)) as Hm.
  set (q := t / 32) in *. set (r := t mod 32) in *.
  assert (En : (t + 7) / 8 = 4 * q + (r + 7) / 8).
  { pose proof (Nat.div_mod (r + 7) 8 ltac:(lia)). pose proof (Nat.mod_upper_bound (r + 7) 8 ltac:(lia)).
    symmetry. apply Nat.div_unique with ((r + 7) mod 8); lia. }
  rewrite En.
  assert (Er : (r + 7) / 8 = if r =? 0 then 0 else if r <=? 8 then 1 else if r <=? 16 then 2 else if r <=? 24 then 3 else 4).
  { clear - Hm. revert Hm. generalize r. clear. intros r H. do 32 (destruct r as [|r]; [reflexivity|]). lia. }
  rewrite Er.
  assert (Hq4 : forall x, x < 4 -> (4 * q + x) mod 4 = x).
  { intros x Hx. symmetry. apply Nat.mod_unique with q; lia. }
  destruct (Nat.eqb_spec r 0) as [E|E]; cbn [fst snd]; [rewrite Hq4 by lia; cbn [Nat.eqb]; lia|].
  destruct (Nat.leb_spec r 8); cbn [fst snd]; [rewrite Hq4 by lia; cbn [Nat.eqb]; lia|].
  destruct (Nat.leb_spec r 16); cbn [fst snd]; [rewrite Hq4 by lia; cbn [Nat.eqb]; lia|].
  destruct (Nat.leb_spec r 24); cbn [fst snd]; [rewrite Hq4 by lia; cbn [Nat.eqb]; lia|].
  assert (E4 : (4 * q + 4) mod 4 = 0) by (symmetry; apply Nat.mod_unique with (q + 1); lia). rewrite E4. cbn [Nat.eqb]. lia.
Qed.

(** ** C34 *)
(** what a round trip keeps of an element: nonzero-ness for one-bit packing, the low bits otherwise *)
Definition survives (bits : nat) (v : N) : N :=
  if bits =? 1 then (if (v =? 0)%N then 0 else 1)%N else (v mod 2 ^ N.of_nat bits)%N.
Theorem C34_roundtrip : forall (bits : nat) (vals : list N), 1 <= bits <= 32 ->
  from_uint8 bits (to_uint8 bits vals) (length vals) = map (survives bits) vals.
Proof. exact uint8_roundtrip. Qed.
Theorem C34_exact : forall (bits : nat) (vals : list N), 1 <= bits <= 32 ->
  Forall (fun v => (v < 2 ^ N.of_nat bits)%N) vals ->
  from_uint8 bits (to_uint8 bits vals) (length vals) = vals.
Proof.
  intros bits vals Hb Hf. rewrite C34_roundtrip by exact Hb. rewrite <- (map_id vals) at 2. apply map_ext_in.
  intros v Hv. rewrite Forall_forall in Hf. specialize (Hf v Hv). unfold survives. destruct (Nat.eqb_spec bits 1) as [->|E].
  - change (2 ^ N.of_nat 1)%N with 2%N in Hf. destruct (N.eqb_spec v 0) as [->|E0]; [reflexivity|lia].
  - now apply N.mod_small.
Qed.
(** the packed length: whole blocks of lcm(bits, 8) bits *)
Theorem C34_length : forall (bits : nat) (vals : list N), 1 <= bits <= 32 ->
  length (to_uint8 bits vals) = packed_num_bytes (length vals) bits /\
  8 * length (to_uint8 bits vals) mod Nat.lcm bits 8 = 0 /\
  length vals * bits <= 8 * length (to_uint8 bits vals) < length vals * bits + Nat.lcm bits 8.
Proof.
  intros bits vals Hb. pose proof (uint8_length bits vals Hb) as E. split; [exact E|]. rewrite E, packed_num_bytes_eq by exact Hb.
  pose proof (vpb_bits bits Hb) as Hvb. pose proof (bpb_8 bits Hb) as Hb8. pose proof (vpb_pos bits Hb) as Hv1. pose proof (lcm_pos bits Hb) as HL.
  fold (lcm8 bits). set (vpb := lcm8 bits / bits) in *. set (bpb := lcm8 bits / 8) in *. set (n := length vals). clearbody n.
  set (nb := (n + vpb - 1) / vpb). pose proof (Nat.div_mod (n + vpb - 1) vpb ltac:(lia)) as Hd. pose proof (Nat.mod_upper_bound (n + vpb - 1) vpb ltac:(lia)) as Hm. fold nb in Hd.
  replace (8 * (nb * bpb)) with (nb * lcm8 bits) by (rewrite <- Hb8; lia).
  split; [apply Nat.mod_mul; lia|]. rewrite <- Hvb. nia.
Qed.

(** ** C35 *)
(** the paths found by the decorator are exactly the leaves of the instance *)
Lemma leaf_at_specs root :
  (forall f prefix off x, is_field f x -> good_field f -> get_path root prefix = Some x ->
     (forall p b v, leaf_at_field f x p = Some (b, v) ->
        exists s, In s (fst (walk_field prefix off f)) /\ lpath s = prefix ++ p /\ lbits s = b /\ leaf_of root (prefix ++ p) = v) /\
     (forall s, In s (fst (walk_field prefix off f)) -> exists p, lpath s = prefix ++ p /\ leaf_at_field f x p <> None)) /\
  (forall c prefix off i, is_instance c i -> good_class c ->
     (forall n x, In n (names c) -> get_attr i n = Some x -> get_path root (prefix ++ [n]) = Some x) ->
     (forall n p b v, leaf_at c i n p = Some (b, v) ->
        exists s, In s (fst (walk prefix off c)) /\ lpath s = prefix ++ n :: p /\ lbits s = b /\ leaf_of root (prefix ++ n :: p) = v) /\
     (forall s, In s (fst (walk prefix off c)) -> exists n p, lpath s = prefix ++ n :: p /\ leaf_at c i n p <> None /\ In n (names c))).
Proof.
  apply class_ind.
  - intros b n prefix off x Hi _ Hp. destruct x as [v|]; [|destruct Hi]. split.
    + intros [|? ?] b' v' H; cbn in H; [|discriminate]. injection H as <- <-. exists (MkSpec prefix b n off).
      cbn. rewrite app_nil_r. split; [now left|]. split; [reflexivity|]. split; [reflexivity|]. unfold leaf_of. now rewrite Hp.
    + intros s [<-|[]]. exists []. cbn. rewrite app_nil_r. split; [reflexivity|discriminate].
  - intros fs IH prefix off x Hi Hg Hp. destruct x as [|i]; [destruct Hi|].
    destruct (IH prefix off i Hi Hg) as [A B].
    { intros n x _ Ha. rewrite get_path_app, Hp. cbn [get_path]. now rewrite Ha. }
    split.
    + intros [|n p] b v H; cbn in H; [discriminate|]. now apply A.
    + intros s Hs. destruct (B s Hs) as [n [p [E1 [E2 _]]]]. exists (n :: p). now split.
  - intros prefix off i Hi _ _. destruct i; [|destruct Hi]. split; [intros n p b v H; discriminate|intros s []].
  - intros n f IHf rest IHr prefix off i Hi [H1 [H2 H3]] Hp. destruct i as [|m x irest]; [destruct Hi|].
    destruct Hi as [<- [Hx Hr]].
    assert (Hpx : get_path root (prefix ++ [n]) = Some x).
    { apply (Hp n x); [now left|]. cbn. now rewrite String.eqb_refl. }
    destruct (IHf (prefix ++ [n]) off x Hx H2 Hpx) as [A1 A2]. cbn [walk].
    destruct (walk_field (prefix ++ [n]) off f) as [s1 off1].
    assert (Hpr : forall n0 x0, In n0 (names rest) -> get_attr irest n0 = Some x0 -> get_path root (prefix ++ [n0]) = Some x0).
    { intros n0 x0 Hin Ha. apply Hp; [now right|]. cbn. destruct (String.eqb_spec n0 n) as [->|_]; [contradiction|exact Ha]. }
    destruct (IHr prefix off1 irest Hr H3 Hpr) as [B1 B2].
    destruct (walk prefix off1 rest) as [s2 off2]. cbn [fst] in *. split.
    + intros n0 p b v H. cbn in H. destruct (String.eqb_spec n0 n) as [->|E].
      * destruct (A1 p b v H) as [s [K1 [K2 [K3 K4]]]]. exists s. rewrite <- app_assoc in K2, K4. cbn in K2, K4.
        split; [apply in_or_app; now left|]. now repeat split.
      * destruct (B1 n0 p b v H) as [s [K1 [K2 [K3 K4]]]]. exists s. split; [apply in_or_app; now right|]. now repeat split.
    + intros s Hs. apply in_app_or in Hs. destruct Hs as [Hs|Hs].
      * destruct (A2 s Hs) as [p [E1 E2]]. exists n, p. rewrite <- app_assoc in E1. split; [exact E1|].
        split; [cbn; now rewrite String.eqb_refl|now left].
      * destruct (B2 s Hs) as [m [p [E1 [E2 E3]]]]. exists m, p. split; [exact E1|].
        split; [|now right]. cbn. destruct (String.eqb_spec m n) as [->|_]; [contradiction|exact E2].
Qed.
Lemma find_path (specs : list leafspec) s : NoDup (map lpath specs) -> In s specs -> find (fun t => path_eqb (lpath t) (lpath s)) specs = Some s.
Proof.
  induction specs as [|a t IH]; intros Hn Hin; [destruct Hin|]. cbn [map] in Hn. inversion Hn; subst. cbn [find].
  unfold path_eqb at 1. destruct (list_eq_dec string_dec (lpath a) (lpath s)) as [E|E].
  - destruct Hin as [->|Hin]; [reflexivity|]. exfalso. apply H1. rewrite E. now apply in_map.
  - destruct Hin as [->|Hin]; [congruence|]. now apply IH.
Qed.
Lemma lookup_spec c i path : good_class c -> is_instance c i ->
  match lookup c i path with
  | Some (b, v) => exists s, In s (fst (agg_spec c)) /\ lpath s = path /\ lbits s = b /\ leaf_vals i (lpath s) = v
  | None => forall s, In s (fst (agg_spec c)) -> lpath s <> path
  end.
Proof.
  intros Hg Hi. unfold agg_spec.
  assert (Hp : forall n x, In n (names c) -> get_attr i n = Some x -> get_path (INested i) ([] ++ [n]) = Some x).
  { intros n x _ H. cbn. now rewrite H. }
  destruct (proj2 (leaf_at_specs (INested i)) c [] 0 i Hi Hg Hp) as [A B]. cbn [app] in *.
  destruct path as [|n p]; cbn [lookup].
  - intros s Hs. destruct (B s Hs) as [n [p [E _]]]. rewrite E. discriminate.
  - destruct (leaf_at c i n p) as [[b v]|] eqn:E.
    + destruct (A n p b v E) as [s [K1 [K2 [K3 K4]]]]. exists s. split; [exact K1|]. split; [exact K2|]. split; [exact K3|]. rewrite K2. exact K4.
    + intros s Hs Hpath. destruct (B s Hs) as [n' [p' [E1 [E2 _]]]]. rewrite Hpath in E1. injection E1 as <- <-. now apply E2.
Qed.
(** reading a whole field *)
Theorem C35_unpack_field_all : forall (c : fields) (i : instance) (path : list string),
  good_class c -> is_instance c i -> (N.of_nat (class_bits c) < 2 ^ 32)%N ->
  unpack_field c (pack_instance c i) path None =
    match lookup c i path with Some (b, v) => Some (map (fun e => (e mod 2 ^ N.of_nat b)%N) v) | None => None end.
Proof.
  intros c i path Hg Hi Hc. unfold unpack_field.
  pose proof (lookup_spec c i path Hg Hi) as HS. pose proof (load_packed c i Hg Hi) as HL. pose proof (fun s => decode_all c i Hg Hi s Hc) as HD.
  destruct (agg_facts c i Hg Hi) as [_ [_ [H3 _]]]. pose proof (proj2 walk_paths_nodup c [] 0 Hg) as Hnd. unfold agg_spec in *.
  destruct (walk [] 0 c) as [specs total] eqn:E. cbn [fst snd] in *. subst total.
  destruct (lookup c i path) as [[b v]|].
  - destruct HS as [s [K1 [K2 [K3 K4]]]]. rewrite <- K2, (find_path specs s Hnd K1), HL, HD by exact K1. now rewrite K3, K4.
  - destruct (find _ specs) as [s|] eqn:F; [|reflexivity]. apply find_some in F. destruct F as [F1 F2]. exfalso. apply (HS s F1).
    unfold path_eqb in F2. destruct (list_eq_dec string_dec (lpath s) path); [assumption|discriminate].
Qed.
(** reading selected elements: in-range indices give the elements of that field only *)
Theorem C35_unpack_field_selected : forall (c : fields) (i : instance) (path : list string) b v (idxs : list nat),
  good_class c -> is_instance c i -> (N.of_nat (class_bits c) < 2 ^ 32)%N ->
  lookup c i path = Some (b, v) -> Forall (fun j => j < length v) idxs ->
  unpack_field c (pack_instance c i) path (Some (map Z.of_nat idxs)) = Some (map (fun j => (nth j v 0 mod 2 ^ N.of_nat b)%N) idxs).
Proof.
  intros c i path b v idxs Hg Hi Hc Hlk Hin. unfold unpack_field.
  pose proof (lookup_spec c i path Hg Hi) as HS. rewrite Hlk in HS. destruct HS as [s [K1 [K2 [K3 K4]]]].
  pose proof (load_packed c i Hg Hi) as HL. pose proof (fun s j => decode_one c i Hg Hi s j Hc) as HD.
  destruct (agg_facts c i Hg Hi) as [_ [_ [H3 [_ [H5 _]]]]]. pose proof (proj2 walk_paths_nodup c [] 0 Hg) as Hnd.
  rewrite Forall_forall in H5. specialize (H5 s K1). unfold agg_spec in *.
  destruct (walk [] 0 c) as [specs total] eqn:E. cbn [fst snd] in *. subst total.
  rewrite <- K2, (find_path specs s Hnd K1), HL. f_equal. unfold decode_field. rewrite map_map. apply map_ext_in.
  intros j Hj. rewrite Forall_forall in Hin. specialize (Hin j Hj). rewrite HD; [|exact K1|rewrite <- H5, K4; exact Hin]. now rewrite K4, K3.
Qed.
(** packed tensor fields: [set_unpacked] then reading the unpacked accessor; the packed
    length is the documented one *)
Theorem C35_set_unpacked : forall (bits : nat) (vals : list N),
  1 <= bits <= 32 -> (N.of_nat (length vals * bits) < 2 ^ 32)%N ->
  unpack_value bits (length vals) (pack_value bits vals) = map (survives bits) vals /\
  length (pack_value bits vals) = packed_num_bytes (length vals) bits.
Proof. exact field_roundtrip. Qed.

(** ** Examples and refutations *)
Definition ex_class : fields :=
  FCons "flag" (Leaf 1 3) (FCons "pos" (Leaf 5 4) (FCons "inner" (Nested (FCons "codes" (Leaf 12 2) (FCons "id" (Leaf 32 1) FNil))) FNil)).
Definition ex_instance : instance :=
  ICons "flag" (ILeaf [1; 0; 1]%N) (ICons "pos" (ILeaf [3; 31; 17; 40]%N)
   (ICons "inner" (INested (ICons "codes" (ILeaf [4095; 5000]%N) (ICons "id" (ILeaf [0xDEADBEEF]%N) INil))) INil)).
Example ex_good : good_class ex_class.
Proof. cbn. intuition (try lia; try discriminate). Qed.
Example ex_is : is_instance ex_class ex_instance.
Proof. cbn. intuition reflexivity. Qed.
Example ex_bits : class_bits ex_class = 79.
Proof. reflexivity. Qed.
(** codes[0] straddles words 0/1, id straddles words 1/2, the tail has 2 bytes *)
Example ex_packed : pack_instance ex_class ex_instance = ([0xFFA23F1D; 0xDF779C47]%N, [0x56; 0x6F]%N).
Proof. vm_compute. reflexivity. Qed.
Example ex_unpacked : unpacked ex_class (pack_instance ex_class ex_instance) =
  ICons "flag" (ILeaf [1; 0; 1]%N) (ICons "pos" (ILeaf [3; 31; 17; 8]%N)
   (ICons "inner" (INested (ICons "codes" (ILeaf [4095; 904]%N) (ICons "id" (ILeaf [0xDEADBEEF]%N) INil))) INil)).
Proof. rewrite C32_roundtrip; [reflexivity|exact ex_good|exact ex_is|reflexivity]. Qed.
Example ex_selected : unpack_field ex_class (pack_instance ex_class ex_instance) ["inner"; "codes"]%string (Some (map Z.of_nat [1; 0])) = Some [904; 4095]%N.
Proof. rewrite (C35_unpack_field_selected _ _ _ 12 [4095; 5000]%N); [reflexivity|exact ex_good|exact ex_is|reflexivity|reflexivity|]. repeat constructor. Qed.
(** The stronger claim "an out-of-range or negative index never returns bits of another
    field" is false: index 4 of the four-element [pos] returns bits of [codes], index -1
    returns bits of [flag] *)
Definition reads_only_own_field : Prop := forall c i j path b v idx,
  good_class c -> is_instance c i -> is_instance c j -> (N.of_nat (class_bits c) < 2 ^ 32)%N ->
  lookup c i path = Some (b, v) -> lookup c j path = Some (b, v) ->
  unpack_field c (pack_instance c i) path (Some [idx]) = unpack_field c (pack_instance c j) path (Some [idx]).
Definition ex_instance2 : instance :=
  ICons "flag" (ILeaf [0; 0; 0]%N) (ICons "pos" (ILeaf [3; 31; 17; 40]%N)
   (ICons "inner" (INested (ICons "codes" (ILeaf [0; 0]%N) (ICons "id" (ILeaf [0]%N) INil))) INil)).
Example ex_out_of_range :
  unpack_field ex_class (pack_instance ex_class ex_instance) ["pos"]%string (Some [4]%Z) = Some [31]%N /\
  unpack_field ex_class (pack_instance ex_class ex_instance2) ["pos"]%string (Some [4]%Z) = Some [0]%N.
Proof. vm_compute. split; reflexivity. Qed.
Theorem C35_out_of_range_refuted : ~ reads_only_own_field.
Proof.
  intros H. specialize (H ex_class ex_instance ex_instance2 ["pos"]%string 5 [3; 31; 17; 40]%N 4%Z
    ex_good ex_is). assert (H2 : is_instance ex_class ex_instance2) by (cbn; intuition reflexivity).
  specialize (H H2 eq_refl eq_refl eq_refl). destruct ex_out_of_range as [E1 E2]. rewrite E1, E2 in H. discriminate.
Qed.
Print Assumptions C32_exact.
Print Assumptions C32_layout.
Print Assumptions C33_storage.
Print Assumptions C34_exact.
Print Assumptions C34_length.
Print Assumptions C35_unpack_field_all.
Print Assumptions C35_unpack_field_selected.
Print Assumptions C35_set_unpacked.
Print Assumptions C35_out_of_range_refuted.
