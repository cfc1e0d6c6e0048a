(** * PropPackedField.v — property C51: packed tensor fields on instances with a batch shape. *)
From Coq Require Import String.
From Verif Require Import Jax HashModel BitpackModel BitpackBytes StructModel ArrayModel ArrayFacts ShapeModel PropShape RowsModel RowsLift PropRows AggModel AggFacts PropAgg PropAgg2 IOModel PropIO EqModel PropEq PromoteModel PackedFieldModel.

(** ** Specification *)
Fixpoint desc_of (c : class) (n : string) : option desc :=
  match c with CNil => None | CCons m d r => if String.eqb n m then Some d else desc_of r n end.
(** [n] is a packed field of the class: declared by [packed_tensor] (C50) with at least one
    value and fewer than 2^32 bits *)
Definition packed_field (c : class) (pk : string -> option pinfo) (n : string) (p : pinfo) : Prop :=
  pk n = Some p /\ (exists bits pb fill, desc_of c n = Some (Prim (DUInt 8) [p_len p] bits pb fill)) /\
  1 <= p_bits p <= 32 /\ 0 < prod (p_shape p) /\ (N.of_nat (prod (p_shape p) * p_bits p) < 2 ^ 32)%N.
(** is the entry zero (a float: either zero), and its whole part *)
Definition is_zero (dt : dtype) (z : Z) : bool := match dt with DFloat w => fmag w z =? 0 | _ => z =? 0 end%Z.
Definition whole (dt : dtype) (z : Z) : Z := match dt with DFloat w => fnum w z / 2 ^ 1074 | _ => z end%Z.
(** what a packed element keeps of an entry: one bit says whether it is zero, more bits are the
    low bits of its whole part *)
Definition stored (dt : dtype) (bits : nat) (z : Z) : Z :=
  if (bits =? 1)%nat then (if is_zero dt z then 0 else 1)%Z else (whole dt z mod 2 ^ Z.of_nat bits)%Z.
(** an entry of the dtype; a float that is not just tested for zero is finite, not negative and
    below 2^32 *)
Definition storable_value (dt : dtype) (bits : nat) (z : Z) : Prop :=
  in_dtype dt z /\
  match dt with
  | DFloat w => bits = 1 \/ ((z < 2 ^ (Z.of_nat w - 1)) /\ (fmag w z < inf_pat w) /\ (whole dt z < 2 ^ 32))%Z
  | _ => True
  end.
(** a value that can be assigned to the field *)
Definition assignable (B : list nat) (p : pinfo) (v : array) : Prop :=
  ashape v = B ++ p_shape p /\ wfa v /\ sane_dtype (adtype v) /\ Forall (storable_value (adtype v) (p_bits p)) (adata v).

(** ** Arrays, row by row *)
Lemma chunks_map {X Y} (g : X -> Y) k : forall n l, chunks n k (map g l) = map (map g) (chunks n k l).
Proof. induction n as [|n IH]; intros l; [reflexivity|]. cbn [chunks map]. now rewrite firstn_map, skipn_map, IH. Qed.
Definition rows_map (dt : dtype) (B I2 : list nat) (k1 : nat) (F : list Z -> list Z) (data : list Z) : array :=
  MkArr dt (B ++ I2) (flat_map F (chunks (prod B) k1 data)).
Lemma flat_map_const_len {X} (F : X -> list Z) k l : Forall (fun r => length (F r) = k) l -> length (flat_map F l) = length l * k.
Proof. induction 1 as [|r l H HF IH]; [reflexivity|]. cbn [flat_map length]. rewrite app_length, H, IH. lia. Qed.
Section RowsMap.
Variables (dt : dtype) (B I1 I2 : list nat) (F : list Z -> list Z) (a : array).
Hypothesis HF : forall r, length r = prod I1 -> length (F r) = prod I2.
Hypothesis HW : wfa a.
Hypothesis HS : ashape a = B ++ I1.
Lemma data_length : length (adata a) = prod B * prod I1.
Proof. rewrite HW, HS. apply prod_app. Qed.
Lemma rows_len : Forall (fun r => length (F r) = prod I2) (chunks (prod B) (prod I1) (adata a)).
Proof. apply Forall_forall. intros r Hr. apply HF. exact (chunks_in _ _ _ _ data_length Hr). Qed.
Lemma rows_map_wfa : wfa (rows_map dt B I2 (prod I1) F (adata a)).
Proof. unfold wfa, rows_map. cbn [adata ashape]. rewrite (flat_map_const_len F (prod I2)) by apply rows_len. now rewrite chunks_length, prod_app. Qed.
Lemma rows_map_sub b : inb b B -> sub b (rows_map dt B I2 (prod I1) F (adata a)) = MkArr dt I2 (F (adata (sub b a))).
Proof.
  intros Hb. pose proof (sub_data b _ B I2 rows_map_wfa eq_refl Hb) as E.
  assert (ED : adata (sub b (rows_map dt B I2 (prod I1) F (adata a))) = F (adata (sub b a))).
  { rewrite E, (sub_data b a B I1 HW HS Hb). unfold rows_map. cbn [adata]. pose proof (ravel_lt _ _ Hb) as HR.
    rewrite <- (nth_chunks (prod I2) (prod B)) by exact HR.
    rewrite flat_map_concat_map. rewrite <- (chunks_length (prod I1) (prod B) (adata a)) at 1. rewrite <- (map_length F).
    rewrite chunks_of_concat by (apply Forall_map; exact rows_len).
    rewrite (nth_indep _ [] (F [])) by (rewrite map_length, chunks_length; exact HR). rewrite map_nth. f_equal. now apply nth_chunks. }
  rewrite <- ED. unfold sub, rows_map, build. cbn [adtype ashape adata]. rewrite (inb_length _ _ Hb), skipn_app, skipn_all, Nat.sub_diag. reflexivity.
Qed.
End RowsMap.

(** ** One row *)
Definition byte (z : Z) : N := Z.to_N (z mod 256).
Definition unpack_row (p : pinfo) (r : list Z) : list Z :=
  map (fun v => conv (loaded_dtype (p_bits p)) (p_dtype p) (Z.of_N v)) (unpack_value (p_bits p) (prod (p_shape p)) (map byte r)).
Definition pack_row (p : pinfo) (dt : dtype) (r : list Z) : list Z := map Z.of_N (pack_value (p_bits p) (map (field_value dt (p_bits p)) r)).
Lemma unpack_value_length bits n bs : length (unpack_value bits n bs) = n.
Proof.
  unfold unpack_value. destruct (Nat.eqb_spec n 0) as [->|E]; [reflexivity|].
  destruct (bits =? 1); rewrite map_length; [unfold unpackbits; rewrite map_length|]; apply seq_length.
Qed.
Lemma unpack_row_length p r : length (unpack_row p r) = prod (p_shape p).
Proof. unfold unpack_row. rewrite map_length. apply unpack_value_length. Qed.
Lemma chunks_one {X} (r : list X) k : length r = k -> chunks 1 k r = [r].
Proof. intros <-. cbn [chunks]. now rewrite firstn_all. Qed.
Lemma prod_one k : prod [k] = k. Proof. cbn. lia. Qed.

Section Field.
Variables (c : class) (pk : string -> option pinfo) (n : string) (p : pinfo).
Hypothesis HP : packed_field c pk n p.
Let len := p_len p.
Let m := prod (p_shape p).
Lemma len_pos : 0 < len.
Proof.
  destruct HP as (_ & _ & HB & HM & _). unfold len, p_len. rewrite packed_num_bytes_eq by exact HB.
  pose proof (vpb_pos (p_bits p) HB) as V. pose proof (bpb_pos (p_bits p) HB) as W.
  set (v := lcm8 (p_bits p) / p_bits p) in *. set (b := lcm8 (p_bits p) / 8) in *. set (mm := prod (p_shape p)) in *.
  assert (1 <= (mm + v - 1) / v) by (apply Nat.div_le_lower_bound; lia). clear - H W. nia.
Qed.
Lemma pack_row_length dt r : length r = m -> length (pack_row p dt r) = len.
Proof.
  intros HR. destruct HP as (_ & _ & HB & _ & HS). unfold pack_row. rewrite map_length.
  assert (E : length (map (field_value dt (p_bits p)) r) = m) by (rewrite map_length; exact HR).
  rewrite (proj2 (field_roundtrip (p_bits p) (map (field_value dt (p_bits p)) r) HB ltac:(rewrite E; exact HS))), E. reflexivity.
Qed.
Lemma unpack_array_eq B a : wfa a -> ashape a = B ++ [len] -> unpack_array p B a = Some (rows_map (p_dtype p) B (p_shape p) len (unpack_row p) (adata a)).
Proof.
  intros W ES. unfold unpack_array. unfold ndim. rewrite ES, app_length. cbn [length]. replace (length B + 1 =? 0) with false by (symmetry; apply Nat.eqb_neq; lia).
  rewrite last_last. fold len. rewrite Nat.eqb_refl. cbn [negb]. pose proof len_pos as LP. replace (len =? 0) with false by (symmetry; apply Nat.eqb_neq; lia).
  rewrite prod_app, prod_one, Nat.div_mul by lia. rewrite chunks_map. unfold a_reshape. cbn [ashape adtype adata].
  rewrite map_length, chunks_length, prod_app. cbn [prod fold_right]. rewrite Nat.mul_1_r, Nat.eqb_refl. f_equal. unfold rows_map. f_equal.
  rewrite flat_map_concat_map, map_map, <- flat_map_concat_map. reflexivity.
Qed.
Lemma pack_array_eq B v : ashape v = B ++ p_shape p -> pack_array p B v = Some (rows_map (DUInt 8) B [len] m (pack_row p (adtype v)) (adata v)).
Proof.
  intros ES. unfold pack_array. rewrite ES, firstn_app, firstn_all, skipn_app, skipn_all, Nat.sub_diag. cbn [firstn skipn app]. rewrite app_nil_r, !shape_eqb_refl. cbn [negb].
  destruct HP as (_ & _ & _ & HM & _). fold m in HM |- *. replace (m =? 0) with false by (symmetry; apply Nat.eqb_neq; lia).
  rewrite prod_app. fold m. rewrite Nat.div_mul by lia. rewrite chunks_map. unfold a_reshape. cbn [ashape adtype adata].
  rewrite map_length, chunks_length, prod_app. fold len. cbn [prod fold_right]. rewrite Nat.mul_1_r, Nat.eqb_refl. f_equal. unfold rows_map. f_equal.
  rewrite flat_map_concat_map, map_map, concat_map, map_map, <- flat_map_concat_map. reflexivity.
Qed.
Lemma pack_array_iff B v : (exists a, pack_array p B v = Some a) <-> ashape v = B ++ p_shape p.
Proof.
  split.
  - intros [a H]. unfold pack_array in H. destruct (shape_eqb (firstn (length B) (ashape v)) B) eqn:E1; [|discriminate]. destruct (shape_eqb (skipn (length B) (ashape v)) (p_shape p)) eqn:E2; [|discriminate].
    apply shape_eqb_eq in E1, E2. rewrite <- (firstn_skipn (length B) (ashape v)), E1, E2. reflexivity.
  - intros H. eexists. now apply pack_array_eq.
Qed.
End Field.

Lemma packbits_byte l : Forall (fun b => (b < 256)%N) (packbits l).
Proof.
  unfold packbits. apply Forall_forall. intros b Hb. apply in_map_iff in Hb. destruct Hb as (i & <- & _).
  cbn [seq fold_left]. repeat (match goal with |- context [nth ?k l false] => destruct (nth k l false) end); vm_compute; reflexivity.
Qed.
Lemma Forall_firstn {X} (P : X -> Prop) k : forall l, Forall P l -> Forall P (firstn k l).
Proof. induction k as [|k IH]; intros l H; [constructor|]. destruct H; cbn [firstn]; constructor; auto. Qed.
Lemma pack_value_byte bits vals : Forall (fun b => (b < 256)%N) (pack_value bits vals).
Proof.
  assert (HZ : forall k, Forall (fun b => (b < 256)%N) (repeat 0%N k)) by (intros k; apply Forall_forall; intros x Hx; apply repeat_spec in Hx; subst; reflexivity).
  unfold pack_value. destruct (length vals =? 0); [apply HZ|]. destruct (bits =? 1); [apply packbits_byte|].
  match goal with |- context [if ?b then repeat _ _ else _] => destruct b end; [apply HZ|]. apply Forall_firstn, words_bytes_lt.
Qed.
Lemma byte_of_N l : Forall (fun b => (b < 256)%N) l -> map byte (map Z.of_N l) = l.
Proof.
  induction 1 as [|b l H _ IH]; [reflexivity|]. cbn [map]. rewrite IH. f_equal. unfold byte. rewrite Z.mod_small by lia. apply N2Z.id.
Qed.
Lemma kept_stored bits dt z : 1 <= bits <= 32 -> sane_dtype dt -> storable_value dt bits z -> Z.of_N (kept bits (field_value dt bits z)) = stored dt bits z.
Proof.
  intros HB HS [HI HO]. unfold kept, stored, field_value. destruct (Nat.eqb_spec bits 1) as [E|E].
  - assert (K : not_float dt \/ exists w, dt = DFloat w) by (destruct dt; cbn; eauto). destruct K as [K|[w ->]].
    + replace (packed_value dt z) with (raw z) by (destruct dt; cbn in *; tauto). replace (is_zero dt z) with (z =? 0)%Z by (destruct dt; cbn in *; tauto).
      assert (KZ : raw z = 0%N <-> z = 0%Z) by (apply (raw_zero z dt); [destruct dt; cbn in *; lia || exact Logic.I || contradiction|exact HI|destruct dt; cbn in *; auto; contradiction]).
      destruct (N.eqb_spec (raw z) 0) as [E1|E1], (Z.eqb_spec z 0) as [E2|E2]; try reflexivity; tauto.
    + cbn [packed_value is_zero]. destruct (fmag w z =? 0)%Z; reflexivity.
  - assert (P32 : (2 ^ Z.of_nat 32 = 2 ^ (32 - Z.of_nat bits) * 2 ^ Z.of_nat bits)%Z) by (rewrite <- Z.pow_add_r by lia; f_equal; lia).
    assert (PB : (0 < 2 ^ Z.of_nat bits)%Z) by (apply Z.pow_pos_nonneg; lia). assert (PC : (0 < 2 ^ (32 - Z.of_nat bits))%Z) by (apply Z.pow_pos_nonneg; lia).
    assert (EC : conv dt (DUInt 32) z = (whole dt z mod 2 ^ Z.of_nat 32)%Z).
    { unfold conv, dtype_eqb. destruct (dtype_eq_dec dt (DUInt 32)) as [->|_].
      - cbn [whole]. cbn [in_dtype] in HI. symmetry. apply Z.mod_small. exact HI.
      - destruct dt as [|w|w|w]; cbn [whole cast]; try reflexivity. destruct HO as [->|(O1 & O2 & O3)]; [congruence|]. replace (2 ^ (Z.of_nat w - 1) <=? z)%Z with false by (symmetry; apply Z.leb_gt; exact O1). reflexivity. }
    rewrite EC. change (2 ^ Z.of_nat 32)%Z with (2 ^ 32)%Z in *.
    rewrite N2Z.inj_mod, N2Z.inj_pow, Z2N.id by (apply Z.mod_pos_bound; lia). rewrite nat_N_Z. change (Z.of_N 2) with 2%Z.
    rewrite P32, (Z.mul_comm (2 ^ (32 - Z.of_nat bits))). rewrite Z.rem_mul_r by lia.
    rewrite (Z.mul_comm (2 ^ Z.of_nat bits)), Z_mod_plus_full. apply Z.mod_mod. lia.
Qed.
Lemma row_roundtrip c pk n p dt r : packed_field c pk n p -> length r = prod (p_shape p) -> sane_dtype dt -> Forall (storable_value dt (p_bits p)) r ->
  unpack_row p (pack_row p dt r) = map (fun z => conv (loaded_dtype (p_bits p)) (p_dtype p) (stored dt (p_bits p) z)) r.
Proof.
  intros (_ & _ & HB & _ & HS) HL HD HF. unfold unpack_row, pack_row. rewrite byte_of_N by apply pack_value_byte.
  assert (E : length (map (field_value dt (p_bits p)) r) = prod (p_shape p)) by (rewrite map_length; exact HL). rewrite <- E.
  rewrite (proj1 (field_roundtrip (p_bits p) (map (field_value dt (p_bits p)) r) HB ltac:(rewrite E; exact HS))), !map_map.
  apply map_ext_in. intros z Hz. rewrite Forall_forall in HF. now rewrite (kept_stored (p_bits p) dt z HB HD (HF z Hz)).
Qed.

(** ** Fields of an instance *)
Lemma class_list_ind (P : class -> Prop) : P CNil -> (forall n d r, P r -> P (CCons n d r)) -> forall c, P c.
Proof. intros H1 H2. fix IH 1. intros [|n d r]; [exact H1|apply H2, IH]. Qed.
Lemma attr_field c : forall B o n d, conforms c o -> has_batch B c o -> desc_of c n = Some d ->
  exists v, get_attr_o o n = Some v /\ conforms_v d v /\ has_v B d v.
Proof.
  induction c as [|k d' r IH] using class_list_ind; intros B o n d HC HH HD; [discriminate|]. destruct o as [|k' v q]; [destruct HC|].
  destruct HC as (<- & C1 & C2), HH as (_ & H1 & H2). cbn [desc_of get_attr_o] in *. destruct (String.eqb n k); [injection HD as <-; eauto|eauto].
Qed.
Lemma set_field_ok c : forall B o n d v, conforms c o -> has_batch B c o -> desc_of c n = Some d -> conforms_v d v -> has_v B d v ->
  conforms c (set_field o n v) /\ has_batch B c (set_field o n v).
Proof.
  induction c as [|k d' r IH] using class_list_ind; intros B o n d v HC HH HD HV HW; [discriminate|]. destruct o as [|k' w q]; [destruct HC|].
  destruct HC as (<- & C1 & C2), HH as (_ & H1 & H2). cbn [desc_of set_field] in *. rewrite (String.eqb_sym k n). destruct (String.eqb n k); [injection HD as ->; cbn; auto|].
  destruct (IH B q n d v C2 H2 HD HV HW). cbn. auto.
Qed.
Lemma get_set_same c : forall o n d v, conforms c o -> desc_of c n = Some d -> get_attr_o (set_field o n v) n = Some v.
Proof.
  induction c as [|k d' r IH] using class_list_ind; intros o n d v HC HD; [discriminate|]. destruct o as [|k' w q]; [destruct HC|].
  destruct HC as (<- & C1 & C2). cbn [desc_of set_field] in *. rewrite (String.eqb_sym k n). destruct (String.eqb n k) eqn:E; cbn [get_attr_o]; rewrite E; [reflexivity|eauto].
Qed.
Lemma get_set_other o : forall n k v, n <> k -> get_attr_o (set_field o n v) k = get_attr_o o k.
Proof.
  induction o as [|m w q IH] using obj_list_ind; intros n k v HN; [reflexivity|]. cbn [set_field]. destruct (String.eqb_spec m n) as [->|E]; cbn [get_attr_o].
  - destruct (String.eqb_spec k n) as [->|]; [congruence|reflexivity].
  - destruct (String.eqb k m); [reflexivity|auto].
Qed.
Lemma set_field_elem b o : forall n v, elem b (set_field o n v) = set_field (elem b o) n (elem_v b v).
Proof.
  induction o as [|m w q IH] using obj_list_ind; intros n v; [reflexivity|]. cbn [set_field elem]. destruct (String.eqb m n); cbn [elem]; [reflexivity|now rewrite IH].
Qed.
Lemma desc_names c n : (exists d, desc_of c n = Some d) <-> In n (names c).
Proof.
  induction c as [|k d r IH] using class_list_ind; cbn [desc_of names In]; [split; [intros [? ?]; discriminate|contradiction]|].
  destruct (String.eqb_spec n k) as [->|E]; [split; eauto|]. rewrite IH. split; [auto|]. intros [->|H]; [congruence|exact H].
Qed.
Lemma is_field_iff c n : is_field c n = true <-> In n (names c).
Proof.
  unfold is_field. rewrite existsb_exists. split; [intros (x & Hx & E); apply String.eqb_eq in E; now subst|]. intros H. exists n. split; [exact H|apply String.eqb_refl].
Qed.

Lemma packed_attr c pk n p B o : packed_field c pk n p -> batched c B o ->
  exists a, get_attr_o o n = Some (VArr a) /\ wfa a /\ ashape a = B ++ [p_len p].
Proof.
  intros (_ & (bits & pb & fill & HD) & _) [HC HH]. destruct (attr_field c B o n _ HC HH HD) as (v & E & HV & HW).
  destruct v as [a|q]; [|destruct HV]. exists a. cbn in HV, HW. destruct HV as [_ HV]. auto.
Qed.
Lemma reports c pk n p B o : packed_field c pk n p -> solid c -> batched c B o -> get_batch c o = Some (Batch B).
Proof.
  intros (_ & (bits & pb & fill & HD) & _) HS [HC HH]. apply C40_reports; auto. intros ->. discriminate.
Qed.
Lemma get_eq c pk n p B o a : packed_field c pk n p -> solid c -> batched c B o -> get_attr_o o n = Some (VArr a) -> wfa a -> ashape a = B ++ [p_len p] ->
  get_unpacked c pk o n = Some (rows_map (p_dtype p) B (p_shape p) (p_len p) (unpack_row p) (adata a)).
Proof.
  intros HP HS HO EA W ES. unfold get_unpacked. rewrite (proj1 HP), (reports c pk n p B o HP HS HO), EA. now apply (unpack_array_eq c pk n p HP).
Qed.

(** what a row holds: an array of the whole batch, packed or unpacked row by row *)
Lemma rows_map_one dt I2 k F data : length data = k -> rows_map dt [] I2 k F data = MkArr dt I2 (F data).
Proof. intros HL. unfold rows_map. change (prod []) with 1. rewrite chunks_one by exact HL. cbn [flat_map app]. now rewrite app_nil_r. Qed.
Lemma sub_len b a B I1 : wfa a -> ashape a = B ++ I1 -> inb b B -> length (adata (sub b a)) = prod I1.
Proof. intros W ES Hb. rewrite (sub_shape b a B I1 Hb ES). exact (build_wfa _ _ _). Qed.
Lemma sub_ashape b a B I1 : ashape a = B ++ I1 -> inb b B -> ashape (sub b a) = I1.
Proof. intros ES Hb. now rewrite (sub_shape b a B I1 Hb ES). Qed.
Lemma sub_wfa b a : wfa (sub b a). Proof. apply build_wfa. Qed.

(** ** C51: reading *)
Theorem C51_get : forall c pk n p B o, packed_field c pk n p -> solid c -> batched c B o ->
  exists a, get_unpacked c pk o n = Some a /\ adtype a = p_dtype p /\ ashape a = B ++ p_shape p /\ wfa a /\
    forall b, inb b B -> get_unpacked c pk (elem b o) n = Some (sub b a).
Proof.
  intros c pk n p B o HP HS HO. destruct (packed_attr c pk n p B o HP HO) as (a & EA & W & ES).
  rewrite (get_eq c pk n p B o a HP HS HO EA W ES). eexists. split; [reflexivity|]. split; [reflexivity|]. split; [reflexivity|].
  assert (HF : forall r, length r = prod [p_len p] -> length (unpack_row p r) = prod (p_shape p)) by (intros; apply unpack_row_length).
  rewrite <- (prod_one (p_len p)). split; [exact (rows_map_wfa (p_dtype p) B [p_len p] (p_shape p) (unpack_row p) a HF W ES)|]. intros b Hb.
  assert (HE : get_attr_o (elem b o) n = Some (VArr (sub b a))) by (rewrite get_attr_elem, EA; reflexivity).
  rewrite (get_eq c pk n p [] (elem b o) (sub b a) HP HS (elem_batched c B o b HO Hb) HE (sub_wfa b a) (sub_ashape b a B _ ES Hb)).
  f_equal. rewrite (rows_map_sub (p_dtype p) B [p_len p] (p_shape p) (unpack_row p) a HF W ES b Hb).
  apply rows_map_one. rewrite (sub_len b a B [p_len p] W ES Hb). apply prod_one.
Qed.

(** ** C51: writing *)
(** the value the accessor shows after [v] was assigned *)
Definition shown (p : pinfo) (v : array) : array :=
  MkArr (p_dtype p) (ashape v) (map (fun z => conv (loaded_dtype (p_bits p)) (p_dtype p) (stored (adtype v) (p_bits p) z)) (adata v)).
Definition packed_of (p : pinfo) (B : list nat) (v : array) : array := rows_map (DUInt 8) B [p_len p] (prod (p_shape p)) (pack_row p (adtype v)) (adata v).
Section Assign.
Variables (c : class) (pk : string -> option pinfo) (n : string) (p : pinfo) (B : list nat) (v : array).
Hypothesis HP : packed_field c pk n p.
Hypothesis HV : assignable B p v.
Lemma pack_len r : length r = prod (p_shape p) -> length (pack_row p (adtype v) r) = prod [p_len p].
Proof. intros HL. rewrite prod_one. exact (pack_row_length c pk n p HP (adtype v) r HL). Qed.
Lemma packed_of_wfa : wfa (packed_of p B v).
Proof. destruct HV as (ES & W & _). exact (rows_map_wfa (DUInt 8) B (p_shape p) [p_len p] (pack_row p (adtype v)) v pack_len W ES). Qed.
Lemma packed_of_sub b : inb b B -> sub b (packed_of p B v) = packed_of p [] (sub b v).
Proof.
  intros Hb. destruct HV as (ES & W & _). unfold packed_of at 1. rewrite (rows_map_sub (DUInt 8) B (p_shape p) [p_len p] (pack_row p (adtype v)) v pack_len W ES b Hb).
  symmetry. apply rows_map_one. exact (sub_len b v B _ W ES Hb).
Qed.
Lemma assignable_sub b : inb b B -> assignable [] p (sub b v).
Proof.
  intros Hb. destruct HV as (ES & W & HD & HI). split; [exact (sub_ashape b v B _ ES Hb)|]. split; [apply sub_wfa|]. split; [exact HD|].
  rewrite (sub_data b v B _ W ES Hb). change (adtype (sub b v)) with (adtype v). apply Forall_firstn. apply Forall_forall. intros z Hz. rewrite Forall_forall in HI. apply HI.
  rewrite <- (firstn_skipn (ravel B b * prod (p_shape p)) (adata v)). apply in_or_app. now right.
Qed.
Lemma shown_eq : rows_map (p_dtype p) B (p_shape p) (p_len p) (unpack_row p) (adata (packed_of p B v)) = shown p v.
Proof.
  destruct HV as (ES & W & HD & HI). unfold rows_map, shown, packed_of, rows_map. cbn [adata]. rewrite ES. f_equal.
  assert (HL : length (adata v) = prod B * prod (p_shape p)) by (rewrite W, ES; apply prod_app).
  rewrite (flat_map_concat_map (pack_row p (adtype v))). rewrite <- (chunks_length (prod (p_shape p)) (prod B) (adata v)) at 1. rewrite <- (map_length (pack_row p (adtype v))).
  rewrite chunks_of_concat.
  2:{ apply Forall_map, Forall_forall. intros r Hr. rewrite <- (prod_one (p_len p)). apply pack_len. exact (chunks_in _ _ _ _ HL Hr). }
  rewrite flat_map_concat_map, map_map.
  rewrite <- (chunks_concat (prod B) (prod (p_shape p)) (adata v) HL) at 2. rewrite concat_map. f_equal. apply map_ext_in. intros r Hr.
  apply (row_roundtrip c pk n p (adtype v)); [exact HP|exact (chunks_in _ _ _ _ HL Hr)|exact HD|].
  apply Forall_forall. intros z Hz. rewrite Forall_forall in HI. apply HI. rewrite <- (chunks_concat (prod B) (prod (p_shape p)) (adata v) HL). apply in_concat. eauto.
Qed.
Lemma set_one o : batched c B o -> batched c B (set_field o n (VArr (packed_of p B v))).
Proof.
  intros [HC HH]. destruct HP as (_ & (bits & pb & fill & HD) & _). refine (set_field_ok c B o n _ _ HC HH HD _ _); cbn [conforms_v has_v]; [split; [reflexivity|exact packed_of_wfa]|reflexivity].
Qed.
End Assign.

Definition good_update (c : class) (B : list nat) (u : string * value) : Prop := exists d, desc_of c (fst u) = Some d /\ conforms_v d (snd u) /\ has_v B d (snd u).
Lemma replace_ok c B us : forall o, batched c B o -> Forall (good_update c B) us -> batched c B (replace o us).
Proof.
  induction us as [|[n v] us IH]; intros o HO HF; [exact HO|]. inversion HF as [|? ? (d & H1 & H2 & H3) HF']; subst. cbn [replace fold_left fst snd] in *.
  apply IH; [|exact HF']. destruct HO as [HC HH]. exact (set_field_ok c B o n d v HC HH H1 H2 H3).
Qed.
Lemma replace_other us : forall o k, ~ In k (map fst us) -> get_attr_o (replace o us) k = get_attr_o o k.
Proof.
  induction us as [|[n v] us IH]; intros o k HN; [reflexivity|]. cbn [replace fold_left fst snd map In] in *. transitivity (get_attr_o (set_field o n v) k); [apply IH; tauto|apply get_set_other; tauto].
Qed.
Lemma replace_in c B us : forall o n v, batched c B o -> Forall (good_update c B) us -> NoDup (map fst us) -> In (n, v) us -> get_attr_o (replace o us) n = Some v.
Proof.
  induction us as [|[k w] us IH]; intros o n v HO HF ND HI; [destruct HI|]. inversion HF as [|? ? (d & H1 & H2 & H3) HF']; subst. cbn [map fst] in ND. inversion ND as [|? ? N1 N2]; subst.
  cbn [fst snd] in *. destruct HI as [HI|HI].
  - injection HI as -> ->. change (get_attr_o (replace (set_field o n v) us) n = Some v). rewrite replace_other by exact N1. exact (get_set_same c o n d v (proj1 HO) H1).
  - change (get_attr_o (replace (set_field o k w) us) n = Some v). apply IH; auto. destruct HO as [HC HH]. exact (set_field_ok c B o k d w HC HH H1 H2 H3).
Qed.
Lemma replace_elem b us : forall o, elem b (replace o us) = replace (elem b o) (map (fun u => (fst u, elem_v b (snd u))) us).
Proof. induction us as [|[n v] us IH]; intros o; [reflexivity|]. cbn [replace fold_left fst snd map]. fold (replace (set_field o n v) us). rewrite IH, set_field_elem. reflexivity. Qed.

(** every keyword names a packed field and gives it a value it can take *)
Definition good_args (c : class) (pk : string -> option pinfo) (B : list nat) (kwargs : list (string * array)) : Prop :=
  Forall (fun u => exists p, packed_field c pk (fst u) p /\ assignable B p (snd u)) kwargs.
Definition pinfo0 := MkP 1 DBool [].
Definition pinfo_of (pk : string -> option pinfo) (n : string) : pinfo := match pk n with Some p => p | None => pinfo0 end.
Definition updates_of (pk : string -> option pinfo) (B : list nat) (kwargs : list (string * array)) : list (string * value) :=
  map (fun u => (fst u, VArr (packed_of (pinfo_of pk (fst u)) B (snd u)))) kwargs.
Lemma field_in c pk n p : packed_field c pk n p -> is_field c n = true.
Proof. intros (_ & (bits & pb & fill & HD) & _). apply is_field_iff, desc_names. eauto. Qed.
Lemma pack_updates_eq c pk B kwargs : good_args c pk B kwargs -> pack_updates c pk B kwargs = Some (updates_of pk B kwargs).
Proof.
  induction 1 as [|[n v] r (p & HP & HA) HF IH]; [reflexivity|]. cbn [pack_updates updates_of map fst snd] in *. rewrite (field_in c pk n p HP). cbn [negb]. unfold pinfo_of. rewrite (proj1 HP).
  rewrite (pack_array_eq c pk n p HP B v (proj1 HA)), IH. reflexivity.
Qed.
Lemma updates_good c pk B kwargs : good_args c pk B kwargs -> Forall (good_update c B) (updates_of pk B kwargs).
Proof.
  intros H. apply Forall_map. refine (Forall_impl _ _ H). intros [n v] (p & HP & HA). cbn [fst snd] in *. unfold good_update. cbn [fst snd]. unfold pinfo_of. rewrite (proj1 HP).
  pose proof (packed_of_wfa c pk n p B v HP HA) as W. destruct HP as (_ & (bits & pb & fill & HD) & _). eexists. split; [exact HD|]. split; [split; [reflexivity|exact W]|reflexivity].
Qed.
Lemma updates_names pk B kwargs : map fst (updates_of pk B kwargs) = map fst kwargs.
Proof. unfold updates_of. rewrite map_map. reflexivity. Qed.

Theorem C51_set : forall c pk B o kwargs, c <> CNil -> solid c -> batched c B o -> NoDup (map fst kwargs) -> good_args c pk B kwargs ->
  exists o', set_unpacked c pk o kwargs = Some o' /\ batched c B o' /\
    (forall n v p, In (n, v) kwargs -> pk n = Some p -> get_unpacked c pk o' n = Some (shown p v)) /\
    (forall n, ~ In n (map fst kwargs) -> get_attr_o o' n = get_attr_o o n).
Proof.
  intros c pk B o kwargs HN HS HO ND HG. unfold set_unpacked. rewrite (proj2 (C40_reports c o B HN HS (proj1 HO)) (proj2 HO)), (pack_updates_eq c pk B kwargs HG).
  eexists. split; [reflexivity|]. pose proof (updates_good c pk B kwargs HG) as UG. assert (HO' := replace_ok c B _ o HO UG). split; [exact HO'|]. split.
  - intros n v p Hin Hp. pose proof (proj1 (Forall_forall _ _) HG (n, v) Hin) as (p' & HP & HA). cbn [fst snd] in *. assert (p' = p) by (destruct HP; congruence). subst p'.
    assert (EA : get_attr_o (replace o (updates_of pk B kwargs)) n = Some (VArr (packed_of p B v))).
    { apply (replace_in c B); auto; [now rewrite updates_names|]. apply in_map_iff. exists (n, v). cbn [fst snd]. unfold pinfo_of. rewrite Hp. auto. }
    rewrite (get_eq c pk n p B _ _ HP HS HO' EA (packed_of_wfa c pk n p B v HP HA) eq_refl). f_equal. exact (shown_eq c pk n p B v HP HA).
  - intros n Hn. apply replace_other. now rewrite updates_names.
Qed.
(** values of the field's dtype that fit its bits come back unchanged *)
Theorem C51_set_exact : forall c pk B o kwargs n v p, c <> CNil -> solid c -> batched c B o -> NoDup (map fst kwargs) -> good_args c pk B kwargs ->
  In (n, v) kwargs -> pk n = Some p -> adtype v = p_dtype p -> not_float (p_dtype p) -> Forall (fun z => (0 <= z < 2 ^ Z.of_nat (p_bits p))%Z) (adata v) ->
  exists o', set_unpacked c pk o kwargs = Some o' /\ get_unpacked c pk o' n = Some v.
Proof.
  intros c pk B o kwargs n v p HN HS HO ND HG Hin Hp HD HNF HF. destruct (C51_set c pk B o kwargs HN HS HO ND HG) as (o' & E & _ & K & _). exists o'. split; [exact E|]. rewrite (K n v p Hin Hp). f_equal.
  pose proof (proj1 (Forall_forall _ _) HG (n, v) Hin) as (p' & HP & (_ & _ & SD & HI)). cbn [fst snd] in *. destruct v as [dt s l]. unfold shown. cbn [adtype ashape adata] in *. rewrite HD. f_equal. rewrite <- (map_id l) at 2. apply map_ext_in. intros z Hz.
  rewrite Forall_forall in HF, HI. specialize (HF z Hz). destruct (HI z Hz) as [HZ _]. rewrite <- HD in *.
  assert (ES : stored dt (p_bits p) z = z).
  { unfold stored. destruct (Nat.eqb_spec (p_bits p) 1) as [E1|E1].
    - rewrite E1 in HF. change (2 ^ Z.of_nat 1)%Z with 2%Z in HF. replace (is_zero dt z) with (z =? 0)%Z by (destruct dt; cbn in *; tauto). destruct (Z.eqb_spec z 0); lia.
    - replace (whole dt z) with z by (destruct dt; cbn in *; tauto). apply Z.mod_small; exact HF. }
  rewrite ES. assert (EC : cast dt z = z) by (apply cast_in; [exact HZ|destruct dt; cbn in SD, HNF |- *; try exact Logic.I; try lia; contradiction]).
  unfold conv. destruct (dtype_eqb (loaded_dtype (p_bits p)) dt); [reflexivity|].
  assert (NL : not_float (loaded_dtype (p_bits p))) by (unfold loaded_dtype; destruct (p_bits p =? 1); [exact Logic.I|]; destruct (p_bits p <=? 8); exact Logic.I).
  destruct (loaded_dtype (p_bits p)); cbn in NL; try contradiction; destruct dt; cbn in HNF; try contradiction; exact EC.
Qed.
(** the values of one element determine that element of the result *)
Theorem C51_set_rowwise : forall c pk B o kwargs b, c <> CNil -> solid c -> batched c B o -> good_args c pk B kwargs -> inb b B ->
  set_unpacked c pk (elem b o) (map (fun u => (fst u, sub b (snd u))) kwargs) = option_map (elem b) (set_unpacked c pk o kwargs).
Proof.
  intros c pk B o kwargs b HN HS HO HG Hb. pose proof (elem_batched c B o b HO Hb) as HE. unfold set_unpacked.
  rewrite (proj2 (C40_reports c o B HN HS (proj1 HO)) (proj2 HO)), (proj2 (C40_reports c (elem b o) [] HN HS (proj1 HE)) (proj2 HE)), (pack_updates_eq c pk B kwargs HG).
  rewrite pack_updates_eq.
  2:{ apply Forall_map. refine (Forall_impl _ _ HG). intros [n v] (p & HP & HA). cbn [fst snd] in *. exists p. split; [exact HP|]. exact (assignable_sub p B v HA b Hb). }
  cbn [option_map]. f_equal. rewrite replace_elem. f_equal. unfold updates_of. rewrite !map_map. apply map_ext_in. intros [n v] Hin. cbn [fst snd elem_v].
  pose proof (proj1 (Forall_forall _ _) HG (n, v) Hin) as (p & HP & HA). cbn [fst snd] in *. unfold pinfo_of. rewrite (proj1 HP), (packed_of_sub c pk n p B v HP HA b Hb). reflexivity.
Qed.
(** exactly the keywords that name a packed field and give it the batch shape followed by
    its logical shape are accepted *)
Theorem C51_set_iff : forall c pk B o kwargs, c <> CNil -> solid c -> batched c B o -> (forall n p, pk n = Some p -> packed_field c pk n p) ->
  ((exists o', set_unpacked c pk o kwargs = Some o') <->
   Forall (fun u => exists p, pk (fst u) = Some p /\ ashape (snd u) = B ++ p_shape p) kwargs).
Proof.
  intros c pk B o kwargs HN HS HO HPK. unfold set_unpacked. rewrite (proj2 (C40_reports c o B HN HS (proj1 HO)) (proj2 HO)).
  assert (K : (exists us, pack_updates c pk B kwargs = Some us) <-> Forall (fun u => exists p, pk (fst u) = Some p /\ ashape (snd u) = B ++ p_shape p) kwargs).
  { induction kwargs as [|[n v] r IH]; [split; [constructor|eexists; reflexivity]|]. cbn [pack_updates]. split.
    - intros [us H]. destruct (is_field c n); [|discriminate]. cbn [negb] in H. destruct (pk n) as [p|] eqn:Ep; [|discriminate].
      destruct (pack_array p B v) as [a|] eqn:Ea; [|discriminate]. destruct (pack_updates c pk B r) as [us'|]; [|discriminate]. constructor; [|apply IH; eauto].
      exists p. split; [exact Ep|]. apply (pack_array_iff c pk n p (HPK n p Ep)). eauto.
    - intros H. inversion H as [|? ? (p & Ep & Es) H']; subst. cbn [fst snd] in *. rewrite (field_in c pk n p (HPK n p Ep)), Ep. cbn [negb].
      rewrite (pack_array_eq c pk n p (HPK n p Ep) B v Es). apply IH in H'. destruct H' as [us ->]. eauto. }
  rewrite <- K. destruct (pack_updates c pk B kwargs) as [us|]; split; intros [x H]; try discriminate; eauto.
Qed.

(** ** C51: [from_unpacked] *)
(** each keyword names a field; a packed field gets a value it can take, any other field a
    value of its declared type with the batch shape *)
Definition good_arg (c : class) (pk : string -> option pinfo) (B : list nat) (u : string * value) : Prop :=
  match pk (fst u) with
  | Some p => packed_field c pk (fst u) p /\ exists v, snd u = VArr v /\ assignable B p v
  | None => good_update c B u
  end.
Definition held_value (pk : string -> option pinfo) (B : list nat) (u : string * value) : value :=
  match pk (fst u), snd u with Some p, VArr v => VArr (packed_of p B v) | _, w => w end.
Lemma pack_arg_eq c pk B u : good_arg c pk B u -> pack_arg pk B (fst u) (snd u) = Some (held_value pk B u) /\ good_update c B (fst u, held_value pk B u).
Proof.
  destruct u as [n w]. unfold good_arg, pack_arg, held_value. cbn [fst snd]. destruct (pk n) as [p|] eqn:Ep; [|auto]. intros (HP & v & -> & HA).
  rewrite (pack_array_eq c pk n p HP B v (proj1 HA)). split; [reflexivity|]. pose proof (packed_of_wfa c pk n p B v HP HA) as W. destruct HP as (_ & (bits & pb & fill & HD) & _).
  eexists. split; [exact HD|]. split; [split; [reflexivity|exact W]|reflexivity].
Qed.
Lemma lookup_in {X} n v : forall (kwargs : list (string * X)), NoDup (map fst kwargs) -> In (n, v) kwargs -> lookup n kwargs = Some v.
Proof.
  induction kwargs as [|[k w] r IH]; intros ND HI; [destruct HI|]. cbn [map fst] in ND. inversion ND as [|? ? N1 N2]; subst. unfold lookup in *. cbn [find fst]. destruct (String.eqb_spec k n) as [->|E].
  - destruct HI as [HI|HI]; [injection HI as ->; reflexivity|]. exfalso. apply N1. apply in_map_iff. exists (n, v). auto.
  - destruct HI as [HI|HI]; [congruence|]. auto.
Qed.
Fixpoint fields_of (c : class) : list (string * desc) := match c with CNil => [] | CCons n d r => (n, d) :: fields_of r end.
Lemma fields_desc c : NoDup (names c) -> forall n d, In (n, d) (fields_of c) -> desc_of c n = Some d.
Proof.
  induction c as [|k d' r IH] using class_list_ind; cbn [names fields_of In desc_of]; [contradiction|]. intros ND n d [E|HI]; inversion ND as [|? ? N1 N2]; subst.
  - injection E as -> ->. now rewrite String.eqb_refl.
  - pose proof (IH N2 n d HI) as K. destruct (String.eqb_spec n k) as [->|]; [|exact K]. exfalso. apply N1, desc_names. eauto.
Qed.
Lemma build_all_ok pk B kwargs c : (forall n d, In (n, d) (fields_of c) -> exists v v', lookup n kwargs = Some v /\ pack_arg pk B n v = Some v' /\ conforms_v d v' /\ has_v B d v') ->
  exists o, build_all pk B c kwargs = Some o /\ batched c B o /\ forall n, In n (names c) -> exists v v', lookup n kwargs = Some v /\ pack_arg pk B n v = Some v' /\ get_attr_o o n = Some v'.
Proof.
  induction c as [|k d r IH] using class_list_ind; intros H.
  - exists ONil. split; [reflexivity|]. split; [split; exact Logic.I|]. cbn. contradiction.
  - destruct IH as (o & E & [HC HH] & HK); [intros n d' Hin; apply H; now right|]. destruct (H k d (or_introl eq_refl)) as (v & v' & H1 & H2 & H3 & H4).
    cbn [build_all]. rewrite H1, H2, E. eexists. split; [reflexivity|]. split; [split; cbn; auto|]. intros n Hin. cbn [get_attr_o names In] in *. destruct (String.eqb_spec n k) as [->|E2]; [eauto|].
    destruct Hin as [->|Hin]; [congruence|auto].
Qed.
Lemma mixed_updates_eq c pk B kwargs : Forall (good_arg c pk B) kwargs -> mixed_updates c pk B kwargs = Some (map (fun u => (fst u, held_value pk B u)) kwargs).
Proof.
  induction 1 as [|[n v] r HG HF IH]; [reflexivity|]. cbn [mixed_updates map fst]. destruct (pack_arg_eq c pk B (n, v) HG) as [E (d & HD & _)]. cbn [fst snd] in E, HD.
  rewrite (proj2 (is_field_iff c n)) by (apply desc_names; eauto). cbn [negb]. rewrite E, IH. reflexivity.
Qed.
Theorem C51_from : forall c pk B kwargs, c <> CNil -> solid c -> NoDup (names c) -> NoDup (map fst kwargs) -> Forall (good_arg c pk B) kwargs ->
  exists o, from_unpacked c pk B kwargs = Some o /\ batched c B o /\
    (forall n v p, In (n, VArr v) kwargs -> pk n = Some p -> get_unpacked c pk o n = Some (shown p v)) /\
    (forall n v, In (n, v) kwargs -> pk n = None -> get_attr_o o n = Some v) /\
    (forall n, ~ In n (map fst kwargs) -> get_attr_o o n = get_attr_o (default_obj B c) n).
Proof.
  intros c pk B kwargs HN HS NC ND HG.
  assert (K : exists o, from_unpacked c pk B kwargs = Some o /\ batched c B o /\ (forall u, In u kwargs -> get_attr_o o (fst u) = Some (held_value pk B u)) /\
                (forall n, ~ In n (map fst kwargs) -> get_attr_o o n = get_attr_o (default_obj B c) n)).
  { unfold from_unpacked. destruct (forallb (fun n => existsb (String.eqb n) (map fst kwargs)) (names c)) eqn:EA.
    - assert (HA : forall n, In n (names c) -> exists v, In (n, v) kwargs).
      { intros n Hn. rewrite forallb_forall in EA. specialize (EA n Hn). apply existsb_exists in EA. destruct EA as (x & Hx & E). apply String.eqb_eq in E. subst x. apply in_map_iff in Hx. destruct Hx as ([n' v] & E & Hv). cbn in E. subst. eauto. }
      destruct (build_all_ok pk B kwargs c) as (o & E & HB & HK).
      { intros n d Hin. pose proof (fields_desc c NC n d Hin) as HD. destruct (HA n) as (v & Hv); [apply desc_names; eauto|].
        pose proof (proj1 (Forall_forall _ _) HG (n, v) Hv) as HU. destruct (pack_arg_eq c pk B (n, v) HU) as [E (d' & HD' & HC & HH)]. cbn [fst snd] in *.
        exists v, (held_value pk B (n, v)). assert (d' = d) by congruence. subst. split; [now apply lookup_in|]. auto. }
      exists o. split; [exact E|]. split; [exact HB|]. split.
      + intros [n v] Hu. cbn [fst]. pose proof (proj1 (Forall_forall _ _) HG (n, v) Hu) as HU. destruct (pack_arg_eq c pk B (n, v) HU) as [E1 (d' & HD' & _)]. cbn [fst snd] in *.
        destruct (HK n) as (v1 & v' & H1 & H2 & H3); [apply desc_names; eauto|]. rewrite (lookup_in n v kwargs ND Hu) in H1. injection H1 as <-. rewrite E1 in H2. injection H2 as <-. exact H3.
      + intros n Hn. assert (Hc : ~ In n (names c)) by (intros Hc; apply Hn; destruct (HA n Hc) as [v Hv]; apply in_map_iff; exists (n, v); auto).
        assert (Z : forall c' o', conforms c' o' -> ~ In n (names c') -> get_attr_o o' n = None).
        { clear. induction c' as [|k d r IH] using class_list_ind; intros o' HC HI; (destruct o' as [|k' v q]; [try reflexivity; destruct HC|]); [destruct HC|]. destruct HC as (<- & _ & HC). cbn [names In get_attr_o] in *. destruct (String.eqb_spec n k) as [->|]; [tauto|]. apply IH; tauto. }
        rewrite (Z c o (proj1 HB) Hc), (Z c (default_obj B c) (proj1 (proj2 default_both c B)) Hc). reflexivity.
    - rewrite (mixed_updates_eq c pk B kwargs HG). cbn [option_map]. eexists. split; [reflexivity|].
      assert (UG : Forall (good_update c B) (map (fun u => (fst u, held_value pk B u)) kwargs)) by (apply Forall_map; refine (Forall_impl _ _ HG); intros u Hu; apply (pack_arg_eq c pk B u Hu)).
      assert (HD : batched c B (default_obj B c)) by exact (proj2 default_both c B).
      assert (EN : map fst (map (fun u => (fst u, held_value pk B u)) kwargs) = map fst kwargs) by (rewrite map_map; reflexivity).
      split; [now apply replace_ok|]. split.
      + intros u Hu. apply (replace_in c B); auto; [now rewrite EN|]. apply in_map_iff. eauto.
      + intros n Hn. apply replace_other. now rewrite EN. }
  destruct K as (o & E & HB & K1 & K2). exists o. split; [exact E|]. split; [exact HB|]. split; [|split; [|exact K2]].
  - intros n v p Hin Hp. pose proof (proj1 (Forall_forall _ _) HG (n, VArr v) Hin) as HU. unfold good_arg in HU. cbn [fst snd] in HU. rewrite Hp in HU. destruct HU as (HP & v' & Ev & HA). injection Ev as <-.
    pose proof (K1 (n, VArr v) Hin) as EA. unfold held_value in EA. cbn [fst snd] in EA. rewrite Hp in EA.
    rewrite (get_eq c pk n p B o _ HP HS HB EA (packed_of_wfa c pk n p B v HP HA) eq_refl). f_equal. exact (shown_eq c pk n p B v HP HA).
  - intros n v Hin Hp. pose proof (K1 (n, v) Hin) as EA. unfold held_value in EA. cbn [fst snd] in EA. rewrite Hp in EA. exact EA.
Qed.

(** ** Examples and refutations *)
Definition ex_p : pinfo := MkP 3 (DUInt 8) [2; 2].
Definition ex_c : class := CCons "cells" (Prim (DUInt 8) [p_len ex_p] None true 0) (CCons "cost" (Prim (DUInt 8) [] None false 255) CNil).
Definition ex_pk (n : string) : option pinfo := if String.eqb n "cells" then Some ex_p else None.
Example ex_packed_field : packed_field ex_c ex_pk "cells" ex_p /\ solid ex_c /\ batched ex_c [2] (default_obj [2] ex_c).
Proof. split; [|split; [cbn; auto|exact (proj2 default_both ex_c [2])]]. split; [reflexivity|]. split; [exists None, true, 0%Z; reflexivity|]. cbn. lia. Qed.
Definition ex_v : array := MkArr (DUInt 8) [2; 2; 2] [1; 2; 3; 4; 5; 6; 7; 9]%Z.
Example ex_assign : good_args ex_c ex_pk [2] [("cells"%string, ex_v)] /\ p_len ex_p = 3 /\
  option_map (fun o => get_unpacked ex_c ex_pk o "cells") (set_unpacked ex_c ex_pk (default_obj [2] ex_c) [("cells"%string, ex_v)])
  = Some (Some (MkArr (DUInt 8) [2; 2; 2] [1; 2; 3; 4; 5; 6; 7; 1]%Z)).
Proof.
  split; [|split; vm_compute; reflexivity]. constructor; [|constructor]. exists ex_p. split; [apply ex_packed_field|]. split; [reflexivity|]. split; [reflexivity|]. split; [cbn; lia|]. cbn [adtype adata ex_v in_dtype]. repeat constructor; vm_compute; intuition discriminate.
Qed.
(** a keyword that names no field raises only when some field is missing: with a keyword for
    every field it is ignored *)
Theorem C51_unknown_name_refuted : exists c pk B kwargs, ~ In "typo"%string (names c) /\ In "typo"%string (map fst kwargs) /\
  (exists o, from_unpacked c pk B kwargs = Some o) /\ from_unpacked c pk B [("typo"%string, VArr ex_v)] = None.
Proof.
  exists ex_c, ex_pk, [2], [("cells"%string, VArr ex_v); ("cost"%string, VArr (MkArr (DUInt 8) [2] [5; 6]%Z)); ("typo"%string, VArr ex_v)].
  split; [cbn; intuition discriminate|]. split; [cbn; auto|]. split; [eexists; vm_compute; reflexivity|reflexivity].
Qed.
(** a packed field without values can neither be read nor assigned: the accessors raise *)
Theorem C51_empty_refuted : exists c pk p n, pk n = Some p /\ p_shape p = [0] /\
  get_batch c (default_obj [] c) = Some (Batch []) /\ get_unpacked c pk (default_obj [] c) n = None /\
  set_unpacked c pk (default_obj [] c) [(n, MkArr DBool [0] [])] = None.
Proof.
  set (p := MkP 1 DBool [0]). exists (CCons "e" (Prim (DUInt 8) [p_len p] None true 0) CNil), (fun _ => Some p), p, "e"%string. repeat split.
Qed.
