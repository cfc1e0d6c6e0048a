(** * PropAggFloat.v — property C81: aggregate bit-packing of leaves of any dtype. *)
From Coq Require Import String.
From Verif Require Import Jax HashModel HashProofs BitpackModel BitpackSpec BitpackProofs BitpackAgg StructModel ArrayModel ArrayFacts ShapeModel PropShape RowsModel RowsLift PropRows PropRows4 EqModel FloatEq PropEq RowsModel2 PropRows7 CompareModel PropCompare PropSafeCast FloatRound PromoteModel PropPromote PropMixed AggModel AggKernel AggFacts PropAgg PropAgg2 SchemaModel AggAny.
Local Open Scope Z_scope.

(** ** Specification *)
(** every array holds values of its dtype *)
Definition proper (o : obj) : Prop := Forall (fun a => standard (adtype a) /\ Forall (in_dtype (adtype a)) (adata a)) (arrays o).
(** two instances of the class, leaf by leaf, with the declared dtype and number of bits *)
Fixpoint leafwise_v (R : dtype -> nat -> array -> array -> Prop) (d : desc) (v v' : value) : Prop :=
  match d, v, v' with
  | Prim dt _ (Some b) _ _, VArr a, VArr a' => R dt b a a'
  | Nest c _, VObj o, VObj o' => leafwise R c o o'
  | _, _, _ => False
  end
with leafwise (R : dtype -> nat -> array -> array -> Prop) (c : class) (o o' : obj) : Prop :=
  match c, o, o' with
  | CNil, ONil, ONil => True
  | CCons n d r, OCons m v q, OCons m' v' q' => m = n /\ m' = n /\ leafwise_v R d v v' /\ leafwise R r q q'
  | _, _, _ => False
  end.
(** [k] is the number kept for the entry [z] of an array of dtype [dt]: the integer part, modulo
    2^b.  For a float below -1 or from 2^32 on (or infinite, or NaN) jax leaves the conversion to
    the platform: some b-bit number *)
Definition integer_part (dt : dtype) (b : nat) (z k : Z) : Prop :=
  0 <= k < 2 ^ Z.of_nat b /\
  forall x, represents dt z x -> (is_float dt = true -> - 2 ^ 1074 < x < 2 ^ 32 * 2 ^ 1074) -> k = Z.quot x (2 ^ 1074) mod 2 ^ Z.of_nat b.
(** [.unpacked]: these numbers, in the default dtype *)
Definition unpacked_leaf (_ : dtype) (b : nat) (a a' : array) : Prop :=
  adtype a' = view_dtype b /\ ashape a' = ashape a /\ Forall2 (integer_part (adtype a) b) (adata a) (adata a').
(** [.as_original()]: these numbers, converted to the declared dtype *)
Definition original_leaf (dt : dtype) (b : nat) (a a' : array) : Prop :=
  adtype a' = dt /\ ashape a' = ashape a /\ Forall2 (fun z z' => exists k, integer_part (adtype a) b z k /\ z' = conv (view_dtype b) dt k) (adata a) (adata a').

(** ** One entry *)
Lemma U_pos : 0 < 2 ^ 1074. Proof. apply Z.pow_pos_nonneg; lia. Qed.
Lemma pow_le32 b : (b <= 32)%nat -> 2 ^ Z.of_nat b <= 2 ^ 32.
Proof. intros H. apply Z.pow_le_mono_r; lia. Qed.
Lemma view_facts b n : (1 <= b <= 32)%nat -> 0 <= n < 2 ^ Z.of_nat b -> standard (view_dtype b) /\ in_dtype (view_dtype b) n /\ represents (view_dtype b) n (n * 2 ^ 1074).
Proof.
  intros Hb Hn. rewrite <- view_dtype_eq. unfold unpack_dtype. destruct (Nat.eqb_spec b 1) as [-> |N1].
  - change (2 ^ Z.of_nat 1) with 2 in Hn. split; [exact I|]. split; [cbn; lia|reflexivity].
  - destruct (Nat.leb_spec b 8) as [L|L].
    + split; [cbn; auto|]. split; [|reflexivity]. cbn [in_dtype]. assert (2 ^ Z.of_nat b <= 2 ^ Z.of_nat 8) by (apply Z.pow_le_mono_r; lia). lia.
    + split; [cbn; auto|]. split; [|reflexivity]. cbn [in_dtype]. assert (2 ^ Z.of_nat b <= 2 ^ Z.of_nat 32) by (apply Z.pow_le_mono_r; lia). lia.
Qed.
Lemma mod_mod_pow z b : (b <= 32)%nat -> (z mod 2 ^ 32) mod 2 ^ Z.of_nat b = z mod 2 ^ Z.of_nat b.
Proof.
  intros Hb. replace (2 ^ 32) with (2 ^ Z.of_nat b * 2 ^ (32 - Z.of_nat b)) by (rewrite <- Z.pow_add_r by lia; f_equal; lia).
  rewrite Z.rem_mul_r by (try apply Z.pow_nonzero; try apply Z.pow_pos_nonneg; lia). rewrite Z.mul_comm, Z.mod_add by (apply Z.pow_nonzero; lia). apply Z.mod_mod. apply Z.pow_nonzero; lia.
Qed.
Lemma conv_kept dt b z : standard dt -> in_dtype dt z -> (1 <= b <= 32)%nat -> integer_part dt b z (conv dt (DUInt 32) z mod 2 ^ Z.of_nat b).
Proof.
  intros HS HD Hb. split; [apply Z.mod_pos_bound, Z.pow_pos_nonneg; lia|]. intros x HR HX. pose proof U_pos as HU. assert (S32 : standard (DUInt 32)) by (cbn; auto).
  destruct (is_float dt) eqn:FD.
  - specialize (HX eq_refl). destruct dt as [|v|v|v]; try discriminate. f_equal. apply C72_truncate; auto; [discriminate|]. cbn [in_dtype]. change (Z.of_nat 32) with 32.
    destruct (Z.lt_ge_cases x 0) as [L|L].
    + assert (Z.quot x (2 ^ 1074) = 0) as ->; [|lia]. apply Z.opp_inj. rewrite <- Z.quot_opp_l by lia. rewrite Z.quot_small by lia. reflexivity.
    + rewrite Z.quot_div_nonneg by lia. split; [apply Z.div_pos; lia|apply Z.div_lt_upper_bound; lia].
  - assert (EX : x = z * 2 ^ 1074) by (destruct dt; try discriminate; exact HR). subst x. rewrite Z.quot_mul by lia.
    pose proof (C72_integers dt (DUInt 32) z S32 FD eq_refl HD) as [K1 K2]. change (Z.of_nat 32) with 32 in *. rewrite <- (mod_mod_pow z) by lia. rewrite <- K2. now rewrite mod_mod_pow by lia.
Qed.
Lemma kept_back dt b z n : standard dt -> in_dtype dt z -> (1 <= b <= 32)%nat -> 0 <= n < 2 ^ Z.of_nat b -> represents dt z (n * 2 ^ 1074) ->
  conv dt (DUInt 32) z mod 2 ^ Z.of_nat b = n /\ represents dt (conv (view_dtype b) dt n) (n * 2 ^ 1074) /\ in_dtype dt (conv (view_dtype b) dt n).
Proof.
  intros HS HD Hb Hn HR. pose proof U_pos as HU. pose proof (pow_le32 b ltac:(lia)). split.
  - destruct (conv_kept dt b z HS HD Hb) as [_ K]. rewrite (K _ HR) by (intros _; nia). rewrite Z.quot_mul by lia. now apply Z.mod_small.
  - destruct (view_facts b n Hb Hn) as (V1 & V2 & V3). split; [apply C72_exact; auto; now exists z|now apply C72_lands].
Qed.
(** a float pattern is determined by its number, zero apart *)
Lemma same_pattern w z z' x : float_width w -> in_dtype (DFloat w) z -> in_dtype (DFloat w) z' -> represents (DFloat w) z x -> represents (DFloat w) z' x -> 0 <= x ->
  z < 2 ^ (Z.of_nat w - 1) \/ 0 < x -> z' < 2 ^ (Z.of_nat w - 1) \/ 0 < x -> z = z'.
Proof.
  intros HW HD HD' HR HR' Hx Hz Hz'. apply (represents_float w HW _ _ HD) in HR. apply (represents_float w HW _ _ HD') in HR'. destruct HR as [_ E], HR' as [_ E'].
  destruct (pattern_split w HW z HD) as [S K], (pattern_split w HW z' HD') as [S' K']. pose proof (fnum_nonneg w HW z HD). pose proof (fnum_nonneg w HW z' HD').
  assert (B : (2 ^ (Z.of_nat w - 1) <=? z) = false) by (apply Z.leb_gt; destruct Hz as [Hz|Hz]; [exact Hz|]; destruct (Z.leb_spec (2 ^ (Z.of_nat w - 1)) z); lia).
  assert (B' : (2 ^ (Z.of_nat w - 1) <=? z') = false) by (apply Z.leb_gt; destruct Hz' as [Hz'|Hz']; [exact Hz'|]; destruct (Z.leb_spec (2 ^ (Z.of_nat w - 1)) z'); lia).
  rewrite B in *. rewrite B' in *. rewrite S, S'. unfold fsign. f_equal. apply (magval_inj w HW); auto. rewrite !fnum_magval in *. pose proof (low_range w HW). assert (0 < 2 ^ low_exp w) by (apply Z.pow_pos_nonneg; lia). nia.
Qed.
Lemma conv_plus b w k : (1 <= b <= 32)%nat -> float_width w -> 0 <= k < 2 ^ Z.of_nat b -> conv (view_dtype b) (DFloat w) k < 2 ^ (Z.of_nat w - 1).
Proof.
  intros Hb HW Hk. destruct (view_facts b k Hb Hk) as (V1 & V2 & V3). assert (NF : is_float (view_dtype b) = false) by (rewrite <- view_dtype_eq; unfold unpack_dtype; destruct (_ =? _)%nat; [reflexivity|]; destruct (_ <=? _)%nat; reflexivity).
  assert (EC : conv (view_dtype b) (DFloat w) k = fsign w (k <? 0) + round_mag w (Z.abs k * 2 ^ 1074)).
  { unfold conv, dtype_eqb. destruct (dtype_eq_dec _ _) as [E|_]; [rewrite E in NF; discriminate|]. destruct (view_dtype b); try discriminate; reflexivity. }
  rewrite EC. assert (k <? 0 = false) as -> by (apply Z.ltb_ge; lia). pose proof U_pos. pose proof (round_le w (Z.abs k * 2 ^ 1074) ltac:(apply Z.mul_nonneg_nonneg; lia) HW) as RL.
  pose proof (sign_bit w false _ HW RL) as SB. now apply Z.leb_gt in SB.
Qed.

(** ** Whole instances *)
Lemma map_Forall2 {X Y} (R : X -> Y -> Prop) (f : X -> Y) l : (forall x, In x l -> R x (f x)) -> Forall2 R l (map f l).
Proof. induction l as [|x l IH]; intros H; cbn; constructor; [apply H; now left|apply IH; intros; apply H; now right]. Qed.
Lemma related_both :
  (forall d f s v, agg_d d = Some f -> good_field f -> loose_v s d v -> Forall (fun a => standard (adtype a) /\ Forall (in_dtype (adtype a)) (adata a)) (arrays_v v) ->
     let u := map_bits_v (fun _ b => view_dtype b) (fun _ z => z) (uint_d d) (uint_v v) in
     leafwise_v unpacked_leaf d v u /\ leafwise_v original_leaf d v (restore_v d u) /\ conforms_v d (restore_v d u) /\ has_v s d (restore_v d u)) /\
  (forall c fs s o, agg_c c = Some fs -> good_class fs -> loose s c o -> proper o ->
     let u := low_bits (uint_c c) (uint_o o) in
     leafwise unpacked_leaf c o u /\ leafwise original_leaf c o (restore c u) /\ conforms c (restore c u) /\ has_batch s c (restore c u)).
Proof.
  apply desc_class_ind.
  - intros dt ish [b|] pb fill f s [a|o] E HG HL HP; try contradiction; try discriminate. cbn in E. injection E as <-. cbn [good_field loose_v arrays_v] in *. destruct HL as [HW HS]. apply Forall_inv in HP. destruct HP as [HS1 HD]. rewrite Forall_forall in HD.
    cbn [uint_d uint_v map_bits_v leafwise_v restore_v conforms_v has_v]. unfold unpacked_leaf, original_leaf, a_conv. cbn [adtype ashape adata]. rewrite !map_map.
    split; [|split; [|split]].
    + repeat split. apply map_Forall2. intros z Hz. apply conv_kept; auto.
    + repeat split. apply map_Forall2. intros z Hz. eexists. split; [apply conv_kept; auto|reflexivity].
    + split; [reflexivity|]. rewrite map_length. exact HW.
    + exact HS.
  - intros c IH [|k s'] f s [a|o] E HG HL HP; try contradiction; cbn [agg_d] in E; try discriminate. destruct (agg_c c) as [fs|] eqn:EC; [|discriminate]. injection E as <-.
    cbn [good_field loose_v arrays_v uint_d uint_v map_bits_v leafwise_v restore_v conforms_v has_v] in *. exact (IH fs _ o eq_refl HG HL HP).
  - intros fs s [|] E HG HL HP; [|contradiction]. cbn. auto.
  - intros n d IHd r IHr fs s [|m v q] E HG HL HP; [contradiction|]. cbn [agg_c] in E. destruct (agg_d d) as [f|] eqn:ED; [|discriminate]. destruct (agg_c r) as [fr|] eqn:ER; [|discriminate]. injection E as <-.
    cbn [good_class loose] in *. destruct HG as (_ & G2 & G3), HL as (<- & L1 & L2). unfold proper in HP. cbn [arrays] in HP. apply Forall_app in HP. destruct HP as [P1 P2].
    destruct (IHd f s v eq_refl G2 L1 P1) as (A1 & A2 & A3 & A4). destruct (IHr fr s q eq_refl G3 L2 P2) as (B1 & B2 & B3 & B4). unfold low_bits in *. cbn [uint_c uint_o map_bits leafwise restore conforms has_batch]. tauto.
Qed.
(** [x.packed], for an instance of any dtypes (validated or not): a batch of the Packed class
    with the batch shape of [x], the same from every backend; [.unpacked] holds at every place the
    integer part of the entry of [x] modulo 2^bits in the default dtype, and [.as_original()] that
    number converted to the declared dtype *)
Theorem C81_pack : forall c fs B o be, packable_any c fs -> loose B c o -> proper o -> backend_ok be (prod B) (word_count fs) ->
  exists p u o', pack_any be c o = Some p /\ batched (packed_class (class_bits fs)) B p /\
    unpack_obj c p = Some u /\ leafwise unpacked_leaf c o u /\
    original_any c p = Some o' /\ batched c B o' /\ leafwise original_leaf c o o'.
Proof.
  intros c fs B o be HP HL HD HB. destruct (C43_pack (uint_c c) fs B (uint_o o) be (packable_uint c fs HP) (uint_batched c B o HL) HB) as (p & E & HPB & EU & _).
  destruct HP as (HA & HG & _). destruct (proj2 related_both c fs B o HA HG HL HD) as (R1 & R2 & R3 & R4). rewrite uint_unpack in EU.
  exists p, (low_bits (uint_c c) (uint_o o)), (restore c (low_bits (uint_c c) (uint_o o))). rewrite pack_any_uint. unfold original_any. rewrite EU. cbn [option_map]. repeat split; auto; try apply HPB.
Qed.
Theorem C81_backends : forall c fs B o be be', packable_any c fs -> loose B c o ->
  backend_ok be (prod B) (word_count fs) -> backend_ok be' (prod B) (word_count fs) -> pack_any be c o = pack_any be' c o.
Proof.
  intros c fs B o be be' HP HL H1 H2. rewrite !pack_any_uint. exact (C43_backends _ _ _ _ _ _ (packable_uint c fs HP) (uint_batched c B o HL) H1 H2).
Qed.
(** packing is element-wise *)
Lemma uint_elem : forall b B,
  (forall d v J, loose_v (B ++ J) d v -> inb b B -> uint_v (elem_v b v) = elem_v b (uint_v v)) /\ (forall c o J, loose (B ++ J) c o -> inb b B -> uint_o (elem b o) = elem b (uint_o o)).
Proof.
  intros b B. apply desc_class_ind.
  - intros dt ish bits pb fill [a|o] J H Hb; [|destruct H]. cbn [uint_v elem_v]. f_equal. unfold a_conv, sub, build. cbn [adtype ashape adata]. f_equal. rewrite map_map. apply map_ext. intros k. symmetry.
    unfold get. cbn [ashape adata]. assert (E0 : conv (adtype a) (DUInt 32) 0 = 0).
    { unfold conv. destruct (dtype_eqb _ _); [reflexivity|]. destruct (adtype a) as [| | |w]; try reflexivity. unfold fnum, fmag. cbv zeta. rewrite !Zmod_0_l, !Zdiv_0_l, ?Zmod_0_l. cbn [Z.eqb]. destruct (_ <=? _); reflexivity. }
    rewrite <- E0 at 1. apply map_nth.
  - intros c IH ish [a|o] J H Hb; [destruct H|]. cbn [uint_v elem_v loose_v] in *. f_equal. rewrite <- app_assoc in H. now apply (IH o (J ++ ish)%list).
  - intros [|] J H Hb; [reflexivity|destruct H].
  - intros n d IHd r IHr [|m v q] J H Hb; [destruct H|]. cbn [loose uint_o elem] in *. destruct H as (_ & H1 & H2). f_equal; [now apply (IHd v J)|now apply (IHr q J)].
Qed.
Theorem C81_elements : forall c fs B o be be' p b, packable_any c fs -> loose B c o -> backend_ok be (prod B) (word_count fs) -> backend_ok be' 1 (word_count fs) ->
  pack_any be c o = Some p -> inb b B -> pack_any be' c (elem b o) = Some (elem b p).
Proof.
  intros c fs B o be be' p b HP HL H1 H2 HK Hb. rewrite pack_any_uint in *. rewrite (proj2 (uint_elem b B) c o []) by (rewrite ?app_nil_r; assumption).
  exact (C43_elements _ _ _ _ _ _ _ _ (packable_uint c fs HP) (uint_batched c B o HL) H1 H2 HK Hb).
Qed.

(** ** What survives *)
(** every entry is a whole number in 0 .. 2^bits - 1 (and no float is a negative zero) *)
Definition whole_entry (dt : dtype) (b : nat) (z : Z) : Prop :=
  (exists n, 0 <= n < 2 ^ Z.of_nat b /\ represents dt z (n * 2 ^ 1074)) /\ (forall w, dt = DFloat w -> z <> 2 ^ (Z.of_nat w - 1)).
Definition whole (c : class) (o : obj) : Prop := leafwise (fun dt b a _ => adtype a = dt /\ Forall (whole_entry dt b) (adata a)) c o o.
(** the declared dtype of every leaf has all whole numbers of its bits *)
Definition roomy (c : class) (o : obj) : Prop :=
  leafwise (fun dt b _ _ => forall n, 0 <= n < 2 ^ Z.of_nat b -> exists z, in_dtype dt z /\ represents dt z (n * 2 ^ 1074)) c o o.
Lemma neg_zero w z : float_width w -> in_dtype (DFloat w) z -> represents (DFloat w) z 0 -> z = 0 \/ z = 2 ^ (Z.of_nat w - 1).
Proof.
  intros HW HD HR. apply (represents_float w HW _ _ HD) in HR. destruct HR as [_ E]. destruct (pattern_split w HW z HD) as [S K]. assert (E0 : fnum w z = 0) by (destruct (_ <=? _); lia).
  rewrite fnum_magval in E0. pose proof (low_range w HW). assert (0 < 2 ^ low_exp w) by (apply Z.pow_pos_nonneg; lia). assert (EM : magval w (fmag w z) = 0) by nia. assert (fmag w z = 0) as EF.
  { apply (magval_inj w HW); [exact K|lia|]. rewrite EM. unfold magval, fmagval. now rewrite Zdiv_0_l, Zmod_0_l. }
  rewrite EF in S. unfold fsign in S. destruct (_ <=? _); lia.
Qed.
Lemma entry_survives dt b z : standard dt -> in_dtype dt z -> (1 <= b <= 32)%nat -> whole_entry dt b z -> conv (view_dtype b) dt (conv dt (DUInt 32) z mod 2 ^ Z.of_nat b) = z.
Proof.
  intros HS HD Hb ((n & Hn & HR) & HZ). destruct (kept_back dt b z n HS HD Hb Hn HR) as (-> & HR' & HD'). pose proof U_pos as HU. destruct (is_float dt) eqn:FD.
  - destruct dt as [|w|w|w]; try discriminate. cbn [standard] in HS. specialize (HZ w eq_refl). apply (same_pattern w _ _ (n * 2 ^ 1074) HS); auto; [nia|left; now apply conv_plus|].
    assert (n = 0 \/ 0 < n) as [-> |L] by lia; [|right; nia]. left. destruct (neg_zero w z HS HD HR) as [-> | ->]; [apply Z.pow_pos_nonneg; destruct HS as [-> |[-> | ->]]; lia|congruence].
  - assert (E1 : n * 2 ^ 1074 = z * 2 ^ 1074) by (destruct dt; try discriminate; exact HR). assert (E2 : n * 2 ^ 1074 = conv (view_dtype b) dt n * 2 ^ 1074) by (destruct dt; try discriminate; exact HR').
    apply Z.mul_reg_r in E1; [|lia]. apply Z.mul_reg_r in E2; [|lia]. congruence.
Qed.
Lemma entry_only dt b z : standard dt -> in_dtype dt z -> (1 <= b <= 32)%nat -> (forall n, 0 <= n < 2 ^ Z.of_nat b -> exists z, in_dtype dt z /\ represents dt z (n * 2 ^ 1074)) ->
  conv (view_dtype b) dt (conv dt (DUInt 32) z mod 2 ^ Z.of_nat b) = z -> whole_entry dt b z.
Proof.
  intros HS HD Hb HR E. set (n := conv dt (DUInt 32) z mod 2 ^ Z.of_nat b) in *. assert (Hn : 0 <= n < 2 ^ Z.of_nat b) by (apply Z.mod_pos_bound, Z.pow_pos_nonneg; lia). destruct (view_facts b n Hb Hn) as (V1 & V2 & V3). split.
  - exists n. split; [exact Hn|]. rewrite <- E. apply C72_exact; auto.
  - intros w ->. cbn [standard] in HS. pose proof (conv_plus b w n Hb HS Hn). rewrite <- E. lia.
Qed.
Lemma survive_both :
  (forall d f s v, agg_d d = Some f -> good_field f -> conforms_v d v -> has_v s d v -> Forall (fun a => standard (adtype a) /\ Forall (in_dtype (adtype a)) (adata a)) (arrays_v v) ->
     let u := restore_v d (map_bits_v (fun _ b => view_dtype b) (fun _ z => z) (uint_d d) (uint_v v)) in
     (leafwise_v (fun dt b a _ => adtype a = dt /\ Forall (whole_entry dt b) (adata a)) d v v -> u = v) /\
     (leafwise_v (fun dt b _ _ => forall n, 0 <= n < 2 ^ Z.of_nat b -> exists z, in_dtype dt z /\ represents dt z (n * 2 ^ 1074)) d v v -> u = v -> leafwise_v (fun dt b a _ => adtype a = dt /\ Forall (whole_entry dt b) (adata a)) d v v)) /\
  (forall c fs s o, agg_c c = Some fs -> good_class fs -> conforms c o -> has_batch s c o -> proper o ->
     let u := restore c (low_bits (uint_c c) (uint_o o)) in
     (whole c o -> u = o) /\ (roomy c o -> u = o -> whole c o)).
Proof.
  apply desc_class_ind.
  - intros dt ish [b|] pb fill f s [[dt' sh data]|o] E HG HC HB HP; try contradiction; try discriminate. cbn in E. injection E as <-. cbn [good_field conforms_v has_v arrays_v adtype ashape adata] in *. apply Forall_inv in HP. cbn [adtype adata] in HP. destruct HP as [HS HD]. destruct HC as [-> HL]. rewrite Forall_forall in HD.
    cbn [uint_d uint_v map_bits_v leafwise_v restore_v a_conv adtype ashape adata]. unfold a_conv. cbn [adtype ashape adata]. rewrite !map_map. split.
    + intros [_ HW]. rewrite Forall_forall in HW. do 2 f_equal. transitivity (map (fun z => z) data); [|apply map_id]. apply map_ext_in. intros z Hz. apply entry_survives; auto.
    + intros HR EQ. split; [reflexivity|]. injection EQ as EQ. apply Forall_forall. intros z Hz. apply entry_only; auto.
      assert (K : forall l, map (fun x => conv (view_dtype b) dt (conv dt (DUInt 32) x mod 2 ^ Z.of_nat b)) l = l -> In z l -> conv (view_dtype b) dt (conv dt (DUInt 32) z mod 2 ^ Z.of_nat b) = z).
      { clear. induction l as [|y l IH]; intros E H; [destruct H|]. injection E as E1 E2. destruct H as [<- |H]; auto. }
      now apply (K data).
  - intros c IH [|k s'] f s [a|o] E HG HC HB HP; try contradiction; cbn [agg_d] in E; try discriminate. destruct (agg_c c) as [fs|] eqn:EC; [|discriminate]. injection E as <-.
    cbn [good_field conforms_v has_v arrays_v uint_d uint_v map_bits_v leafwise_v restore_v] in *. destruct (IH fs _ o eq_refl HG HC HB HP) as [A1 A2]. cbv zeta in A1, A2. split; [intros HW; f_equal; now apply A1|intros HR EQ; injection EQ as EQ; now apply A2].
  - intros fs s [|] E HG HC HB HP; [|contradiction]. cbn. split; auto.
  - intros n d IHd r IHr fs s [|m v q] E HG HC HB HP; [contradiction|]. cbn [agg_c] in E. destruct (agg_d d) as [f|] eqn:ED; [|discriminate]. destruct (agg_c r) as [fr|] eqn:ER; [|discriminate]. injection E as <-.
    cbn [good_class conforms has_batch] in *. destruct HG as (_ & G2 & G3), HC as (<- & C1 & C2), HB as (_ & B1 & B2). unfold proper in HP. cbn [arrays] in HP. apply Forall_app in HP. destruct HP as [P1 P2].
    destruct (IHd f s v eq_refl G2 C1 B1 P1) as [A1 A2]. destruct (IHr fr s q eq_refl G3 C2 B2 P2) as [D1 D2]. cbv zeta in A1, A2, D1, D2. unfold low_bits, whole, roomy in *. cbn [uint_c uint_o map_bits leafwise restore]. split.
    + intros (_ & _ & W1 & W2). f_equal; auto.
    + intros (_ & _ & W1 & W2) EQ. injection EQ as E1 E2. repeat split; auto.
Qed.
(** [.packed] then [.as_original()] gives the instance back, bit for bit, when every entry is a
    whole number that fits its bits - and, where the declared dtype has all those numbers, only
    then: fractions, negative numbers, NaN, infinities and negative zeros are all lost *)
Theorem C81_survives : forall c fs B o be p, packable_any c fs -> batched c B o -> proper o -> backend_ok be (prod B) (word_count fs) -> pack_any be c o = Some p ->
  (whole c o -> original_any c p = Some o) /\ (roomy c o -> original_any c p = Some o -> whole c o).
Proof.
  intros c fs B o be p HP [HC HB] HD HBE HK. pose proof (proj2 loose_batched_both c B o HC HB) as HL.
  destruct (C43_pack (uint_c c) fs B (uint_o o) be (packable_uint c fs HP) (uint_batched c B o HL) HBE) as (p' & E & _ & EU & _). rewrite <- pack_any_uint, HK in E. injection E as <-. rewrite uint_unpack in EU.
  unfold original_any. rewrite EU. cbn [option_map]. destruct HP as (HA & HG & _). destruct (proj2 survive_both c fs B o HA HG HC HB HD) as [S1 S2]. cbv zeta in S1, S2. split.
  - intros HW. now rewrite S1.
  - intros HR EQ. injection EQ as EQ. now apply S2.
Qed.
(** boolean and integer leaves: the packing of property C43 *)
Lemma same_both :
  (forall d v s, no_floats_d d -> conforms_v d v -> has_v s d v -> Forall (fun a => standard (adtype a) /\ Forall (in_dtype (adtype a)) (adata a)) (arrays_v v) ->
     forall p, match get_path_v v p, get_path_v (uint_v v) p with Some (VArr a), Some (VArr a') => ashape a' = ashape a /\ map u32 (adata a') = map u32 (adata a) | None, None => True | Some (VObj _), Some (VObj _) => True | _, _ => False end) /\
  (forall c o s, no_floats c -> conforms c o -> has_batch s c o -> proper o ->
     forall n p, match get_path_v (VObj o) (n :: p), get_path_v (VObj (uint_o o)) (n :: p) with Some (VArr a), Some (VArr a') => ashape a' = ashape a /\ map u32 (adata a') = map u32 (adata a) | None, None => True | Some (VObj _), Some (VObj _) => True | _, _ => False end).
Proof.
  apply desc_class_ind.
  - intros dt ish bits pb fill [a|o] s HF HC HB HP p; [|destruct HC]. destruct p as [|n p]; [|exact I]. cbn [get_path_v uint_v a_conv ashape adata]. split; [reflexivity|]. rewrite map_map. apply map_ext_in. intros z Hz.
    cbn [arrays_v] in HP. apply Forall_inv in HP. destruct HP as [HS HD]. rewrite Forall_forall in HD. specialize (HD z Hz). cbn in HC. destruct HC as [EA _]. rewrite EA in *.
    assert (FD : is_float dt = false) by (destruct dt; cbn in HF; try reflexivity; destruct HF). destruct (C72_integers dt (DUInt 32) z ltac:(cbn; auto) FD eq_refl HD) as [K1 K2]. unfold u32. f_equal. exact K2.
  - intros c IH ish [a|o] s HF HC HB HP p; [destruct HC|]. destruct p as [|n p]; [exact I|]. cbn [no_floats_d conforms_v has_v arrays_v uint_v] in *. exact (IH o _ HF HC HB HP n p).
  - intros [|] s HF HC HB HP n p; [exact I|destruct HC].
  - intros n d IHd r IHr [|m v q] s HF HC HB HP k p; [destruct HC|]. cbn [no_floats conforms has_batch] in *. destruct HF as [F1 F2], HC as (<- & C1 & C2), HB as (_ & B1 & B2). unfold proper in HP. cbn [arrays] in HP. apply Forall_app in HP. destruct HP as [P1 P2].
    cbn [get_path_v get_attr_o uint_o]. destruct (String.eqb k n); [exact (IHd v s F1 C1 B1 P1 p)|]. exact (IHr q s F2 C2 B2 P2 k p).
Qed.
Theorem C81_integers : forall c fs B o be, packable c fs -> batched c B o -> proper o -> pack_any be c o = pack_obj be c o.
Proof.
  intros c fs B o be HP [HC HB] HD. rewrite pack_any_uint. unfold pack_obj. rewrite (proj2 agg_uint), uint_get_batch. destruct HP as (HA & HG & _ & _ & _ & HF). rewrite HA. destruct (get_batch c o) as [[|B']|]; try reflexivity.
  assert (EL : forall n s, leaf_rows n (uint_o o) s = leaf_rows n o s).
  { intros n s. unfold leaf_rows. destruct (lpath s) as [|k p]; [reflexivity|]. pose proof (proj2 same_both c o B HF HC HB HD k p) as K.
    destruct (get_path_v (VObj o) (k :: p)) as [[a|q]|], (get_path_v (VObj (uint_o o)) (k :: p)) as [[a'|q']|]; try contradiction; try reflexivity. destruct K as [-> ->]. reflexivity. }
  destruct (agg_spec fs) as [specs total]. destruct (word_tail_layout total) as [[nw st] tl]. cbv zeta. rewrite (map_ext (leaf_rows (prod B') (uint_o o)) (leaf_rows (prod B') o)) by apply EL. reflexivity.
Qed.

(** ** A case: a float32 level of 4 bits and a bool flag, batch shape (3) *)
Definition demo_float : class := CCons "level" (Prim (DFloat 32) [] (Some 4%nat) false 0x7F800000) (CCons "on" (Prim DBool [] (Some 1%nat) false 0) CNil).
Definition demo_float_fields : fields := FCons "level" (Leaf 4 1) (FCons "on" (Leaf 1 1) FNil).
Definition demo_levels (l : list Z) : obj := OCons "level" (VArr (MkArr (DFloat 32) [3%nat] l)) (OCons "on" (VArr (MkArr DBool [3%nat] [1; 0; 1])) ONil).
(** 0.0, 2.0, 15.0; 0.5, 2.75, 15.0: 0, 2, 15 *)
Example C81_case : packable_any demo_float demo_float_fields /\ batched demo_float [3%nat] (demo_levels [0; 0x40000000; 0x41700000]) /\ proper (demo_levels [0; 0x40000000; 0x41700000]) /\
  (exists p, pack_any PackXla demo_float (demo_levels [0; 0x40000000; 0x41700000]) = Some p /\ original_any demo_float p = Some (demo_levels [0; 0x40000000; 0x41700000]) /\
             pack_any PackXla demo_float (demo_levels [0x3F000000; 0x40300000; 0x41700000]) = Some p).
Proof.
  split; [split; [reflexivity|]; split; [cbn; intuition (lia || discriminate)|]; split; [vm_compute; reflexivity|]; split; [discriminate|]; cbn; repeat split; discriminate|].
  split; [split; cbn; repeat split|]. split.
  - constructor; [split; [cbn; unfold float_width; auto|]; repeat (constructor; [cbn; lia|]); constructor|]. constructor; [split; [exact I|]; repeat constructor; cbn; lia|constructor].
  - eexists. split; [vm_compute; reflexivity|]. split; [vm_compute; reflexivity|]. vm_compute. reflexivity.
Qed.
(** fractions do not come back *)
Theorem C81_fraction_lost : exists p, pack_any PackXla demo_float (demo_levels [0x3F000000; 0x40300000; 0x41700000]) = Some p /\
  original_any demo_float p = Some (demo_levels [0; 0x40000000; 0x41700000]).
Proof. eexists. split; [vm_compute; reflexivity|]. vm_compute. reflexivity. Qed.
