(** * PropPackedField2.v — property C51: the numbers a packed field holds, whatever the dtype of
    the assigned array and of the field. *)
From Coq Require Import String.
From Verif Require Import Jax HashModel BitpackModel StructModel ArrayModel ArrayFacts ShapeModel PropShape RowsModel RowsLift PropRows AggModel IOModel PropIO EqModel PropEq FloatEq PromoteModel PropSafeCast FloatRound PropPromote PackedFieldModel PropPackedField.
Local Open Scope Z_scope.

Lemma value_zero F M L : 0 <= F -> 0 < M -> 0 < L ->
  (F = 0 <-> (if F / M =? 0 then F mod M else (M + F mod M) * 2 ^ (F / M - 1)) * L = 0).
Proof.
  intros H0 HM HL. pose proof (Z.div_mod F M ltac:(lia)) as DM. pose proof (Z.mod_pos_bound F M HM) as MB. pose proof (Z.div_pos F M H0 HM) as DP.
  set (e := F / M) in *. set (m := F mod M) in *. clearbody e m. subst F. split.
  - intros E. assert (e = 0) by nia. subst e. assert (m = 0) by lia. subst m. reflexivity.
  - intros E. destruct (Z.eqb_spec e 0) as [->|NE].
    + assert (m = 0) by nia. subst m. lia.
    + exfalso. assert (0 < 2 ^ (e - 1)) by (apply Z.pow_pos_nonneg; lia). assert (0 < (M + m) * 2 ^ (e - 1)) by (apply Z.mul_pos_pos; lia). nia.
Qed.
Lemma fnum_zero w z : float_width w -> in_dtype (DFloat w) z -> (fmag w z = 0 <-> fnum w z = 0).
Proof.
  intros HW HD. apply value_zero; [now apply (pattern_split w HW z HD)|destruct HW as [->|[-> | ->]]; vm_compute; reflexivity|].
  destruct HW as [->|[-> | ->]]; apply Z.pow_pos_nonneg; vm_compute; congruence.
Qed.
Lemma stored_number dt bits z k : standard dt -> in_dtype dt z -> represents dt z (k * 2 ^ 1074) -> 0 <= k < 2 ^ Z.of_nat bits -> (1 <= bits)%nat -> stored dt bits z = k.
Proof.
  intros HS HD HR HK HB. assert (HP : 0 < 2 ^ 1074) by (apply Z.pow_pos_nonneg; lia).
  assert (K : whole dt z = k /\ (is_zero dt z = true <-> k = 0)).
  { destruct dt as [|w|w|w]; cbn [represents whole is_zero] in *; try (assert (z = k) by (apply Z.mul_cancel_r in HR; lia); subst z; split; [reflexivity|apply Z.eqb_eq]).
    cbn [standard] in HS. apply (represents_float w HS z _ HD) in HR. destruct HR as [_ HR]. pose proof (fnum_nonneg w HS z HD) as FN. rewrite Z.eqb_eq, (fnum_zero w z HS HD).
    assert (E : fnum w z = k * 2 ^ 1074).
    { generalize dependent (2 ^ 1074). intros P HR HP. destruct (_ <=? z); [assert (k * P >= 0) by (apply Z.le_ge, Z.mul_nonneg_nonneg; lia); lia|lia]. }
    rewrite E. split; [apply Z.div_mul; lia|]. generalize dependent (2 ^ 1074). intros P _ HP _. nia. }
  destruct K as [K1 K2]. unfold stored. destruct (Nat.eqb_spec bits 1) as [->|NB].
  - change (2 ^ Z.of_nat 1) with 2 in HK. destruct (is_zero dt z); [symmetry; now apply K2|]. assert (k <> 0) by (intros E; apply K2 in E; discriminate). lia.
  - rewrite K1. now apply Z.mod_small.
Qed.
Lemma loaded_standard bits : standard (loaded_dtype bits).
Proof. unfold loaded_dtype. destruct (bits =? 1)%nat; [exact Logic.I|]. destruct (bits <=? 8)%nat; cbn; auto. Qed.
Lemma loaded_holds bits k : (1 <= bits <= 32)%nat -> 0 <= k < 2 ^ Z.of_nat bits -> in_dtype (loaded_dtype bits) k /\ represents (loaded_dtype bits) k (k * 2 ^ 1074).
Proof.
  intros HB HK. unfold loaded_dtype. destruct (Nat.eqb_spec bits 1) as [->|N1].
  - change (2 ^ Z.of_nat 1) with 2 in HK. split; [cbn; lia|reflexivity].
  - destruct (Nat.leb_spec bits 8); (split; [|reflexivity]); cbn [in_dtype].
    + assert (2 ^ Z.of_nat bits <= 2 ^ Z.of_nat 8) by (apply Z.pow_le_mono_r; lia). lia.
    + assert (2 ^ Z.of_nat bits <= 2 ^ Z.of_nat 32) by (apply Z.pow_le_mono_r; lia). lia.
Qed.

(** after an assignment the accessor shows, at every position, the very number assigned there,
    if that is a whole number that fits the field's bits and the field's dtype has it *)
Theorem C51_set_number : forall c pk B o kwargs n v p, c <> CNil -> solid c -> batched c B o -> NoDup (map fst kwargs) -> good_args c pk B kwargs ->
  In (n, v) kwargs -> pk n = Some p -> standard (adtype v) -> standard (p_dtype p) ->
  exists o' a, set_unpacked c pk o kwargs = Some o' /\ get_unpacked c pk o' n = Some a /\ adtype a = p_dtype p /\ ashape a = ashape v /\
    forall b k, inb b (ashape v) -> represents (adtype v) (get v b) (k * 2 ^ 1074) -> 0 <= k < 2 ^ Z.of_nat (p_bits p) ->
      (exists z, in_dtype (p_dtype p) z /\ represents (p_dtype p) z (k * 2 ^ 1074)) -> represents (p_dtype p) (get a b) (k * 2 ^ 1074).
Proof.
  intros c pk B o kwargs n v p HN HS HO ND HG Hin Hp SV SP. destruct (C51_set c pk B o kwargs HN HS HO ND HG) as (o' & E & _ & K & _).
  exists o', (shown p v). split; [exact E|]. split; [exact (K n v p Hin Hp)|]. split; [reflexivity|]. split; [reflexivity|].
  intros b k Hb HR HK HE. pose proof (proj1 (Forall_forall _ _) HG (n, v) Hin) as (p' & HP & (_ & W & _ & HI)). cbn [fst snd] in *.
  assert (p' = p) by (destruct HP; congruence). subst p'. destruct HP as (_ & _ & HB & _).
  assert (HD : in_dtype (adtype v) (get v b)).
  { unfold get. rewrite Forall_forall in HI. apply HI, nth_In. rewrite W. now apply ravel_lt. }
  assert (EG : get (shown p v) b = conv (loaded_dtype (p_bits p)) (p_dtype p) (stored (adtype v) (p_bits p) (get v b))).
  { unfold get, shown. cbn [ashape adata]. rewrite (nth_indep _ 0 (conv (loaded_dtype (p_bits p)) (p_dtype p) (stored (adtype v) (p_bits p) 0))) by (rewrite map_length, W; now apply ravel_lt).
    exact (map_nth (fun z => conv (loaded_dtype (p_bits p)) (p_dtype p) (stored (adtype v) (p_bits p) z)) _ 0 _). }
  rewrite EG, (stored_number _ _ _ k SV HD HR HK) by lia. destruct (loaded_holds (p_bits p) k HB HK) as [L1 L2].
  exact (C72_exact _ _ k _ (loaded_standard (p_bits p)) SP L1 L2 HE).
Qed.

(** ** Example: float values, and a float field of three bits *)
Definition ex_fp : pinfo := MkP 3 (DFloat 32) [2%nat].
Definition ex_fc : class := CCons "x" (Prim (DUInt 8) [p_len ex_fp] None true 0) CNil.
Definition ex_fpk (n : string) : option pinfo := if String.eqb n "x" then Some ex_fp else None.
(** 0.0, 2.5, 7.0 and 9.0 *)
Definition ex_fv : array := MkArr (DFloat 32) [2; 2]%nat [0; 1075838976; 1088421888; 1091567616].
Example ex_float_field : packed_field ex_fc ex_fpk "x" ex_fp /\ solid ex_fc /\ batched ex_fc [2%nat] (default_obj [2%nat] ex_fc) /\
  good_args ex_fc ex_fpk [2%nat] [("x"%string, ex_fv)].
Proof.
  assert (HP : packed_field ex_fc ex_fpk "x" ex_fp) by (split; [reflexivity|]; split; [exists None, true, 0; reflexivity|]; cbn; lia).
  split; [exact HP|]. split; [cbn; auto|]. split; [exact (proj2 default_both ex_fc [2%nat])|].
  constructor; [|constructor]. exists ex_fp. split; [exact HP|]. split; [reflexivity|]. split; [reflexivity|]. split; [cbn; lia|]. cbn [snd ex_fv adtype adata].
  assert (D : forall z, (andb (andb (0 <=? z) (z <? 2 ^ 31)) (andb (fmag 32 z <? inf_pat 32) (whole (DFloat 32) z <? 2 ^ 32))) = true -> storable_value (DFloat 32) (p_bits ex_fp) z).
  { intros z H. rewrite !andb_true_iff, Z.leb_le, !Z.ltb_lt in H. split; [cbn [in_dtype]; change (Z.of_nat 32) with 32; lia|]. right. change (Z.of_nat 32 - 1) with 31. lia. }
  repeat (constructor; [apply D; vm_compute; reflexivity|]). constructor.
Qed.
(** 2.5 is read back as 2.0, 9.0 as 1.0 *)
Example ex_float_shown :
  option_map (fun o => get_unpacked ex_fc ex_fpk o "x") (set_unpacked ex_fc ex_fpk (default_obj [2%nat] ex_fc) [("x"%string, ex_fv)])
  = Some (Some (MkArr (DFloat 32) [2; 2]%nat [0; 1073741824; 1088421888; 1065353216])).
Proof. vm_compute. reflexivity. Qed.
Print Assumptions C51_set_number.
