(** * PropPromote.v — property C72: which dtype mixed arrays are brought to, and what the
    conversion of a number does. *)
From Coq Require Import String Permutation.
From Verif Require Import Jax StructModel ArrayModel ArrayFacts RowsModel EqModel FloatEq RowsModel2 PropRows7 CompareModel PropCompare PropSafeCast PromoteModel FloatRound.

(** ** Specification *)
(** the dtypes arrays can have: without x64 none of 64 bits *)
Definition available (x64 : bool) (dt : dtype) : Prop :=
  standard dt /\ (x64 = false -> dt <> DUInt 64 /\ dt <> DInt 64 /\ dt <> DFloat 64).
Definition is_signed (dt : dtype) : bool := match dt with DInt _ => true | _ => false end.

(** ** join *)
Lemma join_comm a b : join a b = join b a.
Proof.
  destruct a as [[|v|v|v]|], b as [[|w|w|w]|]; try reflexivity; cbn [join]; rewrite Nat.max_comm; reflexivity.
Qed.
Lemma ltb_max v w : (Nat.max v w <? 64) = (v <? 64) && (w <? 64).
Proof. destruct (Nat.ltb_spec (Nat.max v w) 64), (Nat.ltb_spec v 64), (Nat.ltb_spec w 64); cbn; try reflexivity; lia. Qed.
Lemma join_assoc a b c : join a (join b c) = join (join a b) c.
Proof.
  destruct a as [[|u|u|u]|], b as [[|v|v|v]|], c as [[|w|w|w]|]; try reflexivity; cbn [join]; rewrite ?ltb_max;
    repeat match goal with |- context [?x <? 64] => destruct (x <? 64) eqn:?; cbn [join andb] end; try reflexivity; rewrite ?ltb_max;
    repeat match goal with H : (?x <? 64) = _ |- _ => rewrite H end; cbn [andb join]; try reflexivity; try congruence; do 2 f_equal; lia.
Qed.
Lemma join_idem a : join a a = a.
Proof. destruct a as [[|v|v|v]|]; cbn [join]; rewrite ?Nat.max_id; reflexivity. Qed.
Definition total (l : list dtype) : node := fold_right join (Nd DBool) (map Nd l).
Lemma total_in d l : In d l -> join (Nd d) (total l) = total l.
Proof.
  induction l as [|e l IH]; [intros []|]. intros [-> |H]; cbn [total fold_right map]; fold (total l).
  - now rewrite join_assoc, join_idem.
  - rewrite join_assoc, (join_comm (Nd d)), <- join_assoc, IH by exact H. reflexivity.
Qed.
Lemma total_incl l l' : incl l l' -> join (total l) (total l') = total l'.
Proof.
  induction l as [|d l IH]; intros HI; [cbn [total fold_right map]; destruct (total l') as [[| | |]|]; reflexivity|].
  cbn [total fold_right map]. fold (total l). rewrite <- join_assoc, IH by (intros e He; apply HI; now right). apply total_in, HI. now left.
Qed.
(** the order of the arrays and repetitions do not matter *)
Theorem C72_order : forall x64 l l', (forall d, In d l <-> In d l') -> result_type x64 l = result_type x64 l'.
Proof.
  intros x64 l l' H. unfold result_type. fold (total l) (total l'). f_equal. rewrite <- (total_incl l' l) by (intros d Hd; now apply H). rewrite join_comm. apply total_incl. intros d Hd. now apply H.
Qed.
(** ** What the common dtype is *)
Definition attained (l : list dtype) (n : node) : Prop :=
  match n with
  | Nd DBool => True
  | Nd (DUInt w) => In (DUInt w) l
  | Nd (DInt w) => (exists s, In (DInt s) l) /\ (In (DInt w) l \/ exists v, In (DUInt v) l /\ w = 2 * v /\ v < 64)
  | Nd (DFloat w) => In (DFloat w) l
  | Fstar => (exists v, In (DUInt v) l /\ 64 <= v) /\ exists v, In (DInt v) l
  end.
Lemma attained_cons d l n : attained l n -> attained (d :: l) n.
Proof.
  destruct n as [[|w|w|w]|]; cbn [attained]; [auto|now right| |now right|].
  - intros [[s Hs] H]. split; [exists s; now right|]. destruct H as [H|(v & H & H')]; [left; now right|right; exists v; split; [now right|exact H']].
  - intros [(v & H & H') [s Hs]]. split; [exists v; split; [now right|exact H']|exists s; now right].
Qed.
Lemma total_attained l : attained l (total l).
Proof.
  induction l as [|d l IH]; [cbn; exact Coq.Init.Logic.I|]. cbn [total fold_right map]. fold (total l). apply (attained_cons d) in IH. assert (HD : In d (d :: l)) by now left. set (m := d :: l) in *. clearbody m.
  destruct d as [|v|v|v], (total l) as [[|u|u|u]|]; cbn [join attained] in *; try assumption; try (split; [now exists v|now left]).
  - destruct (Nat.max_spec v u) as [[_ ->]|[_ ->]]; assumption.
  - destruct IH as [I1 I2]. destruct (Nat.ltb_spec v 64) as [L|L]; cbn [attained]; [|split; [now exists v|exact I1]]. split; [exact I1|]. destruct (Nat.max_spec (2 * v) u) as [[_ ->]|[_ ->]]; [exact I2|right; exists v; auto].
  - destruct (Nat.ltb_spec u 64) as [L|L]; cbn [attained]; [|split; [now exists u|now exists v]]. split; [now exists v|]. destruct (Nat.max_spec (2 * u) v) as [[_ ->]|[_ ->]]; [now left|right; exists u; auto].
  - split; [now exists v|]. destruct IH as [I1 I2]. destruct (Nat.max_spec v u) as [[_ ->]|[_ ->]]; [exact I2|now left].
  - destruct (Nat.max_spec v u) as [[_ ->]|[_ ->]]; assumption.
Qed.
(** it has floats exactly when an input does, or uint64 meets a signed dtype *)
Theorem C72_float_when : forall x64 l, Forall (available x64) l ->
  (is_float (result_type x64 l) = true <-> (exists v, In (DFloat v) l) \/ (In (DUInt 64) l /\ exists v, In (DInt v) l)).
Proof.
  intros x64 l HA. unfold result_type. fold (total l). pose proof (total_attained l) as HT. assert (HI : forall d, In d l -> join (Nd d) (total l) = total l) by (intros d; apply total_in). rewrite Forall_forall in HA. split.
  - intros HF. destruct (total l) as [[|w|w|w]|]; cbn [canon] in HF; try (destruct x64; [discriminate|]; cbn in HF; destruct (w =? 64); discriminate); [destruct x64; discriminate|left; now exists w|]. right. destruct HT as [(v & H1 & H2) H3]. split; [|exact H3].
    specialize (HA _ H1). destruct HA as [HS _]. cbn [standard] in HS. replace 64 with v by lia. exact H1.
  - intros H. assert (K : total l = Fstar \/ exists w, total l = Nd (DFloat w)).
    { destruct H as [[v H]|[H1 [v H2]]].
      - apply HI in H. destruct (total l) as [[|w|w|w]|]; cbn [join] in H; try discriminate. right. now exists w.
      - apply HI in H1, H2. destruct (total l) as [[|w|w|w]|]; cbn [join] in H1, H2; [discriminate|destruct (w <? 64); discriminate|change (64 <? 64) with false in H1; discriminate|right; now exists w|now left]. }
    destruct K as [-> |[w ->]]; cbn [canon]; [destruct x64; reflexivity|]. destruct x64; [reflexivity|]. cbn. destruct (w =? 64); reflexivity.
Qed.
(** and then it is the widest of them *)
Theorem C72_widest : forall x64 l, Forall (available x64) l -> (exists v, In (DFloat v) l) ->
  exists w, result_type x64 l = DFloat w /\ In (DFloat w) l /\ forall v, In (DFloat v) l -> v <= w.
Proof.
  intros x64 l HA [v HV]. unfold result_type. fold (total l). pose proof (total_attained l) as HT. assert (HI : forall d, In d l -> join (Nd d) (total l) = total l) by (intros d; apply total_in). rewrite Forall_forall in HA.
  pose proof (HI _ HV) as H. destruct (total l) as [[|w|w|w]|]; cbn [join] in H; try discriminate. exists w. cbn [attained] in HT. specialize (HA _ HT). destruct HA as [_ HX]. split.
  - cbn [canon]. destruct x64; [reflexivity|]. destruct (Nat.eqb_spec w 64) as [-> |]; [|reflexivity]. destruct (HX eq_refl) as (_ & _ & K). congruence.
  - split; [exact HT|]. intros u HU. apply HI in HU. cbn [join] in HU. injection HU as HU. lia.
Qed.
Lemma std_width w : w = 8 \/ w = 16 \/ w = 32 \/ w = 64 -> 8 <= w <= 64.
Proof. lia. Qed.
Lemma safe_keeps f t : standard f -> standard t -> (t = DFloat 64 -> f <> DInt 64 /\ f <> DUInt 64) -> safe_cast f t = true -> keeps_numbers f t.
Proof. intros Hf Ht HX HS. now apply C70_safe_rule. Qed.
(** the result is a dtype that exists *)
Theorem C72_available : forall x64 l, Forall (available x64) l -> available x64 (result_type x64 l).
Proof.
  intros x64 l HA. unfold result_type. fold (total l). pose proof (total_attained l) as HT. rewrite Forall_forall in HA.
  assert (HS : match total l with Nd d => standard d | Fstar => True end).
  { destruct (total l) as [[|w|w|w]|]; cbn [attained standard] in *; auto; try (apply HA in HT; exact (proj1 HT)). destruct HT as [_ [H|(v & H & -> & L)]]; apply HA in H; destruct H as [H _]; [exact H|]. cbn [standard] in H. lia. }
  destruct (total l) as [[|w|w|w]|]; cbn [canon] in *; destruct x64; unfold available; try (destruct (Nat.eqb_spec w 64)); cbn [standard] in *; unfold float_width in *; (split; [tauto|]); intros; repeat split; try discriminate; try congruence.
Qed.
(** every input's numbers are numbers of the result, except an integer dtype's under a float
    dtype, and uint32's under int32 without x64 *)
Theorem C72_upper : forall x64 l d, Forall (available x64) l -> In d l -> let t := result_type x64 l in
  keeps_numbers d t \/ (is_float d = false /\ is_float t = true) \/ (x64 = false /\ d = DUInt 32 /\ t = DInt 32 /\ exists v, In (DInt v) l).
Proof.
  intros x64 l d HA HD t. assert (At : available x64 t) by now apply C72_available. pose proof (total_attained l) as HT. pose proof (total_in d l HD) as HJ. assert (Ad : available x64 d) by (rewrite Forall_forall in HA; auto). rewrite Forall_forall in HA.
  assert (ET : t = canon x64 (total l)) by reflexivity. clearbody t. destruct Ad as [Sd Xd], At as [St Xt].
  destruct (is_float t) eqn:Ft.
  { destruct (is_float d) eqn:Fd; [|right; left; auto]. left. destruct d as [|v|v|v]; try discriminate. destruct (total l) as [[|w|w|w]|]; cbn [join] in HJ; try discriminate. injection HJ as HJ. cbn [attained] in HT. apply HA in HT. destruct HT as [_ HX].
    assert (t = DFloat w) as ->. { rewrite ET. cbn [canon]. destruct x64; [reflexivity|]. destruct (Nat.eqb_spec w 64) as [-> |]; [|reflexivity]. destruct (HX eq_refl) as (_ & _ & K). congruence. }
    apply safe_keeps; auto; [intros; split; discriminate|]. cbn [safe_cast]. apply Nat.leb_le. lia. }
  assert (KS : safe_cast d t = true -> keeps_numbers d t) by (intros; apply safe_keeps; auto; intros ->; discriminate).
  destruct d as [|v|v|v].
  - left. apply KS. reflexivity.
  - destruct (total l) as [[|w|w|w]|] eqn:EL; cbn [join canon attained standard] in *; try discriminate; try (destruct x64; subst t; discriminate).
    + injection HJ as HJ. left. apply KS. destruct x64; [subst t; cbn [safe_cast]; apply Nat.leb_le; lia|]. destruct (Nat.eqb_spec w 64) as [-> |]; subst t; cbn [safe_cast]; apply Nat.leb_le; [|lia]. destruct (HA _ HT) as [_ HX]. destruct (HX eq_refl) as (K & _). congruence.
    + destruct (Nat.ltb_spec v 64) as [L|L]; [|discriminate]. injection HJ as HJ. destruct x64; [left; apply KS; subst t; cbn [safe_cast]; apply Nat.ltb_lt; lia|]. destruct (Nat.eqb_spec w 64) as [-> |]; [|left; apply KS; subst t; cbn [safe_cast]; apply Nat.ltb_lt; lia].
      assert (v = 32 \/ v < 32) as [-> |C] by lia; [right; right; repeat split; auto; apply HT|]. left; apply KS; subst t; cbn [safe_cast]; apply Nat.ltb_lt; lia.
    + destruct x64; subst t; [discriminate|]. destruct (w =? 64); discriminate.
  - destruct (total l) as [[|w|w|w]|] eqn:EL; cbn [join canon attained standard] in *; try discriminate; try (destruct x64; subst t; discriminate).
    + destruct (Nat.ltb_spec w 64); discriminate.
    + injection HJ as HJ. left. apply KS. destruct x64; [subst t; cbn [safe_cast]; apply Nat.leb_le; lia|]. destruct (Xd eq_refl) as (_ & K & _). assert (v <> 64) by congruence. destruct (Nat.eqb_spec w 64) as [-> |]; subst t; cbn [safe_cast]; apply Nat.leb_le; lia.
    + destruct x64; subst t; [discriminate|]. destruct (w =? 64); discriminate.
  - destruct (total l) as [[|w|w|w]|] eqn:EL; cbn [join] in HJ; try discriminate. cbn [canon] in ET. destruct x64; subst t; [discriminate|]. destruct (w =? 64); discriminate.
Qed.
Lemma keeps_safe f t : standard f -> standard t -> is_float t = false -> keeps_numbers f t -> safe_cast f t = true.
Proof. intros Hf Ht HN HK. apply C70_safe_rule; auto. intros ->. discriminate. Qed.
(** among the integer and boolean dtypes it is the smallest that has all of them *)
Theorem C72_least : forall x64 l t', Forall (available x64) l -> standard t' -> is_float t' = false -> (forall d, In d l -> keeps_numbers d t') ->
  is_float (result_type x64 l) = false /\ keeps_numbers (result_type x64 l) t'.
Proof.
  intros x64 l t' HA HS HN HK. pose proof (C72_available x64 l HA) as [St _]. pose proof (total_attained l) as HT. rewrite Forall_forall in HA.
  assert (KD : forall d, In d l -> safe_cast d t' = true) by (intros d Hd; apply keeps_safe; auto; now apply HA).
  assert (ET : result_type x64 l = canon x64 (total l)) by reflexivity. set (t := result_type x64 l) in *. clearbody t.
  assert (KS : is_float t = false /\ safe_cast t t' = true).
  { destruct (total l) as [[|w|w|w]|]; cbn [canon attained] in *.
    - destruct x64; subst t; auto.
    - apply KD in HT. destruct t' as [|v|v|v]; cbn [safe_cast standard] in HT, HS; try discriminate; destruct x64; subst t; try (destruct (Nat.eqb_spec w 64)); cbn [is_float safe_cast]; (split; [reflexivity|]); try exact HT; subst; try apply Nat.leb_le in HT; try apply Nat.ltb_lt in HT; try apply Nat.leb_le; try apply Nat.ltb_lt; lia.
    - destruct HT as [[s Hs] HT]. apply KD in Hs. destruct t' as [|v|v|v]; cbn [safe_cast] in Hs; try discriminate. cbn [standard] in HS. assert (LW : w <= v).
      { destruct HT as [H|(x & H & -> & L)]; pose proof (HA _ H) as [SX _]; apply KD in H; cbn [safe_cast] in H; [now apply Nat.leb_le|]. apply Nat.ltb_lt in H. cbn [standard] in SX. lia. }
      destruct x64; subst t; try (destruct (Nat.eqb_spec w 64)); cbn [is_float safe_cast]; (split; [reflexivity|]); apply Nat.leb_le; lia.
    - apply KD in HT. destruct t'; discriminate.
    - destruct HT as [(x & Hx & Lx) [y Hy]]. pose proof (HA _ Hx) as [SX _]. apply KD in Hx, Hy. destruct t' as [|v|v|v]; cbn [safe_cast] in *; try discriminate. apply Nat.ltb_lt in Hx. cbn [standard] in HS. lia. }
  destruct KS as [K1 K2]. split; [exact K1|]. apply safe_keeps; auto. intros ->. discriminate.
Qed.
(** ** Nested calls *)
Lemma fold_join l n : fold_right join n (map Nd l) = join (total l) n.
Proof. induction l as [|d l IH]; cbn [fold_right map total]; [destruct n as [[| | |]|]; reflexivity|]. fold (total l). now rewrite IH, join_assoc. Qed.
Lemma total_app l l' : total (l ++ l') = join (total l) (total l').
Proof. unfold total at 1. rewrite map_app, fold_right_app. apply fold_join. Qed.
Definition narrow (n : node) : Prop :=
  match n with
  | Nd DBool => True
  | Nd (DUInt w) => w = 8 \/ w = 16 \/ w = 32
  | Nd (DInt w) => w = 8 \/ w = 16 \/ w = 32 \/ w = 64
  | Nd (DFloat w) => w = 16 \/ w = 32
  | Fstar => False
  end.
Lemma canon_join n m : narrow n -> narrow m -> canon false (join (Nd (canon false n)) m) = canon false (join n m).
Proof.
  intros H1 H2. destruct n as [[|w|w|w]|]; [| | | |destruct H1]; cbn [narrow] in H1; try reflexivity.
  - destruct H1 as [-> |[-> | ->]]; reflexivity.
  - destruct H1 as [-> |[-> |[-> | ->]]]; try reflexivity. destruct m as [[|v|v|v]|]; [| | | |destruct H2]; cbn [narrow] in H2; try reflexivity.
    + destruct H2 as [-> |[-> | ->]]; reflexivity.
    + destruct H2 as [-> |[-> |[-> | ->]]]; reflexivity.
  - destruct H1 as [-> | ->]; reflexivity.
Qed.
Lemma total_narrow l : Forall (available false) l -> narrow (total l).
Proof.
  intros HA. rewrite Forall_forall in HA. pose proof (total_attained l) as HT. destruct (total l) as [[|w|w|w]|]; cbn [attained narrow] in *.
  - exact Coq.Init.Logic.I.
  - apply HA in HT. destruct HT as [S X]. destruct (X eq_refl) as (X1 & _). cbn [standard] in S. destruct S as [ | [ | [ | ->]]]; auto. congruence.
  - destruct HT as [_ [H|(v & H & -> & L)]]; apply HA in H; destruct H as [S X]; cbn [standard] in S; [exact S|]. destruct (X eq_refl) as (X1 & _). destruct S as [-> | [-> | [-> | ->]]]; auto. congruence.
  - apply HA in HT. destruct HT as [S X]. destruct (X eq_refl) as (_ & _ & X1). cbn [standard] in S. destruct S as [ | [ | ->]]; auto. congruence.
  - destruct HT as [(v & H & L) _]. apply HA in H. destruct H as [S X]. cbn [standard] in S. assert (v = 64) by lia. subst. destruct (X eq_refl) as (X1 & _). congruence.
Qed.
(** without uint64 the common dtype can be computed in parts *)
Theorem C72_nested : forall x64 l l', Forall (available x64) l -> Forall (available x64) l' -> ~ In (DUInt 64) (l ++ l') ->
  result_type x64 (result_type x64 l :: l') = result_type x64 (l ++ l').
Proof.
  intros x64 l l' HA HB HU. unfold result_type at 1 3. change (fold_right join (Nd DBool) (map Nd (result_type x64 l :: l'))) with (join (Nd (canon x64 (total l))) (total l')). fold (total (l ++ l')). rewrite total_app.
  destruct x64.
  - pose proof (total_attained l) as HT. destruct (total l) as [d|]; [reflexivity|]. exfalso. destruct HT as [(v & H & L) _]. rewrite Forall_forall in HA. pose proof (HA _ H) as [S _]. cbn [standard] in S. assert (v = 64) by lia. subst. apply HU, in_or_app. now left.
  - apply canon_join; now apply total_narrow.
Qed.
(** with uint64 it cannot: uint64 with int8 makes float64, which then beats float32 *)
Theorem C72_nested_refuted : result_type true [DUInt 64; DInt 8; DFloat 32] = DFloat 32 /\
  result_type true [result_type true [DUInt 64; DInt 8]; DFloat 32] = DFloat 64.
Proof. split; reflexivity. Qed.

(** ** Conversion *)
Local Open Scope Z_scope.
Lemma round_le w n : 0 <= n -> float_width w -> 0 <= round_mag w n <= inf_pat w.
Proof. intros Hn HW. rewrite round_rmag. pose proof (rmag_nonneg w HW n Hn). pose proof (inf_form w HW). pose proof (E1_four w HW). pose proof (M_pos w HW). nia. Qed.
Lemma cast_in dt z : non_float dt -> in_dtype dt (cast dt z).
Proof.
  intros HN. pose proof (cast_spec dt z HN) as H. destruct dt as [|w|w|w]; cbn [casted in_dtype] in *; [destruct (z =? 0); cbn in H; auto|tauto|tauto|destruct HN].
Qed.
Lemma std_non_float dt : standard dt -> is_float dt = false -> non_float dt.
Proof. destruct dt; cbn; intros; try discriminate; auto; lia. Qed.
Lemma nan_pat_ok w : float_width w -> in_dtype (DFloat w) (nan_pat w) /\ is_nan w (nan_pat w) = true.
Proof. intros [-> |[-> | ->]]; (split; [vm_compute; split; [discriminate|reflexivity]|vm_compute; reflexivity]). Qed.
(** the result is an entry of the new dtype *)
Theorem C72_lands : forall f t z, standard f -> standard t -> in_dtype f z -> in_dtype t (conv f t z).
Proof.
  intros f t z Hf Ht HD. unfold conv, dtype_eqb. destruct (dtype_eq_dec f t) as [-> |NE]; [exact HD|]. destruct t as [|w|w|w].
  1-3: destruct f as [|v|v|v]; try (apply cast_in; apply std_non_float; auto; fail).
  - destruct (_ =? _); cbn; auto.
  - cbn [standard] in Ht. destruct f as [|v|v|v]; try (apply (signed_parts w Ht); apply round_le; auto; apply Z.mul_nonneg_nonneg; [apply Z.abs_nonneg|apply Z.pow_nonneg; lia]).
    destruct (is_nan v z); [now apply nan_pat_ok|]. destruct (_ =? _); [apply (signed_parts w Ht); pose proof (round_le w 0 ltac:(lia) Ht); lia|]. apply (signed_parts w Ht). apply round_le; auto. now apply fnum_nonneg.
Qed.
(** a number the new dtype has is kept *)
Theorem C72_exact : forall f t z x, standard f -> standard t -> in_dtype f z -> represents f z x ->
  (exists z', in_dtype t z' /\ represents t z' x) -> represents t (conv f t z) x.
Proof.
  intros f t z x Hf Ht HD HR (z' & HD' & HR'). destruct t as [|w|w|w].
  4: { cbn [standard] in Ht. destruct (conv_float f w z x Hf Ht HD HR) as (neg & -> & EX). apply (represents_float w Ht z' x HD') in HR'. destruct HR' as [L EX']. destruct (pattern_split w Ht z' HD') as [_ H0]. pose proof (fnum_nonneg w Ht z' HD') as FN.
    assert (EA : Z.abs x = fnum w z') by (rewrite EX'; destruct (_ <=? _); lia). rewrite EA, round_rmag, fnum_magval, (rmag_exact w Ht), Z.min_l by lia.
    destruct (signed_parts w Ht neg (fmag w z') ltac:(lia)) as (S1 & S2 & S3). eexists. split; [exact S3|]. split; [rewrite S2; lia|]. rewrite EX, EA, fnum_magval, low_units. unfold sg. now rewrite Z.mul_assoc. }
  all: unfold conv, dtype_eqb; destruct (dtype_eq_dec f _) as [-> |NE]; [exact HR|]; assert (HP : 0 < 2 ^ 1074) by (apply Z.pow_pos_nonneg; lia).
  all: destruct f as [|v|v|v]; cbn [represents] in HR'.
  all: try (cbn [represents] in HR; subst x; assert (EZ : z = z') by (apply Z.mul_reg_r in HR'; lia); subst z'; cbn [represents]; f_equal; symmetry; eapply C53_casted_fits; [|exact HD'|apply cast_spec]; apply std_non_float; auto; fail).
  all: cbn [standard] in Hf; apply (represents_float v Hf z x HD) in HR; destruct HR as [L EX]; pose proof (fnum_nonneg v Hf z HD) as FN; cbn [represents].
  - rewrite HR' in EX |- *. f_equal. pose proof (magval_nonneg v Hf (fmag v z) (proj2 (pattern_split v Hf z HD))) as MN. rewrite fnum_magval in EX, FN. pose proof (low_range v Hf) as LR. assert (HU : 0 < 2 ^ low_exp v) by (apply Z.pow_pos_nonneg; lia).
    destruct (Z.eqb_spec (fmag v z) 0) as [E0|N0].
    + rewrite E0 in EX. assert (magval v 0 = 0) as EM by (unfold magval, fmagval; rewrite Z.div_0_l, Z.mod_0_l by (pose proof (M_pos v Hf); lia); reflexivity). rewrite EM in EX. destruct (_ <=? _); nia.
    + assert (0 < magval v (fmag v z)). { pose proof (magval_lt v Hf 0 (fmag v z)) as ML. destruct (pattern_split v Hf z HD) as [_ PS]. specialize (ML ltac:(lia)). pose proof (magval_nonneg v Hf 0 ltac:(lia)). lia. }
      cbn [in_dtype] in HD'. destruct HD' as [-> | ->]; [|reflexivity]. exfalso. destruct (_ <=? _); nia.
  - assert (EC : (if 2 ^ (Z.of_nat v - 1) <=? z then - (fnum v z / 2 ^ 1074) else fnum v z / 2 ^ 1074) = z').
    { destruct (2 ^ (Z.of_nat v - 1) <=? z).
      - assert (fnum v z = (- z') * 2 ^ 1074) as -> by lia. rewrite Z.div_mul by lia. lia.
      - assert (fnum v z = z' * 2 ^ 1074) as -> by lia. now rewrite Z.div_mul by lia. }
    rewrite EC, HR'. f_equal. symmetry. eapply C53_casted_fits; [|exact HD'|apply cast_spec]; apply std_non_float; auto.
  - assert (EC : (if 2 ^ (Z.of_nat v - 1) <=? z then - (fnum v z / 2 ^ 1074) else fnum v z / 2 ^ 1074) = z').
    { destruct (2 ^ (Z.of_nat v - 1) <=? z).
      - assert (fnum v z = (- z') * 2 ^ 1074) as -> by lia. rewrite Z.div_mul by lia. lia.
      - assert (fnum v z = z' * 2 ^ 1074) as -> by lia. now rewrite Z.div_mul by lia. }
    rewrite EC, HR'. f_equal. symmetry. eapply C53_casted_fits; [|exact HD'|apply cast_spec]; apply std_non_float; auto.
Qed.
Lemma fsign_even w neg : float_width w -> Z.even (fsign w neg) = true.
Proof. intros [-> |[-> | ->]]; destruct neg; vm_compute; reflexivity. Qed.
(** to a float dtype: the nearest number, and of two equally near the one with the even pattern *)
Theorem C72_nearest : forall f w z x, standard f -> float_width w -> in_dtype f z -> represents f z x -> fmag w (conv f (DFloat w) z) <> inf_pat w ->
  exists y, represents (DFloat w) (conv f (DFloat w) z) y /\
    forall z' y', in_dtype (DFloat w) z' -> represents (DFloat w) z' y' ->
      Z.abs (y - x) <= Z.abs (y' - x) /\ (y' <> y -> Z.abs (y' - x) = Z.abs (y - x) -> Z.even (conv f (DFloat w) z) = true).
Proof.
  intros f w z x Hf HW HD HR NI. destruct (conv_float f w z x Hf HW HD HR) as (neg & EC & EX). rewrite EC in *. pose proof (round_le w (Z.abs x) (Z.abs_nonneg x) HW) as RL. destruct (signed_parts w HW neg (round_mag w (Z.abs x)) RL) as (S1 & S2 & S3). rewrite S2 in NI.
  assert (ER : round_mag w (Z.abs x) = rmag w (Z.abs x)) by (rewrite round_rmag in *; lia). set (n := Z.abs x) in *. assert (Hn : 0 <= n) by (unfold n; apply Z.abs_nonneg). pose proof (rmag_nonneg w HW n Hn) as RN. pose proof (low_range w HW) as LR. assert (HU : 0 < 2 ^ low_exp w) by (apply Z.pow_pos_nonneg; lia).
  exists (sg neg * (magval w (rmag w n) * 2 ^ low_exp w)). split.
  { eexists. split; [exact S3|]. split; [rewrite S2; exact NI|]. rewrite ER, low_units. unfold sg. now rewrite Z.mul_assoc. }
  intros z' y' HD' HR'. apply (represents_float w HW z' y' HD') in HR'. destruct HR' as [L EY]. rewrite fnum_magval in EY. destruct (pattern_split w HW z' HD') as [_ K0]. set (k := fmag w z') in *. pose proof (rmag_nearest w HW n k Hn K0) as N1. pose proof (magval_nonneg w HW k K0) as V0. pose proof (magval_nonneg w HW _ RN) as V1.
  set (rv := magval w (rmag w n) * 2 ^ low_exp w) in *. set (v' := magval w k * 2 ^ low_exp w) in *. assert (0 <= v') by (apply Z.mul_nonneg_nonneg; lia). assert (0 <= rv) by (apply Z.mul_nonneg_nonneg; lia).
  assert (EVEN : forall k', 0 <= k' -> k' <> rmag w n -> Z.abs (magval w k' * 2 ^ low_exp w - n) = Z.abs (rv - n) -> Z.even (fsign w neg + round_mag w n) = true).
  { intros k' Hk' NE EE. rewrite ER, Z.even_add, (fsign_even w neg HW), (rmag_tie w HW n k' Hn Hk' NE EE). reflexivity. }
  pose proof (rmag_nearest w HW n 0 Hn ltac:(lia)) as N0. assert (EM0 : magval w 0 = 0) by (unfold magval, fmagval; rewrite Z.div_0_l, Z.mod_0_l by (pose proof (M_pos w HW); lia); reflexivity). fold rv in N0. rewrite EM0 in N0.
  assert (DX : Z.abs (sg neg * rv - x) = Z.abs (rv - n)) by (rewrite EX; unfold sg; destruct neg; lia). rewrite DX.
  set (neg' := 2 ^ (Z.of_nat w - 1) <=? z') in *. destruct (Bool.bool_dec neg' neg) as [EN|EN].
  - assert (DY : Z.abs (y' - x) = Z.abs (v' - n)) by (rewrite EY, EX, EN; unfold sg; destruct neg; lia). rewrite DY. split; [lia|]. intros NE EE. apply (EVEN k K0); [|exact EE]. intros ->. apply NE. rewrite EY, EN. reflexivity.
  - assert (DY : Z.abs (y' - x) = v' + n) by (rewrite EY, EX; unfold sg; destruct neg, neg'; try congruence; lia). rewrite DY. split; [lia|]. intros NE EE. apply (EVEN 0); [lia| |].
    + intros E0. apply NE. assert (rv = 0) as R0 by (unfold rv; rewrite <- E0, EM0; reflexivity). rewrite R0. assert (v' = 0) as V'0 by lia. rewrite EY, V'0. unfold sg. destruct neg, neg'; reflexivity.
    + rewrite EM0. lia.
Qed.
(** 2^(bias + 1): the power of two after the largest number; halfway to it the result is infinite *)
Definition beyond (w : nat) : Z := 2 ^ (2 ^ (Z.of_nat w - 2 - man_bits w) + 1074).
Theorem C72_overflow : forall f w z x, standard f -> float_width w -> in_dtype f z -> represents f z x ->
  (fmag w (conv f (DFloat w) z) = inf_pat w <-> 2 * beyond w - beyond w / 2 ^ (man_bits w + 1) <= 2 * Z.abs x) /\
  (fmag w (conv f (DFloat w) z) = inf_pat w -> (2 ^ (Z.of_nat w - 1) <= conv f (DFloat w) z <-> x < 0)).
Proof.
  intros f w z x Hf HW HD HR. destruct (conv_float f w z x Hf HW HD HR) as (neg & EC & EX). rewrite EC in *. pose proof (round_le w (Z.abs x) (Z.abs_nonneg x) HW) as RL. destruct (signed_parts w HW neg (round_mag w (Z.abs x)) RL) as (S1 & S2 & S3). rewrite S2.
  assert (OV : round_mag w (Z.abs x) = inf_pat w <-> 2 * beyond w - beyond w / 2 ^ (man_bits w + 1) <= 2 * Z.abs x).
  { pose proof (rmag_overflow w HW (Z.abs x) (Z.abs_nonneg x)) as OV. rewrite round_rmag.
    assert (EB : 2 * beyond w - beyond w / 2 ^ (man_bits w + 1) = (4 * 2 ^ man_bits w - 1) * 2 ^ (2 ^ (Z.of_nat w - 1 - man_bits w) - 3 + low_exp w)) by (destruct HW as [-> |[-> | ->]]; vm_compute; reflexivity).
    rewrite EB, <- OV. lia. }
  split; [exact OV|]. intros EI. pose proof (proj1 OV EI) as HB. assert (HN : 0 < Z.abs x).
  { assert (0 < 2 * beyond w - beyond w / 2 ^ (man_bits w + 1)) by (destruct HW as [-> |[-> | ->]]; vm_compute; reflexivity). lia. }
  rewrite EI. unfold fsign, sg in *. pose proof (inf_form w HW) as IF. pose proof (half_eq w HW) as HE. pose proof (E1_four w HW). pose proof (M_pos w HW). destruct neg; split; intros; try lia; nia.
Qed.
(** to a float dtype: never a NaN, and the order is kept, whatever the two dtypes *)
Theorem C72_monotone : forall f g w z z' x x', standard f -> standard g -> float_width w -> in_dtype f z -> in_dtype g z' -> represents f z x -> represents g z' x' -> x <= x' ->
  exists v v', fval w (conv f (DFloat w) z) = Some v /\ fval w (conv g (DFloat w) z') = Some v' /\ v <= v'.
Proof.
  intros f g w z z' x x' Hf Hg HW HD HD' HR HR' HL. destruct (conv_float f w z x Hf HW HD HR) as (neg & -> & EX). destruct (conv_float g w z' x' Hg HW HD' HR') as (neg' & -> & EX').
  destruct (signed_parts w HW neg _ (round_le w (Z.abs x) (Z.abs_nonneg x) HW)) as (_ & _ & ->). destruct (signed_parts w HW neg' _ (round_le w (Z.abs x') (Z.abs_nonneg x') HW)) as (_ & _ & ->). eexists. eexists. split; [reflexivity|]. split; [reflexivity|].
  pose proof (round_le w (Z.abs x) (Z.abs_nonneg x) HW) as R1. pose proof (round_le w (Z.abs x') (Z.abs_nonneg x') HW) as R2.
  assert (MM : forall a b, 0 <= a <= b -> magval w a <= magval w b) by (intros a b H; assert (a = b \/ a < b) as [-> |C] by lia; [lia|pose proof (magval_lt w HW a b ltac:(lia)); lia]).
  assert (RM : forall a b, 0 <= a <= b -> round_mag w a <= round_mag w b) by (intros a b H; rewrite !round_rmag; pose proof (rmag_mono w HW a b H); lia).
  assert (RZ : round_mag w 0 = 0) by (destruct HW as [-> |[-> | ->]]; vm_compute; reflexivity). assert (MZ : magval w 0 = 0) by (unfold magval, fmagval; rewrite Z.div_0_l, Z.mod_0_l by (pose proof (M_pos w HW); lia); reflexivity).
  pose proof (magval_nonneg w HW _ (proj1 R1)) as P1. pose proof (magval_nonneg w HW _ (proj1 R2)) as P2. unfold sg in *.
  destruct neg, neg'.
  - pose proof (MM (round_mag w (Z.abs x')) (round_mag w (Z.abs x)) ltac:(split; [lia|apply RM; lia])). lia.
  - lia.
  - assert (E1 : Z.abs x = 0) by lia. assert (E2 : Z.abs x' = 0) by lia. rewrite E1, E2, RZ, MZ. lia.
  - pose proof (MM (round_mag w (Z.abs x)) (round_mag w (Z.abs x')) ltac:(split; [lia|apply RM; lia])). lia.
Qed.
(** from a float to an integer dtype that has the whole part: the fraction is dropped *)
Theorem C72_truncate : forall v t z x, float_width v -> standard t -> is_float t = false -> t <> DBool -> in_dtype (DFloat v) z -> represents (DFloat v) z x ->
  in_dtype t (Z.quot x (2 ^ 1074)) -> conv (DFloat v) t z = Z.quot x (2 ^ 1074).
Proof.
  intros v t z x HV Ht FT NB HD HR HI. apply (represents_float v HV z x HD) in HR. destruct HR as [L EX]. pose proof (fnum_nonneg v HV z HD) as FN. assert (HP : 0 < 2 ^ 1074) by (apply Z.pow_pos_nonneg; lia).
  unfold conv, dtype_eqb. destruct (dtype_eq_dec (DFloat v) t) as [<- |NE]; [discriminate|].
  assert (EC : (if 2 ^ (Z.of_nat v - 1) <=? z then - (fnum v z / 2 ^ 1074) else fnum v z / 2 ^ 1074) = Z.quot x (2 ^ 1074)).
  { rewrite EX. destruct (_ <=? _).
    - replace (-1 * fnum v z) with (- fnum v z) by lia. rewrite Z.quot_opp_l by lia. rewrite Z.quot_div_nonneg by lia. reflexivity.
    - rewrite Z.mul_1_l, Z.quot_div_nonneg by lia. reflexivity. }
  destruct t as [|w|w|w]; try discriminate; [congruence| |]; rewrite EC; eapply C53_casted_fits; try exact HI; [|apply cast_spec| |apply cast_spec]; apply std_non_float; auto.
Qed.
(** between integer and boolean dtypes: modulo 2^w, or the truth value *)
Theorem C72_integers : forall f t z, standard t -> is_float f = false -> is_float t = false -> in_dtype f z -> casted t z (conv f t z).
Proof.
  intros f t z Ht Ff Ft HD. unfold conv, dtype_eqb. destruct (dtype_eq_dec f t) as [-> |NE].
  - destruct t as [|w|w|w]; cbn [casted in_dtype] in *; try discriminate; [destruct HD as [-> | ->]; reflexivity|split; [exact HD|reflexivity]..].
  - destruct t as [|w|w|w]; try discriminate; destruct f; try discriminate; apply cast_spec; apply std_non_float; auto.
Qed.
(** to bool: False exactly for zero (NaN is True) *)
Theorem C72_truth : forall f z, standard f -> in_dtype f z -> (conv f DBool z = 0 <-> represents f z 0).
Proof.
  intros f z Hf HD. destruct (is_float f) eqn:Ff.
  - destruct f as [|v|v|v]; try discriminate. cbn [standard] in Hf. rewrite (represents_float v Hf z 0 HD). destruct (pattern_split v Hf z HD) as [_ K0]. pose proof (fnum_magval v z) as FM. pose proof (low_range v Hf). assert (HU : 0 < 2 ^ low_exp v) by (apply Z.pow_pos_nonneg; lia).
    assert (EM0 : magval v 0 = 0) by (unfold magval, fmagval; rewrite Z.div_0_l, Z.mod_0_l by (pose proof (M_pos v Hf); lia); reflexivity).
    pose proof (inf_form v Hf). pose proof (E1_four v Hf). pose proof (M_pos v Hf). unfold conv. cbn [dtype_eqb]. change (dtype_eqb (DFloat v) DBool) with false. cbv iota.
    destruct (Z.eqb_spec (fmag v z) 0) as [E0|N0]; split; try reflexivity; try discriminate.
    + intros _. rewrite FM, E0, EM0. split; [nia|]. destruct (_ <=? _); reflexivity.
    + intros [L E]. exfalso. pose proof (magval_lt v Hf 0 (fmag v z) ltac:(lia)) as ML. rewrite EM0 in ML. rewrite FM in E. destruct (_ <=? _); nia.
  - pose proof (C72_integers f DBool z Coq.Init.Logic.I Ff eq_refl HD) as HC. cbn [casted] in HC. rewrite HC. destruct f; try discriminate; cbn [represents]; destruct (Z.eqb_spec z 0); cbn; split; intros; try lia; subst; reflexivity.
Qed.
(** not-a-number and infinity *)
Theorem C72_specials : forall v w z, float_width v -> float_width w -> in_dtype (DFloat v) z ->
  (is_nan v z = true -> is_nan w (conv (DFloat v) (DFloat w) z) = true) /\
  (fmag v z = inf_pat v -> fval w (conv (DFloat v) (DFloat w) z) = Some ((if 2 ^ (Z.of_nat v - 1) <=? z then -1 else 1) * magval w (inf_pat w)) /\ fmag w (conv (DFloat v) (DFloat w) z) = inf_pat w).
Proof.
  intros v w z HV HW HD. unfold conv, dtype_eqb. destruct (dtype_eq_dec (DFloat v) (DFloat w)) as [E|NE].
  - injection E as ->. split; [auto|]. intros EI. destruct (pattern_split w HW z HD) as [EZ _]. rewrite EI in EZ. split; [|exact EI]. rewrite EZ at 1. apply (signed_parts w HW). pose proof (inf_form w HW). pose proof (E1_four w HW). pose proof (M_pos w HW). nia.
  - split.
    + intros ->. now apply nan_pat_ok.
    + intros EI. assert (is_nan v z = false) as -> by (unfold is_nan; apply Z.ltb_ge; lia). rewrite EI, Z.eqb_refl. assert (HI : 0 <= inf_pat w <= inf_pat w) by (pose proof (inf_form w HW); pose proof (E1_four w HW); pose proof (M_pos w HW); nia).
      destruct (signed_parts w HW (2 ^ (Z.of_nat v - 1) <=? z) (inf_pat w) HI) as (S1 & S2 & S3). split; [exact S3|exact S2].
Qed.
Lemma sign_bit w neg k : float_width w -> 0 <= k <= inf_pat w -> (2 ^ (Z.of_nat w - 1) <=? fsign w neg + k) = neg.
Proof.
  intros HW Hk. pose proof (inf_form w HW). pose proof (half_eq w HW) as HE. pose proof (M_pos w HW). pose proof (E1_four w HW). unfold fsign. destruct neg; [apply Z.leb_le; lia|apply Z.leb_gt; nia].
Qed.
(** there and back through a dtype that has all numbers: the same entry, to the last bit *)
Theorem C72_round_trip : forall f t z, standard f -> standard t -> keeps_numbers f t -> in_dtype f z -> (forall v, f = DFloat v -> is_nan v z = false) ->
  conv t f (conv f t z) = z.
Proof.
  intros f t z Hf Ht HK HD HN. destruct (is_float f) eqn:Ff.
  - destruct f as [|v|v|v]; try discriminate. cbn [standard] in Hf. specialize (HN v eq_refl). destruct (is_float t) eqn:Ft; [|exfalso; revert HK; now apply float_to_int]. destruct t as [|w|w|w]; try discriminate. cbn [standard] in Ht.
    destruct (Nat.eq_dec v w) as [-> |NE]; [unfold conv; rewrite !dtype_eqb_refl; reflexivity|].
    assert (D1 : dtype_eqb (DFloat v) (DFloat w) = false) by (unfold dtype_eqb; destruct (dtype_eq_dec _ _); [congruence|reflexivity]). assert (D2 : dtype_eqb (DFloat w) (DFloat v) = false) by (unfold dtype_eqb; destruct (dtype_eq_dec _ _); [congruence|reflexivity]).
    destruct (pattern_split v Hf z HD) as [EZ K0]. set (s := 2 ^ (Z.of_nat v - 1) <=? z) in *. assert (LE : fmag v z <= inf_pat v) by (unfold is_nan in HN; apply Z.ltb_ge in HN; exact HN).
    assert (IW : 0 <= inf_pat w <= inf_pat w) by (pose proof (inf_form w Ht); pose proof (E1_four w Ht); pose proof (M_pos w Ht); nia).
    destruct (Z.eq_dec (fmag v z) (inf_pat v)) as [EI|NI].
    + assert (C1 : conv (DFloat v) (DFloat w) z = fsign w s + inf_pat w) by (unfold conv; rewrite D1, HN, EI, Z.eqb_refl; reflexivity). rewrite C1. unfold conv. rewrite D2, (sign_bit w s _ Ht IW). destruct (signed_parts w Ht s _ IW) as (_ & -> & _). unfold is_nan. destruct (signed_parts w Ht s _ IW) as (_ & -> & _). rewrite Z.ltb_irrefl, Z.eqb_refl. rewrite EZ, EI. reflexivity.
    + set (x := sg s * fnum v z). assert (HR : represents (DFloat v) z x) by (apply (represents_float v Hf z x HD); split; [lia|reflexivity]). pose proof (fnum_nonneg v Hf z HD) as FN.
      pose proof (C72_exact (DFloat v) (DFloat w) z x Hf Ht HD HR (HK z x HD HR)) as HX. pose proof (C72_lands (DFloat v) (DFloat w) z Hf Ht HD) as HL.
      assert (C1 : conv (DFloat v) (DFloat w) z = fsign w s + round_mag w (fnum v z)) by (unfold conv; rewrite D1, HN; destruct (Z.eqb_spec (fmag v z) (inf_pat v)); [congruence|reflexivity]).
      pose proof (round_le w (fnum v z) FN Ht) as RL. apply (represents_float w Ht _ x HL) in HX. destruct HX as [LX EX]. rewrite C1 in *. rewrite (sign_bit w s _ Ht RL) in EX. pose proof (fnum_nonneg w Ht _ HL) as FW.
      assert (EF : fnum w (fsign w s + round_mag w (fnum v z)) = fnum v z) by (unfold x, sg in EX; destruct s; lia).
      unfold conv at 1. rewrite D2, (sign_bit w s _ Ht RL). assert (is_nan w (fsign w s + round_mag w (fnum v z)) = false) as -> by (unfold is_nan; apply Z.ltb_ge; lia). destruct (Z.eqb_spec (fmag w (fsign w s + round_mag w (fnum v z))) (inf_pat w)); [lia|].
      rewrite EF, round_rmag, fnum_magval, (rmag_exact v Hf), Z.min_l by lia. symmetry. exact EZ.
  - assert (HR : represents f z (z * 2 ^ 1074)) by (destruct f; try discriminate; reflexivity). pose proof (C72_exact f t z _ Hf Ht HD HR (HK z _ HD HR)) as HX. pose proof (C72_lands f t z Hf Ht HD) as HL.
    pose proof (C72_exact t f _ _ Ht Hf HL HX (ex_intro _ z (conj HD HR))) as HB. assert (E : z * 2 ^ 1074 = conv t f (conv f t z) * 2 ^ 1074) by (destruct f; try discriminate; exact HB). apply Z.mul_reg_r in E; [now symmetry|apply Z.pow_nonzero; lia].
Qed.
(** examples: 2^24 + 1 and 3 * 10^9 *)
Example C72_example : available false (DUInt 32) /\ result_type false [DUInt 32; DInt 8] = DInt 32 /\ result_type true [DUInt 32; DInt 8] = DInt 64 /\ result_type false [DInt 32; DFloat 16; DBool] = DFloat 16 /\
  conv (DInt 32) (DFloat 32) 16777217 = conv (DInt 32) (DFloat 32) 16777216 /\ conv (DUInt 32) (DInt 32) 3000000000 = -1294967296 /\
  conv (DInt 32) (DFloat 16) 65519 = inf_pat 16 - 1 /\ conv (DInt 32) (DFloat 16) 65520 = inf_pat 16 /\ conv (DFloat 32) (DInt 8) (conv (DInt 32) (DFloat 32) (-3)) = -3 /\ represents (DInt 32) 16777217 (16777217 * 2 ^ 1074).
Proof. split; [split; [right; right; left; reflexivity|intros _; split; [discriminate|split; discriminate]]|]. repeat (split; [vm_compute; reflexivity|]). vm_compute. reflexivity. Qed.
Print Assumptions C72_order. Print Assumptions C72_float_when. Print Assumptions C72_widest. Print Assumptions C72_available. Print Assumptions C72_upper. Print Assumptions C72_least. Print Assumptions C72_nested. Print Assumptions C72_nested_refuted. Print Assumptions C72_lands. Print Assumptions C72_exact. Print Assumptions C72_nearest. Print Assumptions C72_overflow. Print Assumptions C72_monotone. Print Assumptions C72_truncate. Print Assumptions C72_integers. Print Assumptions C72_truth. Print Assumptions C72_specials. Print Assumptions C72_round_trip.
