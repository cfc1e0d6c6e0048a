(** * PropRandom.v — property C48: random instances. *)
From Coq Require Import String.
From Verif Require Import Jax HashModel StructModel ArrayModel ArrayFacts ShapeModel PropShape RowsModel RowsLift PropRows EqModel FloatEq PropEq PropEqTable BitpackModel AggModel PropAgg PropIO ConstructModel.

(** ** Specification *)
(** the bit pattern of 1.0 *)
Definition one_pat (w : nat) : Z := ((2 ^ (Z.of_nat w - 2 - man_bits w) - 1) * 2 ^ man_bits w)%Z.
(** what jax.random promises: [split] gives as many keys as asked, and the draws have as
    many elements as the shape asks for, in their ranges (floats in [0, 1)) *)
Definition prng_ok (g : prng) : Prop :=
  (forall k n, length (split g k n) = n) /\
  (forall k s w, length (draw_bits g k s w) = prod s /\ Forall (fun z => 0 <= z < 2 ^ Z.of_nat w)%Z (draw_bits g k s w)) /\
  (forall k s w, length (draw_uniform g k s w) = prod s /\ (float_width w -> Forall (fun z => 0 <= z < one_pat w)%Z (draw_uniform g k s w))) /\
  (forall k s, length (draw_bernoulli g k s) = prod s /\ Forall (fun z => z = 0 \/ z = 1)%Z (draw_bernoulli g k s)).
(** the element is a value of the dtype; a float is a number in [0, 1) *)
Definition in_random_range (dt : dtype) (z : Z) : Prop :=
  in_dtype dt z /\ match dt with DFloat w => (0 <= z < one_pat w)%Z | _ => True end.
(** all dtypes of the class are ones the library can hash and compare *)
Fixpoint dtypes_d (P : dtype -> Prop) (d : desc) : Prop := match d with Prim dt _ _ _ _ => P dt | Nest c _ => dtypes P c end
with dtypes (P : dtype -> Prop) (c : class) : Prop := match c with CNil => True | CCons _ d r => dtypes_d P d /\ dtypes P r end.

(** ** Shape and dtypes *)
Lemma draw_length g dt s k : prng_ok g -> length (adata (draw g dt s k)) = prod s.
Proof. intros (_ & H1 & H2 & H3). destruct dt; cbn; rewrite ?map_length; [apply H3|apply H1|apply H1|apply H2]. Qed.
Lemma random_both g : prng_ok g ->
  (forall d s k, conforms_v d (random_v g s d k) /\ has_v s d (random_v g s d k)) /\
  (forall c s ks, conforms c (random_fields g s c ks) /\ has_batch s c (random_fields g s c ks)).
Proof.
  intros HG. apply desc_class_ind.
  - intros dt ish bits pb fill s k. cbn [random_v conforms_v has_v]. split; [|reflexivity]. split; [reflexivity|]. rewrite draw_length by exact HG. reflexivity.
  - intros c IH ish s k. cbn [random_v conforms_v has_v]. apply IH.
  - intros s ks. split; exact Logic.I.
  - intros n d IHd r IHr s ks. cbn [random_fields conforms has_batch]. destruct (IHd s (hd (key0 g) ks)), (IHr s (tl ks)). tauto.
Qed.
(** [random(shape, key)] has the declared dtypes and the asked batch shape *)
Theorem C48_shape : forall g c s k, prng_ok g -> batched c s (random g c s k).
Proof. intros g c s k HG. apply (proj2 (random_both g HG)). Qed.
Theorem C48_reports : forall g c s k, prng_ok g -> c <> CNil -> solid c -> get_batch c (random g c s k) = Some (Batch s).
Proof. intros g c s k HG HN HS. pose proof (C48_shape g c s k HG) as [H1 H2]. now apply C40_reports. Qed.

(** ** Values *)
Lemma one_pat_bounds w : float_width w -> (0 < one_pat w < 2 ^ (Z.of_nat w - 1))%Z.
Proof. intros [-> |[-> | ->]]; split; reflexivity. Qed.
Lemma wrap_range w z : 1 <= w -> (- 2 ^ (Z.of_nat w - 1) <= wrap w z < 2 ^ (Z.of_nat w - 1))%Z.
Proof.
  intros Hw. unfold wrap. assert (E : (2 ^ Z.of_nat w = 2 * 2 ^ (Z.of_nat w - 1))%Z) by (rewrite <- Z.pow_succ_r by lia; f_equal; lia).
  rewrite E. set (h := (2 ^ (Z.of_nat w - 1))%Z) in *. assert (0 < h)%Z by (apply Z.pow_pos_nonneg; lia). pose proof (Z.mod_pos_bound z (2 * h) ltac:(lia)).
  destruct (Z.ltb_spec (z mod (2 * h)) h); lia.
Qed.
Lemma random_range_values g : prng_ok g ->
  (forall d s k, dtypes_d hashable d -> Forall (fun a => hashable (adtype a) /\ Forall (in_random_range (adtype a)) (adata a)) (arrays_v (random_v g s d k))) /\
  (forall c s ks, dtypes hashable c -> Forall (fun a => hashable (adtype a) /\ Forall (in_random_range (adtype a)) (adata a)) (arrays (random_fields g s c ks))).
Proof.
  intros (_ & H1 & H2 & H3). apply desc_class_ind.
  - intros dt ish bits pb fill s k HD. cbn [random_v arrays_v]. constructor; [|constructor]. cbn [dtypes_d] in HD. cbn [draw adtype adata]. split; [exact HD|]. unfold in_random_range.
    destruct dt as [|w|w|w]; cbn [in_dtype hashable] in *.
    + destruct (H3 k (s ++ ish)) as [_ HB]. revert HB. apply Forall_impl. auto.
    + destruct (H1 k (s ++ ish) w) as [_ HB]. revert HB. apply Forall_impl. auto.
    + apply Forall_map, Forall_forall. intros z _. split; [|exact Logic.I]. apply wrap_range. destruct HD as [-> |[-> |[-> | ->]]]; lia.
    + destruct (H2 k (s ++ ish) w) as [_ HB]. specialize (HB HD). revert HB. apply Forall_impl. intros z Hz. pose proof (one_pat_bounds w HD).
      assert (2 ^ (Z.of_nat w - 1) <= 2 ^ Z.of_nat w)%Z by (apply Z.pow_le_mono_r; lia). lia.
  - intros c IH ish s k HD. cbn [random_v arrays_v]. now apply IH.
  - intros s ks _. constructor.
  - intros n d IHd r IHr s ks [HD HR]. cbn [random_fields arrays]. apply Forall_app. split; [now apply IHd|now apply IHr].
Qed.
(** every element is a value of its dtype, a float is in [0, 1) *)
Theorem C48_values : forall g c s k, prng_ok g -> dtypes hashable c ->
  Forall (fun a => Forall (in_random_range (adtype a)) (adata a)) (arrays (random g c s k)).
Proof.
  intros g c s k HG HD. pose proof (proj2 (random_range_values g HG) c s (split g (match k with Some k => k | None => key0 g end) (length (names c))) HD) as H.
  revert H. apply Forall_impl. tauto.
Qed.
(** patterns below that of 1.0 are exactly the numbers from +0 up to (not including) 1 *)
Theorem C48_unit_interval : forall w z, float_width w -> (0 <= z < 2 ^ Z.of_nat w)%Z ->
  ((0 <= z < one_pat w)%Z <-> exists v one, fval w z = Some v /\ fval w (one_pat w) = Some one /\ (0 <= v < one)%Z /\ z <> (2 ^ (Z.of_nat w - 1))%Z).
Proof.
  intros w z HW HZ. pose proof (man_range w HW) as HM. pose proof (M_pos w HW) as HMp. pose proof (half_eq w HW) as HH. pose proof (full_eq w HW) as HF.
  set (M := (2 ^ man_bits w)%Z) in *. set (E1 := (2 ^ (Z.of_nat w - 1 - man_bits w))%Z) in *. set (h := (2 ^ (Z.of_nat w - 1))%Z) in *.
  set (E0 := (2 ^ (Z.of_nat w - 2 - man_bits w))%Z). assert (EE : (E1 = 2 * E0)%Z) by (unfold E1, E0; rewrite <- Z.pow_succ_r by lia; f_equal; lia).
  assert (HE0 : (1 < E0)%Z) by (change 1%Z with (2 ^ 0)%Z; apply Z.pow_lt_mono_r; lia).
  assert (EO : one_pat w = ((E0 - 1) * M)%Z) by reflexivity.
  assert (VO : fval w (one_pat w) = Some (fmagval M (E0 - 1) 0)).
  { unfold fval. fold M E1 h. rewrite EO, Z.mod_mul, Z.div_mul by lia. replace (E1 - 1 + 1)%Z with E1 by lia. rewrite (Z.mod_small (E0 - 1)) by lia.
    destruct (Z.eqb_spec (E0 - 1) (E1 - 1)); [lia|]. cbn [andb]. destruct (Z.leb_spec h ((E0 - 1) * M)); [nia|]. unfold fmagval. rewrite Z.mul_1_l. reflexivity. }
  pose proof (Z.mod_pos_bound z M ltac:(lia)) as Hm. assert (DM : (z = M * (z / M) + z mod M)%Z) by (apply Z.div_mod; lia).
  assert (He : (0 <= z / M)%Z) by (apply Z.div_pos; lia).
  split.
  - intros Hz. assert (z / M < E0 - 1)%Z by (apply Z.div_lt_upper_bound; nia). exists (fmagval M (z / M) (z mod M)), (fmagval M (E0 - 1) 0). split.
    { unfold fval. fold M E1 h. replace (E1 - 1 + 1)%Z with E1 by lia. rewrite (Z.mod_small (z / M)) by lia. destruct (Z.eqb_spec (z / M) (E1 - 1)); [lia|]. cbn [andb].
      destruct (Z.leb_spec h z); [nia|]. unfold fmagval. now rewrite Z.mul_1_l. }
    split; [exact VO|]. pose proof (fmagval_pos M (z / M) (z mod M) ltac:(lia) ltac:(lia) ltac:(lia)). pose proof (fmagval_lt M (z / M) (z mod M) (E0 - 1) 0 ltac:(lia) ltac:(lia) ltac:(lia) ltac:(lia)).
    split; [lia|]. nia.
  - intros (v & one & HV & HO & Hv & HN). rewrite VO in HO. injection HO as <-. unfold fval in HV. fold M E1 h in HV. replace (E1 - 1 + 1)%Z with E1 in HV by lia.
    destruct ((_ =? _)%Z && _) eqn:EN; [discriminate|]. injection HV as HV.
    set (e := ((z / M) mod E1)%Z) in *. assert (He1 : (0 <= e < E1)%Z) by (apply Z.mod_pos_bound; lia).
    fold (fmagval M e (z mod M)) in HV. pose proof (fmagval_pos M e (z mod M) ltac:(lia) ltac:(lia) Hm) as [P1 P2].
    destruct (Z.leb_spec h z) as [HL|HL].
    + exfalso. assert (fmagval M e (z mod M) = 0)%Z by lia. apply P2 in H. destruct H as [E2 E3]. apply HN.
      assert (EZ : (z / M = E1)%Z); [|rewrite DM, E3, EZ, HH; lia]. unfold e in E2. apply Z.mod_divide in E2; [|lia]. destruct E2 as [q Eq]. assert (z / M < 2 * E1)%Z by (apply Z.div_lt_upper_bound; nia).
      assert (E1 <= z / M)%Z by (apply Z.div_le_lower_bound; nia).
      assert (q = 1)%Z by (rewrite Eq in *; clear - EE HE0 H H0; nia). subst q. lia.
    + assert (z / M < E1)%Z by (apply Z.div_lt_upper_bound; nia). unfold e in HV. rewrite Z.mod_small in HV by lia. rewrite Z.mul_1_l in HV.
      split; [lia|]. rewrite EO. destruct (Z.lt_ge_cases (z / M) (E0 - 1)); [nia|]. exfalso.
      destruct (Z.eq_dec (z / M) (E0 - 1)) as [E2|E2].
      * rewrite E2 in HV. unfold fmagval in HV, Hv. destruct (Z.eqb_spec (E0 - 1) 0); [lia|]. assert (0 < 2 ^ (E0 - 1 - 1))%Z by (apply Z.pow_pos_nonneg; lia). nia.
      * pose proof (fmagval_lt M (E0 - 1) 0 (z / M) (z mod M) ltac:(lia) ltac:(lia) ltac:(lia) ltac:(lia)). lia.
Qed.
(** so a random instance has no NaN and no -0.0: it equals itself, hashes consistently and
    may be stored in a hash table *)
Lemma range_plain dt z : hashable dt -> in_random_range dt z -> plain dt z.
Proof.
  intros HD [H1 H2]. split; [exact H1|]. destruct dt as [| | |w]; auto. cbn in HD. pose proof (one_pat_bounds w HD).
  apply (C48_unit_interval w z HD H1) in H2. destruct H2 as (v & one & E & _ & _ & HN). split; [congruence|exact HN].
Qed.
Theorem C48_storable : forall g c s k, prng_ok g -> dtypes hashable c -> Forall plain_array (arrays (random g c s k)) /\ (s = [] -> storable c (random g c s k)).
Proof.
  intros g c s k HG HD. assert (HP : Forall plain_array (arrays (random g c s k))).
  { pose proof (proj2 (random_range_values g HG) c s (split g (match k with Some k => k | None => key0 g end) (length (names c))) HD) as H.
    revert H. apply Forall_impl. intros a [H1 H2]. split; [exact H1|]. revert H2. apply Forall_impl. intros z. now apply range_plain. }
  split; [exact HP|]. intros ->. split; [now apply C48_shape|exact HP].
Qed.
Theorem C48_equals_itself : forall g c s k, prng_ok g -> dtypes hashable c -> arrays (random g c s k) <> [] -> obj_eq (random g c s k) (random g c s k) = Some true.
Proof.
  intros g c s k HG HD HN. destruct (C48_storable g c s k HG HD) as [HP _].
  assert (HV : valid (random g c s k)).
  { revert HP. apply Forall_impl. intros a [H1 H2]. split; [revert H2; apply Forall_impl; intros z [H _]; exact H|]. destruct (adtype a); auto. }
  destruct (C42_reflexive c s (random g c s k) (C48_shape g c s k HG) HV HN) as (r & E & HR). rewrite E. f_equal. apply HR.
  revert HP. apply Forall_impl. intros a [H1 H2] (w & z & ED & HI & EN). rewrite ED in H2. rewrite Forall_forall in H2. destruct (H2 z HI) as [_ [HZ _]]. contradiction.
Qed.

(** ** Every instance can be drawn: no value, and no combination of values of different fields
    or rows, is excluded by how the keys and the bits are used *)
Fixpoint at_v (v : value) (p : list nat) : option array := match v with VArr a => match p with [] => Some a | _ => None end | VObj o => at_o o p end
with at_o (o : obj) (p : list nat) : option array :=
  match o with
  | ONil => None
  | OCons _ v r => match p with 0 :: p' => at_v v p' | S i :: p' => at_o r (i :: p') | [] => None end
  end.
(** keys are paths; the draw at a path is read off the wanted instance *)
Definition wanted (O : obj) (f : Z -> Z) (z0 : Z) (p s : list nat) : list Z :=
  match at_o O p with
  | Some a => if shape_eqb (ashape a) s && (length (adata a) =? prod s) then map f (adata a) else repeat z0 (prod s)
  | None => repeat z0 (prod s)
  end.
Definition path_prng (O : obj) : prng :=
  MkPrng (list nat) [] (fun k n => map (fun i => (k ++ [i])%list) (seq 0 n))
    (fun p s w => wanted O (fun z => z mod 2 ^ Z.of_nat w)%Z 0%Z p s)
    (fun p s w => wanted O (fun z => z mod one_pat w)%Z 0%Z p s)
    (fun p s => wanted O (fun z => if (z =? 0)%Z then 0%Z else 1%Z) 0%Z p s).
Lemma wanted_ok O f z0 p s (P : Z -> Prop) : (forall z, P (f z)) -> P z0 -> length (wanted O f z0 p s) = prod s /\ Forall P (wanted O f z0 p s).
Proof.
  intros Hf H0. unfold wanted. assert (K : length (repeat z0 (prod s)) = prod s /\ Forall P (repeat z0 (prod s))).
  { split; [apply repeat_length|]. apply Forall_forall. intros x Hx. apply repeat_spec in Hx. now subst. }
  destruct (at_o O p) as [a|]; [|exact K]. destruct (shape_eqb _ _ && _) eqn:E; [|exact K]. apply andb_true_iff in E. destruct E as [_ E]. apply Nat.eqb_eq in E.
  split; [now rewrite map_length|]. apply Forall_map, Forall_forall. auto.
Qed.
Lemma wanted_eq O f z0 p a : at_o O p = Some a -> wfa a -> Forall (fun z => f z = z) (adata a) -> wanted O f z0 p (ashape a) = adata a.
Proof.
  intros E W HF. unfold wanted. rewrite E, shape_eqb_refl, W, Nat.eqb_refl. cbn [andb]. induction HF as [|z l Hz HF IH]; [reflexivity|]. cbn [map]. now rewrite Hz, IH.
Qed.
Lemma path_prng_ok O : prng_ok (path_prng O).
Proof.
  split; [|split; [|split]]; cbn [split draw_bits draw_uniform draw_bernoulli path_prng].
  - intros k n. now rewrite map_length, seq_length.
  - intros k s w. apply wanted_ok; [intros z; apply Z.mod_pos_bound; apply Z.pow_pos_nonneg; lia|]. assert (0 < 2 ^ Z.of_nat w)%Z by (apply Z.pow_pos_nonneg; lia). lia.
  - intros k s w. split; [apply (wanted_ok O _ 0%Z k s (fun _ => True)); auto|]. intros HW. pose proof (one_pat_bounds w HW).
    apply wanted_ok; [intros z; apply Z.mod_pos_bound; lia|lia].
  - intros k s. apply wanted_ok; [intros z; destruct (z =? 0)%Z; auto|auto].
Qed.
Lemma draw_wanted O dt a p : at_o O p = Some a -> wfa a -> adtype a = dt -> hashable dt -> Forall (in_random_range dt) (adata a) -> draw (path_prng O) dt (ashape a) p = a.
Proof.
  intros EA W ED HD HR. transitivity (MkArr (adtype a) (ashape a) (adata a)); [|now destruct a]. unfold draw. rewrite ED. f_equal.
  destruct dt as [|w|w|w]; cbn [draw_bits draw_uniform draw_bernoulli path_prng].
  - apply wanted_eq; auto. revert HR. apply Forall_impl. intros z [[-> | ->] _]; reflexivity.
  - apply wanted_eq; auto. revert HR. apply Forall_impl. intros z [H _]. now apply Z.mod_small.
  - cbn in HD. unfold wanted. rewrite EA, shape_eqb_refl, W, Nat.eqb_refl. cbn [andb]. rewrite map_map. clear - HR HD.
    induction HR as [|z l [Hz _] HR IH]; [reflexivity|]. cbn [map]. rewrite IH. f_equal. cbn [in_dtype] in Hz.
    assert (1 <= w) by (destruct HD as [-> |[-> |[-> | ->]]]; lia). rewrite <- (wrap_id w z H Hz) at 2. unfold wrap. rewrite Z.mod_mod; [reflexivity|]. apply Z.pow_nonzero; lia.
  - apply wanted_eq; auto. revert HR. apply Forall_impl. intros z [_ H]. now apply Z.mod_small.
Qed.
Definition in_range_arr (a : array) : Prop := Forall (in_random_range (adtype a)) (adata a).
Lemma path_random O :
  (forall d v s p, dtypes_d hashable d -> conforms_v d v -> has_v s d v -> Forall in_range_arr (arrays_v v) -> (forall q, at_o O (p ++ q) = at_v v q) ->
     random_v (path_prng O) s d p = v) /\
  (forall c o s p i, dtypes hashable c -> conforms c o -> has_batch s c o -> Forall in_range_arr (arrays o) -> (forall j q, at_o O (p ++ (i + j) :: q) = at_o o (j :: q)) ->
     random_fields (path_prng O) s c (map (fun j => (p ++ [j])%list) (seq i (length (names c)))) = o).
Proof.
  apply desc_class_ind.
  - intros dt ish bits pb fill [a|o] s p HD HC HH HR HA; try contradiction. cbn [conforms_v has_v arrays_v random_v dtypes_d] in *. f_equal. rewrite <- HH. inversion HR as [|? ? R1 _]; subst. destruct HC as [ED HL].
    apply draw_wanted; auto; [|unfold in_range_arr in R1; congruence]. specialize (HA []). now rewrite app_nil_r in HA.
  - intros c IH ish [a|o] s p HD HC HH HR HA; try contradiction. cbn [conforms_v has_v arrays_v random_v dtypes_d] in *. f_equal. cbn [split path_prng].
    apply IH; auto. intros j q. cbn [Nat.add]. apply (HA (j :: q)).
  - intros [|] s p i _ HC _ _ _; try contradiction. reflexivity.
  - intros n d IHd r IHr [|m v o] s p i [HD1 HD2] HC HH HR HA; try contradiction. cbn [conforms has_batch arrays names length seq map random_fields hd tl] in *.
    destruct HC as (<- & HC1 & HC2), HH as (_ & HH1 & HH2). apply Forall_app in HR. destruct HR as [HR1 HR2]. f_equal.
    + apply IHd; auto. intros q. specialize (HA 0 q). rewrite Nat.add_0_r in HA. rewrite <- app_assoc. exact HA.
    + apply IHr; auto. intros j q. specialize (HA (S j) q). rewrite Nat.add_succ_r in HA. exact HA.
Qed.
Theorem C48_every_instance : forall c s o, dtypes hashable c -> batched c s o -> Forall in_range_arr (arrays o) ->
  exists g k, prng_ok g /\ random g c s (Some k) = o.
Proof.
  intros c s o HD [HC HH] HR. exists (path_prng o), []. split; [apply path_prng_ok|]. unfold random. cbn [split path_prng].
  apply (proj2 (path_random o)); auto.
Qed.

(** ** Refuted: a random instance respects the declared [bits].  The draws of an integer field
    cover its whole dtype, so packing a random instance of a 3-bit uint8 field loses data *)
Definition three_bits : class := CCons "x" (Prim (DUInt 8) [] (Some 3) false 0%Z) CNil.
Definition ones_prng : prng := MkPrng unit tt (fun _ n => repeat tt n) (fun _ s w => repeat (2 ^ Z.of_nat w - 1)%Z (prod s)) (fun _ s _ => repeat 0%Z (prod s)) (fun _ s => repeat 1%Z (prod s)).
Lemma ones_prng_ok : prng_ok ones_prng.
Proof.
  assert (HR : forall n (z : Z) (P : Z -> Prop), P z -> length (repeat z n) = n /\ Forall P (repeat z n)).
  { intros n z P HP. split; [apply repeat_length|]. apply Forall_forall. intros x Hx. apply repeat_spec in Hx. now subst. }
  split; [|split; [|split]]; cbn [split draw_bits draw_uniform draw_bernoulli ones_prng].
  - intros k n. apply repeat_length.
  - intros k s w. apply HR. assert (0 < 2 ^ Z.of_nat w)%Z by (apply Z.pow_pos_nonneg; lia). lia.
  - intros k s w. split; [apply repeat_length|]. intros HW. pose proof (one_pat_bounds w HW). apply HR. lia.
  - intros k s. apply HR. auto.
Qed.
Theorem C48_fits_declared_bits_refuted : exists g, prng_ok g /\ ~ in_bits three_bits (random g three_bits [] None) /\
  exists p o, pack_obj PackXla three_bits (random g three_bits [] None) = Some p /\ as_original three_bits p = Some o /\ o <> random g three_bits [] None.
Proof.
  exists ones_prng. split; [apply ones_prng_ok|]. split.
  - intros [H _]. cbn in H. destruct H as [_ H]. inversion H as [|? ? [_ H1] _]; subst. lia.
  - eexists. eexists. split; [reflexivity|]. split; [reflexivity|]. vm_compute. discriminate.
Qed.

(** ** A concrete case: a class with every kind of field, in a 2x1 batch *)
Definition ex_random_class : class :=
  CCons "u" (Prim (DUInt 32) [2] None false 0%Z) (CCons "i" (Prim (DInt 8) [] None false 0%Z) (CCons "b" (Prim DBool [] None false 0%Z)
    (CCons "f" (Prim (DFloat 32) [] None false 0%Z) (CCons "n" (Nest (CCons "u" (Prim (DUInt 8) [3] None false 0%Z) CNil) [2]) CNil)))).
Example ex_random : prng_ok ones_prng /\ dtypes hashable ex_random_class /\ batched ex_random_class [2; 1] (random ones_prng ex_random_class [2; 1] None) /\
  get_attr_o (random ones_prng ex_random_class [2; 1] None) "i" = Some (VArr (MkArr (DInt 8) [2; 1] [-1; -1]%Z)) /\
  option_map (fun v => map ashape (arrays_v v)) (get_attr_o (random ones_prng ex_random_class [2; 1] None) "n") = Some [[2; 1; 2; 3]].
Proof.
  split; [apply ones_prng_ok|]. split; [cbn; unfold float_width; intuition auto|]. split; [apply C48_shape, ones_prng_ok|]. split; reflexivity.
Qed.
