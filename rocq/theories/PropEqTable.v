(** * PropEqTable.v — property C42, second part: for instances whose floats are neither NaN
      nor negative zero, [==], the words of [uint32ed] and identity are the same relation;
      so every such class is a stored type of the hash-table properties (C21-C31). *)
From Coq Require Import String Eqdep_dec.
From Verif Require Import Jax HashModel HashProofs PropHash StructModel ArrayModel ArrayFacts ShapeModel PropShape RowsModel RowsLift PropRows EqModel FloatEq PropEq.

(** ** Specification *)
(** supported dtypes; a value of the dtype that is not a NaN or -0.0 *)
Definition hashable (dt : dtype) : Prop :=
  match dt with DBool => True | DUInt w | DInt w => w = 8 \/ float_width w | DFloat w => float_width w end.
Definition plain (dt : dtype) (z : Z) : Prop :=
  in_dtype dt z /\ match dt with DFloat w => fval w z <> None /\ z <> (2 ^ (Z.of_nat w - 1))%Z | _ => True end.
Definition plain_array (a : array) : Prop := hashable (adtype a) /\ Forall (plain (adtype a)) (adata a).
(** a single instance of the class with plain contents *)
Definition storable (c : class) (o : obj) : Prop := batched c [] o /\ Forall plain_array (arrays o).

(** ** Leaves *)
Lemma zero_mag w z : (0 < w) -> (0 <= z < 2 ^ Z.of_nat w)%Z -> z <> (2 ^ (Z.of_nat w - 1))%Z -> fmag w z = 0%Z -> z = 0%Z.
Proof.
  intros Hw Hz HN E. unfold fmag in E. set (p := (2 ^ (Z.of_nat w - 1))%Z) in *. assert (Hp : (0 < p)%Z) by (apply Z.pow_pos_nonneg; lia).
  assert (EP : (2 ^ Z.of_nat w = 2 * p)%Z) by (unfold p; rewrite <- Z.pow_succ_r by lia; f_equal; lia). rewrite EP in Hz.
  pose proof (Z.div_mod z p ltac:(lia)) as ED. rewrite E, Z.add_0_r in ED. assert (0 <= z / p)%Z by (apply Z.div_pos; lia). assert (z / p < 2)%Z by (apply Z.div_lt_upper_bound; lia).
  assert (z / p = 0 \/ z / p = 1)%Z as [E1|E1] by lia; rewrite E1 in ED; lia.
Qed.
Lemma plain_eq dt x y : hashable dt -> plain dt x -> plain dt y -> (elt_eqb dt x y = true <-> x = y).
Proof.
  intros HD [Hx Px] [Hy Py]. destruct dt as [|w|w|w]; cbn [elt_eqb]; try apply Z.eqb_eq. cbn in HD, Hx, Hy. destruct Px as [Nx Zx], Py as [Ny Zy].
  assert (0 < w) by (destruct HD as [->|[->| ->]]; lia). rewrite !andb_true_iff, !negb_true_iff, orb_true_iff, andb_true_iff, !Z.eqb_eq. split.
  - intros [_ [E|[E1 E2]]]; [exact E|]. rewrite (zero_mag w x), (zero_mag w y) by assumption. reflexivity.
  - intros <-. assert (is_nan w x = false) by (destruct (is_nan w x) eqn:E; [|reflexivity]; apply is_nan_spec in E; [contradiction|exact HD|exact Hx]). auto.
Qed.
Lemma plain_leaf_eq a b : plain_array a -> plain_array b -> paired a b -> ashape b = ashape a ->
  exists r, leaf_eq a b = Some r /\ (r = true <-> a = b).
Proof.
  intros [HD Pa] [_ Pb] HP ES. destruct (leaf_eq_batch [] (ashape a) a b HP eq_refl ES) as (r & E & HR). exists r. split; [exact E|]. rewrite HR. destruct HP as (ED & Wa & Wb). rewrite Forall_forall in Pa, Pb.
  assert (K : forall t, inb t (ashape a) -> (elt_eqb (adtype a) (get a t) (get b t) = true <-> get a t = get b t)).
  { intros t Ht. apply plain_eq; [exact HD|apply Pa; now apply get_in|rewrite ED; apply Pb; apply get_in; [exact Wb|now rewrite ES]]. }
  split.
  - intros H. apply array_ext; auto. intros idx HI. apply K; [exact HI|]. exact (H [] idx inb_nil HI).
  - intros -> i t Hi Ht. inversion Hi; subst. cbn [app]. now apply K.
Qed.
Lemma dwidth_some dt : hashable dt -> exists w, dwidth dt = Some w /\ forall z, in_dtype dt z -> (0 <= z < 2 ^ Z.of_N (wbits w) \/ - 2 ^ (Z.of_N (wbits w) - 1) <= z < 2 ^ (Z.of_N (wbits w) - 1))%Z.
Proof.
  destruct dt as [|w|w|w]; cbn [hashable dwidth in_dtype]; intros H.
  - exists B8. split; [reflexivity|]. intros z [->| ->]; left; cbn; lia.
  - destruct H as [->|[->|[->| ->]]]; eexists; (split; [reflexivity|]); intros z Hz; left; exact Hz.
  - destruct H as [->|[->|[->| ->]]]; eexists; (split; [reflexivity|]); intros z Hz; right; exact Hz.
  - destruct H as [->|[->| ->]]; eexists; (split; [reflexivity|]); intros z Hz; left; exact Hz.
Qed.
Lemma dwidth_range dt w : dwidth dt = Some w -> (forall z, in_dtype dt z -> 0 <= z < 2 ^ Z.of_N (wbits w))%Z \/ (forall z, in_dtype dt z -> - 2 ^ (Z.of_N (wbits w) - 1) <= z < 2 ^ (Z.of_N (wbits w) - 1))%Z.
Proof.
  destruct dt as [|v|v|v]; cbn [dwidth in_dtype]; intros H.
  - injection H as <-. left. intros z [->| ->]; cbn; lia.
  - left. destruct (v =? 8) eqn:E1; [|destruct (v =? 16) eqn:E2; [|destruct (v =? 32) eqn:E3; [|destruct (v =? 64) eqn:E4; [|discriminate]]]]; injection H as <-;
      match goal with K : (v =? _) = true |- _ => apply Nat.eqb_eq in K; subst v end; auto.
  - right. destruct (v =? 8) eqn:E1; [|destruct (v =? 16) eqn:E2; [|destruct (v =? 32) eqn:E3; [|destruct (v =? 64) eqn:E4; [|discriminate]]]]; injection H as <-;
      match goal with K : (v =? _) = true |- _ => apply Nat.eqb_eq in K; subst v end; auto.
  - left. destruct (v =? 8) eqn:E1; [discriminate|]. destruct (v =? 16) eqn:E2; [|destruct (v =? 32) eqn:E3; [|destruct (v =? 64) eqn:E4; [|discriminate]]]; injection H as <-;
      match goal with K : (v =? _) = true |- _ => apply Nat.eqb_eq in K; subst v end; auto.
Qed.
Lemma pattern_lt w z : (pattern w z < 2 ^ wbits w)%N.
Proof.
  unfold pattern. assert (0 < 2 ^ Z.of_N (wbits w))%Z by (apply Z.pow_pos_nonneg; lia). pose proof (Z.mod_pos_bound z _ H).
  assert (E : (2 ^ wbits w)%N = Z.to_N (2 ^ Z.of_N (wbits w))) by (rewrite Z2N.inj_pow by lia; f_equal; now rewrite N2Z.id). rewrite E. apply Z2N.inj_lt; lia.
Qed.
Lemma mod_close (m x y : Z) : (0 < m)%Z -> (- m < x - y < m)%Z -> (x mod m = y mod m)%Z -> x = y.
Proof.
  intros Hm HD E. pose proof (Z.div_mod x m ltac:(lia)) as E1. pose proof (Z.div_mod y m ltac:(lia)) as E2. rewrite E in E1. set (u := (x / m)%Z) in *. set (v := (y / m)%Z) in *. assert (H : (x - y = m * (u - v))%Z) by (rewrite Z.mul_sub_distr_l; lia). assert (u - v = 0)%Z by nia. replace (u - v)%Z with 0%Z in H by lia. lia.
Qed.
Lemma pattern_inj dt w x y : dwidth dt = Some w -> in_dtype dt x -> in_dtype dt y -> pattern w x = pattern w y -> x = y.
Proof.
  intros EW Hx Hy E. unfold pattern in E. set (m := (2 ^ Z.of_N (wbits w))%Z) in *. assert (Hm : (0 < m)%Z) by (apply Z.pow_pos_nonneg; lia).
  assert (E' : (x mod m = y mod m)%Z) by (apply Z2N.inj in E; [exact E|apply Z.mod_pos_bound; exact Hm|apply Z.mod_pos_bound; exact Hm]).
  assert (EP : (m = 2 * 2 ^ (Z.of_N (wbits w) - 1))%Z) by (unfold m; rewrite <- Z.pow_succ_r by (destruct w; cbn; lia); f_equal; lia).
  apply (mod_close m); [exact Hm| |exact E']. destruct (dwidth_range dt w EW) as [K|K]; pose proof (K x Hx) as Kx; pose proof (K y Hy) as Ky; clear - Kx Ky EP; [fold m in Kx, Ky|]; lia.
Qed.
Lemma plain_leaf_ok a : plain_array a -> leaf_ok (array_leaf a).
Proof. intros [HD _]. destruct (dwidth_some _ HD) as (w & EW & _). unfold array_leaf. rewrite EW. unfold leaf_ok. cbn [lelems lwidth]. apply Forall_forall. intros x HX. apply in_map_iff in HX. destruct HX as (z & <- & _). apply pattern_lt. Qed.
Lemma paired_layout a b : paired a b -> ashape b = ashape a -> lwidth (array_leaf a) = lwidth (array_leaf b) /\ length (lelems (array_leaf a)) = length (lelems (array_leaf b)).
Proof. intros (ED & Wa & Wb) ES. unfold array_leaf. rewrite ED. cbn [lwidth lelems]. split; [reflexivity|]. rewrite !map_length, Wa, Wb, ES. reflexivity. Qed.
Lemma plain_leaf_inj a b : plain_array a -> plain_array b -> paired a b -> ashape b = ashape a -> array_leaf a = array_leaf b -> a = b.
Proof.
  intros [HD Pa] [_ Pb] (ED & Wa & Wb) ES E. destruct (dwidth_some _ HD) as (w & EW & _). unfold array_leaf in E. rewrite <- ED, EW in E. injection E as E. rewrite <- ED in Pb.
  destruct a as [dt s da], b as [dt' s' db]. cbn in *. subst dt' s'. f_equal. clear - E EW Pa Pb. revert db E Pb. induction Pa as [|x l Px Pl IH]; intros [|y m] E Pb; cbn in E; try discriminate; [reflexivity|].
  inversion Pb as [|? ? Py Pm]; subst. injection E as E1 E2. f_equal; [|now apply IH]. apply (pattern_inj dt w); [exact EW|apply Px|apply Py|exact E1].
Qed.

(** ** Instances *)
Lemma storable_pairs c o q : storable c o -> storable c q -> Forall2 (fun a b => plain_array a /\ plain_array b /\ ashape b = ashape a /\ paired a b) (arrays o) (arrays q).
Proof. intros [HO PO] [HQ PQ]. apply Forall2_combine; [exact PO|exact PQ|]. now apply (pair_facts_same c []). Qed.
Theorem C42_item_laws : forall c o q, storable c o -> storable c q -> arrays o <> [] ->
  (exists r, obj_eq o q = Some r /\ (r = true <-> o = q)) /\
  (obj_words o = obj_words q <-> o = q) /\
  length (obj_words o) = length (obj_words q) /\
  Forall (fun x => x < 2 ^ 32)%N (obj_words o).
Proof.
  intros c o q HO HQ HN. pose proof (storable_pairs c o q HO HQ) as HF.
  assert (EA : arrays o = arrays q -> o = q) by (intros E; apply (proj2 arrays_inj c); [apply HO|apply HQ|exact E]).
  assert (LY : same_layout (map array_leaf (arrays o)) (map array_leaf (arrays q))).
  { clear - HF. unfold same_layout. induction HF as [|a b l m (_ & _ & ES & HP) HF IH]; cbn; constructor; [now apply paired_layout|exact IH]. }
  assert (OK : forall p, storable c p -> Forall leaf_ok (map array_leaf (arrays p))).
  { intros p [_ PP]. clear - PP. induction PP; cbn; constructor; [now apply plain_leaf_ok|assumption]. }
  split; [|split; [|split]].
  - assert (HF' : Forall2 (fun a b => exists r, leaf_eq a b = Some r /\ (r = true <-> a = b)) (arrays o) (arrays q)).
    { revert HF. apply Forall2_impl. intros a b (Pa & Pb & ES & HP). now apply plain_leaf_eq. }
    destruct (zip_eq c o q eq (proj1 (proj1 HO)) (proj1 (proj1 HQ)) HN HF') as (r & E & HR). exists r. split; [exact E|]. rewrite HR. split.
    + intros H. apply EA. clear - H. induction H; congruence.
    + intros ->. clear. induction (arrays q); constructor; auto.
  - split; [|now intros ->]. intros E. apply EA. unfold obj_words in E. apply uint32ed_inj in E; [|now apply OK|now apply OK|exact LY].
    clear - HF E. induction HF as [|a b l m (Pa & Pb & ES & HP) HF IH]; [reflexivity|]. cbn [map] in E. assert (EH : array_leaf a = array_leaf b /\ map array_leaf l = map array_leaf m) by (split; congruence). destruct EH as [E1 E2]. f_equal; [now apply plain_leaf_inj|now apply IH].
  - unfold obj_words, uint32ed. clear - LY. induction LY as [|x y a b [Hw HE] LY IH]; [reflexivity|]. cbn [map concat]. rewrite !app_length, IH. f_equal. now apply leaf_words_length.
  - apply uint32ed_word. now apply OK.
Qed.

(** ** Instances of a class as stored items *)
Definition plainb (dt : dtype) (z : Z) : bool :=
  match dt with
  | DBool => (z =? 0)%Z || (z =? 1)%Z
  | DUInt w => (0 <=? z)%Z && (z <? 2 ^ Z.of_nat w)%Z
  | DInt w => (- 2 ^ (Z.of_nat w - 1) <=? z)%Z && (z <? 2 ^ (Z.of_nat w - 1))%Z
  | DFloat w => (0 <=? z)%Z && (z <? 2 ^ Z.of_nat w)%Z && negb (match fval w z with Some _ => false | None => true end) && negb (z =? 2 ^ (Z.of_nat w - 1))%Z
  end.
Definition hashableb (dt : dtype) : bool :=
  match dt with
  | DBool => true
  | DUInt w | DInt w => existsb (Nat.eqb w) [8; 16; 32; 64]
  | DFloat w => existsb (Nat.eqb w) [16; 32; 64]
  end.
Fixpoint good_v (J : list nat) (d : desc) (v : value) {struct v} : bool :=
  match d, v with
  | Prim dt ish _ _ _, VArr a => dtype_eqb (adtype a) dt && shape_eqb (ashape a) (J ++ ish) && (length (adata a) =? prod (ashape a)) && hashableb dt && forallb (plainb dt) (adata a)
  | Nest c ish, VObj o => good (J ++ ish) c o
  | _, _ => false
  end
with good (J : list nat) (c : class) (o : obj) {struct o} : bool :=
  match c, o with
  | CNil, ONil => true
  | CCons n d r, OCons m v q => String.eqb n m && good_v J d v && good J r q
  | _, _ => false
  end.
Lemma plainb_spec dt z : plainb dt z = true <-> plain dt z.
Proof.
  unfold plain. destruct dt as [|w|w|w]; cbn [plainb in_dtype].
  - rewrite orb_true_iff, !Z.eqb_eq. tauto.
  - rewrite andb_true_iff, Z.leb_le, Z.ltb_lt. tauto.
  - rewrite andb_true_iff, Z.leb_le, Z.ltb_lt. tauto.
  - rewrite !andb_true_iff, !negb_true_iff, Z.leb_le, Z.ltb_lt, Z.eqb_neq. destruct (fval w z); intuition congruence.
Qed.
Lemma hashableb_spec dt : hashableb dt = true <-> hashable dt.
Proof.
  destruct dt as [|w|w|w]; cbn [hashableb hashable existsb]; unfold float_width; rewrite ?orb_true_iff, ?Nat.eqb_eq; [tauto| | |]; split; intuition congruence.
Qed.
Lemma dtype_eqb_spec a b : dtype_eqb a b = true <-> a = b.
Proof. unfold dtype_eqb. destruct (dtype_eq_dec a b); split; congruence. Qed.
Lemma shape_eqb_spec a b : shape_eqb a b = true <-> a = b.
Proof. unfold shape_eqb. destruct (list_eq_dec Nat.eq_dec a b); split; congruence. Qed.
Lemma good_spec : (forall v d J, good_v J d v = true <-> conforms_v d v /\ has_v J d v /\ Forall plain_array (arrays_v v)) /\
  (forall o c J, good J c o = true <-> conforms c o /\ has_batch J c o /\ Forall plain_array (arrays o)).
Proof.
  apply value_obj_ind.
  - intros a [dt ish bits pb fill|c ish] J; cbn; [|split; [discriminate|tauto]]. rewrite !andb_true_iff, dtype_eqb_spec, shape_eqb_spec, Nat.eqb_eq, hashableb_spec. split.
    + intros ((((<- & ES) & EL) & HD) & HF). split; [auto|]. split; [exact ES|]. constructor; [|constructor]. split; [exact HD|]. apply Forall_forall. rewrite forallb_forall in HF. intros z HZ. apply plainb_spec. now apply HF.
    + intros ([<- EL] & ES & HF). inversion HF as [|? ? [HD HP] _]; subst. repeat split; auto. apply forallb_forall. rewrite Forall_forall in HP. intros z HZ. apply plainb_spec. now apply HP.
  - intros o IH [dt ish bits pb fill|c ish] J; cbn; [split; [discriminate|tauto]|]. apply IH.
  - intros [|n d c] J; cbn; [|split; [discriminate|tauto]]. split; [repeat split; constructor|reflexivity].
  - intros m v IHv q IHq [|n d c] J; cbn; [split; [discriminate|tauto]|]. rewrite !andb_true_iff, String.eqb_eq, IHv, IHq, Forall_app. tauto.
Qed.
Lemma good_storable c o : good [] c o = true <-> storable c o.
Proof. unfold storable, batched. rewrite (proj2 good_spec). tauto. Qed.
Definition item (c : class) : Type := {o : obj | good [] c o = true}.
Lemma item_eq c (x y : item c) : proj1_sig x = proj1_sig y -> x = y.
Proof. destruct x as [o H], y as [q K]. cbn. intros <-. f_equal. apply UIP_dec, Bool.bool_dec. Qed.
(** the class has a leaf, supported dtypes, and its default instance is plain *)
Definition class_ok (c : class) : bool := good [] c (default_obj [] c) && match arrays (default_obj [] c) with [] => false | _ => true end.
Lemma item_arrays c (H : class_ok c = true) (x : item c) : arrays (proj1_sig x) <> [].
Proof.
  destruct x as [o G]. cbn. apply andb_prop in H. destruct H as [HD HN]. apply good_storable in HD, G. pose proof (storable_pairs c _ _ HD G) as HF. intros E. rewrite E in HF. inversion HF as [K|]. rewrite <- K in HN. discriminate.
Qed.
From Verif Require Import TableSpec PropTable PropTableCases.
Definition item_eqb c (x y : item c) : bool := match obj_eq (proj1_sig x) (proj1_sig y) with Some b => b | None => false end.
Lemma item_eqb_spec c (H : class_ok c = true) (x y : item c) : item_eqb c x y = true <-> x = y.
Proof.
  pose proof (item_arrays c H x) as HN. destruct x as [o Go], y as [q Gq]. cbn in HN. unfold item_eqb. cbn.
  destruct (C42_item_laws c o q (proj1 (good_storable c o) Go) (proj1 (good_storable c q) Gq) HN) as ((r & -> & HR) & _). rewrite HR. split; [intros E; apply item_eq; exact E|intros E; exact (f_equal (@proj1_sig _ _) E)].
Qed.
Lemma item_words_inj c (H : class_ok c = true) (x y : item c) : obj_words (proj1_sig x) = obj_words (proj1_sig y) -> x = y.
Proof.
  pose proof (item_arrays c H x) as HN. destruct x as [o Go], y as [q Gq]. cbn in HN. cbn. intros E.
  destruct (C42_item_laws c o q (proj1 (good_storable c o) Go) (proj1 (good_storable c q) Gq) HN) as (_ & HW & _). apply item_eq. cbn. now apply HW.
Qed.
Definition default_item c (H : class_ok c = true) : item c := exist _ (default_obj [] c) (proj1 (andb_prop _ _ H)).
Lemma item_words_len c (H : class_ok c = true) (x : item c) : length (obj_words (proj1_sig x)) = length (obj_words (default_obj [] c)).
Proof.
  pose proof (item_arrays c H x) as HN. destruct x as [o Go]. cbn in HN. cbn. pose proof (proj1 (andb_prop _ _ H)) as Gd.
  apply (C42_item_laws c o (default_obj [] c) (proj1 (good_storable c o) Go) (proj1 (good_storable c _) Gd) HN).
Qed.
(** the stored type (TableSpec.v) of the instances of a class *)
Definition table_item (c : class) (H : class_ok c = true) (seed : N) : dataclass (item c) :=
  {| dc_eqb := item_eqb c; dc_default := default_item c H; dc_words := fun x => obj_words (proj1_sig x);
     dc_nwords := length (obj_words (default_obj [] c)); dc_hash := fun ws => hash_fast_pair ws seed;
     dc_eq := item_eqb_spec c H; dc_inj := item_words_inj c H; dc_len := item_words_len c H |}.
(** its hash pair is the one computed from the instance in every streaming mode (a forced
    stream over fields without words differs: C17) *)
Theorem C42_hash_pair : forall c H seed m (x : item c), obj_words (proj1_sig x) <> [] \/ m <> On ->
  hash_pair (table_item c H seed) x = obj_hash_pair m seed (proj1_sig x).
Proof.
  intros c H seed m x HM. unfold hash_pair, table_item, obj_hash_pair. cbn [dc_hash dc_words]. unfold obj_words, uint32ed in *.
  set (ls := map leaf_words (map array_leaf (arrays (proj1_sig x)))) in *. destruct m as [| |th].
  - reflexivity.
  - destruct HM as [HM|]; [|congruence]. destruct (C17_modes_agree Off On ls ls seed eq_refl HM) as [_ <-]. reflexivity.
  - destruct (C17_auto_eq_off th ls seed) as [_ ->]. reflexivity.
Qed.
(** an instance that was inserted is found through every instance that [==] it *)
Theorem C42_table : forall c H seed C es t (x : item c) i, history (table_item c H seed) C es t -> reported (table_item c H seed) es x i ->
  forall q (G : good [] c q = true), obj_eq q (proj1_sig x) = Some true ->
    Lookup (table_item c H seed) t (exist _ q G) = Some (i, true) /\ obj_eq (proj1_sig (GetItem (table_item c H seed) t i)) q = Some true.
Proof.
  intros c H seed C es t x i HH HR q G HE. set (T := table_item c H seed).
  assert (E : exist _ q G = x).
  { apply (item_eqb_spec c H). unfold item_eqb. cbn. now rewrite HE. }
  rewrite E. destruct (C22_found_forever T C es t x i HH HR) as [E1 E2]. split; [exact E1|]. rewrite E2.
  pose proof (proj2 (item_eqb_spec c H x (exist _ q G)) (eq_sym E)) as K. unfold item_eqb in K. cbn in K. destruct (obj_eq (proj1_sig x) q) as [[|]|]; congruence.
Qed.
(** a class with a nested field, a signed, a float and a boolean field *)
Definition demo_class : class := CCons "pos" (Prim (DInt 32) [2] None false 0%Z) (CCons "cost" (Prim (DFloat 32) [] None false 0x7F800000%Z)
  (CCons "sub" (Nest (CCons "flag" (Prim DBool [3] None false 0%Z) CNil) [2]) CNil)).
Definition demo_obj : obj := OCons "pos" (VArr (MkArr (DInt 32) [2] [-1; 7]%Z)) (OCons "cost" (VArr (MkArr (DFloat 32) [] [0x3F800000]%Z))
  (OCons "sub" (VObj (OCons "flag" (VArr (MkArr DBool [2; 3] [1; 0; 1; 1; 0; 0]%Z)) ONil)) ONil)).
Example C42_table_case : class_ok demo_class = true /\ good [] demo_class demo_obj = true /\ obj_eq demo_obj demo_obj = Some true /\ length (obj_words demo_obj) = 5.
Proof. repeat split; vm_compute; reflexivity. Qed.
Definition demo_item : item demo_class := exist _ demo_obj eq_refl.
Definition demo_T := table_item demo_class eq_refl 0.
Example C42_history_case : exists C es t i, history demo_T C es t /\ reported demo_T es demo_item i.
Proof.
  assert (E0 : option_map (fun p => snd (fst p)) (Insert demo_T (Build demo_T 4 2 2 None) demo_item) = Some true) by (vm_compute; reflexivity).
  exists DEF. destruct (Insert demo_T (Build demo_T 4 2 2 None) demo_item) as [[[t ok] i]|] eqn:E; [|discriminate].
  cbn [option_map fst snd] in E0. injection E0 as ->.
  exists [EInsert demo_item true i], t, i. split.
  - exists 4, 2, 2, None. split; [unfold config_ok; cbn; repeat split; lia|]. econstructor; [constructor; exact E|constructor].
  - exists (EInsert demo_item true i). split; [now left|]. repeat split.
Qed.
Print Assumptions C42_table.
