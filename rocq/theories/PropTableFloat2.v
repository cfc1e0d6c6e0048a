(** * PropTableFloat2.v — property C58, second part: instances of any class as table items,
      with any floats; what is stored when NaN and -0.0 occur. *)
From Coq Require Import String Eqdep_dec.
From Verif Require Import Jax HashModel HashProofs PropHash StructModel ArrayModel ArrayFacts ShapeModel PropShape RowsModel RowsLift PropRows EqModel FloatEq PropEq PropEqTable.
From Verif Require Import TableModel TableSpec PropTable PropTableCases TableFloat TableFloatSim PropTableFloat.

(** ** any values of the supported dtypes *)
Definition inb_dtype (dt : dtype) (z : Z) : bool :=
  match dt with
  | DBool => (z =? 0)%Z || (z =? 1)%Z
  | DUInt w | DFloat w => (0 <=? z)%Z && (z <? 2 ^ Z.of_nat w)%Z
  | DInt w => (- 2 ^ (Z.of_nat w - 1) <=? z)%Z && (z <? 2 ^ (Z.of_nat w - 1))%Z
  end.
Lemma inb_dtype_spec dt z : inb_dtype dt z = true <-> in_dtype dt z.
Proof. destruct dt as [|w|w|w]; cbn [inb_dtype in_dtype]; rewrite ?orb_true_iff, ?andb_true_iff, ?Z.leb_le, ?Z.ltb_lt, ?Z.eqb_eq; tauto. Qed.
Definition word_array (a : array) : Prop := hashable (adtype a) /\ Forall (in_dtype (adtype a)) (adata a).
Fixpoint okay_v (J : list nat) (d : desc) (v : value) {struct v} : bool :=
  match d, v with
  | Prim dt ish _ _ _, VArr a => dtype_eqb (adtype a) dt && shape_eqb (ashape a) (J ++ ish) && (length (adata a) =? prod (ashape a)) && hashableb dt && forallb (inb_dtype dt) (adata a)
  | Nest c ish, VObj o => okay (J ++ ish) c o
  | _, _ => false
  end
with okay (J : list nat) (c : class) (o : obj) {struct o} : bool :=
  match c, o with
  | CNil, ONil => true
  | CCons n d r, OCons m v q => String.eqb n m && okay_v J d v && okay J r q
  | _, _ => false
  end.
Lemma okay_spec : (forall v d J, okay_v J d v = true <-> conforms_v d v /\ has_v J d v /\ Forall word_array (arrays_v v)) /\
  (forall o c J, okay J c o = true <-> conforms c o /\ has_batch J c o /\ Forall word_array (arrays o)).
Proof.
  apply value_obj_ind.
  - intros a [dt ish bits pb fill|c ish] J; cbn; [|split; [discriminate|tauto]]. rewrite !andb_true_iff, dtype_eqb_spec, shape_eqb_spec, Nat.eqb_eq, hashableb_spec. split.
    + intros ((((<- & ES) & EL) & HD) & HF). split; [auto|]. split; [exact ES|]. constructor; [|constructor]. split; [exact HD|]. apply Forall_forall. rewrite forallb_forall in HF. intros z HZ. apply inb_dtype_spec. now apply HF.
    + intros ([<- EL] & ES & HF). inversion HF as [|? ? [HD HP] _]; subst. repeat split; auto. apply forallb_forall. rewrite Forall_forall in HP. intros z HZ. apply inb_dtype_spec. now apply HP.
  - intros o IH [dt ish bits pb fill|c ish] J; cbn; [split; [discriminate|tauto]|]. apply IH.
  - intros [|n d c] J; cbn; [|split; [discriminate|tauto]]. split; [repeat split; constructor|reflexivity].
  - intros m v IHv q IHq [|n d c] J; cbn; [split; [discriminate|tauto]|]. rewrite !andb_true_iff, String.eqb_eq, IHv, IHq, Forall_app. tauto.
Qed.
(** a single instance of the class *)
Definition single (c : class) (o : obj) : Prop := batched c [] o /\ Forall word_array (arrays o).
Lemma okay_single c o : okay [] c o = true <-> single c o.
Proof. unfold single, batched. rewrite (proj2 okay_spec). tauto. Qed.
Lemma single_valid c o : single c o -> valid o.
Proof.
  intros [_ H]. unfold valid. revert H. apply Forall_impl. intros a [HD HP]. split; [exact HP|]. destruct (adtype a); try exact Logic.I. exact HD.
Qed.
Lemma word_leaf_ok a : word_array a -> leaf_ok (array_leaf a).
Proof. intros [HD _]. destruct (dwidth_some _ HD) as (w & EW & _). unfold array_leaf. rewrite EW. unfold leaf_ok. cbn [lelems lwidth]. apply Forall_forall. intros x HX. apply in_map_iff in HX. destruct HX as (z & <- & _). apply pattern_lt. Qed.
Lemma word_leaf_inj a b : word_array a -> word_array b -> paired a b -> ashape b = ashape a -> array_leaf a = array_leaf b -> a = b.
Proof.
  intros [HD Pa] [_ Pb] (ED & Wa & Wb) ES E. destruct (dwidth_some _ HD) as (w & EW & _). unfold array_leaf in E. rewrite <- ED, EW in E. injection E as E. rewrite <- ED in Pb.
  destruct a as [dt s da], b as [dt' s' db]. cbn in *. subst dt' s'. f_equal. clear - E EW Pa Pb. revert db E Pb. induction Pa as [|x l Px Pl IH]; intros [|y m] E Pb; cbn in E; try discriminate; [reflexivity|].
  inversion Pb as [|? ? Py Pm]; subst. injection E as E1 E2. f_equal; [|now apply IH]. apply (pattern_inj dt w); [exact EW|exact Px|exact Py|exact E1].
Qed.
Lemma single_pairs c o q : single c o -> single c q -> Forall2 (fun a b => word_array a /\ word_array b /\ ashape b = ashape a /\ paired a b) (arrays o) (arrays q).
Proof. intros [HO PO] [HQ PQ]. apply Forall2_combine; [exact PO|exact PQ|]. now apply (pair_facts_same c []). Qed.
(** the words determine the bits of the instance *)
Theorem C58_words : forall c o q, single c o -> single c q ->
  (obj_words o = obj_words q <-> o = q) /\ length (obj_words o) = length (obj_words q) /\ Forall (fun x => x < 2 ^ 32)%N (obj_words o).
Proof.
  intros c o q HO HQ. pose proof (single_pairs c o q HO HQ) as HF.
  assert (EA : arrays o = arrays q -> o = q) by (intros E; apply (proj2 arrays_inj c); [apply HO|apply HQ|exact E]).
  assert (LY : same_layout (map array_leaf (arrays o)) (map array_leaf (arrays q))).
  { clear - HF. unfold same_layout. induction HF as [|a b l m (_ & _ & ES & HP) HF IH]; cbn; constructor; [now apply paired_layout|exact IH]. }
  assert (OK : forall p, single c p -> Forall leaf_ok (map array_leaf (arrays p))).
  { intros p [_ PP]. clear - PP. induction PP; cbn; constructor; [now apply word_leaf_ok|assumption]. }
  split; [|split].
  - split; [|now intros ->]. intros E. apply EA. unfold obj_words in E. apply uint32ed_inj in E; [|now apply OK|now apply OK|exact LY].
    clear - HF E. induction HF as [|a b l m (Pa & Pb & ES & HP) HF IH]; [reflexivity|]. cbn [map] in E. assert (EH : array_leaf a = array_leaf b /\ map array_leaf l = map array_leaf m) by (split; congruence). destruct EH as [E1 E2]. f_equal; [now apply word_leaf_inj|now apply IH].
  - unfold obj_words, uint32ed. clear - LY. induction LY as [|x y a b [Hw HE] LY IH]; [reflexivity|]. cbn [map concat]. rewrite !app_length, IH. f_equal. now apply leaf_words_length.
  - apply uint32ed_word. now apply OK.
Qed.
(** ** instances as items *)
Definition fitem (c : class) : Type := {o : obj | okay [] c o = true}.
Lemma fitem_eq c (x y : fitem c) : proj1_sig x = proj1_sig y -> x = y.
Proof. destruct x as [o H], y as [q K]. cbn. intros <-. f_equal. apply UIP_dec, Bool.bool_dec. Qed.
Lemma fitem_single c (x : fitem c) : single c (proj1_sig x).
Proof. apply okay_single. exact (proj2_sig x). Qed.
(** the class has supported dtypes and its instances have at least one word *)
Definition fclass_ok (c : class) : bool := okay [] c (default_obj [] c) && negb (length (obj_words (default_obj [] c)) =? 0).
Definition same_bits {c} (x y : fitem c) : bool := if list_eq_dec N.eq_dec (obj_words (proj1_sig x)) (obj_words (proj1_sig y)) then true else false.
Lemma fitem_words_inj c (x y : fitem c) : obj_words (proj1_sig x) = obj_words (proj1_sig y) -> x = y.
Proof. intros H. apply fitem_eq. apply (C58_words c _ _ (fitem_single c x) (fitem_single c y)). exact H. Qed.
Lemma same_bits_eq c (x y : fitem c) : same_bits x y = true <-> x = y.
Proof. unfold same_bits. destruct (list_eq_dec _ _ _) as [H|H]; split; try discriminate; [intros _; now apply fitem_words_inj|reflexivity|intros ->; congruence]. Qed.
Definition default_fitem c (H : fclass_ok c = true) : fitem c := exist _ (default_obj [] c) (proj1 (andb_prop _ _ H)).
Lemma fitem_len c (H : fclass_ok c = true) (x : fitem c) : length (obj_words (proj1_sig x)) = length (obj_words (default_obj [] c)).
Proof. exact (proj1 (proj2 (C58_words c _ _ (fitem_single c x) (fitem_single c (default_fitem c H))))). Qed.
Definition float_item (c : class) (H : fclass_ok c = true) (seed : N) : dataclass (fitem c) :=
  {| dc_eqb := same_bits; dc_default := default_fitem c H; dc_words := fun x => obj_words (proj1_sig x);
     dc_nwords := length (obj_words (default_obj [] c)); dc_hash := fun ws => hash_fast_pair ws seed;
     dc_eq := same_bits_eq c; dc_inj := fitem_words_inj c; dc_len := fitem_len c H |}.
Lemma fitem_arrays c (H : fclass_ok c = true) (x : fitem c) : arrays (proj1_sig x) <> [].
Proof.
  intros EA. pose proof (fitem_len c H x) as HL. apply andb_prop in H. destruct H as [_ HN]. unfold obj_words in HL at 1. rewrite EA in HL. cbn in HL. rewrite <- HL in HN. discriminate.
Qed.
(** the [==] of the code *)
Definition obj_eqb {c} (x y : fitem c) : bool := match obj_eq (proj1_sig x) (proj1_sig y) with Some b => b | None => false end.
Lemma obj_eqb_true c (x y : fitem c) : obj_eqb x y = true <-> obj_eq (proj1_sig x) (proj1_sig y) = Some true.
Proof. unfold obj_eqb. destruct (obj_eq _ _) as [[|]|]; split; congruence. Qed.
Lemma obj_eqb_self c (H : fclass_ok c = true) (x y : fitem c) : obj_eqb x y = true -> obj_eqb x x = true /\ obj_eqb y y = true.
Proof.
  rewrite !obj_eqb_true. intros E. pose proof (fitem_single c x) as SX. pose proof (fitem_single c y) as SY. pose proof (single_valid c _ SX) as VX. pose proof (single_valid c _ SY) as VY.
  destruct (C42_symmetric_transitive c [] _ _ _ (proj1 SX) (proj1 SY) (proj1 SX) VX VY VX (fitem_arrays c H x)) as [S1 T1]. pose proof (S1 E) as E'.
  destruct (C42_symmetric_transitive c [] _ _ _ (proj1 SY) (proj1 SX) (proj1 SY) VY VX VY (fitem_arrays c H y)) as [_ T2]. auto.
Qed.
Lemma float_item_some c (H : fclass_ok c = true) : 0 < length (obj_words (default_obj [] c)).
Proof. apply andb_prop in H. destruct H as [_ HN]. destruct (length (obj_words (default_obj [] c))); [discriminate|lia]. Qed.
Definition float_eq (c : class) (H : fclass_ok c = true) (seed : N) : ieee (float_item c H seed) :=
  Build_ieee (fitem c) (float_item c H seed) obj_eqb (obj_eqb_self c H)
    (fun x => proj2 (proj2 (C58_words c _ _ (fitem_single c x) (fitem_single c x)))) (float_item_some c H).
(** an item without NaN is one whose floats are all numbers *)
Theorem C58_numeric : forall c H seed (x : fitem c), numeric _ (float_eq c H seed) x <-> Forall (fun a => ~ has_nan a) (arrays (proj1_sig x)).
Proof.
  intros c H seed x. unfold numeric. cbn [float_eq ie_eq]. rewrite obj_eqb_true. pose proof (fitem_single c x) as SX.
  destruct (C42_reflexive c [] _ (proj1 SX) (single_valid c _ SX) (fitem_arrays c H x)) as (r & -> & HR). rewrite <- HR. split; congruence.
Qed.
(** items without -0.0 are separated *)
Definition no_neg_zero (o : obj) : Prop := Forall (fun a => match adtype a with DFloat w => ~ In (2 ^ (Z.of_nat w - 1))%Z (adata a) | _ => True end) (arrays o).
Theorem C58_separated : forall c H seed (l : list (fitem c)), (forall x, In x l -> no_neg_zero (proj1_sig x)) -> separated _ (float_eq c H seed) l.
Proof.
  intros c H seed l HL x y Hx Hy EQ _. cbn [float_eq ie_eq] in EQ. apply obj_eqb_true in EQ. apply fitem_eq. pose proof (fitem_single c x) as SX. pose proof (fitem_single c y) as SY.
  destruct (C42_eq_iff c [] _ _ (proj1 SX) (proj1 SY) (single_valid c _ SX) (single_valid c _ SY) (fitem_arrays c H x)) as (r & ER & HR). rewrite EQ in ER. injection ER as <-. pose proof (proj1 HR eq_refl) as HF. clear HR EQ.
  apply (proj2 arrays_inj c); [apply SX|apply SY|]. pose proof (single_pairs c _ _ SX SY) as HP. pose proof (HL x Hx) as Zx. pose proof (HL y Hy) as Zy. unfold no_neg_zero in Zx, Zy.
  clear - HF HP Zx Zy. induction HF as [|a b m k Hab HF IH]; [reflexivity|]. inversion HP as [|? ? ? ? (Wa & Wb & ES & HPa) HP']; subst. inversion Zx as [|? ? Za Zx']; subst. inversion Zy as [|? ? Zb Zy']; subst. f_equal; [|now apply IH].
  destruct HPa as (ED & La & Lb). apply array_ext; auto. intros idx HI. pose proof (Hab idx HI) as HE. destruct Wa as [HD Pa], Wb as [_ Pb]. rewrite <- ED in Zb, Pb. rewrite Forall_forall in Pa, Pb.
  pose proof (get_in a idx La HI) as Ga. pose proof (get_in b idx Lb ltac:(now rewrite ES)) as Gb. pose proof (Pa _ Ga) as Ia. pose proof (Pb _ Gb) as Ib.
  assert (PE : plain (adtype a) (get a idx) /\ plain (adtype a) (get b idx)).
  { unfold plain. unfold same_elt in HE. destruct (adtype a) as [|w|w|w]; try (split; (split; [assumption|exact Logic.I])). destruct HE as (v & V1 & V2).
    split; (split; [assumption|split; [congruence|intros EZ; rewrite EZ in *; contradiction]]). }
  destruct PE as [P1 P2]. apply (plain_eq (adtype a) _ _ HD P1 P2). apply same_elt_spec; [exact Ia|exact Ib|destruct (adtype a); try exact Logic.I; exact HD|exact HE].
Qed.
(** ** the whole property for instances without -0.0 *)
Theorem C58_instances : forall c H seed C es t (x : fitem c), let T := float_item c H seed in let E := float_eq c H seed in
  fhistory T E C es t -> (forall y, In y (inputs es) -> no_neg_zero (proj1_sig y)) -> no_neg_zero (proj1_sig x) ->
  (Forall (fun a => ~ has_nan a) (arrays (proj1_sig x)) -> forall i, FLookup T E t x = Some (i, true) <-> reported T es x i) /\
  (~ Forall (fun a => ~ has_nan a) (arrays (proj1_sig x)) -> exists i, FLookup T E t x = Some (i, false)) /\
  (forall i, reported T es x i -> GetItem T t i = x).
Proof.
  intros c H seed C es t x T E HH HZ Zx. assert (HS : separated T E (x :: inputs es)) by (apply C58_separated; intros y [<-|Hy]; auto). assert (HS' : separated T E (inputs es)) by (apply C58_separated; exact HZ).
  rewrite <- (C58_numeric c H seed). split; [|split].
  - intros HN i. split.
    + intros EL. destruct (C58_lookup T E C es t x HH HS) as (i' & f & EL' & _ & HI). rewrite EL in EL'. injection EL' as <- <-. apply HI. reflexivity.
    + intros HR. apply (C58_found T E C es t x i HH HS' HR). exact HN.
  - intros HN. apply (C58_nan_never_found T E C es t x HH HS' HN).
  - intros i HR. apply (C58_found T E C es t x i HH HS' HR).
Qed.
(** ** What happens with -0.0 and NaN (default hash, seed 0): the two zeros are [==] and
    are both stored; a NaN is stored at every insertion *)
Definition zclass : class := CCons "x" (Prim (DFloat 32) [] None false 0%Z) CNil.
Definition zitem (z : Z) (G : okay [] zclass (one_float z) = true) : fitem zclass := exist _ (one_float z) G.
Definition zT := float_item zclass eq_refl 0.
Definition zE := float_eq zclass eq_refl 0.
Definition pzero := zitem 0 eq_refl. Definition nzero := zitem 0x80000000 eq_refl. Definition qnan := zitem 0x7FC00000 eq_refl.
Definition three (a b c : fitem zclass) : option (bool * nat * (bool * nat) * (bool * nat) * N) :=
  match FInsert zT zE (Build zT 4 2 2 None) a with
  | Some (t1, o1, i1) => match FInsert zT zE t1 b with
    | Some (t2, o2, i2) => match FInsert zT zE t2 c with Some (t3, o3, i3) => Some (o1, i1, (o2, i2), (o3, i3), size t3) | None => None end
    | None => None end
  | None => None end.
Definition inserted_all (r : option (bool * nat * (bool * nat) * (bool * nat) * N)) : Prop :=
  exists i1 i2 i3, r = Some (true, i1, (true, i2), (true, i3), 3%N) /\ i1 <> i2 /\ i1 <> i3 /\ i2 <> i3.
Theorem C58_float_duplicates_refuted :
  obj_eqb pzero nzero = true /\ inserted_all (three pzero nzero qnan) /\ inserted_all (three qnan qnan qnan).
Proof.
  split; [reflexivity|]. split.
  - let v := eval vm_compute in (three pzero nzero qnan) in match v with Some (true, ?a, (true, ?b), (true, ?c), _) => exists a, b, c end. split; [vm_compute; reflexivity|]. repeat split; discriminate.
  - let v := eval vm_compute in (three qnan qnan qnan) in match v with Some (true, ?a, (true, ?b), (true, ?c), _) => exists a, b, c end. split; [vm_compute; reflexivity|]. repeat split; discriminate.
Qed.
(** the hypotheses are met by a history with a NaN and both zeros *)
Example C58_nonvacuous : exists C es t, fhistory zT zE C es t /\ separated zT zE (inputs es) /\ (exists i, reported zT es pzero i) /\ (exists i, reported zT es nzero i) /\ (exists i, reported zT es qnan i).
Proof.
  destruct (proj1 (proj2 C58_float_duplicates_refuted)) as (i1 & i2 & i3 & E & _). exists DEF. unfold three in E.
  destruct (FInsert zT zE (Build zT 4 2 2 None) pzero) as [[[t1 o1] j1]|] eqn:E1; [|discriminate]. destruct (FInsert zT zE t1 nzero) as [[[t2 o2] j2]|] eqn:E2; [|discriminate]. destruct (FInsert zT zE t2 qnan) as [[[t3 o3] j3]|] eqn:E3; [|discriminate].
  assert (o1 = true /\ o2 = true /\ o3 = true) as (-> & -> & ->) by (repeat split; congruence).
  exists [EInsert pzero true j1; EInsert nzero true j2; EInsert qnan true j3], t3. split; [|split; [|split; [|split]]].
  - exists 4, 2, 2, None. split; [unfold config_ok; cbn; repeat split; lia|]. econstructor; [constructor; exact E1|]. econstructor; [constructor; exact E2|]. econstructor; [constructor; exact E3|constructor].
  - assert (F12 : fp_of (hash_pair zT) pzero <> fp_of (hash_pair zT) nzero) by (vm_compute; discriminate).
    intros x y Hx Hy EQ EF. cbn in Hx, Hy. cbn [zE float_eq ie_eq] in EQ.
    assert (N1 : obj_eqb pzero qnan = false) by (vm_compute; reflexivity). assert (N2 : obj_eqb nzero qnan = false) by (vm_compute; reflexivity).
    assert (N3 : obj_eqb qnan pzero = false) by (vm_compute; reflexivity). assert (N4 : obj_eqb qnan nzero = false) by (vm_compute; reflexivity).
    assert (K : forall u v : fitem zclass, obj_eqb u v = false -> obj_eqb u v = true -> x = y) by congruence.
    destruct Hx as [<-|[<-|[<-|[]]]], Hy as [<-|[<-|[<-|[]]]].
    + exact (eq_refl pzero).
    + exact (False_ind _ (F12 EF)).
    + exact (K _ _ N1 EQ).
    + exact (False_ind _ (F12 (eq_sym EF))).
    + exact (eq_refl nzero).
    + exact (K _ _ N2 EQ).
    + exact (K _ _ N3 EQ).
    + exact (K _ _ N4 EQ).
    + exact (eq_refl qnan).
  - exists j1. eexists. split; [left; reflexivity|]. cbn. auto.
  - exists j2. eexists. split; [right; left; reflexivity|]. cbn. auto.
  - exists j3. eexists. split; [right; right; left; reflexivity|]. cbn. auto.
Qed.
Print Assumptions C58_instances.
Print Assumptions C58_batch_complete.
