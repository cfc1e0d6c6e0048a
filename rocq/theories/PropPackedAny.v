(** * PropPackedAny.v — property C84: hashing in packed mode of instances of any dtype, and hash
      tables in that mode. *)
From Coq Require Import String.
From Verif Require Import Jax HashModel HashProofs PropHash BitpackModel BitpackSpec BitpackProofs BitpackAgg StructModel ArrayModel ArrayFacts ShapeModel PropShape RowsModel RowsLift PropRows PropRows2 PropRows7 EqModel FloatEq PropEq PropEqTable RowsModel2 CompareModel PropCompare PropSafeCast PromoteModel FloatRound PropPromote PropRandom PropMixed PropMixed3.
From Verif Require Import AggModel AggKernel AggFacts PropAgg PropAgg2 SchemaModel AggAny PropAggFloat PropAggHash TableModel DedupeModel DedupeSpec ParInsertModel TableSpec TableConv TableConvSim PropTableConv PropTableConv2 PropTableCases PropHeapValues PackedAny.
Local Open Scope Z_scope.

(** ** Specification *)
(** the leaves of a class in declaration order: declared dtype and bits *)
Fixpoint leaf_decls_d (d : desc) : list (dtype * nat) :=
  match d with Prim dt _ (Some b) _ _ => [(dt, b)] | Prim dt _ None _ _ => [(dt, 0%nat)] | Nest c _ => leaf_decls c end
with leaf_decls (c : class) : list (dtype * nat) :=
  match c with CNil => [] | CCons _ d r => (leaf_decls_d d ++ leaf_decls r)%list end.
(** the number kept of an entry: its integer part modulo 2^bits *)
Definition low (b : nat) (a : array) : array := MkArr (view_dtype b) (ashape a) (map (fun z => conv (adtype a) (DUInt 32) z mod 2 ^ Z.of_nat b) (adata a)).
Definition lows (c : class) (o : obj) : list array := map (fun p => low (snd (fst p)) (snd p)) (combine (leaf_decls c) (arrays o)).

Lemma words_uint be c o : packed_words_any be c o = packed_words be (uint_c c) (uint_o o).
Proof. unfold packed_words_any, packed_words. now rewrite (proj2 agg_uint), pack_any_uint. Qed.
Lemma bytes_uint be c o : packed_bytes_any be c o = packed_bytes be (uint_c c) (uint_o o).
Proof. unfold packed_bytes_any, packed_bytes. now rewrite pack_any_uint. Qed.
Lemma decls_len : (forall d s v, loose_v s d v -> length (arrays_v v) = length (leaf_decls_d d)) /\ (forall c s o, loose s c o -> length (arrays o) = length (leaf_decls c)).
Proof.
  apply desc_class_ind.
  - intros dt ish [b|] pb fill s [a|o] H; try contradiction; reflexivity.
  - intros c IH ish s [a|o] H; try contradiction. exact (IH _ o H).
  - intros s [|] H; try contradiction. reflexivity.
  - intros n d IHd r IHr s [|m v o] H; try contradiction. destruct H as (_ & H1 & H2). cbn [arrays leaf_decls]. rewrite !app_length. f_equal; eauto.
Qed.
Lemma low_inj : (forall d f s v w, agg_d d = Some f -> loose_v s d v -> loose_v s d w ->
     (map_bits_v (fun _ b => view_dtype b) (fun _ z => z) (uint_d d) (uint_v v) = map_bits_v (fun _ b => view_dtype b) (fun _ z => z) (uint_d d) (uint_v w) <->
      map (fun p => low (snd (fst p)) (snd p)) (combine (leaf_decls_d d) (arrays_v v)) = map (fun p => low (snd (fst p)) (snd p)) (combine (leaf_decls_d d) (arrays_v w)))) /\
  (forall c fs s o q, agg_c c = Some fs -> loose s c o -> loose s c q -> (low_bits (uint_c c) (uint_o o) = low_bits (uint_c c) (uint_o q) <-> lows c o = lows c q)).
Proof.
  apply desc_class_ind.
  - intros dt ish [b|] pb fill f s [a|o] [a'|o'] E H1 H2; try contradiction; try discriminate.
    cbn [uint_d uint_v map_bits_v leaf_decls_d arrays_v combine map fst snd]. unfold low. cbn [a_conv ashape adata]. rewrite !map_map. split; congruence.
  - intros c IH ish f s [a|o] [a'|o'] E H1 H2; try contradiction. cbn [agg_d] in E. destruct ish as [|k s']; [|discriminate]. destruct (agg_c c) as [fs|] eqn:EC; [|discriminate].
    cbn [uint_d uint_v map_bits_v leaf_decls_d arrays_v]. pose proof (IH fs _ o o' eq_refl H1 H2) as K. unfold low_bits, lows in K. rewrite <- K. split; congruence.
  - intros fs s [|] [|] E H1 H2; try contradiction. cbn. tauto.
  - intros n d IHd r IHr fs s [|m v o] [|m' w q] E H1 H2; try contradiction. cbn [agg_c] in E. destruct (agg_d d) as [f|] eqn:ED; [|discriminate]. destruct (agg_c r) as [fr|] eqn:ER; [|discriminate].
    destruct H1 as (<- & A1 & A2), H2 as (<- & B1 & B2). pose proof (IHd f s v w eq_refl A1 B1) as K1. pose proof (IHr fr s o q eq_refl A2 B2) as K2. unfold low_bits, lows in *. cbn [uint_c uint_o map_bits leaf_decls arrays].
    assert (EC : forall (x y : list (dtype * nat)) (u t : list array), length u = length x -> combine (x ++ y) (u ++ t) = (combine x u ++ combine y t)%list).
    { clear. induction x as [|k x IH]; intros y [|k' u] t E; cbn in *; try discriminate; [reflexivity|]. f_equal. apply IH. lia. }
    pose proof (proj1 decls_len d s v A1) as L1. pose proof (proj1 decls_len d s w B1) as L2. rewrite !EC, !map_app by assumption. split.
    + intros E1. f_equal; [apply K1|apply K2]; congruence.
    + intros E1. assert (LL : length (map (fun p => low (snd (fst p)) (snd p)) (combine (leaf_decls_d d) (arrays_v v))) = length (map (fun p => low (snd (fst p)) (snd p)) (combine (leaf_decls_d d) (arrays_v w)))) by (rewrite !map_length, !combine_length; lia).
      destruct (app_eq_len _ _ _ _ LL E1) as [E2 E3]. f_equal; [now apply K1|now apply K2].
Qed.
(** ** The words *)
(** [uint32ed] is ceil(bits/32) uint32 values, the same for every packing backend *)
Theorem C84_words : forall c fs o be be', packable_any c fs -> loose [] c o -> backend_ok be 1 (word_count fs) -> backend_ok be' 1 (word_count fs) ->
  exists ws bs, packed_words_any be c o = Some ws /\ packed_words_any be' c o = Some ws /\ packed_bytes_any be c o = Some bs /\ packed_bytes_any be' c o = Some bs /\
    length ws = word_count fs /\ Forall (fun w => (w < 2 ^ 32)%N) ws /\ (class_bits fs <= 8 * length bs)%nat /\ (forall p, byte_bit bs p = word_bit ws p).
Proof.
  intros c fs o be be' HP HL H1 H2. pose proof (packable_uint c fs HP) as HU. pose proof (uint_batched c [] o HL) as HB.
  destruct (C44_words _ fs _ be HU HB H1) as (ws & bs & E1 & E2 & E3 & E4 & E5 & _ & E6). exists ws, bs. rewrite !words_uint, !bytes_uint.
  destruct (C44_same_words _ fs _ _ be' be HU HB HB H2 H1) as [K1 K2]. rewrite (proj2 K1 eq_refl), (proj2 K2 eq_refl). auto 10.
Qed.
(** two instances, of any dtypes, have the same words exactly when all their entries have the same
    integer parts modulo 2^bits *)
Theorem C84_same_words : forall c fs o q be be', packable_any c fs -> loose [] c o -> loose [] c q ->
  backend_ok be 1 (word_count fs) -> backend_ok be' 1 (word_count fs) ->
  (packed_words_any be c o = packed_words_any be' c q <-> lows c o = lows c q) /\ (packed_bytes_any be c o = packed_bytes_any be' c q <-> lows c o = lows c q).
Proof.
  intros c fs o q be be' HP HO HQ H1 H2. pose proof (packable_uint c fs HP) as HU. rewrite !words_uint, !bytes_uint.
  destruct (C44_same_words _ fs _ _ be be' HU (uint_batched c [] o HO) (uint_batched c [] q HQ) H1 H2) as [K1 K2]. rewrite K1, K2, (proj2 low_inj c fs [] o q (proj1 HP) HO HQ). tauto.
Qed.
(** ** Equal instances have equal words, bytes and hashes: also 0.0 and -0.0, which hash
    differently in the default mode *)
Lemma conv_zero w z : fmag w z = 0 -> conv (DFloat w) (DUInt 32) z = 0.
Proof.
  intros E. unfold conv. cbn [dtype_eqb]. assert (D : dtype_eqb (DFloat w) (DUInt 32) = false) by (unfold dtype_eqb; destruct (dtype_eq_dec (DFloat w) (DUInt 32)); congruence). rewrite D.
  assert (F : fnum w z = 0) by (unfold fnum; cbv zeta; rewrite E, Zdiv_0_l, Zmod_0_l; reflexivity). rewrite F, Zdiv_0_l. cbv zeta. now destruct (_ <=? z).
Qed.
Lemma eqb_low dt z z' : elt_eqb dt z z' = true -> conv dt (DUInt 32) z = conv dt (DUInt 32) z'.
Proof.
  destruct dt as [|w|w|w]; cbn [elt_eqb]; try (intros E; apply Z.eqb_eq in E; now subst).
  intros E. apply andb_prop in E. destruct E as [_ E]. apply orb_prop in E. destruct E as [E|E]; [apply Z.eqb_eq in E; now subst|].
  apply andb_prop in E. destruct E as [E1 E2]. apply Z.eqb_eq in E1, E2. now rewrite !conv_zero.
Qed.
Lemma low_get b a idx : wfa a -> inb idx (ashape a) -> get (low b a) idx = conv (adtype a) (DUInt 32) (get a idx) mod 2 ^ Z.of_nat b.
Proof. intros W H. unfold low. rewrite (map_build (fun z => conv (adtype a) (DUInt 32) z mod 2 ^ Z.of_nat b) (view_dtype b) a W). now rewrite get_build. Qed.
Lemma low_wfa b a : wfa a -> wfa (low b a).
Proof. unfold wfa, low. cbn. now rewrite map_length. Qed.
Lemma low_same b a a' : wfa a -> wfa a' -> ashape a = ashape a' ->
  (low b a = low b a' <-> forall idx, inb idx (ashape a) -> conv (adtype a) (DUInt 32) (get a idx) mod 2 ^ Z.of_nat b = conv (adtype a') (DUInt 32) (get a' idx) mod 2 ^ Z.of_nat b).
Proof.
  intros W W' ES. split.
  - intros E idx HI. rewrite <- (low_get b a idx W HI), E. apply low_get; [exact W'|congruence].
  - intros H. apply array_ext; [now apply low_wfa|now apply low_wfa|reflexivity|exact ES|]. cbn [low ashape]. intros idx HI. rewrite !low_get by (assumption || congruence). now apply H.
Qed.
Theorem C84_equal_hash : forall c c' fs o q be be' seed, packable_any c fs -> variant c c' -> batched c' [] o -> batched c' [] q -> valid o -> valid q ->
  backend_ok be 1 (word_count fs) -> backend_ok be' 1 (word_count fs) -> obj_eq o q = Some true ->
  packed_words_any be c o = packed_words_any be' c q /\ packed_bytes_any be c o = packed_bytes_any be' c q /\
  packed_hash_pair_any be c seed o = packed_hash_pair_any be' c seed q.
Proof.
  intros c c' fs o q be be' seed HP HV HO HQ VO VQ H1 H2 HE. pose proof (proj2 variant_loose c c' [] o HV (batched_loose c' [] o HO)) as LO. pose proof (proj2 variant_loose c c' [] q HV (batched_loose c' [] q HQ)) as LQ.
  assert (NE : arrays o <> []) by (apply (proj2 solid_arrays c [] o); [split; apply HP|exact LO]).
  assert (EL : lows c o = lows c q).
  { destruct (zip_eq c' o q (fun a b => forall idx, inb idx (ashape a) -> elt_eqb (adtype a) (get a idx) (get b idx) = true) (proj1 HO) (proj1 HQ) NE) as (r & ER & K).
    { pose proof (pair_facts_same c' [] o q HO HQ) as HF. revert HF. apply Forall2_impl. intros a b [ES HPR]. destruct (leaf_eq_batch [] (ashape a) a b HPR eq_refl ES) as (r & E & HR). exists r. split; [exact E|]. rewrite HR.
      split; [intros H idx HI; apply (H [] idx); [constructor|exact HI]|]. intros H i u Hi Hu. inversion Hi; subst. now apply H. }
    rewrite HE in ER. injection ER as <-. apply proj1 in K. specialize (K eq_refl). pose proof (pair_facts_same c' [] o q HO HQ) as HF. unfold lows. clear - K HF. generalize (leaf_decls c). induction HF as [|a b l m [ES (ED & Wa & Wb)] HF IH]; intros ds; [reflexivity|].
    inversion K as [|? ? ? ? K1 K2]; subst. destruct ds as [|db ds]; [reflexivity|]. cbn [combine map fst snd]. f_equal; [|now apply IH].
    apply low_same; [exact Wa|exact Wb|now symmetry|]. intros idx HI. rewrite <- ED. now rewrite (eqb_low _ _ _ (K1 idx HI)). }
  destruct (C84_same_words c fs o q be be' HP LO LQ H1 H2) as [K1 K2]. apply K1 in EL as E1. apply K2 in EL as E2. split; [exact E1|]. split; [exact E2|]. unfold packed_hash_pair_any. now rewrite E1.
Qed.
(** ** Hash tables in packed mode: items of any dtypes whose entries are whole numbers that fit *)
(** an entry [z] of dtype [e] given for a leaf declared with dtype [d] and [b] bits: a whole number
    below 2^b which [d] has; no negative zero *)
Definition fits_entry (d : dtype) (b : nat) (e : dtype) (z : Z) : Prop :=
  plain e z /\ exists n, 0 <= n < 2 ^ Z.of_nat b /\ represents e z (n * 2 ^ 1074) /\ expressible d (n * 2 ^ 1074).
(** [==] of the two dtypes does not round these numbers *)
Definition comparable (x64 : bool) (d : dtype) (b : nat) (e : dtype) : Prop :=
  forall n, 0 <= n < 2 ^ Z.of_nat b -> expressible d (n * 2 ^ 1074) -> expressible (result_type x64 [d; e]) (n * 2 ^ 1074).
Definition fitting (x64 : bool) (c : class) (o : obj) : Prop :=
  loose [] c o /\
  Forall2 (fun db a => available x64 (adtype a) /\ comparable x64 (fst db) (snd db) (adtype a) /\ Forall (fits_entry (fst db) (snd db) (adtype a)) (adata a)) (leaf_decls c) (arrays o).
Lemma comparable_same x64 d b : available x64 d -> comparable x64 d b d.
Proof. intros H n _ HX. now rewrite common_self. Qed.

Lemma decls_default : (forall d s, Forall2 (fun db k => adtype k = fst db) (leaf_decls_d d) (arrays_v (default_v s d))) /\ (forall c s, Forall2 (fun db k => adtype k = fst db) (leaf_decls c) (arrays (default_obj s c))).
Proof.
  apply desc_class_ind.
  - intros dt ish [b|] pb fill s; cbn; repeat constructor.
  - intros c IH ish s. apply IH.
  - intros s. constructor.
  - intros n d IHd r IHr s. cbn [leaf_decls default_obj arrays]. apply Forall2_app; auto.
Qed.
Lemma decls_bits : (forall d f, agg_d d = Some f -> good_field f -> Forall (fun db => (1 <= snd db <= 32)%nat) (leaf_decls_d d)) /\ (forall c fs, agg_c c = Some fs -> good_class fs -> Forall (fun db => (1 <= snd db <= 32)%nat) (leaf_decls c)).
Proof.
  apply desc_class_ind.
  - intros dt ish [b|] pb fill f E HG; [|discriminate]. cbn in E. injection E as <-. constructor; [exact HG|constructor].
  - intros c IH [|k s] f E HG; cbn in E; [|discriminate]. destruct (agg_c c) as [fs|] eqn:EC; [|discriminate]. injection E as <-. exact (IH fs eq_refl HG).
  - intros. constructor.
  - intros n d IHd r IHr fs E HG. cbn in E. destruct (agg_d d) as [f|] eqn:ED; [|discriminate]. destruct (agg_c r) as [fr|] eqn:ER; [|discriminate]. injection E as <-. destruct HG as (_ & G1 & G2). cbn [leaf_decls]. apply Forall_app. split; [now apply (IHd f)|now apply (IHr fr)].
Qed.
(** one leaf *)
Section Leaf.
Context (x64 : bool) (d : dtype) (b : nat) (a p : array).
Hypotheses (Ad : available x64 d) (Hb : (1 <= b <= 32)%nat) (Aa : available x64 (adtype a)) (Ap : available x64 (adtype p)) (Cp : comparable x64 d b (adtype p)) (ES : ashape a = ashape p) (Wa : wfa a) (Wp : wfa p).
Hypotheses (Fa : Forall (fits_entry d b (adtype a)) (adata a)) (Fp : Forall (fits_entry d b (adtype p)) (adata p)).
Let Sd := available_standard _ _ Ad. Let Sa := available_standard _ _ Aa. Let Sp := available_standard _ _ Ap.
Lemma entry_pair idx : inb idx (ashape a) -> exists n m, 0 <= n < 2 ^ Z.of_nat b /\ 0 <= m < 2 ^ Z.of_nat b /\
  conv (adtype a) (DUInt 32) (get a idx) mod 2 ^ Z.of_nat b = n /\ conv (adtype p) (DUInt 32) (get p idx) mod 2 ^ Z.of_nat b = m /\
  represents d (conv (adtype a) d (get a idx)) (n * 2 ^ 1074) /\ represents d (conv (adtype p) d (get p idx)) (m * 2 ^ 1074) /\
  plain d (conv (adtype a) d (get a idx)) /\ plain d (conv (adtype p) d (get p idx)) /\
  (let t := result_type x64 [d; adtype p] in (same_value t t (conv d t (conv (adtype a) d (get a idx))) (conv (adtype p) t (get p idx)) <-> n = m)).
Proof.
  intros HI. assert (HIp : inb idx (ashape p)) by congruence. rewrite Forall_forall in Fa, Fp.
  destruct (Fa _ (get_in a idx Wa HI)) as (P1 & n & Hn & R1 & X1). destruct (Fp _ (get_in p idx Wp HIp)) as (P2 & m & Hm & R2 & X2). exists n, m.
  destruct (kept_back (adtype a) b _ n Sa (proj1 P1) Hb Hn R1) as (E1 & _). destruct (kept_back (adtype p) b _ m Sp (proj1 P2) Hb Hm R2) as (E2 & _).
  pose proof (carry (adtype a) d _ (inl (n * 2 ^ 1074)) Sa Sd (proj1 P1) R1 X1) as Q1. pose proof (carry (adtype p) d _ (inl (m * 2 ^ 1074)) Sp Sd (proj1 P2) R2 X2) as Q2. cbn [means] in Q1, Q2.
  split; [exact Hn|]. split; [exact Hm|]. split; [exact E1|]. split; [exact E2|]. split; [exact Q1|]. split; [exact Q2|].
  split; [exact (conv_plain (adtype a) d _ (inl (n * 2 ^ 1074)) Sa Sd P1 R1 X1)|]. split; [exact (conv_plain (adtype p) d _ (inl (m * 2 ^ 1074)) Sp Sd P2 R2 X2)|].
  intros t. pose proof (common_standard x64 d (adtype p) Ad Ap) as St. fold t in St.
  pose proof (carry d t _ (inl (n * 2 ^ 1074)) Sd St (C72_lands _ _ _ Sa Sd (proj1 P1)) Q1 (Cp n Hn X1)) as T1. pose proof (carry (adtype p) t _ (inl (m * 2 ^ 1074)) Sp St (proj1 P2) R2 (Cp m Hm X2)) as T2.
  rewrite (same_means t t _ _ _ _ T1 T2). pose proof U_pos. split; [intros E; injection E as E; apply Z.mul_reg_r in E; [exact E|lia]|now intros ->].
Qed.
Lemma leaf_eq_words : same_converted x64 (a_conv d a) p <-> low b a = low b p.
Proof.
  rewrite (low_same b a p Wa Wp ES). unfold same_converted. cbn [adtype ashape a_conv]. cbv zeta. split; intros H idx HI; specialize (H idx HI); destruct (entry_pair idx HI) as (n & m & _ & _ & E1 & E2 & _ & _ & _ & _ & K); cbv zeta in K.
  - rewrite E1, E2. apply K. now rewrite <- (conv_get d a idx Wa HI).
  - rewrite (conv_get d a idx Wa HI). apply K. congruence.
Qed.
Lemma leaf_words_conv : low b a = low b p -> a_conv d a = a_conv d p.
Proof.
  rewrite (low_same b a p Wa Wp ES). intros H. apply array_ext; [now apply conv_wfa|now apply conv_wfa|reflexivity|exact ES|]. cbn [ashape a_conv]. intros idx HI. assert (HIp : inb idx (ashape p)) by congruence. rewrite !conv_get by assumption.
  destruct (entry_pair idx HI) as (n & m & _ & _ & E1 & E2 & R1 & R2 & P1 & P2 & _). specialize (H idx HI). assert (EN : n = m) by congruence. rewrite <- EN in R2.
  apply (plain_same d _ _ Sd (standard_hashable d Sd) P1 P2). left. exists (n * 2 ^ 1074). split; assumption.
Qed.
End Leaf.
Section Fam.
Context (x64 : bool) (c : class) (fs : fields) (seed : N).
Hypotheses (HP : packable_any c fs) (AV : dtypes (available x64) c) (HW : (0 < word_count fs)%nat).
Notation L := (packed_items x64 c (word_count fs) seed).
Notation dflt := (default_obj [] c).
Lemma conv_fitting o : fitting x64 c o -> exists r, le_conv L o = r /\ batched c [] r /\ arrays r = map (fun p => a_conv (fst (fst p)) (snd p)) (combine (leaf_decls c) (arrays o)) /\ length (arrays o) = length (leaf_decls c).
Proof.
  intros [HL _]. destruct (conv_loose x64 c c seed o HL) as (r & _ & E & Hr & EA & EL). exists r. split; [exact E|]. split; [exact Hr|]. pose proof (proj2 decls_default c []) as D. rewrite (PropRows2.Forall2_len _ _ _ D). split; [|exact EL]. rewrite EA.
  clear - D EL. revert EL. generalize (arrays o). induction D as [|db k l m H D IH]; intros [|a lo] E; try discriminate; [reflexivity|]. cbn [combine map fst snd]. rewrite H. f_equal. apply IH. cbn in E. lia.
Qed.
Lemma words_some o : loose [] c o -> packed_words_any PackXla c o = Some (le_words L o) /\ length (le_words L o) = word_count fs /\ Forall (fun w => (w < 2 ^ 32)%N) (le_words L o).
Proof. intros HL. destruct (C84_words c fs o PackXla PackXla HP HL I I) as (ws & _ & E & _ & _ & _ & E1 & E2 & _). cbn [le_words packed_items]. rewrite E. auto. Qed.
Lemma words_lows o p : loose [] c o -> loose [] c p -> (same_bytes L o p <-> lows c o = lows c p).
Proof.
  intros Ho Hp. unfold same_bytes. rewrite <- (proj1 (C84_same_words c fs o p PackXla PackXla HP Ho Hp I I)). rewrite (proj1 (words_some o Ho)), (proj1 (words_some p Hp)). split; congruence.
Qed.
Lemma avail_decls : Forall (fun db => available x64 (fst db)) (leaf_decls c).
Proof.
  pose proof (proj2 dtypes_arrays c dflt _ AV (proj1 (proj2 default_both c []))) as A. pose proof (proj2 decls_default c []) as D. clear - A D. induction D as [|db k l m H D IH]; [constructor|]. constructor; [rewrite <- H; exact (Forall_inv A)|apply IH; exact (Forall_inv_tail A)].
Qed.
(** everything known leaf by leaf *)
Definition pair_ok (db : dtype * nat) (a p : array) : Prop :=
  available x64 (fst db) /\ (1 <= snd db <= 32)%nat /\ available x64 (adtype a) /\ available x64 (adtype p) /\ comparable x64 (fst db) (snd db) (adtype p) /\ ashape a = ashape p /\ wfa a /\ wfa p /\
  Forall (fits_entry (fst db) (snd db) (adtype a)) (adata a) /\ Forall (fits_entry (fst db) (snd db) (adtype p)) (adata p).
Inductive all3 : list (dtype * nat) -> list array -> list array -> Prop :=
  | all3_nil : all3 [] [] []
  | all3_cons db a p l m n : pair_ok db a p -> all3 l m n -> all3 (db :: l) (a :: m) (p :: n).
Lemma fitting_pairs o p : fitting x64 c o -> fitting x64 c p -> all3 (leaf_decls c) (arrays o) (arrays p).
Proof.
  intros [Lo Fo] [Lp Fp]. pose proof (proj2 loose_arrays c [] o p Lo Lp) as HF. pose proof avail_decls as A. pose proof (proj2 decls_bits c fs (proj1 HP) (proj1 (proj2 HP))) as B. clear - HF A B Fo Fp. revert Fp. revert HF. generalize (arrays p).
  induction Fo as [|db a l m (F1 & F2 & F3) Fo IH]; intros [|q n] HF Fp; inversion HF as [|? ? ? ? (S1 & S2 & S3) HF']; subst; [constructor|].
  inversion Fp as [|? ? ? ? (G1 & G2 & G3) Fp']; subst. constructor; [|apply IH; [exact (Forall_inv_tail A)|exact (Forall_inv_tail B)|exact HF'|exact Fp']].
  unfold pair_ok. pose proof (Forall_inv A). pose proof (Forall_inv B). auto 12.
Qed.
Lemma fitting_legal o : fitting x64 c o -> legal x64 o.
Proof.
  intros [_ F]. unfold legal. clear - F. induction F as [|db a l m (F1 & _ & F3) F IH]; constructor; auto. split; [exact F1|]. revert F3. apply Forall_impl. intros z [[H _] _]. exact H.
Qed.
Lemma conv_legal o : fitting x64 c o -> forall r, arrays r = map (fun p => a_conv (fst (fst p)) (snd p)) (combine (leaf_decls c) (arrays o)) -> legal x64 r.
Proof.
  intros [_ F] r E. unfold legal. rewrite E. clear E. pose proof avail_decls as A. clear - F A. induction F as [|db a l m (F1 & _ & F3) F IH]; [constructor|]. cbn [combine map fst snd]. constructor; [|apply IH; exact (Forall_inv_tail A)].
  pose proof (Forall_inv A) as A1. split; [exact A1|]. cbn [a_conv adata adtype]. rewrite Forall_forall in *. intros z HZ. apply in_map_iff in HZ. destruct HZ as (y & <- & HY). apply C72_lands; [now apply (available_standard x64)|now apply (available_standard x64)|]. apply (F3 y HY).
Qed.
(** what a table compares: a stored item [==] a given one exactly when they have the same words,
    which is when they have the same numbers *)
Theorem C84_stored_equal : forall o p, fitting x64 c o -> fitting x64 c p -> (obj_eq_p x64 (le_conv L o) p = Some true <-> packed_words_any PackXla c o = packed_words_any PackXla c p) /\
  (packed_words_any PackXla c o = packed_words_any PackXla c p <-> le_conv L o = le_conv L p).
Proof.
  intros o p Ho Hp. rewrite (proj1 (C84_same_words c fs o p PackXla PackXla HP (proj1 Ho) (proj1 Hp) I I)).
  destruct (conv_fitting o Ho) as (r & -> & Hr & EA & EL). destruct (conv_fitting p Hp) as (s & -> & Hs & EA' & EL').
  destruct (C73_eq x64 c [] r p ltac:(apply HP) ltac:(apply HP) (batched_loose c [] r Hr) (proj1 Hp) (conv_legal o Ho r EA) (fitting_legal p Hp)) as (bb & -> & HB).
  pose proof (fitting_pairs o p Ho Hp) as H3. split.
  - transitivity (bb = true); [split; congruence|]. rewrite HB, EA. unfold lows. clear - H3. induction H3 as [|db a q l m n (K1 & K2 & K3 & K4 & K5 & K6 & K7 & K8 & K9 & K10) H3 IH]; cbn [combine map fst snd]; [split; [reflexivity|constructor]|].
    pose proof (leaf_eq_words x64 (fst db) (snd db) a q K1 K2 K3 K4 K5 K6 K7 K8 K9 K10) as W. split.
    + intros E. inversion E; subst. f_equal; [now apply W|now apply IH].
    + intros E. assert (E1 : low (snd db) a = low (snd db) q) by congruence. constructor; [now apply W|]. apply IH. congruence.
  - assert (ER : arrays r = arrays s <-> r = s) by (split; [apply (proj2 arrays_inj c); [apply Hr|apply Hs]|congruence]). rewrite <- ER, EA, EA'. clear ER HB. unfold lows. clear - H3. induction H3 as [|db a q l m n (K1 & K2 & K3 & K4 & K5 & K6 & K7 & K8 & K9 & K10) H3 IH]; cbn [combine map fst snd]; [tauto|].
    pose proof (leaf_words_conv x64 (fst db) (snd db) a q K1 K2 K3 K4 K5 K6 K7 K8 K9 K10) as W. pose proof (leaf_eq_words x64 (fst db) (snd db) a q K1 K2 K3 K4 K5 K6 K7 K8 K9 K10) as V. split.
    + intros E. assert (E1 : low (snd db) a = low (snd db) q) by congruence. f_equal; [now apply W|]. apply IH. congruence.
    + intros E. assert (E1 : a_conv (fst db) a = a_conv (fst db) q) by congruence. f_equal; [|apply IH; congruence]. apply V. rewrite E1.
      intros idx HI. cbn [a_conv ashape] in HI. destruct (entry_pair x64 (fst db) (snd db) q q K1 K2 K4 K4 K5 eq_refl K8 K8 K10 K10 idx HI) as (n0 & m0 & _ & _ & X1 & X2 & _ & _ & _ & _ & KK). cbv zeta in KK. cbn [adtype a_conv]. rewrite (conv_get (fst db) q idx K8 HI). apply KK. congruence.
Qed.
(** ** These items are a family: everything proved of tables for families of items (C75: lookup,
    insert, parallel_insert by every backend, contents) holds of them *)
Theorem C84_family : family L (fitting x64 c).
Proof.
  constructor.
  - exact HW.
  - intros o [Ho _]. exact (proj1 (proj2 (words_some o Ho))).
  - intros o [Ho _]. exact (proj2 (proj2 (words_some o Ho))).
  - apply (conv_native x64 c c seed). exact (proj2 default_both c []).
  - intros o Ho. destruct (conv_fitting o Ho) as (r & -> & Hr & _). exact (conv_native x64 c c seed r Hr).
  - intros o p Ho Hp E. apply (C84_stored_equal o p Ho Hp). rewrite (proj1 (words_some o (proj1 Ho))), (proj1 (words_some p (proj1 Hp))). now f_equal.
  - intros o p Ho Hp. destruct (C84_stored_equal o p Ho Hp) as [K _]. unfold same_bytes. transitivity (obj_eq_p x64 (le_conv L o) p = Some true).
    + cbn [le_eq packed_items]. destruct (obj_eq_p x64 (le_conv L o) p) as [[|]|]; split; congruence.
    + rewrite K. rewrite (proj1 (words_some o (proj1 Ho))), (proj1 (words_some p (proj1 Hp))). split; congruence.
Qed.
End Fam.
(** the tables of C75, spelled out for lookups: an item is found exactly when one with its numbers
    was inserted (of whatever dtypes), at that index, where an item [==] to it is stored *)
Theorem C84_lookup : forall x64 c fs seed C es t x, packable_any c fs -> dtypes (available x64) c -> (0 < word_count fs)%nat ->
  let L := packed_items x64 c (word_count fs) seed in
  lhistory L C es t -> Forall (fitting x64 c) (inputs es) -> fitting x64 c x ->
  exists i f, LLookup L t x = Some (i, f) /\ (f = true <-> exists j, TableConv.reported L es x j) /\
    (f = true -> TableConv.reported L es x i /\ obj_eq_p x64 (LGetItem L t i) x = Some true).
Proof.
  intros x64 c fs seed C es t x HP AV HW L HH HI Hx. destruct (C75_lookup L _ (C84_family x64 c fs seed HP AV HW) C es t x HH HI Hx) as (i & f & E1 & E2 & E3).
  exists i, f. split; [exact E1|]. split; [exact E2|]. intros Hf. destruct (E3 Hf) as [E4 E5]. split; [exact E4|]. rewrite E5. now apply (C84_stored_equal x64 c fs seed HP AV x x Hx Hx).
Qed.
(** the numbers kept (see [integer_part]) *)
Theorem C84_numbers : forall c fs o, packable_any c fs -> loose [] c o -> proper o ->
  Forall2 (fun (ab : array * (dtype * nat)) u => ashape u = ashape (fst ab) /\ Forall2 (integer_part (adtype (fst ab)) (snd (snd ab))) (adata (fst ab)) (adata u)) (combine (arrays o) (leaf_decls c)) (lows c o).
Proof.
  intros c fs o HP HL HD. pose proof (proj2 decls_bits c fs (proj1 HP) (proj1 (proj2 HP))) as B. unfold lows. unfold proper in HD. pose proof (proj2 decls_len c [] o HL) as EL. clear - HD B EL. revert B EL. generalize (leaf_decls c).
  induction HD as [|a l [H1 H2] HD IH]; intros [|db ds] B E; try discriminate; [constructor|]. cbn [combine map fst snd]. constructor; [|apply IH; [exact (Forall_inv_tail B)|cbn in E; lia]].
  split; [reflexivity|]. cbn [low adata fst snd]. pose proof (Forall_inv B) as Hb. clear - H1 H2 Hb. induction H2; cbn [map]; constructor; auto. now apply conv_kept.
Qed.

(** ** Outside: entries that do not fit *)
Notation PF := (packed_items false demo_float 1 0).
Definition level (z : Z) : obj := OCons "level"%string (VArr (MkArr (DFloat 32) [] [z])) (OCons "on"%string (VArr (MkArr DBool [] [1])) ONil).
(** A batch with 2.5 and 2.0: they are not equal, but have the same words; the second is taken for
    a duplicate of the first: it is not stored, and the index returned for it holds 2.5.  One after
    the other both are stored. *)
Definition batch_of_two : option (@table obj * list bool * list bool * list nat) :=
  match par_prepare (le_eq PF) (le_default PF) (lhash PF) (le_words PF) (le_nwords PF) (s_mode DEF) (s_sort DEF) (LBuild PF 4 2 2 None) [level 0x40200000; level 0x40000000] [true; true] None with
  | Some (uniq, reps, rs) =>
      match xla (lhash PF) (LBuild PF 4 2 2 None) (par_rows [level 0x40200000; level 0x40000000] uniq rs) with
      | Some (t', res) => Some (declared PF t', map fst res, uniq, par_idx (LBuild PF 4 2 2 None) rs res reps)
      | None => None
      end
  | None => None
  end.
Lemma batch_of_two_sound out : batch_of_two = Some out -> LParallelInsert PF DEF XLA (LBuild PF 4 2 2 None) [level 0x40200000; level 0x40000000] (FScalar true) None out.
Proof.
  unfold batch_of_two, LParallelInsert. cbn [length mask_list]. intros H.
  destruct (par_prepare _ _ _ _ _ _ _ _ _ _ _) as [[[uniq reps] rs]|] eqn:E; [|discriminate]. destruct (xla _ _ _) as [[t' res]|] eqn:X; [|discriminate]. exists uniq, reps, rs, t', res. split; [reflexivity|]. split; [exact X|congruence].
Qed.
Theorem C84_batch_loses_refuted : exists t i t1 i1 t2 i2,
  obj_eq (level 0x40200000) (level 0x40000000) = Some false /\
  LParallelInsert PF DEF XLA (LBuild PF 4 2 2 None) [level 0x40200000; level 0x40000000] (FScalar true) None (t, [true; false], [true; false], [i; i]) /\
  size t = 1%N /\ LGetItem PF t i = level 0x40200000 /\ option_map snd (LLookup PF t (level 0x40000000)) = Some false /\
  LInsert PF (LBuild PF 4 2 2 None) (level 0x40200000) = Some (t1, true, i1) /\ LInsert PF t1 (level 0x40000000) = Some (t2, true, i2) /\ size t2 = 2%N /\ i1 <> i2.
Proof.
  do 6 eexists. split; [vm_compute; reflexivity|]. split; [apply batch_of_two_sound; vm_compute; reflexivity|].
  do 3 (split; [vm_compute; reflexivity|]). split; [vm_compute; reflexivity|]. split; [vm_compute; reflexivity|]. split; [vm_compute; reflexivity|]. vm_compute. discriminate.
Qed.
(** ** A concrete case: a level declared float32 with 4 bits, given as float32 and as int32 *)
Definition level_int (n : Z) : obj := OCons "level"%string (VArr (MkArr (DInt 32) [] [n])) (OCons "on"%string (VArr (MkArr DBool [] [1])) ONil).
Lemma float32_small n : 0 <= n < 16 -> expressible (DFloat 32) (n * 2 ^ 1074).
Proof.
  intros Hn. assert (K : keeps_numbers (DUInt 8) (DFloat 32)) by (apply C70_safe_rule; [cbn; tauto|cbn; unfold float_width; tauto|discriminate|reflexivity]).
  apply (K n (n * 2 ^ 1074)); [cbn; lia|reflexivity].
Qed.
Example C84_case : packable_any demo_float demo_float_fields /\ dtypes (available false) demo_float /\ word_count demo_float_fields = 1%nat /\
  fitting false demo_float (level 0x40400000) /\ fitting false demo_float (level_int 3) /\
  packed_words_any PackXla demo_float (level 0x40400000) = Some [19%N] /\ packed_words_any PackXla demo_float (level_int 3) = Some [19%N] /\
  family PF (fitting false demo_float) /\
  exists es t i, lhistory PF DEF es t /\ Forall (fitting false demo_float) (inputs es) /\ TableConv.reported PF es (level_int 3) i /\ LLookup PF t (level 0x40400000) = Some (i, true) /\ LGetItem PF t i = level 0x40400000.
Proof.
  assert (H1 : packable_any demo_float demo_float_fields) by exact (proj1 C81_case).
  assert (AF : available false (DFloat 32)) by (split; [cbn; unfold float_width; tauto|intros _; repeat split; discriminate]).
  assert (AB : available false DBool) by (split; [exact I|intros _; repeat split; discriminate]).
  assert (AI : available false (DInt 32)) by (split; [cbn; tauto|intros _; repeat split; discriminate]).
  assert (H2 : dtypes (available false) demo_float) by (split; [exact AF|split; [exact AB|exact I]]).
  assert (H3 : word_count demo_float_fields = 1%nat) by reflexivity.
  assert (HB : available false DBool /\ comparable false DBool 1 DBool /\ Forall (fits_entry DBool 1 DBool) [1]).
  { split; [exact AB|]. split; [now apply comparable_same|]. constructor; [|constructor]. split; [split; [cbn; lia|exact I]|]. exists 1. split; [cbn; lia|]. split; [reflexivity|]. exists 1. split; [cbn; lia|reflexivity]. }
  assert (R3 : represents (DFloat 32) 0x40400000 (3 * 2 ^ 1074)).
  { eexists. split; [vm_compute; reflexivity|]. split; [vm_compute; discriminate|vm_compute; reflexivity]. }
  assert (H4 : fitting false demo_float (level 0x40400000)).
  { split; [cbn; repeat split|]. constructor; [|constructor; [exact HB|constructor]]. cbn [fst snd adtype adata]. split; [exact AF|]. split; [now apply comparable_same|]. constructor; [|constructor].
    split; [split; [cbn; lia|split; vm_compute; discriminate]|]. exists 3. split; [cbn; lia|]. split; [exact R3|]. apply float32_small. lia. }
  assert (H5 : fitting false demo_float (level_int 3)).
  { split; [cbn; repeat split|]. constructor; [|constructor; [exact HB|constructor]]. cbn [fst snd adtype adata]. split; [exact AI|]. split; [intros n Hn HX; exact HX|]. constructor; [|constructor].
    split; [split; [cbn; lia|exact I]|]. exists 3. split; [cbn; lia|]. split; [reflexivity|]. apply float32_small. lia. }
  assert (H6 : family PF (fitting false demo_float)) by (exact (C84_family false demo_float demo_float_fields 0 H1 H2 ltac:(rewrite H3; lia))).
  split; [exact H1|]. split; [exact H2|]. split; [exact H3|]. split; [exact H4|]. split; [exact H5|]. split; [vm_compute; reflexivity|]. split; [vm_compute; reflexivity|]. split; [exact H6|].
  destruct (LInsert PF (LBuild PF 4 2 2 None) (level_int 3)) as [[[t ok] i]|] eqn:E1; [|exfalso; vm_compute in E1; discriminate].
  assert (ok = true) as -> by (assert (K : option_map (fun r => snd (fst r)) (LInsert PF (LBuild PF 4 2 2 None) (level_int 3)) = Some true) by (vm_compute; reflexivity); rewrite E1 in K; cbn [option_map fst snd] in K; congruence).
  exists [EInsert (level_int 3) true i], t, i.
  assert (HH : lhistory PF DEF [EInsert (level_int 3) true i] t) by (exists 4%nat, 2%nat, 2%nat, None; split; [unfold lconfig_ok; cbn; repeat split; lia|]; econstructor; [constructor; exact E1|constructor]).
  assert (HI : Forall (fitting false demo_float) (inputs [EInsert (level_int 3) true i])) by (constructor; [exact H5|constructor]).
  assert (HR : TableConv.reported PF [EInsert (level_int 3) true i] (level_int 3) i) by (eexists; split; [now left|]; repeat split).
  assert (HR' : TableConv.reported PF [EInsert (level_int 3) true i] (level 0x40400000) i) by (eexists; split; [now left|]; split; [reflexivity|split; [vm_compute; reflexivity|reflexivity]]).
  split; [exact HH|]. split; [exact HI|]. split; [exact HR|]. destruct (C75_found PF _ H6 DEF _ t _ i HH HI H4 HR') as [K1 K2]. split; [exact K1|]. rewrite K2. vm_compute. reflexivity.
Qed.
(** the two zeros, which are equal, have the same words *)
Example C84_zeros : obj_eq (level 0) (level 0x80000000) = Some true /\ packed_words_any PackXla demo_float (level 0) = packed_words_any PackXla demo_float (level 0x80000000) /\ obj_words (level 0) <> obj_words (level 0x80000000).
Proof. split; [vm_compute; reflexivity|]. split; [vm_compute; reflexivity|]. vm_compute. discriminate. Qed.
Print Assumptions C84_words. Print Assumptions C84_same_words. Print Assumptions C84_equal_hash. Print Assumptions C84_stored_equal. Print Assumptions C84_family. Print Assumptions C84_lookup. Print Assumptions C84_numbers. Print Assumptions C84_batch_loses_refuted.
