(** * PropAggHash.v — property C44: hashing in packed mode (XTRUCTURE_HASH_AGG_MODE=packed). *)
From Coq Require Import String Eqdep_dec.
From Verif Require Import Jax HashModel HashProofs BitpackModel BitpackSpec BitpackProofs BitpackAgg StructModel ArrayModel ArrayFacts ShapeModel PropShape RowsModel RowsLift PropRows EqModel AggModel AggKernel AggFacts PropAgg PropAgg2.

Lemma word_bits_ext a : forall b, length a = length b -> Forall word a -> Forall word b -> (forall p, word_bit a p = word_bit b p) -> a = b.
Proof.
  induction a as [|x a IH]; intros [|y b] HL Ha Hb H; try discriminate; [reflexivity|]. inversion Ha; subst. inversion Hb; subst. f_equal.
  - apply N.bits_inj. intros k. destruct (N.lt_ge_cases k 32) as [L|L].
    + specialize (H (N.to_nat k)). rewrite !word_bit_cons in H. replace (N.to_nat k <? 32) with true in H by (symmetry; apply Nat.ltb_lt; lia). now rewrite N2Nat.id in H.
    + rewrite !(bits_lt_pow2 _ 32) by (assumption || lia). reflexivity.
  - apply IH; auto. intros p. specialize (H (32 + p)). rewrite !word_bit_cons in H. replace (32 + p <? 32) with false in H by (symmetry; apply Nat.ltb_ge; lia). now replace (32 + p - 32) with p in H by lia.
Qed.
(** the bits packed are those of the reduced instance *)
Lemma bits_of_low b z : b <= 32 -> bits_of b (u32 (z mod 2 ^ Z.of_nat b)) = bits_of b (u32 z).
Proof.
  intros Hb. unfold bits_of. apply map_ext_in. intros k Hk. apply in_seq in Hk.
  assert (E : forall v, N.testbit v (N.of_nat k) = N.testbit (v mod 2 ^ N.of_nat b) (N.of_nat k)) by (intros v; symmetry; apply N.mod_pow2_bits_low; lia).
  rewrite (E (u32 (z mod _))), (E (u32 z)). f_equal. apply N2Z.inj. rewrite !low_u32 by exact Hb. apply Z.mod_mod. apply Z.pow_nonzero; lia.
Qed.
Lemma low_stream :
  (forall d f v, agg_d d = Some f -> conforms_v d v -> good_field f -> stream (field_elems f (v_inst (map_bits_v (fun _ b => view_dtype b) (fun _ z => z) d v))) = stream (field_elems f (v_inst v))) /\
  (forall c fs o, agg_c c = Some fs -> conforms c o -> good_class fs -> stream (elems fs (obj_inst (low_bits c o))) = stream (elems fs (obj_inst o))).
Proof.
  apply desc_class_ind.
  - intros dt ish [b|] pb fill f [a|o] E HC HG; try contradiction; try discriminate. cbn in E. injection E as <-. cbn in HG. cbn [map_bits_v v_inst adata field_elems]. rewrite !map_map.
    induction (adata a) as [|z l IH]; [reflexivity|]. cbn [map]. rewrite !stream_cons, IH. f_equal. apply bits_of_low. lia.
  - intros c IH [|] f [a|o] E HC HG; try contradiction; cbn [agg_d] in E; try discriminate. destruct (agg_c c) as [fs|] eqn:EC; [|discriminate]. injection E as <-. cbn. now apply (IH fs).
  - intros fs [|] E HC HG; [reflexivity|contradiction].
  - intros n d IHd r IHr fs [|m v q] E HC HG; [contradiction|]. cbn [agg_c] in E. destruct (agg_d d) as [f|] eqn:ED; [|discriminate]. destruct (agg_c r) as [fr|] eqn:ER; [|discriminate]. injection E as <-.
    cbn [conforms good_class] in *. destruct HC as (_ & C1 & C2), HG as (_ & G2 & G3). unfold low_bits in *. cbn [map_bits obj_inst elems]. rewrite !stream_app. now rewrite IHd, IHr.
Qed.
Section One.
Variables (c : class) (fs : fields) (o : obj).
Hypotheses (HP : packable c fs) (HO : batched c [] o).
Lemma row0 : row_inst [] o 0 = obj_inst o.
Proof. unfold row_inst. rewrite inb_shape_nil. now rewrite (proj2 elem_nil_both o c) by apply HO. Qed.
Lemma is0 : is_instance fs (obj_inst o).
Proof. rewrite <- row0. apply (row_is c fs [] o HP HO). cbn. lia. Qed.
Lemma packed_words_eq be : backend_ok be 1 (word_count fs) -> packed_words be c o = Some (row_words fs [] o 0).
Proof.
  intros HB. rewrite word_count_eq in HB. unfold packed_words. rewrite (proj1 HP), (pack_obj_eq c fs [] o HP HO be HB). unfold packed_obj. cbn [prod fold_right seq flat_map adata]. rewrite !app_nil_r, !map_to_of, <- surjective_pairing, total_eq. f_equal.
  apply (load_row c fs [] o HP HO). cbn. lia.
Qed.
Lemma packed_bytes_eq be : backend_ok be 1 (word_count fs) -> packed_bytes be c o = Some (stored_bytes (packed_row fs [] o 0)).
Proof.
  intros HB. rewrite word_count_eq in HB. unfold packed_bytes. rewrite (pack_obj_eq c fs [] o HP HO be HB). unfold packed_obj. cbn [prod fold_right seq flat_map adata]. rewrite !app_nil_r, !map_to_of. reflexivity.
Qed.
Lemma row_words0 : length (row_words fs [] o 0) = word_count fs /\ Forall word (row_words fs [] o 0) /\ (forall p, word_bit (row_words fs [] o 0) p = nth p (stream (elems fs (obj_inst o))) false).
Proof.
  unfold row_words. rewrite row0. split; [apply pack_words_length|]. split; [apply pack_words_word|]. exact (words_stream fs (obj_inst o) (proj1 (proj2 HP)) is0).
Qed.
Lemma packed_row0 : packed_row fs [] o 0 = store (class_bits fs) (row_words fs [] o 0).
Proof. unfold packed_row, row_words. rewrite row0. apply (pack_instance_eq fs _ (proj1 (proj2 HP)) is0). Qed.
Lemma bytes0 : 4 * length (fst (packed_row fs [] o 0)) + length (snd (packed_row fs [] o 0)) = length (stored_bytes (packed_row fs [] o 0)) /\
  (forall p, byte_bit (stored_bytes (packed_row fs [] o 0)) p = word_bit (row_words fs [] o 0) p).
Proof.
  split; [unfold stored_bytes; now rewrite app_length, words_bytes_length|]. intros p. rewrite packed_row0. destruct row_words0 as (H1 & H2 & H3). apply store_bits; [exact H2|exact H1|].
  intros k Hk. rewrite H3. apply nth_overflow. now rewrite (elems_bits fs _ (proj1 (proj2 HP)) is0).
Qed.
End One.

(** ** Theorems *)
(** the words ([uint32ed]) are ceil(bits/32) uint32 values, the bytes ([bytes]) are the same
    bits, and bit p of both is bit p of the fields' declared bits in declaration order *)
Theorem C44_words : forall c fs o be, packable c fs -> batched c [] o -> backend_ok be 1 (word_count fs) ->
  exists ws bs, packed_words be c o = Some ws /\ packed_bytes be c o = Some bs /\
    length ws = word_count fs /\ Forall (fun w => (w < 2 ^ 32)%N) ws /\ class_bits fs <= 8 * length bs /\
    (forall p, word_bit ws p = nth p (stream (elems fs (obj_inst o))) false) /\ (forall p, byte_bit bs p = word_bit ws p).
Proof.
  intros c fs o be HP HO HB. exists (row_words fs [] o 0), (stored_bytes (packed_row fs [] o 0)). destruct (row_words0 c fs o HP HO) as (H1 & H2 & H3). destruct (bytes0 c fs o HP HO) as (H4 & H5).
  split; [now apply (packed_words_eq c)|]. split; [now apply (packed_bytes_eq c)|]. split; [exact H1|]. split; [exact H2|]. split; [|split; [exact H3|exact H5]].
  rewrite <- H4. destruct (packed_row_len c fs [] o HP HO 0 ltac:(cbn; lia)) as [E1 E2]. rewrite E1, E2. rewrite layout_cases. cbv zeta.
  pose proof (Nat.div_mod (class_bits fs) 32 ltac:(lia)) as Hd. pose proof (Nat.mod_upper_bound (class_bits fs) 32 ltac:(lia)) as Hm. set (q := class_bits fs / 32) in *. set (r := class_bits fs mod 32) in *.
  destruct (Nat.eqb_spec r 0); [cbn [fst snd]; lia|]. destruct (Nat.leb_spec r 8); [cbn [fst snd]; lia|]. destruct (Nat.leb_spec r 16); cbn [fst snd]; lia.
Qed.
(** two instances have the same words exactly when their fields agree in the declared bits *)
Theorem C44_same_words : forall c fs o q be be', packable c fs -> batched c [] o -> batched c [] q ->
  backend_ok be 1 (word_count fs) -> backend_ok be' 1 (word_count fs) ->
  (packed_words be c o = packed_words be' c q <-> low_bits c o = low_bits c q) /\ (packed_bytes be c o = packed_bytes be' c q <-> low_bits c o = low_bits c q).
Proof.
  intros c fs o q be be' HP HO HQ B1 B2. rewrite (packed_words_eq c fs o HP HO be B1), (packed_words_eq c fs q HP HQ be' B2), (packed_bytes_eq c fs o HP HO be B1), (packed_bytes_eq c fs q HP HQ be' B2).
  destruct (row_words0 c fs o HP HO) as (H1 & H2 & H3). destruct (row_words0 c fs q HP HQ) as (K1 & K2 & K3). destruct (bytes0 c fs o HP HO) as (_ & H5). destruct (bytes0 c fs q HP HQ) as (_ & K5).
  assert (F : row_words fs [] o 0 = row_words fs [] q 0 -> low_bits c o = low_bits c q).
  { intros E. pose proof (unpack_obj_eq c fs [] o HP HO) as U. pose proof (unpack_obj_eq c fs [] q HP HQ) as V.
    assert (EP : packed_obj fs [] o = packed_obj fs [] q) by (unfold packed_obj; cbn [prod fold_right seq flat_map]; rewrite (packed_row0 c fs o HP HO), (packed_row0 c fs q HP HQ), E; reflexivity). rewrite EP in U. congruence. }
  assert (G : low_bits c o = low_bits c q -> row_words fs [] o 0 = row_words fs [] q 0).
  { intros E. apply word_bits_ext; [congruence|assumption|assumption|]. intros p. rewrite H3, K3. f_equal.
    rewrite <- (proj2 low_stream c fs o), <- (proj2 low_stream c fs q), E by (apply HP || apply HO || apply HQ). reflexivity. }
  split; split; intros E.
  - apply F. congruence.
  - f_equal. now apply G.
  - apply F. assert (EB : stored_bytes (packed_row fs [] o 0) = stored_bytes (packed_row fs [] q 0)) by congruence. apply word_bits_ext; [congruence|assumption|assumption|]. intros p. now rewrite <- H5, <- K5, EB.
  - f_equal. now rewrite (packed_row0 c fs o HP HO), (packed_row0 c fs q HP HQ), (G E).
Qed.
(** for instances whose elements fit in their declared bits, the words identify the instance *)
Theorem C44_faithful : forall c fs o q be be', packable c fs -> batched c [] o -> batched c [] q -> in_bits c o -> in_bits c q ->
  backend_ok be 1 (word_count fs) -> backend_ok be' 1 (word_count fs) ->
  (packed_words be c o = packed_words be' c q <-> o = q) /\ (packed_bytes be c o = packed_bytes be' c q <-> o = q).
Proof.
  intros c fs o q be be' HP HO HQ IO IQ B1 B2. destruct (C44_same_words c fs o q be be' HP HO HQ B1 B2) as [-> ->].
  assert (K : low_bits c o = low_bits c q <-> o = q); [|tauto]. split; [|now intros ->]. intros E.
  rewrite <- (proj2 in_bits_both c o), <- (proj2 in_bits_both c q) by (assumption || apply HO || apply HQ).
  rewrite <- (proj2 declared_low_both c fs o), <- (proj2 declared_low_both c fs q), E by (apply HP || apply HO || apply HQ). reflexivity.
Qed.
(** outside that range they do not: with the default fill value of an unsigned field narrower
    than its dtype, the default instance is [!=] to an instance with the same words, so a
    table in this mode takes the two for one *)
Definition tiny : class := CCons "x" (Prim (DUInt 8) [] (Some 3) false (default_fill (DUInt 8))) CNil.
Theorem C44_collision : exists o ws, batched tiny [] o /\ in_bits tiny o /\ ~ in_bits tiny (default_obj [] tiny) /\
  obj_eq o (default_obj [] tiny) = Some false /\ packed_words PackXla tiny o = Some ws /\ packed_words PackXla tiny (default_obj [] tiny) = Some ws.
Proof.
  exists (OCons "x" (VArr (MkArr (DUInt 8) [] [7]%Z)) ONil), [7%N]. split; [split; cbn; repeat split|]. split; [cbn; repeat split; repeat constructor; cbn; lia|]. split.
  - cbn. intros ((_ & H) & _). inversion H as [|? ? [_ K] _]; subst. lia.
  - repeat split; vm_compute; reflexivity.
Qed.

(** ** Hash tables in packed mode *)
From Verif Require Import FloatEq PropEq PropEqTable TableSpec PropTable PropTableCases.
Fixpoint in_bitsb_v (d : desc) (v : value) : bool :=
  match d, v with
  | Prim dt _ (Some b) _ _, VArr a => match dt with DFloat _ => false | DInt w | DUInt w => 1 <=? w | DBool => true end &&
      forallb (fun z => plainb dt z && (0 <=? z)%Z && (z <? 2 ^ Z.of_nat b)%Z) (adata a)
  | Nest c _, VObj o => in_bitsb c o
  | _, _ => false
  end
with in_bitsb (c : class) (o : obj) : bool :=
  match c, o with
  | CNil, ONil => true
  | CCons _ d r, OCons _ v q => in_bitsb_v d v && in_bitsb r q
  | _, _ => false
  end.
Lemma in_bitsb_spec : (forall d v, in_bitsb_v d v = true -> in_bits_v d v) /\ (forall c o, in_bitsb c o = true -> in_bits c o).
Proof.
  apply desc_class_ind.
  - intros dt ish [b|] pb fill [a|o] H; cbn in *; try discriminate. apply andb_prop in H. destruct H as [H1 H2]. split.
    + destruct dt as [|[|w]|[|w]|w]; cbn in *; try exact I; try discriminate; lia.
    + apply Forall_forall. intros z Hz. rewrite forallb_forall in H2. specialize (H2 z Hz). apply andb_prop in H2. destruct H2 as [H2 H3]. apply andb_prop in H2. destruct H2 as [H2 H4]. apply plainb_spec in H2. split; [apply H2|]. apply Z.leb_le in H4. apply Z.ltb_lt in H3. lia.
  - intros c IH s [a|o] H; cbn in *; [discriminate|]. now apply IH.
  - intros [|] H; [exact I|discriminate].
  - intros n d IHd r IHr [|m v q] H; [discriminate|]. cbn in *. apply andb_prop in H. destruct H. split; auto.
Qed.
(** the items: single instances whose elements fit in their declared bits; the default
    instance must be one of them *)
Definition pgood (c : class) (o : obj) : bool := good [] c o && in_bitsb c o.
Definition pitem (c : class) : Type := {o : obj | pgood c o = true}.
Definition pclass_ok (c : class) : bool := class_ok c && in_bitsb c (default_obj [] c).
Section PTable.
Variables (c : class) (fs : fields) (HP : packable c fs) (HC : pclass_ok c = true) (seed : N).
Lemma pok : class_ok c = true. Proof. exact (proj1 (andb_prop _ _ HC)). Qed.
Definition p_eqb (x y : pitem c) : bool := match obj_eq (proj1_sig x) (proj1_sig y) with Some b => b | None => false end.
Lemma pitem_eq (x y : pitem c) : proj1_sig x = proj1_sig y -> x = y.
Proof. destruct x as [o H], y as [q K]. cbn. intros <-. f_equal. apply UIP_dec, Bool.bool_dec. Qed.
Lemma pitem_good (x : pitem c) : good [] c (proj1_sig x) = true. Proof. exact (proj1 (andb_prop _ _ (proj2_sig x))). Qed.
Lemma pitem_bits (x : pitem c) : in_bits c (proj1_sig x). Proof. apply in_bitsb_spec. exact (proj2 (andb_prop _ _ (proj2_sig x))). Qed.
Lemma pitem_batched (x : pitem c) : batched c [] (proj1_sig x). Proof. exact (proj1 (proj1 (good_storable c _) (pitem_good x))). Qed.
Lemma p_eqb_spec (x y : pitem c) : p_eqb x y = true <-> x = y.
Proof.
  pose proof (item_eqb_spec c pok (exist _ _ (pitem_good x)) (exist _ _ (pitem_good y))) as K. unfold item_eqb in K. cbn [proj1_sig] in K. unfold p_eqb. rewrite K. split.
  - intros E. apply pitem_eq. exact (f_equal (@proj1_sig _ _) E).
  - intros ->. reflexivity.
Qed.
Definition p_words (x : pitem c) : list N := match packed_words PackXla c (proj1_sig x) with Some ws => ws | None => [] end.
Lemma p_words_some (x : pitem c) : packed_words PackXla c (proj1_sig x) = Some (p_words x) /\ length (p_words x) = word_count fs.
Proof. unfold p_words. destruct (C44_words c fs _ PackXla HP (pitem_batched x) I) as (ws & bs & E & _ & L & _). rewrite E. auto. Qed.
Lemma p_words_inj (x y : pitem c) : p_words x = p_words y -> x = y.
Proof.
  intros E. apply pitem_eq. destruct (C44_faithful c fs (proj1_sig x) (proj1_sig y) PackXla PackXla HP (pitem_batched x) (pitem_batched y) (pitem_bits x) (pitem_bits y) I I) as [K _]. apply K.
  now rewrite (proj1 (p_words_some x)), (proj1 (p_words_some y)), E.
Qed.
Lemma p_default_good : pgood c (default_obj [] c) = true.
Proof. apply andb_prop in HC. destruct HC as [H1 H2]. unfold pgood. rewrite H2, andb_true_r. exact (proj1 (andb_prop _ _ H1)). Qed.
Definition p_default : pitem c := exist _ (default_obj [] c) p_default_good.
Definition packed_item : dataclass (pitem c) :=
  {| dc_eqb := p_eqb; dc_default := p_default; dc_words := p_words; dc_nwords := word_count fs; dc_hash := fun ws => hash_fast_pair ws seed;
     dc_eq := p_eqb_spec; dc_inj := p_words_inj; dc_len := fun x => proj2 (p_words_some x) |}.
(** all properties of the hash table (C21-C31) hold of such classes; its hash pair is the one
    of the instance in packed mode, whichever backend packed it *)
Theorem C44_hash_pair : forall be (x : pitem c), backend_ok be 1 (word_count fs) -> Some (hash_pair packed_item x) = packed_hash_pair be c seed (proj1_sig x).
Proof.
  intros be x HB. unfold packed_hash_pair, hash_pair, packed_item. cbn [dc_hash dc_words].
  assert (E : packed_words be c (proj1_sig x) = Some (p_words x)).
  { rewrite <- (proj1 (p_words_some x)). apply (C44_faithful c fs _ _ be PackXla HP (pitem_batched x) (pitem_batched x) (pitem_bits x) (pitem_bits x) HB I). reflexivity. }
  now rewrite E.
Qed.
Theorem C44_table : forall C es t (x : pitem c) i, history packed_item C es t -> reported packed_item es x i ->
  forall q (G : pgood c q = true), obj_eq q (proj1_sig x) = Some true -> Lookup packed_item t (exist _ q G) = Some (i, true).
Proof.
  intros C es t x i HH HR q G HE. assert (E : exist _ q G = x) by (apply p_eqb_spec; unfold p_eqb; cbn [proj1_sig]; now rewrite HE).
  rewrite E. exact (proj1 (C22_found_forever packed_item C es t x i HH HR)).
Qed.
End PTable.
(** a class the theorems apply to *)
Definition demo_packed : packable demo_agg demo_fields := proj1 C43_case.
Definition one_obj : obj := OCons "flag" (VArr (MkArr DBool [] [1]%Z)) (OCons "codes" (VArr (MkArr (DUInt 16) [3] [4095; 0; 17]%Z))
  (OCons "in" (VObj (OCons "count" (VArr (MkArr (DUInt 8) [] [30]%Z)) ONil)) ONil)).
Example C44_case : pclass_ok demo_agg = true /\ pgood demo_agg one_obj = true /\ packed_words PackXla demo_agg one_obj = Some [0x22001FFF; 0x3C0]%N.
Proof. repeat split; vm_compute; reflexivity. Qed.
Definition demo_pitem : pitem demo_agg := exist _ one_obj eq_refl.
Definition demo_PT := packed_item demo_agg demo_fields demo_packed eq_refl 0.
Example C44_history_case : exists C es t i, history demo_PT C es t /\ reported demo_PT es demo_pitem i.
Proof.
  assert (E0 : option_map (fun p => snd (fst p)) (Insert demo_PT (Build demo_PT 4 2 2 None) demo_pitem) = Some true) by (vm_compute; reflexivity).
  exists DEF. destruct (Insert demo_PT (Build demo_PT 4 2 2 None) demo_pitem) as [[[t ok] i]|] eqn:E; [|discriminate].
  cbn [option_map fst snd] in E0. injection E0 as ->.
  exists [EInsert demo_pitem true i], t, i. split.
  - exists 4, 2, 2, None. split; [unfold config_ok; cbn; repeat split; lia|]. econstructor; [constructor; exact E|constructor].
  - exists (EInsert demo_pitem true i). split; [now left|]. repeat split.
Qed.
Print Assumptions C44_table.
