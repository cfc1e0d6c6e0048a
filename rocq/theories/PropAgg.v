(** * PropAgg.v — property C43: aggregate bit-packing of whole batches. *)
From Coq Require Import String.
From Verif Require Import Jax HashModel HashProofs BitpackModel BitpackSpec BitpackProofs BitpackAgg StructModel ArrayModel ArrayFacts ShapeModel PropShape RowsModel RowsLift PropRows AggModel AggKernel AggFacts.

(** ** Specification *)
(** no leaf has a floating-point dtype: such a leaf is packed as the conversion of its values
    to uint32, not as its bits (property C81) *)
Fixpoint no_floats_d (d : desc) : Prop :=
  match d with Prim (DFloat _) _ _ _ _ => False | Prim _ _ _ _ _ => True | Nest c _ => no_floats c end
with no_floats (c : class) : Prop :=
  match c with CNil => True | CCons _ d r => no_floats_d d /\ no_floats r end.
(** a packable class: what the decorator accepts (1..32 bits per leaf, distinct names), with
    fewer than 2^32 bits per instance, at least one field, no empty nested class and no
    floating-point leaf *)
Definition packable (c : class) (fs : fields) : Prop :=
  agg_c c = Some fs /\ good_class fs /\ (N.of_nat (class_bits fs) < 2 ^ 32)%N /\ c <> CNil /\ solid c /\ no_floats c.
(** the instance with every element reduced to its declared bits: [f] gives the dtype and
    the value of the result *)
Fixpoint map_bits_v (f : dtype -> nat -> dtype) (g : dtype -> Z -> Z) (d : desc) (v : value) : value :=
  match d, v with
  | Prim dt _ (Some b) _ _, VArr a => VArr (MkArr (f dt b) (ashape a) (map (fun z => g dt (z mod 2 ^ Z.of_nat b)%Z) (adata a)))
  | Nest c _, VObj o => VObj (map_bits f g c o)
  | _, _ => v
  end
with map_bits (f : dtype -> nat -> dtype) (g : dtype -> Z -> Z) (c : class) (o : obj) : obj :=
  match c, o with
  | CCons _ d r, OCons n v q => OCons n (map_bits_v f g d v) (map_bits f g r q)
  | _, _ => o
  end.
(** the dtype of an unpacked field: bool for one bit, uint8 up to eight bits, uint32 above *)
Definition view_dtype (bits : nat) : dtype := match bits with 1 => DBool | _ => if 8 <? bits then DUInt 32 else DUInt 8 end.
Lemma view_dtype_eq bits : unpack_dtype bits = view_dtype bits.
Proof.
  unfold unpack_dtype, view_dtype. destruct (Nat.eqb_spec bits 1) as [->|N]; [reflexivity|].
  destruct (Nat.leb_spec bits 8), (Nat.ltb_spec 8 bits); try lia; destruct bits as [|[|b]]; reflexivity || lia.
Qed.
(** in the default dtypes (bool, uint8, uint32) and in the declared ones *)
Definition low_bits : class -> obj -> obj := map_bits (fun _ b => view_dtype b) (fun _ z => z).
Definition low_bits_declared : class -> obj -> obj := map_bits (fun dt _ => dt) cast.
(** every element is a value of its (boolean or integer) dtype that fits in the declared bits *)
Fixpoint in_bits_v (d : desc) (v : value) : Prop :=
  match d, v with
  | Prim dt _ (Some b) _ _, VArr a => match dt with DFloat _ => False | DInt w | DUInt w => 1 <= w | DBool => True end /\
      Forall (fun z => in_dtype dt z /\ (0 <= z < 2 ^ Z.of_nat b)%Z) (adata a)
  | Nest c _, VObj o => in_bits c o
  | _, _ => False
  end
with in_bits (c : class) (o : obj) : Prop :=
  match c, o with
  | CNil, ONil => True
  | CCons _ d r, OCons _ v q => in_bits_v d v /\ in_bits r q
  | _, _ => False
  end.

(** ** Packing *)
Lemma flat_map_len {X} (g : nat -> list X) k m : (forall r, r < m -> length (g r) = k) -> length (flat_map g (seq 0 m)) = m * k.
Proof.
  intros H. assert (K : forall l, (forall r, In r l -> length (g r) = k) -> length (flat_map g l) = length l * k).
  { clear. induction l as [|r l IH]; intros H; [reflexivity|]. cbn [flat_map length]. rewrite app_length, H by (now left). rewrite IH; [reflexivity|]. intros; apply H; now right. }
  rewrite K, seq_length; [reflexivity|]. intros r Hr. apply in_seq in Hr. apply H. lia.
Qed.
Lemma chunks_flat_map_in {A} (g : nat -> list A) k : forall n m, (forall r, m <= r < m + n -> length (g r) = k) -> chunks n k (flat_map g (seq m n)) = map g (seq m n).
Proof.
  induction n as [|n IH]; intros m HG; [reflexivity|]. cbn [seq flat_map chunks map]. pose proof (HG m ltac:(lia)) as HM.
  assert (E1 : firstn k (g m ++ flat_map g (seq (S m) n)) = g m) by (rewrite firstn_app, HM, Nat.sub_diag; cbn [firstn]; rewrite app_nil_r; apply firstn_all2; rewrite HM; lia).
  assert (E2 : skipn k (g m ++ flat_map g (seq (S m) n)) = flat_map g (seq (S m) n)) by (rewrite skipn_app, HM, Nat.sub_diag, skipn_all2 by (rewrite HM; lia); reflexivity).
  rewrite E1, E2, IH; [reflexivity|]. intros r Hr. apply HG. lia.
Qed.
Lemma chunks_seq {A} k n (l : list A) : chunks n k l = map (fun r => firstn k (skipn (r * k) l)) (seq 0 n).
Proof.
  apply nth_ext with (d := []) (d' := firstn k (skipn (0 * k) l)); rewrite chunks_length; [now rewrite map_length, seq_length|].
  intros r Hr. rewrite (map_nth (fun r => firstn k (skipn (r * k) l))), seq_nth by exact Hr. now apply nth_chunks.
Qed.
Lemma map_to_of (l : list N) : map Z.to_N (map Z.of_N l) = l.
Proof. rewrite map_map. rewrite (map_ext _ (fun x => x)) by apply N2Z.id. apply map_id. Qed.
Lemma low_u32 z b : b <= 32 -> Z.of_N (u32 z mod 2 ^ N.of_nat b) = (z mod 2 ^ Z.of_nat b)%Z.
Proof.
  intros Hb. unfold u32. rewrite N2Z.inj_mod, N2Z.inj_pow, nat_N_Z. change (Z.of_N 2) with 2%Z.
  rewrite Z2N.id by (apply Z.mod_pos_bound; lia). replace (2 ^ 32)%Z with (2 ^ Z.of_nat b * 2 ^ (32 - Z.of_nat b))%Z by (rewrite <- Z.pow_add_r by lia; f_equal; lia).
  rewrite Z.rem_mul_r by (try apply Z.pow_nonzero; try apply Z.pow_pos_nonneg; lia). rewrite Z.mul_comm, Z.mod_add by (apply Z.pow_nonzero; lia). apply Z.mod_mod. apply Z.pow_nonzero; lia.
Qed.
Section Pack.
Variables (c : class) (fs : fields) (B : list nat) (o : obj).
Hypotheses (HP : packable c fs) (HO : batched c B o).
Let specs := fst (agg_spec fs).
Let total := class_bits fs.
Let n := prod B.
Let nwords := fst (fst (word_tail_layout total)).
Definition row_inst (r : nat) : instance := obj_inst (elem (unravel B r) o).
Lemma elem_ok r : r < n -> batched c [] (elem (unravel B r) o).
Proof. intros Hr. pose proof (unravel_inb B r Hr) as Hb. destruct (C41_elem c B o _ HO Hb) as (e & _ & K & ->). exact K. Qed.
Lemma row_is r : r < n -> is_instance fs (row_inst r).
Proof. intros Hr. destruct (elem_ok r Hr). apply (proj2 agg_is_instance c); [apply HP|assumption|assumption]. Qed.
Lemma total_eq : snd (agg_spec fs) = total.
Proof. exact (proj2 (proj2 (proj2 walk_layout fs [] 0))). Qed.
Lemma specs_arrays : Forall (leaf_array (VObj o) B) specs.
Proof.
  apply (proj2 (walk_arrays (VObj o) B) c fs o [] 0); [apply HP|apply HO|apply HO|apply HP|]. intros m x _ H. cbn. now rewrite H.
Qed.
Definition leaf_data (s : leafspec) : list Z := match get_path_v (VObj o) (lpath s) with Some (VArr a) => adata a | _ => [] end.
Lemma leaf_rows_eq s : In s specs -> leaf_rows n o s = Some (chunks n (lnvalues s) (map u32 (leaf_data s))) /\ length (leaf_data s) = n * lnvalues s.
Proof.
  intros Hs. pose proof specs_arrays as H. rewrite Forall_forall in H. destruct (H s Hs) as (a & ish & E & W & ES & EN). unfold leaf_rows, leaf_data. rewrite E, ES, prod_app, EN. fold n. rewrite Nat.eqb_refl. split; [reflexivity|]. rewrite W, ES, prod_app, EN. reflexivity.
Qed.
Lemma leaf_row_vals s r : In s specs -> r < n -> leaf_vals (row_inst r) (lpath s) = map u32 (firstn (lnvalues s) (skipn (r * lnvalues s) (leaf_data s))).
Proof.
  intros Hs Hr. pose proof specs_arrays as H. rewrite Forall_forall in H. destruct (H s Hs) as (a & ish & E & W & ES & EN). unfold leaf_vals, row_inst, leaf_data. rewrite E.
  change (INested (obj_inst (elem (unravel B r) o))) with (v_inst (elem_v (unravel B r) (VObj o))). rewrite get_path_inst, get_path_elem, E. cbn [option_map elem_v v_inst].
  rewrite (sub_data _ a B ish W ES) by (now apply unravel_inb). rewrite ravel_unravel by exact Hr. now rewrite EN.
Qed.
Lemma row_vals r : r < n -> flat_map (fun s => nth r (chunks n (lnvalues s) (map u32 (leaf_data s))) []) specs = vals_of (row_inst r) specs.
Proof.
  intros Hr. unfold vals_of. apply flat_map_ext_in. intros s Hs. rewrite nth_chunks by exact Hr. rewrite leaf_row_vals by assumption. rewrite map_map. rewrite skipn_map, firstn_map. apply map_ext. intros z. now rewrite w32_u32.
Qed.
Lemma nwords_eq : nwords = (total + 31) / 32.
Proof. unfold nwords. now rewrite (proj2 (layout_words total)). Qed.
Definition packed_row (r : nat) : list N * list N := pack_instance fs (row_inst r).
Lemma packed_row_len r : r < n -> length (fst (packed_row r)) = snd (fst (word_tail_layout total)) /\ length (snd (packed_row r)) = snd (word_tail_layout total).
Proof.
  intros Hr. unfold packed_row. rewrite (pack_instance_eq fs _ (proj1 (proj2 HP)) (row_is r Hr)). apply store_length. apply words_len.
Qed.
Definition packed_obj : obj :=
  OCons "words" (VArr (MkArr (DUInt 32) (B ++ [snd (fst (word_tail_layout total))]) (map Z.of_N (flat_map (fun r => fst (packed_row r)) (seq 0 n)))))
  (OCons "tail" (VArr (MkArr (DUInt 8) (B ++ [snd (word_tail_layout total)]) (map Z.of_N (flat_map (fun r => snd (packed_row r)) (seq 0 n))))) ONil).
Lemma batch_eq : get_batch c o = Some (Batch B).
Proof. destruct HP as (_ & _ & _ & HN & HS & _), HO as [H1 H2]. now apply C40_reports. Qed.
Lemma pack_obj_eq be : backend_ok be n nwords -> pack_obj be c o = Some packed_obj.
Proof.
  intros HB. destruct HP as (HA & HG & HT & _). unfold pack_obj. rewrite HA, batch_eq. unfold packed_obj.
  assert (ES : exists sp, agg_spec fs = (sp, total) /\ specs = sp) by (exists specs; split; [rewrite <- total_eq; unfold specs; now destruct (agg_spec fs)|reflexivity]).
  destruct ES as (sp & ES & ESP). rewrite ES.
  assert (EL : exists nw stored tail, word_tail_layout total = (nw, stored, tail) /\ nwords = nw) by (unfold nwords; destruct (word_tail_layout total) as [[x y] z]; eauto).
  destruct EL as (nw & stored & tail & EL & ENW). rewrite EL. cbn [fst snd]. fold n.
  rewrite (seq_opt_map _ (fun s => chunks n (lnvalues s) (map u32 (leaf_data s)))) by (intros s Hs; rewrite <- ESP in Hs; now apply leaf_rows_eq).
  set (rows := map _ (seq 0 n)). assert (ER : rows = map (fun r => vals_of (row_inst r) specs) (seq 0 n)).
  { unfold rows. apply map_ext_in. intros r Hr. apply in_seq in Hr. rewrite flat_map_map, <- ESP. apply row_vals. lia. }
  assert (EW : (if total_values sp =? 0 then map (fun _ => repeat 0%N nw) rows else pack_rows be sp nw rows) = map (fun r => pack_words specs nw (vals_of (row_inst r) specs)) (seq 0 n)).
  { transitivity (map (pack_words specs nw) rows); [|rewrite ER; now rewrite map_map].
    rewrite <- ESP. destruct (Nat.eqb_spec (total_values specs) 0) as [E0|E0].
    - apply map_ext. intros vals. assert (EB : total = 0).
      { pose proof (proj1 (proj2 (proj2 walk_layout fs [] 0))) as K. change (spec_bits specs = total) in K. rewrite <- K. clear - E0. unfold spec_bits, total_values in *. induction specs as [|s l IH]; [reflexivity|].
        change (list_sum (map lnvalues (s :: l))) with (lnvalues s + list_sum (map lnvalues l)) in E0. change (list_sum (map (fun s0 => lnvalues s0 * lbits s0) (s :: l))) with (lnvalues s * lbits s + list_sum (map (fun s0 => lnvalues s0 * lbits s0) l)). rewrite IH by lia. assert (lnvalues s = 0) as -> by lia. reflexivity. }
      assert (nw = 0) as -> by (rewrite <- ENW, nwords_eq, EB; reflexivity). pose proof (pack_words_length specs 0 vals) as K. destruct (pack_words specs 0 vals); [reflexivity|discriminate].
    - apply pack_rows_correct. rewrite ER, map_length, seq_length, <- ENW. exact HB. }
  rewrite EW, map_map.
  assert (EP : map (fun r => store total (pack_words specs nw (vals_of (row_inst r) specs))) (seq 0 n) = map packed_row (seq 0 n)).
  { apply map_ext_in. intros r Hr. apply in_seq in Hr. unfold packed_row. rewrite (pack_instance_eq fs _ HG (row_is r ltac:(lia))). rewrite <- ENW, nwords_eq. reflexivity. }
  rewrite EP, !flat_map_map. reflexivity.
Qed.
Lemma packed_batched : batched (packed_class total) B packed_obj.
Proof.
  unfold packed_class, packed_obj. pose proof (fun r Hr => proj1 (packed_row_len r Hr)) as L1. pose proof (fun r Hr => proj2 (packed_row_len r Hr)) as L2.
  destruct (word_tail_layout total) as [[nw stored] tail]. cbn [fst snd] in *.
  split; cbn; repeat split; rewrite map_length, prod_app.
  - rewrite (flat_map_len _ stored) by exact L1. cbn. unfold n. lia.
  - rewrite (flat_map_len _ tail) by exact L2. cbn. unfold n. lia.
Qed.
Lemma combine_map {X Y Z0} (f : X -> Y) (g : X -> Z0) l : combine (map f l) (map g l) = map (fun x => (f x, g x)) l.
Proof. induction l as [|x l IH]; [reflexivity|]. cbn. now rewrite IH. Qed.
Definition row_words (r : nat) : list N := pack_words specs ((total + 31) / 32) (vals_of (row_inst r) specs).
Lemma load_row r : r < n -> load_words total (packed_row r) = row_words r.
Proof. intros Hr. unfold packed_row, row_words. apply (load_packed fs _ (proj1 (proj2 HP)) (row_is r Hr)). Qed.
Lemma words_all_eq : words_all total n packed_obj = Some (map row_words (seq 0 n)).
Proof.
  pose proof (fun r Hr => proj1 (packed_row_len r Hr)) as L1. pose proof (fun r Hr => proj2 (packed_row_len r Hr)) as L2. unfold words_all, packed_obj.
  assert (EL : exists nw stored tail, word_tail_layout total = (nw, stored, tail)) by (destruct (word_tail_layout total) as [[x y] z]; eauto).
  destruct EL as (nw & stored & tail & EL). rewrite EL in *. cbn [fst snd ashape adata] in *. rewrite !prod_app. fold n. cbn [prod fold_right]. rewrite !Nat.mul_1_r, !Nat.eqb_refl. cbn [andb]. f_equal.
  rewrite !map_to_of, !chunks_flat_map_in by (intros r Hr; first [apply L1|apply L2]; lia). rewrite combine_map, map_map. apply map_ext_in. intros r Hr. apply in_seq in Hr. rewrite <- surjective_pairing. apply load_row. lia.
Qed.
Lemma decode_leaf s : In s specs -> flat_map (fun ws => decode_field ws s (all_indices s)) (map row_words (seq 0 n)) = map (fun z => (u32 z mod 2 ^ N.of_nat (lbits s))%N) (leaf_data s).
Proof.
  intros Hs. rewrite flat_map_map. destruct HP as (_ & HG & HT & _).
  transitivity (flat_map (fun r => map (fun z => (u32 z mod 2 ^ N.of_nat (lbits s))%N) (firstn (lnvalues s) (skipn (r * lnvalues s) (leaf_data s)))) (seq 0 n)).
  - apply flat_map_ext_in. intros r Hr. apply in_seq in Hr. unfold row_words. pose proof (decode_all fs (row_inst r) HG (row_is r ltac:(lia)) s HT Hs) as K. fold specs total in K. rewrite K, leaf_row_vals by (assumption || lia). now rewrite map_map.
  - rewrite flat_map_concat_map. rewrite <- (map_map (fun r => firstn (lnvalues s) (skipn (r * lnvalues s) (leaf_data s))) (map (fun z => (u32 z mod 2 ^ N.of_nat (lbits s))%N))).
    rewrite <- concat_map, <- chunks_seq, concat_chunks by (apply leaf_rows_eq; exact Hs). reflexivity.
Qed.
End Pack.
Lemma view_correct root B dict :
  (forall d f v prefix off, agg_d d = Some f -> conforms_v d v -> has_v B d v -> good_field f -> get_path_v root prefix = Some v ->
     (forall s, In s (fst (walk_field prefix off f)) -> dict_get dict (lpath s) = map (fun z => (u32 z mod 2 ^ N.of_nat (lbits s))%N) (match get_path_v root (lpath s) with Some (VArr a) => adata a | _ => [] end)) ->
     view_d dict B prefix d = map_bits_v (fun _ b => view_dtype b) (fun _ z => z) d v) /\
  (forall c fs o prefix off, agg_c c = Some fs -> conforms c o -> has_batch B c o -> good_class fs ->
     (forall n x, In n (BitpackSpec.names fs) -> get_attr_o o n = Some x -> get_path_v root (prefix ++ [n]) = Some x) ->
     (forall s, In s (fst (walk prefix off fs)) -> dict_get dict (lpath s) = map (fun z => (u32 z mod 2 ^ N.of_nat (lbits s))%N) (match get_path_v root (lpath s) with Some (VArr a) => adata a | _ => [] end)) ->
     view_c dict B prefix c = low_bits c o).
Proof.
  apply desc_class_ind.
  - intros dt ish [b|] pb fill f [a|o] prefix off E HC HB HG HP HD; try contradiction; try discriminate. cbn in E. injection E as <-. cbn in HB, HG. cbn [view_d map_bits_v].
    specialize (HD (MkSpec prefix b (prod ish) off) (or_introl eq_refl)). cbn [lpath lbits] in HD. rewrite HD, HP, HB, map_map, view_dtype_eq. do 2 f_equal. apply map_ext. intros z. apply low_u32. lia.
  - intros c IH [|] f [a|o] prefix off E HC HB HG HP HD; try contradiction; cbn [agg_d] in E; try discriminate. destruct (agg_c c) as [fs|] eqn:EC; [|discriminate]. injection E as <-.
    cbn [walk_field conforms_v has_v good_field view_d map_bits_v] in *. rewrite app_nil_r in HB. f_equal. apply (IH fs o prefix off); auto. intros n x _ HA. rewrite get_path_v_app, HP. cbn [get_path_v]. now rewrite HA.
  - intros fs [|] prefix off E HC HB _ _ _; try contradiction. reflexivity.
  - intros n d IHd r IHr fs o prefix off E HC HB HG HP HD. cbn [agg_c] in E. destruct (agg_d d) as [f|] eqn:ED; [|discriminate]. destruct (agg_c r) as [fr|] eqn:ER; [|discriminate]. injection E as <-.
    destruct o as [|m v q]; [contradiction|]. cbn [conforms has_batch good_class] in *. destruct HC as (<- & C1 & C2), HB as (_ & B1 & B2), HG as (G1 & G2 & G3). cbn [walk] in HD. unfold low_bits in *. cbn [view_c map_bits].
    assert (HPV : get_path_v root (prefix ++ [n]) = Some v).
    { apply (HP n v); [now left|]. cbn. now rewrite String.eqb_refl. }
    specialize (IHd f v (prefix ++ [n])%list off eq_refl C1 B1 G2 HPV). destruct (walk_field (prefix ++ [n]) off f) as [s1 off1].
    assert (HPR : forall n0 x0, In n0 (BitpackSpec.names fr) -> get_attr_o q n0 = Some x0 -> get_path_v root (prefix ++ [n0]) = Some x0).
    { intros n0 x0 Hin Ha. apply HP; [now right|]. cbn. destruct (String.eqb_spec n0 n) as [->|_]; [contradiction|exact Ha]. }
    specialize (IHr fr q prefix off1 eq_refl C2 B2 G3 HPR). destruct (walk prefix off1 fr) as [s2 off2]. cbn [fst] in *.
    rewrite IHd by (intros s Hs; apply HD, in_or_app; now left). rewrite IHr by (intros s Hs; apply HD, in_or_app; now right). reflexivity.
Qed.
Lemma packed_class_ok t : packed_class t <> CNil /\ solid (packed_class t).
Proof. unfold packed_class. destruct (word_tail_layout t) as [[x y] z]. split; [discriminate|]. cbn. tauto. Qed.
Lemma unpack_obj_eq c fs B o : packable c fs -> batched c B o -> unpack_obj c (packed_obj fs B o) = Some (low_bits c o).
Proof.
  intros HP HO. unfold unpack_obj. rewrite (proj1 HP). pose proof (total_eq fs) as ET.
  assert (ES : exists sp, agg_spec fs = (sp, class_bits fs) /\ fst (agg_spec fs) = sp) by (exists (fst (agg_spec fs)); split; [rewrite <- ET; now destruct (agg_spec fs)|reflexivity]).
  destruct ES as (sp & ES & ESP). rewrite ES. destruct (packed_batched c fs B o HP HO) as [PB1 PB2]. destruct (packed_class_ok (class_bits fs)) as [HN HS].
  assert (EB : get_batch (packed_class (class_bits fs)) (packed_obj fs B o) = Some (Batch B)) by (now apply C40_reports).
  rewrite EB, (words_all_eq c fs B o HP HO). f_equal.
  destruct HO as [HC HB]. apply (proj2 (view_correct (VObj o) B _) c fs o [] 0); [apply HP|assumption|assumption|apply HP|intros m x _ H; cbn; now rewrite H|].
  intros s Hs. change (walk [] 0 fs) with (agg_spec fs) in Hs. rewrite ES in Hs. cbn [fst] in Hs. assert (Hs' : In s (fst (agg_spec fs))) by (now rewrite ESP).
  pose proof (decode_leaf c fs B o HP (conj HC HB) s Hs') as K. unfold leaf_data in K. rewrite <- K.
  apply dict_get_in.
  - rewrite map_map. cbn [fst]. pose proof (proj2 walk_paths_nodup fs [] 0 (proj1 (proj2 HP))) as ND. change (walk [] 0 fs) with (agg_spec fs) in ND. rewrite ES in ND. exact ND.
  - apply in_map_iff. exists s. split; [reflexivity|exact Hs].
Qed.
