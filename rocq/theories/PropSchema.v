(** * PropSchema.v — property C80: [bitpack_schema()] describes the bits that [packed] writes and
    [unpack_field] reads. *)
From Coq Require Import Ascii String.
From Verif Require Import Jax HashModel HashProofs BitpackModel BitpackSpec BitpackProofs BitpackAgg StructModel ArrayModel ArrayFacts ShapeModel PropShape RowsModel RowsLift PropRows EqModel RowsModel2 PromoteModel PropMixed AggModel AggKernel AggFacts PropAgg PropAgg2 PropAggHash SchemaModel AggAny PropAggFloat.
From Coq Require Import Sorted.
Local Open Scope nat_scope.

(** ** Specification *)
(** the leaves of a class, depth first in declaration order: path, dtype, shape, bits *)
Record leaf := MkLeaf { l_path : list string; l_dtype : dtype; l_shape : list nat; l_bits : nat }.
Definition inside (n : string) (x : leaf) : leaf := MkLeaf (n :: l_path x) (l_dtype x) (l_shape x) (l_bits x).
Fixpoint leaves_d (d : desc) : list leaf :=
  match d with
  | Prim dt ish (Some b) _ _ => [MkLeaf [] dt ish b]
  | Prim _ _ None _ _ => []
  | Nest c _ => leaves c
  end
with leaves (c : class) : list leaf :=
  match c with CNil => [] | CCons n d r => map (inside n) (leaves_d d) ++ leaves r end.
(** [f] describes the leaf [x], whose bits start at [off] *)
Definition describes (f : field_info) (x : leaf) (off : nat) : Prop :=
  i_path f = String.concat "." (l_path x) /\ i_bits f = l_bits x /\ i_shape f = l_shape x /\ i_nvalues f = prod (l_shape x) /\
  i_len f = prod (l_shape x) * l_bits x /\ i_offset f = off /\ i_default f = view_dtype (l_bits x) /\ i_declared f = l_dtype x.
(** one after the other, starting at [off] *)
Fixpoint laid_out (off : nat) (fs : list field_info) (xs : list leaf) : Prop :=
  match fs, xs with
  | [], [] => True
  | f :: fs, x :: xs => describes f x off /\ laid_out (off + prod (l_shape x) * l_bits x) fs xs
  | _, _ => False
  end.
Definition leaves_bits (xs : list leaf) : nat := list_sum (map (fun x => prod (l_shape x) * l_bits x) xs).

(** ** The layout *)
Definition spec_of (s : fullspec) : leafspec := MkSpec (f_path s) (f_bits s) (f_nvalues s) (f_offset s).
Definition full_of (prefix : list string) (off : nat) (x : leaf) : fullspec :=
  MkFull (prefix ++ l_path x) (l_bits x) (l_shape x) (prod (l_shape x)) off (prod (l_shape x) * l_bits x) (unpack_dtype (l_bits x)) (l_dtype x).
Fixpoint fulls (prefix : list string) (off : nat) (xs : list leaf) : list fullspec :=
  match xs with [] => [] | x :: xs => full_of prefix off x :: fulls prefix (off + prod (l_shape x) * l_bits x) xs end.
Lemma leaves_bits_cons x xs : leaves_bits (x :: xs) = prod (l_shape x) * l_bits x + leaves_bits xs. Proof. reflexivity. Qed.
Lemma leaves_bits_app xs ys : leaves_bits (xs ++ ys) = leaves_bits xs + leaves_bits ys.
Proof. unfold leaves_bits. now rewrite map_app, list_sum_app. Qed.
Lemma leaves_bits_inside n xs : leaves_bits (map (inside n) xs) = leaves_bits xs.
Proof. unfold leaves_bits. now rewrite map_map. Qed.
Lemma fulls_app prefix xs : forall off ys, fulls prefix off (xs ++ ys) = fulls prefix off xs ++ fulls prefix (off + leaves_bits xs) ys.
Proof. induction xs as [|x xs IH]; intros off ys; [cbn; now rewrite Nat.add_0_r|]. cbn [app fulls]. rewrite IH, leaves_bits_cons, Nat.add_assoc. reflexivity. Qed.
Lemma fulls_inside prefix n xs : forall off, fulls prefix off (map (inside n) xs) = fulls (prefix ++ [n]) off xs.
Proof. induction xs as [|x xs IH]; intros off; [reflexivity|]. cbn [map fulls]. f_equal; [|apply IH]. unfold full_of, inside. cbn [l_path l_dtype l_shape l_bits]. now rewrite <- app_assoc. Qed.
Lemma full_leaves :
  (forall d prefix off, full_d prefix off d = match agg_d d with Some _ => Some (fulls prefix off (leaves_d d), off + leaves_bits (leaves_d d)) | None => None end) /\
  (forall c prefix off, full_c prefix off c = match agg_c c with Some _ => Some (fulls prefix off (leaves c), off + leaves_bits (leaves c)) | None => None end).
Proof.
  apply desc_class_ind.
  - intros dt ish [b|] pb fill prefix off; [|reflexivity]. cbn [full_d agg_d leaves_d fulls]. rewrite leaves_bits_cons. cbn [l_shape l_bits]. change (leaves_bits []) with 0. unfold full_of. cbn [l_path l_dtype l_shape l_bits]. rewrite app_nil_r, Nat.add_0_r. reflexivity.
  - intros c IH [|k s] prefix off; [|reflexivity]. cbn [full_d agg_d leaves_d]. rewrite IH. destruct (agg_c c); reflexivity.
  - intros prefix off. cbn. now rewrite Nat.add_0_r.
  - intros n d IHd r IHr prefix off. cbn [full_c agg_c leaves]. rewrite IHd. destruct (agg_d d); [|reflexivity]. rewrite IHr. destruct (agg_c r); [|reflexivity].
    rewrite fulls_app, fulls_inside, leaves_bits_app, leaves_bits_inside, Nat.add_assoc. reflexivity.
Qed.
Lemma walk_leaves :
  (forall d f prefix off, agg_d d = Some f -> walk_field prefix off f = (map spec_of (fulls prefix off (leaves_d d)), off + leaves_bits (leaves_d d))) /\
  (forall c fs prefix off, agg_c c = Some fs -> walk prefix off fs = (map spec_of (fulls prefix off (leaves c)), off + leaves_bits (leaves c))).
Proof.
  apply desc_class_ind.
  - intros dt ish [b|] pb fill f prefix off E; [|discriminate]. cbn [agg_d] in E. injection E as <-. cbn [walk_field leaves_d fulls map]. rewrite leaves_bits_cons. change (leaves_bits []) with 0. unfold spec_of, full_of. cbn [l_path l_dtype l_shape l_bits f_path f_bits f_nvalues f_offset]. rewrite app_nil_r, Nat.add_0_r. reflexivity.
  - intros c IH [|k s] f prefix off E; cbn [agg_d] in E; [|discriminate]. destruct (agg_c c) as [fs|]; [|discriminate]. injection E as <-. cbn [walk_field leaves_d]. now apply IH.
  - intros fs prefix off E. cbn [agg_c] in E. injection E as <-. cbn. now rewrite Nat.add_0_r.
  - intros n d IHd r IHr fs prefix off E. cbn [agg_c] in E. destruct (agg_d d) as [f|]; [|discriminate]. destruct (agg_c r) as [fr|]; [|discriminate]. injection E as <-. cbn [walk leaves].
    rewrite (IHd f _ _ eq_refl), (IHr fr _ _ eq_refl), fulls_app, fulls_inside, leaves_bits_app, leaves_bits_inside, map_app, Nat.add_assoc. reflexivity.
Qed.
Lemma spec_leaves c fs : agg_c c = Some fs -> agg_spec fs = (map spec_of (fulls [] 0 (leaves c)), leaves_bits (leaves c)) /\ class_bits fs = leaves_bits (leaves c).
Proof.
  intros E. pose proof (proj2 walk_leaves c fs [] 0 E) as H. split; [exact H|]. pose proof (proj2 (proj2 (proj2 walk_layout fs [] 0))) as K. rewrite H in K. cbn [snd] in K. lia.
Qed.
Lemma laid_out_fulls xs : forall off, laid_out off (map info_of (fulls [] off xs)) xs.
Proof.
  induction xs as [|x xs IH]; intros off; [exact I|]. cbn [fulls map laid_out]. split; [|apply IH]. unfold describes, info_of, full_of. cbn. rewrite view_dtype_eq. repeat split.
Qed.
(** [bitpack_schema()] exists for the classes all of whose leaves declare bits (nested fields
    scalar); its fields are the leaves in declaration order, each starting where the one before
    ends; payload, words and storage are the sizes of these bits: the least number of bytes and of
    words, and at most one byte more in the stored form *)
Theorem C80_schema : forall c, (bits_everywhere c <-> exists s, bitpack_schema c = Some s) /\
  forall s, bitpack_schema c = Some s ->
    laid_out 0 (s_fields s) (leaves c) /\ s_total_bits s = leaves_bits (leaves c) /\
    (s_total_bits s <= 8 * s_payload_bytes s < s_total_bits s + 8) /\ (s_total_bits s <= 32 * s_words_all s < s_total_bits s + 32) /\
    s_storage_bytes s = 4 * s_words s + s_tail s /\ (s_payload_bytes s <= s_storage_bytes s <= s_payload_bytes s + 1).
Proof.
  intros c. unfold bitpack_schema. rewrite (proj2 full_leaves). destruct (proj2 bits_both c) as [_ HB]. split.
  - rewrite HB. destruct (agg_c c); [|split; [congruence|intros [s H]; discriminate]]. split; [intros _|discriminate]. destruct (word_tail_layout _) as [[x y] z]. eexists. reflexivity.
  - destruct (agg_c c) as [fs|]; [|discriminate]. intros s. cbn [Nat.add]. set (total := leaves_bits (leaves c)). rewrite (layout_cases total). cbv zeta.
    pose proof (Nat.div_mod total 32 ltac:(lia)) as Hd. pose proof (Nat.mod_upper_bound total 32 ltac:(lia)) as Hm. set (q := total / 32) in *. set (r := total mod 32) in *.
    assert (HC : total <= 8 * ceil_div total 8 < total + 8).
    { unfold ceil_div. pose proof (Nat.div_mod (total + 8 - 1) 8 ltac:(lia)). pose proof (Nat.mod_upper_bound (total + 8 - 1) 8 ltac:(lia)). lia. }
    set (pay := ceil_div total 8) in *. pose proof (laid_out_fulls (leaves c) 0) as HL.
    destruct (Nat.eqb_spec r 0); [|destruct (Nat.leb_spec r 8); [|destruct (Nat.leb_spec r 16)]]; intros E; injection E as <-; cbn [s_fields s_total_bits s_payload_bytes s_words_all s_storage_bytes s_words s_tail];
      (split; [exact HL|]; split; [reflexivity|]; split; [exact HC|]; split; [lia|]; split; [lia|lia]).
Qed.
Lemma schema_of c fs : agg_c c = Some fs -> exists s, bitpack_schema c = Some s /\ s_total_bits s = class_bits fs /\ s_fields s = map info_of (fulls [] 0 (leaves c)) /\
  (s_words s, s_tail s) = (snd (fst (word_tail_layout (class_bits fs))), snd (word_tail_layout (class_bits fs))) /\ s_words_all s = word_count fs.
Proof.
  intros E. unfold bitpack_schema. rewrite (proj2 full_leaves), E. cbn [Nat.add]. destruct (spec_leaves c fs E) as [_ EB]. rewrite <- EB, word_count_eq. destruct (word_tail_layout (class_bits fs)) as [[x y] z]. eexists. split; [reflexivity|]. repeat split.
Qed.
(** the leaves have distinct paths, all of them non-empty *)
Lemma fulls_path prefix xs : forall off, map f_path (fulls prefix off xs) = map (fun x => prefix ++ l_path x) xs.
Proof. induction xs as [|x xs IH]; intros off; [reflexivity|]. cbn [fulls map]. now rewrite IH. Qed.
Lemma paths_distinct c fs : agg_c c = Some fs -> good_class fs -> NoDup (map l_path (leaves c)).
Proof.
  intros E HG. pose proof (proj2 walk_paths_nodup fs [] 0 HG) as H. rewrite (proj2 walk_leaves c fs [] 0 E) in H. cbn [fst] in H. rewrite map_map in H. change (fun x => lpath (spec_of x)) with f_path in H. now rewrite fulls_path in H.
Qed.
Lemma paths_nonempty c : Forall (fun x => l_path x <> []) (leaves c).
Proof.
  assert (H : (forall d : desc, True) /\ (forall c, Forall (fun x => l_path x <> []) (leaves c))); [|apply H].
  apply desc_class_ind; auto; [constructor|]. intros n d _ r IH. cbn [leaves]. apply Forall_app. split; [|exact IH]. apply Forall_forall. intros x Hx. apply in_map_iff in Hx. destruct Hx as (y & <- & _). discriminate.
Qed.
(** ** Dotted names *)
Fixpoint dotless (s : string) : Prop := match s with EmptyString => True | String a r => a <> "."%char /\ dotless r end.
Lemma split_one w : dotless w -> split_dots w = [w].
Proof. induction w as [|a r IH]; intros H; [reflexivity|]. destruct H as [H1 H2]. cbn [split_dots]. destruct (Ascii.eqb_spec a "."%char); [contradiction|]. now rewrite IH. Qed.
Lemma split_more w s : dotless w -> split_dots (w ++ String "."%char s) = w :: split_dots s.
Proof.
  induction w as [|a r IH]; intros H; [reflexivity|]. destruct H as [H1 H2]. cbn [append split_dots]. destruct (Ascii.eqb_spec a "."%char); [contradiction|]. now rewrite IH.
Qed.
Lemma split_concat path : path <> [] -> Forall dotless path -> split_dots (String.concat "." path) = path.
Proof.
  induction path as [|w [|v path] IH]; intros HN HF; [congruence| |].
  - apply split_one. now inversion HF.
  - inversion HF; subst. change (String.concat "." (w :: v :: path)) with (w ++ String "."%char (String.concat "." (v :: path)))%string. rewrite split_more by assumption. f_equal. apply IH; [discriminate|assumption].
Qed.

(** ** Where the bits are *)
(** the bytes of one packed instance: its words in little-endian order, then its tail *)
Definition bytes_of_packed (q : obj) : list N :=
  match q with
  | OCons _ (VArr w) (OCons _ (VArr t) ONil) => flat_map word_bytes (map Z.to_N (adata w)) ++ map Z.to_N (adata t)
  | _ => []
  end.
Lemma nth_fulls xs : forall off i x, nth_error xs i = Some x -> exists off', nth_error (fulls [] off xs) i = Some (full_of [] off' x).
Proof.
  induction xs as [|y xs IH]; intros off [|i] x E; try discriminate; cbn [nth_error fulls] in *.
  - injection E as <-. now exists off.
  - apply (IH _ i x E).
Qed.
Lemma u32_bit z j : j < 32 -> N.testbit (u32 z) (N.of_nat j) = Z.testbit z (Z.of_nat j).
Proof.
  intros Hj. unfold u32. rewrite <- Z.testbit_of_N, Z2N.id by (apply Z.mod_pos_bound; lia). rewrite nat_N_Z. apply Z.mod_pow2_bits_low. lia.
Qed.
Lemma loose_elem b B :
  (forall d v J, loose_v (B ++ J) d v -> inb b B -> loose_v J d (elem_v b v)) /\ (forall c o J, loose (B ++ J) c o -> inb b B -> loose J c (elem b o)).
Proof.
  apply desc_class_ind.
  - intros dt ish bits pb fill [a|o] J H Hb; [|destruct H]. cbn [loose_v elem_v] in *. destruct H as [W E]. unfold sub. rewrite E, <- app_assoc, (inb_length _ _ Hb), skipn_app, skipn_all, Nat.sub_diag. cbn [skipn app]. split; [|reflexivity]. unfold wfa, build. cbn [adata ashape]. now rewrite map_length, seq_length.
  - intros c IH ish [a|o] J H Hb; [destruct H|]. cbn [loose_v elem_v] in *. rewrite <- app_assoc in H. now apply (IH o (J ++ ish)%list).
  - intros [|] J H Hb; [exact I|destruct H].
  - intros n d IHd r IHr [|m v q] J H Hb; [destruct H|]. cbn [loose elem] in *. destruct H as (E & H1 & H2). split; [exact E|]. split; [now apply IHd|now apply IHr].
Qed.
Lemma leaf_names : (forall d : desc, True) /\ (forall c fs x, agg_c c = Some fs -> In x (leaves c) -> exists m t, l_path x = m :: t /\ In m (BitpackSpec.names fs)).
Proof.
  apply desc_class_ind; auto; [intros fs x _ []|]. intros n d _ r IH fs x E Hx. cbn [agg_c leaves] in *. destruct (agg_d d) as [f|]; [|discriminate]. destruct (agg_c r) as [fr|]; [|discriminate]. injection E as <-. apply in_app_or in Hx. destruct Hx as [Hx|Hx].
  - apply in_map_iff in Hx. destruct Hx as (y & <- & _). exists n, (l_path y). split; [reflexivity|now left].
  - destruct (IH fr x eq_refl Hx) as (m & t & E1 & E2). exists m, t. split; [exact E1|now right].
Qed.
(** the array of a leaf *)
Lemma leaf_both B :
  (forall d f v x, agg_d d = Some f -> good_field f -> loose_v B d v -> In x (leaves_d d) -> exists a, get_path_v v (l_path x) = Some (VArr a) /\ wfa a /\ ashape a = (B ++ l_shape x)%list) /\
  (forall c fs o x, agg_c c = Some fs -> good_class fs -> loose B c o -> In x (leaves c) -> exists a, get_path_v (VObj o) (l_path x) = Some (VArr a) /\ wfa a /\ ashape a = (B ++ l_shape x)%list).
Proof.
  apply desc_class_ind.
  - intros dt ish [b|] pb fill f [a|o] x E HG HL Hx; try discriminate; [|destruct HL]. destruct Hx as [<-|[]]. cbn in *. exists a. split; [reflexivity|exact HL].
  - intros c IH [|k s] f [a|o] x E HG HL Hx; cbn [agg_d] in E; try discriminate; [destruct HL|]. destruct (agg_c c) as [fs|] eqn:EC; [|discriminate]. injection E as <-. cbn [loose_v leaves_d good_field] in *. rewrite app_nil_r in HL. now apply (IH fs o x).
  - intros fs o x _ _ _ [].
  - intros n d IHd r IHr fs o x E HG HL Hx. pose proof E as E0. cbn [agg_c] in E. destruct (agg_d d) as [f|] eqn:ED; [|discriminate]. destruct (agg_c r) as [fr|] eqn:ER; [|discriminate]. injection E as <-. destruct o as [|m v q]; [destruct HL|]. cbn [loose] in HL. destruct HL as (EN & H1 & H2). cbn [good_class] in HG. destruct HG as (G1 & G2 & G3). cbn [leaves] in Hx. apply in_app_or in Hx. destruct Hx as [Hx|Hx].
    + apply in_map_iff in Hx. destruct Hx as (y & <- & Hy). cbn [inside l_path l_shape get_path_v get_attr_o]. subst m. rewrite String.eqb_refl. now apply (IHd f v y).
    + destruct (proj2 leaf_names r fr x ER Hx) as (k & t & Ek & Hk). destruct (IHr fr q x eq_refl G3 H2 Hx) as (a & P1 & P2). exists a. split; [|exact P2]. rewrite Ek in *. cbn [get_path_v get_attr_o] in *. subst m. destruct (String.eqb_spec k n) as [->|_]; [contradiction|exact P1].
Qed.
Lemma leaf_at c fs e x : packable_any c fs -> loose [] c e -> In x (leaves c) -> exists a, get_path_v (VObj e) (l_path x) = Some (VArr a) /\ ashape a = l_shape x /\ length (adata a) = prod (ashape a).
Proof. intros HP HL Hx. destruct (proj2 (leaf_both []) c fs e x (proj1 HP) (proj1 (proj2 HP)) HL Hx) as (a & P1 & P2 & P3). exists a. split; [exact P1|]. split; [exact P3|exact P2]. Qed.
(** in [x.packed], bit [j] of entry [k] of a leaf of element [b] (converted to uint32) is bit
    [bit_offset + k * bits + j] of the bytes of element [b]; all other bits are zero, and the
    number of bytes is [storage_bytes] *)
Theorem C80_bits : forall c fs s B o be p b, packable_any c fs -> bitpack_schema c = Some s -> loose B c o -> backend_ok be (prod B) (s_words_all s) ->
  pack_any be c o = Some p -> inb b B ->
  length (bytes_of_packed (elem b p)) = s_storage_bytes s /\
  (forall pos, s_total_bits s <= pos -> byte_bit (bytes_of_packed (elem b p)) pos = false) /\
  forall i x f, nth_error (leaves c) i = Some x -> nth_error (s_fields s) i = Some f ->
    exists a, get_path_v (VObj (elem b o)) (l_path x) = Some (VArr a) /\ ashape a = l_shape x /\ length (adata a) = i_nvalues f /\
      forall k j, k < i_nvalues f -> j < i_bits f ->
        byte_bit (bytes_of_packed (elem b p)) (i_offset f + k * i_bits f + j) = Z.testbit (conv (adtype a) (DUInt 32) (nth k (adata a) 0%Z)) (Z.of_nat j).
Proof.
  intros c fs s B o be p b HP ES HL HB HK Hb. destruct (schema_of c fs (proj1 HP)) as (s' & ES' & ET & EF & EW & EA). assert (s' = s) as -> by congruence. clear ES'. rewrite EA in HB.
  pose proof (C81_elements c fs B o be PackXla p b HP HL HB I HK Hb) as HE. rewrite pack_any_uint in HE.
  assert (HLE : loose [] c (elem b o)) by (apply (proj2 (loose_elem b B) c o []); [now rewrite app_nil_r|exact Hb]).
  pose proof (packable_uint c fs HP) as HPU. pose proof (uint_batched c [] (elem b o) HLE) as HU. set (e := elem b o) in *. set (u := uint_o e) in *. set (cu := uint_c c) in *.
  assert (EBY : bytes_of_packed (elem b p) = stored_bytes (packed_row fs [] u 0)).
  { pose proof (packed_bytes_eq cu fs u HPU HU PackXla I) as K. unfold packed_bytes in K. rewrite HE in K. unfold bytes_of_packed. destruct (elem b p) as [|n1 [w|] [|n2 [t|] [|]]]; try discriminate. congruence. }
  rewrite EBY. destruct (row_words0 cu fs u HPU HU) as (R1 & R2 & R3). destruct (bytes0 cu fs u HPU HU) as (Y1 & Y2). destruct (packed_row_len cu fs [] u HPU HU 0 ltac:(cbn; lia)) as [L1 L2].
  pose proof (proj1 (proj2 HP)) as HG. pose proof (is0 cu fs u HPU HU) as HI. destruct (agg_facts fs (obj_inst u) HG HI) as (A1 & A2 & A3 & A4 & A5 & A6).
  split; [|split].
  - rewrite <- Y1, L1, L2. pose proof (proj2 (C80_schema c) s ES) as (_ & _ & _ & _ & E4 & _). rewrite E4. injection EW as -> ->. reflexivity.
  - intros pos Hpos. rewrite Y2, R3. apply nth_overflow. rewrite (elems_bits fs (obj_inst u) HG HI). now rewrite <- ET.
  - intros i x f Ex Ef. rewrite EF in Ef. destruct (nth_fulls (leaves c) 0 i x Ex) as (off & Ei). assert (f = info_of (full_of [] off x)) as -> by (rewrite (map_nth_error info_of _ _ Ei) in Ef; congruence). clear Ef.
    assert (Hin : In (spec_of (full_of [] off x)) (fst (agg_spec fs))).
    { rewrite (proj1 (spec_leaves c fs (proj1 HP))). cbn [fst]. apply in_map. now apply nth_error_In in Ei. }
    cbn [info_of full_of i_nvalues i_bits i_offset f_nvalues f_bits f_offset].
    destruct (leaf_at c fs e x HP HLE (nth_error_In _ _ Ex)) as (a & P1 & P2 & P3). exists a. split; [exact P1|]. split; [exact P2|]. split; [now rewrite P3, P2|]. intros k j Hk Hj.
    rewrite Y2, R3, <- A6. destruct (slice_nth (INested (obj_inst u)) (fst (agg_spec fs)) 0 (spec_of (full_of [] off x)) k j A1 A5 Hin) as (_ & _ & K); [exact Hk|exact Hj|].
    cbn [spec_of full_of loff lbits lpath f_offset f_bits f_path app] in K. rewrite Nat.sub_0_r in K. rewrite K. unfold leaf_of. change (INested (obj_inst u)) with (v_inst (VObj u)). rewrite get_path_inst. unfold u. change (VObj (uint_o e)) with (uint_v (VObj e)). rewrite uint_path, P1. cbn [option_map uint_v v_inst a_conv adata].
    rewrite map_map. rewrite Forall_forall in A4. specialize (A4 _ Hin). cbn [spec_of full_of lbits f_bits] in A4.
    rewrite (nth_indep _ 0%N (u32 (conv (adtype a) (DUInt 32) 0%Z))) by (rewrite map_length, P3, P2; exact Hk). rewrite (map_nth (fun z => u32 (conv (adtype a) (DUInt 32) z))). apply u32_bit. lia.
Qed.
