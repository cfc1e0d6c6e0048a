(** * PropSchema2.v — property C80, reading: [unpack_field] returns the field of [unpacked] (or of
    [as_original()]) and the selected entries of it. *)
From Coq Require Import Ascii String.
From Verif Require Import Jax HashModel HashProofs BitpackModel BitpackSpec BitpackProofs BitpackAgg StructModel ArrayModel ArrayFacts ShapeModel PropShape RowsModel RowsLift PropRows EqModel RowsModel2 PromoteModel PropMixed AggModel AggKernel AggFacts PropAgg PropAgg2 PropAggHash SchemaModel AggAny PropAggFloat PropSchema.
From Coq Require Import Sorted.
Local Open Scope nat_scope.

(** ** The words of a packed batch *)
Lemma packed_rows total B p : batched (packed_class total) B p -> get_batch (packed_class total) p = Some (Batch B) /\ exists rows, words_all total (prod B) p = Some rows /\ length rows = prod B.
Proof.
  intros [HC HB]. destruct (packed_class_ok total) as [HN HS]. split; [now apply C40_reports|]. unfold packed_class, words_all in *. destruct (word_tail_layout total) as [[x y] z].
  destruct p as [|n1 [w|] p]; try (now destruct HC as (_ & [] & _)); [destruct HC|]. destruct p as [|n2 [t|] p]; [destruct HC as (_ & _ & [])|..|destruct HC as (_ & _ & _ & [] & _)]. destruct p as [|]; [|destruct HC as (_ & _ & _ & _ & [])].
  cbn [has_batch has_v] in HB. destruct HB as (_ & HB1 & _ & HB2 & _). rewrite HB1, HB2, !prod_app. cbn [prod fold_right]. rewrite !Nat.mul_1_r, !Nat.eqb_refl. cbn [andb]. eexists. split; [reflexivity|].
  rewrite map_length, combine_length, !chunks_length. lia.
Qed.
Definition row_data (s : leafspec) (l : list Z) (ws : list N) : list Z := map Z.of_N (decode_field ws s l).
Lemma row_data_len s l ws : length (row_data s l ws) = length l.
Proof. unfold row_data, decode_field. now rewrite !map_length. Qed.
Lemma rows_data s l (rows : list (list N)) : map Z.of_N (flat_map (fun ws => decode_field ws s l) rows) = flat_map (row_data s l) rows.
Proof. induction rows as [|r t IH]; [reflexivity|]. cbn [flat_map]. now rewrite map_app, IH. Qed.
Lemma flat_len {X Y} (g : X -> list Y) k l : (forall x, length (g x) = k) -> length (flat_map g l) = length l * k.
Proof. intros H. induction l as [|x l IH]; [reflexivity|]. cbn [flat_map length]. rewrite app_length, IH, H. lia. Qed.
Lemma flat_row {X Y} (g : X -> list Y) k d : (forall x, length (g x) = k) -> forall l r, r < length l -> firstn k (skipn (r * k) (flat_map g l)) = g (nth r l d).
Proof.
  intros H l. induction l as [|x l IH]; intros r Hr; cbn [length] in Hr; [lia|]. destruct r as [|r]; cbn [flat_map nth].
  - cbn [Nat.mul skipn]. rewrite firstn_app, H, Nat.sub_diag, firstn_O, app_nil_r. rewrite <- (H x). apply firstn_all.
  - replace (S r * k) with (k + r * k) by lia. rewrite skipn_app, H. replace (k + r * k - k) with (r * k) by lia. rewrite skipn_all2 by (rewrite H; lia). cbn [app]. apply IH. lia.
Qed.

(** ** Fields of the view *)
Lemma view_get dict B :
  (forall d f prefix x, agg_d d = Some f -> good_field f -> In x (leaves_d d) ->
     get_path_v (view_d dict B prefix d) (l_path x) = Some (VArr (MkArr (unpack_dtype (l_bits x)) (B ++ l_shape x) (map Z.of_N (dict_get dict (prefix ++ l_path x))))) /\
     get_path_v (restore_v d (view_d dict B prefix d)) (l_path x) = Some (VArr (a_conv (l_dtype x) (MkArr (unpack_dtype (l_bits x)) (B ++ l_shape x) (map Z.of_N (dict_get dict (prefix ++ l_path x))))))) /\
  (forall c fs prefix x, agg_c c = Some fs -> good_class fs -> In x (leaves c) ->
     get_path_v (VObj (view_c dict B prefix c)) (l_path x) = Some (VArr (MkArr (unpack_dtype (l_bits x)) (B ++ l_shape x) (map Z.of_N (dict_get dict (prefix ++ l_path x))))) /\
     get_path_v (VObj (restore c (view_c dict B prefix c))) (l_path x) = Some (VArr (a_conv (l_dtype x) (MkArr (unpack_dtype (l_bits x)) (B ++ l_shape x) (map Z.of_N (dict_get dict (prefix ++ l_path x))))))).
Proof.
  apply desc_class_ind.
  - intros dt ish [b|] pb fill f prefix x E HG Hx; [|discriminate]. destruct Hx as [<-|[]]. cbn [view_d restore_v get_path_v l_path l_bits l_shape l_dtype]. now rewrite app_nil_r.
  - intros c IH [|k s] f prefix x E HG Hx; cbn [agg_d] in E; try discriminate. destruct (agg_c c) as [fs|] eqn:EC; [|discriminate]. injection E as <-. cbn [view_d restore_v leaves_d good_field] in *. now apply (IH fs prefix x).
  - intros fs prefix x _ _ [].
  - intros n d IHd r IHr fs prefix x E HG Hx. cbn [agg_c] in E. destruct (agg_d d) as [f|] eqn:ED; [|discriminate]. destruct (agg_c r) as [fr|] eqn:ER; [|discriminate]. injection E as <-. cbn [good_class] in HG. destruct HG as (G1 & G2 & G3). cbn [leaves] in Hx. cbn [view_c restore]. apply in_app_or in Hx. destruct Hx as [Hx|Hx].
    + apply in_map_iff in Hx. destruct Hx as (y & <- & Hy). cbn [inside l_path l_shape l_bits l_dtype get_path_v get_attr_o]. rewrite String.eqb_refl.
      replace (prefix ++ n :: l_path y) with ((prefix ++ [n]) ++ l_path y) by (now rewrite <- app_assoc). now apply (IHd f _ y).
    + destruct (proj2 leaf_names r fr x ER Hx) as (k & t & Ek & Hk). destruct (IHr fr prefix x eq_refl G3 Hx) as (P1 & P2). rewrite Ek in *. cbn [get_path_v get_attr_o] in *. destruct (String.eqb_spec k n) as [->|_]; [contradiction|]. split; [exact P1|exact P2].
Qed.
Lemma find_full xs path x off s : NoDup (map l_path xs) -> In x xs -> l_path x = path -> find (fun s => path_eqb (f_path s) path) (fulls [] off xs) = Some s ->
  exists off', s = full_of [] off' x /\ In s (fulls [] off xs).
Proof.
  intros HN Hx <-. revert off. induction xs as [|y xs IH]; intros off E; [discriminate|]. cbn [fulls find] in E. inversion HN; subst. unfold path_eqb in E at 1. cbn [full_of f_path app] in E. destruct (list_eq_dec _ (l_path y) (l_path x)) as [Ep|Ep].
  - assert (x = y) as -> by (destruct Hx as [<-|Hx]; [reflexivity|]; exfalso; apply H1; rewrite Ep; now apply in_map). injection E as <-. exists off. split; [reflexivity|now left].
  - destruct Hx as [<-|Hx]; [congruence|]. destruct (IH H2 Hx _ E) as (off' & E1 & E2). exists off'. split; [exact E1|now right].
Qed.
Lemma find_some xs x : forall off, In x xs -> exists s, find (fun s => path_eqb (f_path s) (l_path x)) (fulls [] off xs) = Some s.
Proof.
  induction xs as [|y xs IH]; intros off Hx; [destruct Hx|]. cbn [fulls find]. unfold path_eqb at 1. cbn [full_of f_path app]. destruct (list_eq_dec _ (l_path y) (l_path x)) as [Ep|Ep]; [eexists; reflexivity|]. destruct Hx as [<-|Hx]; [congruence|]. now apply IH.
Qed.
Lemma find_none xs path : forall off, ~ In path (map l_path xs) -> find (fun s => path_eqb (f_path s) path) (fulls [] off xs) = None.
Proof.
  induction xs as [|y xs IH]; intros off Hx; [reflexivity|]. cbn [fulls find]. unfold path_eqb at 1. cbn [full_of f_path app]. destruct (list_eq_dec _ (l_path y) path) as [Ep|Ep]; [destruct Hx; now left|]. apply IH. intros H. apply Hx. now right.
Qed.

(** ** One field *)
(** the [name] argument names the leaf: its path, or the path joined with dots (field names are
    Python identifiers and have no dots) *)
Definition names_leaf (n : name_arg) (x : leaf) : Prop :=
  n = Path (l_path x) \/ n = Dotted (String.concat "." (l_path x)) /\ Forall dotless (l_path x).
Lemma names_path c n x : In x (leaves c) -> names_leaf n x -> path_of n = l_path x.
Proof. intros Hx [-> |[-> HD]]; [reflexivity|]. apply split_concat; [|exact HD]. pose proof (paths_nonempty c) as H. rewrite Forall_forall in H. now apply H. Qed.
Section Read.
Variables (c : class) (fs : fields) (B : list nat) (p : obj).
Hypotheses (HP : packable_any c fs) (HB : batched (packed_class (class_bits fs)) B p).
Lemma unpack_ok : exists rows, words_all (class_bits fs) (prod B) p = Some rows /\ length rows = prod B /\
  unpack_obj c p = Some (view_c (map (fun s => (lpath s, flat_map (fun ws => decode_field ws s (all_indices s)) rows)) (fst (agg_spec fs))) B [] c).
Proof.
  destruct (packed_rows _ _ _ HB) as (EB & rows & ER & EL). exists rows. split; [exact ER|]. split; [exact EL|]. unfold unpack_obj. rewrite (proj1 HP). destruct (spec_leaves c fs (proj1 HP)) as [ES EC]. rewrite ES, <- EC, EB, ER. reflexivity.
Qed.
Lemma read_ok n x idx decl l rows : In x (leaves c) -> names_leaf n x -> normalize_indices (prod (l_shape x)) idx = Some l -> words_all (class_bits fs) (prod B) p = Some rows ->
  exists s, In s (fst (agg_spec fs)) /\ lpath s = l_path x /\ lbits s = l_bits x /\ lnvalues s = prod (l_shape x) /\
  read_field c p n idx (Some decl) = Some (let out := MkArr (unpack_dtype (l_bits x)) (B ++ match idx with Everything => l_shape x | _ => [length l] end) (flat_map (row_data s l) rows) in if decl then a_conv (l_dtype x) out else out).
Proof.
  intros Hx HN EI ER. destruct (packed_rows _ _ _ HB) as (EB & _). destruct (spec_leaves c fs (proj1 HP)) as [ES EC]. destruct (find_some (leaves c) x 0 Hx) as (s & EF). destruct (find_full _ _ x 0 s (paths_distinct c fs (proj1 HP) (proj1 (proj2 HP))) Hx eq_refl EF) as (off & E1 & E2).
  exists (spec_of s). split; [rewrite ES; cbn [fst]; now apply in_map|]. subst s. split; [reflexivity|]. split; [reflexivity|]. split; [reflexivity|].
  unfold read_field. rewrite (proj2 full_leaves), (proj1 HP). cbn [Nat.add]. rewrite (names_path c n x Hx HN), EF, <- EC, EB, ER. cbn [full_of f_nvalues f_path f_bits f_offset f_default f_shape f_declared]. rewrite EI. cbv zeta. rewrite rows_data. reflexivity.
Qed.
End Read.
(** [p.unpack_field(name)] is the field of that name of [p.unpacked]; with
    [dtype_policy="declared"], of [p.as_original()] — for every packed batch, packed or
    assembled *)
Theorem C80_read : forall c fs s B p, packable_any c fs -> bitpack_schema c = Some s -> batched (packed_class (s_total_bits s)) B p ->
  exists u o, unpack_obj c p = Some u /\ original_any c p = Some o /\
    forall x n, In x (leaves c) -> names_leaf n x -> exists a,
      adtype a = view_dtype (l_bits x) /\ ashape a = B ++ l_shape x /\ wfa a /\
      get_path_v (VObj u) (l_path x) = Some (VArr a) /\ read_field c p n Everything (Some false) = Some a /\
      get_path_v (VObj o) (l_path x) = Some (VArr (a_conv (l_dtype x) a)) /\ read_field c p n Everything (Some true) = Some (a_conv (l_dtype x) a).
Proof.
  intros c fs s B p HP ES HB. destruct (schema_of c fs (proj1 HP)) as (s' & ES' & ET & _). assert (s' = s) as -> by congruence. clear ES'. rewrite ET in HB.
  destruct (unpack_ok c fs B p HP HB) as (rows & ER & EL & EU). set (dict := map _ (fst (agg_spec fs))) in EU. exists (view_c dict B [] c), (restore c (view_c dict B [] c)). split; [exact EU|]. split; [unfold original_any; now rewrite EU|].
  intros x n Hx HN. destruct (read_ok c fs B p HP HB n x Everything false (map Z.of_nat (seq 0 (prod (l_shape x)))) rows Hx HN eq_refl ER) as (sp & S1 & S2 & S3 & S4 & S5).
  destruct (read_ok c fs B p HP HB n x Everything true (map Z.of_nat (seq 0 (prod (l_shape x)))) rows Hx HN eq_refl ER) as (sp' & T1 & T2 & T3 & T4 & T5).
  assert (HND : NoDup (map lpath (fst (agg_spec fs)))) by (apply (proj2 walk_paths_nodup fs [] 0), HP).
  assert (sp' = sp) as ->.
  { clear - HND S1 S2 T1 T2. assert (E : lpath sp' = lpath sp) by congruence. clear S2 T2. induction (fst (agg_spec fs)) as [|y l IH]; [destruct S1|]. cbn [map] in HND. inversion HND; subst. destruct S1 as [<-|S1], T1 as [<-|T1]; [reflexivity| | |now apply IH]; exfalso; apply H1; [rewrite <- E|rewrite E]; now apply in_map. }
  destruct (proj2 (view_get dict B) c fs [] x (proj1 HP) (proj1 (proj2 HP)) Hx) as [V1 V2]. cbn [app] in V1, V2.
  assert (ED : map Z.of_N (dict_get dict (l_path x)) = flat_map (row_data sp (map Z.of_nat (seq 0 (prod (l_shape x))))) rows).
  { rewrite <- rows_data. f_equal. apply dict_get_in.
    - unfold dict. rewrite map_map. exact HND.
    - unfold dict. apply in_map_iff. exists sp. split; [|exact S1]. unfold all_indices. now rewrite S2, S4. }
  rewrite ED in V1, V2. cbv zeta in S5, T5. exists (MkArr (unpack_dtype (l_bits x)) (B ++ l_shape x) (flat_map (row_data sp (map Z.of_nat (seq 0 (prod (l_shape x))))) rows)). split; [apply view_dtype_eq|]. split; [|split; [|split; [exact V1|split; [exact S5|split; [exact V2|exact T5]]]]].
  - reflexivity.
  - unfold wfa. cbn [adata ashape]. rewrite (flat_len _ (prod (l_shape x))), EL, prod_app; [reflexivity|]. intros ws. now rewrite row_data_len, map_length, seq_length.
Qed.
Theorem C80_read_unknown : forall c p n idx policy, ~ In (path_of n) (map l_path (leaves c)) \/ policy = None -> read_field c p n idx policy = None.
Proof.
  intros c p n idx policy [H| ->]; [|reflexivity]. unfold read_field. destruct policy; [|reflexivity]. rewrite (proj2 full_leaves). destruct (agg_c c); [|reflexivity]. now rewrite find_none.
Qed.
(** [indices]: the listed entries of the flattened field of every element, in a last axis *)
Theorem C80_read_entries : forall c fs s B p x n idx l decl a, packable_any c fs -> bitpack_schema c = Some s -> batched (packed_class (s_total_bits s)) B p ->
  In x (leaves c) -> names_leaf n x -> read_field c p n Everything (Some decl) = Some a ->
  idx <> Everything -> normalize_indices (prod (l_shape x)) idx = Some l -> Forall (fun z => 0 <= z < Z.of_nat (prod (l_shape x)))%Z l ->
  exists r, read_field c p n idx (Some decl) = Some r /\ adtype r = adtype a /\ ashape r = B ++ [length l] /\ wfa r /\
    forall b, inb b B -> adata (sub b r) = map (fun z => nth (Z.to_nat z) (adata (sub b a)) 0%Z) l.
Proof.
  intros c fs s B p x n idx l decl a HP ES HB Hx HN EA HI El HF. destruct (schema_of c fs (proj1 HP)) as (s' & ES' & ET & _). assert (s' = s) as -> by congruence. clear ES'. rewrite ET in HB.
  destruct (unpack_ok c fs B p HP HB) as (rows & ER & EL & _).
  destruct (read_ok c fs B p HP HB n x Everything decl _ rows Hx HN eq_refl ER) as (sp & S1 & S2 & S3 & S4 & S5). destruct (read_ok c fs B p HP HB n x idx decl l rows Hx HN El ER) as (sp' & T1 & T2 & T3 & T4 & T5).
  assert (HND : NoDup (map lpath (fst (agg_spec fs)))) by (apply (proj2 walk_paths_nodup fs [] 0), HP).
  assert (sp' = sp) as ->.
  { clear - HND S1 S2 T1 T2. assert (E : lpath sp' = lpath sp) by congruence. clear S2 T2. induction (fst (agg_spec fs)) as [|y l IH]; [destruct S1|]. cbn [map] in HND. inversion HND; subst. destruct S1 as [<-|S1], T1 as [<-|T1]; [reflexivity| | |now apply IH]; exfalso; apply H1; [rewrite <- E|rewrite E]; now apply in_map. }
  set (all := map Z.of_nat (seq 0 (prod (l_shape x)))) in *. set (g := fun z => if decl then conv (unpack_dtype (l_bits x)) (l_dtype x) z else z).
  assert (EO : forall sh d, (let out := MkArr (unpack_dtype (l_bits x)) sh d in if decl then a_conv (l_dtype x) out else out) = MkArr (if decl then l_dtype x else unpack_dtype (l_bits x)) sh (map g d)).
  { intros sh d. cbv zeta. unfold g, a_conv. destruct decl; [reflexivity|]. now rewrite map_id. }
  rewrite EO in S5, T5. assert (a = MkArr (if decl then l_dtype x else unpack_dtype (l_bits x)) (B ++ l_shape x) (map g (flat_map (row_data sp all) rows))) as -> by congruence. clear EA.
  assert (Lall : forall ws, length (row_data sp all ws) = prod (l_shape x)) by (intros ws; unfold all; now rewrite row_data_len, map_length, seq_length).
  assert (Ll : forall ws, length (row_data sp l ws) = length l) by apply row_data_len.
  eexists. split; [exact T5|]. assert (EX : match idx with Everything => l_shape x | _ => [length l] end = [length l]) by (destruct idx; congruence). rewrite EX. cbn [adtype ashape].
  assert (W : wfa (MkArr (if decl then l_dtype x else unpack_dtype (l_bits x)) (B ++ [length l]) (map g (flat_map (row_data sp l) rows)))).
  { unfold wfa. cbn [adata ashape]. rewrite map_length, (flat_len _ (length l)) by exact Ll. rewrite EL, prod_app. cbn. lia. }
  assert (WA : wfa (MkArr (if decl then l_dtype x else unpack_dtype (l_bits x)) (B ++ l_shape x) (map g (flat_map (row_data sp all) rows)))).
  { unfold wfa. cbn [adata ashape]. rewrite map_length, (flat_len _ (prod (l_shape x))) by exact Lall. rewrite EL, prod_app. reflexivity. }
  split; [reflexivity|]. split; [reflexivity|]. split; [exact W|]. intros b Hb.
  rewrite (sub_data b _ B [length l] W eq_refl Hb), (sub_data b _ B (l_shape x) WA eq_refl Hb). cbn [adata]. replace (prod [length l]) with (length l) by (cbn; lia). rewrite !skipn_map, !firstn_map.
  pose proof (ravel_lt _ _ Hb) as HR. rewrite <- EL in HR. rewrite (flat_row _ (length l) [] Ll) by exact HR. rewrite (flat_row _ (prod (l_shape x)) [] Lall) by exact HR. set (ws := nth (ravel B b) rows []). unfold row_data at 1. unfold decode_field. rewrite !map_map. apply map_ext_in. intros z Hz.
  rewrite Forall_forall in HF. specialize (HF z Hz). rewrite (nth_indep _ 0%Z (g 0%Z)) by (rewrite map_length, Lall; lia). rewrite map_nth. f_equal. unfold row_data, decode_field, all. rewrite !map_map.
  rewrite (nth_indep _ 0%Z (Z.of_N (to_default (lbits sp) (decode_at ws (bit_pos sp (Z.of_nat 0)) (lbits sp))))) by (rewrite map_length, seq_length; lia).
  rewrite (map_nth (fun k => Z.of_N (to_default (lbits sp) (decode_at ws (bit_pos sp (Z.of_nat k)) (lbits sp))))), seq_nth by lia. cbn [Nat.add]. now rewrite Z2Nat.id by lia.
Qed.

(** ** Slices *)
Local Open Scope Z_scope.
Definition in_slice (start stop step i : Z) : bool := (start <=? i) && (i <? stop) && ((i - start) mod step =? 0).
Lemma sorted_same (l1 l2 : list Z) : StronglySorted Z.lt l1 -> StronglySorted Z.lt l2 -> (forall z, In z l1 <-> In z l2) -> l1 = l2.
Proof.
  intros H1. revert l2. induction H1 as [|x l1 H1 IH HF1]; intros l2 H2 HE.
  - destruct l2 as [|y l2]; [reflexivity|]. exfalso. apply (proj2 (HE y)). now left.
  - destruct H2 as [|y l2 H2 HF2]; [exfalso; apply (proj1 (HE x)); now left|]. rewrite Forall_forall in HF1, HF2.
    assert (x = y) as ->.
    { destruct (proj1 (HE x) (or_introl eq_refl)) as [E|Hx]; [congruence|]. destruct (proj2 (HE y) (or_introl eq_refl)) as [E|Hy]; [congruence|]. apply HF1 in Hy. apply HF2 in Hx. lia. }
    f_equal. apply IH; [exact H2|]. intros z. split; intros Hz.
    + destruct (proj1 (HE z) (or_intror Hz)) as [<-|K]; [apply HF1 in Hz; lia|exact K].
    + destruct (proj2 (HE z) (or_intror Hz)) as [<-|K]; [apply HF2 in Hz; lia|exact K].
Qed.
Lemma sorted_map (f : nat -> Z) n : (forall i j, (i < j)%nat -> f i < f j) -> forall m, StronglySorted Z.lt (map f (seq m n)).
Proof.
  intros Hf. induction n as [|n IH]; intros m; [constructor|]. cbn [seq map]. constructor; [apply IH|]. apply Forall_forall. intros z Hz. apply in_map_iff in Hz. destruct Hz as (k & <- & Hk). apply in_seq in Hk. apply Hf. lia.
Qed.
Lemma sorted_filter (f : Z -> bool) l : StronglySorted Z.lt l -> StronglySorted Z.lt (filter f l).
Proof.
  induction 1 as [|x l H IH HF]; [constructor|]. cbn [filter]. destruct (f x); [|exact IH]. constructor; [exact IH|]. rewrite Forall_forall in *. intros z Hz. apply filter_In in Hz. now apply HF.
Qed.
Definition given (d : Z) (o : option Z) : Z := match o with Some z => z | None => d end.
(** [indices=slice(start, stop, step)] with a start that is not negative, a stop that is at most
    the number of values and a positive step: the indices Python's slice selects *)
Theorem C80_slice : forall n start stop step, 0 <= given 0 start -> given (Z.of_nat n) stop <= Z.of_nat n -> 0 < given 1 step ->
  normalize_indices n (Slice start stop step) = Some (filter (in_slice (given 0 start) (given (Z.of_nat n) stop) (given 1 step)) (map Z.of_nat (seq 0 n))).
Proof.
  intros n start stop step. unfold normalize_indices. fold (given 0 start) (given (Z.of_nat n) stop) (given 1 step). set (u := given 0 start). set (v := given (Z.of_nat n) stop). set (t := given 1 step). intros Hu Hv Ht. unfold arange. destruct (Z.eqb_spec t 0); [lia|]. f_equal.
  apply sorted_same.
  - apply sorted_map. intros i j Hij. nia.
  - apply sorted_filter. apply (sorted_map Z.of_nat). intros i j. lia.
  - intros z. rewrite filter_In, !in_map_iff. unfold in_slice. set (m := - (- (v - u) / t)).
    assert (HM : forall k, 0 <= k -> (k < m <-> u + k * t < v)).
    { intros k Hk. unfold m. pose proof (Z.div_mod (- (v - u)) t ltac:(lia)) as E. pose proof (Z.mod_pos_bound (- (v - u)) t Ht) as HB. set (q := - (v - u) / t) in *. set (r := - (v - u) mod t) in *. clearbody q r. nia. }
    split.
    + intros (k & <- & Hk). apply in_seq in Hk. assert (H : u + Z.of_nat k * t < v) by (apply HM; lia). assert (H0 : 0 <= Z.of_nat k * t) by nia. split.
      * exists (Z.to_nat (u + Z.of_nat k * t)). split; [lia|]. apply in_seq. lia.
      * rewrite !andb_true_iff. split; [split; [apply Z.leb_le; lia|apply Z.ltb_lt; lia]|]. apply Z.eqb_eq. replace (u + Z.of_nat k * t - u) with (Z.of_nat k * t) by lia. now apply Z.mod_mul, not_eq_sym, Z.lt_neq.
    + intros ((k & <- & Hk) & H). rewrite !andb_true_iff in H. destruct H as ((H1 & H2) & H3). apply Z.leb_le in H1. apply Z.ltb_lt in H2. apply Z.eqb_eq in H3. set (z := Z.of_nat k) in *.
      pose proof (Z.div_mod (z - u) t ltac:(lia)) as E. rewrite H3 in E. assert (HQ : 0 <= (z - u) / t) by (apply Z.div_pos; lia). exists (Z.to_nat ((z - u) / t)). rewrite Z2Nat.id by exact HQ. split; [lia|]. apply in_seq. assert (K : (z - u) / t < m) by (apply HM; [exact HQ|lia]). lia.
Qed.

(** ** A case, and slices that differ from Python's *)
Local Open Scope string_scope.
Definition demo_tag : class := CCons "tag" (Prim (DUInt 32) [] (Some 32%nat) false 0) (CCons "in" (Nest (CCons "codes" (Prim (DFloat 32) [3%nat] (Some 12%nat) false 0) CNil) []) CNil).
Definition demo_tag_fields : fields := FCons "tag" (Leaf 32 1) (FCons "in" (Nested (FCons "codes" (Leaf 12 3) FNil)) FNil).
Definition demo_two : obj := OCons "tag" (VArr (MkArr (DUInt 32) [2%nat] [0xAABBCCDD; 7])) (OCons "in" (VObj (OCons "codes" (VArr (MkArr (DFloat 32) [2%nat; 3%nat] [0x3F800000; 0x40000000; 0x40400000; 0x40800000; 0x40A00000; 0x40C00000])) ONil)) ONil).
Definition demo_codes : leaf := MkLeaf ["in"; "codes"] (DFloat 32) [3%nat] 12%nat.
Example C80_case : packable_any demo_tag demo_tag_fields /\ loose [2%nat] demo_tag demo_two /\ In demo_codes (leaves demo_tag) /\ names_leaf (Dotted "in.codes") demo_codes /\
  bitpack_schema demo_tag = Some (MkSchema 68 9 9 3 2 1 [MkInfo "tag" 32 0 32 1 [] (DUInt 32) (DUInt 32); MkInfo "in.codes" 12 32 36 3 [3%nat] (DUInt 32) (DFloat 32)]) /\
  exists p, pack_any PackXla demo_tag demo_two = Some p /\
    read_field demo_tag p (Dotted "in.codes") Everything (Some false) = Some (MkArr (DUInt 32) [2%nat; 3%nat] [1; 2; 3; 4; 5; 6]) /\
    read_field demo_tag p (Dotted "in.codes") (Entries [2; 0]) (Some true) = Some (MkArr (DFloat 32) [2%nat; 2%nat] [0x40400000; 0x3F800000; 0x40C00000; 0x40800000]) /\
    read_field demo_tag p (Path ["in"; "codes"]) (Slice (Some 1) None None) (Some false) = Some (MkArr (DUInt 32) [2%nat; 2%nat] [2; 3; 5; 6]) /\
    read_field demo_tag p (Dotted "codes") Everything (Some false) = None.
Proof.
  split; [|split; [|split; [|split; [|split]]]].
  - split; [reflexivity|]. split; [cbn [good_class good_field demo_tag_fields BitpackSpec.names In]; intuition (lia || discriminate)|]. split; [reflexivity|]. split; [discriminate|]. cbn [solid solid_d demo_tag]. intuition discriminate.
  - cbn [loose loose_v demo_tag demo_two app]. repeat split.
  - right. now left.
  - right. split; [reflexivity|]. repeat constructor; discriminate.
  - vm_compute. reflexivity.
  - eexists. split; [vm_compute; reflexivity|]. split; [vm_compute; reflexivity|]. split; [vm_compute; reflexivity|]. split; [vm_compute; reflexivity|]. vm_compute. reflexivity.
Qed.
(** Python counts a negative start from the end, cuts a stop at the length and lets a negative
    step run backwards.  Here [slice(-2, None)] returns five entries, the first two of them bits of
    the field before ([tag]), [slice(1, 5)] four, the last two from beyond the record, and
    [slice(None, None, -1)] none; a negative entry does not count from the end either *)
Theorem C80_slice_traps : exists p, pack_any PackXla demo_tag demo_two = Some p /\
  read_field demo_tag p (Dotted "in.codes") (Slice (Some (-2)) None None) (Some false) = Some (MkArr (DUInt 32) [2%nat; 5%nat] [0xBCC; 0xAAB; 1; 2; 3; 0; 0; 4; 5; 6]) /\
  read_field demo_tag p (Dotted "in.codes") (Slice (Some 1) (Some 5) None) (Some false) = Some (MkArr (DUInt 32) [2%nat; 4%nat] [2; 3; 0; 0; 5; 6; 0; 0]) /\
  read_field demo_tag p (Dotted "in.codes") (Slice None None (Some (-1))) (Some false) = Some (MkArr (DUInt 32) [2%nat; 0%nat] []) /\
  read_field demo_tag p (Dotted "in.codes") (Entries [-1]) (Some false) = Some (MkArr (DUInt 32) [2%nat; 1%nat] [0xAAB; 0]) /\
  read_field demo_tag p (Dotted "tag") (Entries [1]) (Some false) = Some (MkArr (DUInt 32) [2%nat; 1%nat] [0x3002001; 0x6005004]).
Proof.
  eexists. split; [vm_compute; reflexivity|]. split; [vm_compute; reflexivity|]. split; [vm_compute; reflexivity|]. split; [vm_compute; reflexivity|]. split; [vm_compute; reflexivity|]. vm_compute. reflexivity.
Qed.
