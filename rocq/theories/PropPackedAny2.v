(** * PropPackedAny2.v — property C84, second part: in packed mode single insertions and lookups
      are exact even for items that share their words. *)
From Coq Require Import String.
From Verif Require Import Jax HashModel HashProofs PropHash BitpackModel BitpackSpec BitpackProofs BitpackAgg StructModel ArrayModel ArrayFacts ShapeModel PropShape RowsModel RowsLift PropRows PropRows2 EqModel FloatEq PropEq PropEqTable RowsModel2 CompareModel PropCompare PropSafeCast PromoteModel FloatRound PropPromote PropRandom PropMixed PropMixed3.
From Verif Require Import AggModel AggKernel AggFacts PropAgg PropAgg2 SchemaModel AggAny PropAggFloat TableModel DedupeModel DedupeSpec ParInsertModel TableSpec TableConv TableConvSim PropTableConv PropTableConv2 PropTableCases PackedAny PropPackedAny.

(** ** The operations look at the hash of the given item only *)
Lemma bucket_hp {A} (e : A -> A -> bool) d hp hp' t x : hp x = hp' x -> lookup_bucket e d hp t x = lookup_bucket e d hp' t x.
Proof. intros E. unfold lookup_bucket, start_of, step_of, fp_of. now rewrite E. Qed.
Lemma lookup_hp {A} (e : A -> A -> bool) d hp hp' t x : hp x = hp' x -> lookup e d hp t x = lookup e d hp' t x.
Proof. intros E. unfold lookup. now rewrite (bucket_hp e d hp hp' t x E). Qed.
Lemma insert_hp {A} (e : A -> A -> bool) d hp hp' t x : hp x = hp' x -> insert e d hp t x = insert e d hp' t x.
Proof. intros E. unfold insert. rewrite (bucket_hp e d hp hp' t x E). unfold write, fp_of. now rewrite E. Qed.

(** ** Items of the declared dtypes, without NaN and -0.0, of any values *)
(** only single insertions *)
Definition singles (es : list (@event obj)) : Prop := Forall (fun e => match e with EInsert _ _ _ => True | EBatch _ _ _ => False end) es.
Section S.
Context (x64 : bool) (c : class) (fs : fields) (seed : N) (C : settings).
Hypotheses (HP : packable_any c fs) (AV : dtypes (available x64) c) (HW : 0 < word_count fs).
Notation L := (packed_items x64 c (word_count fs) seed).
Notation M := (mixed_items x64 c (length (obj_words (default_obj [] c))) seed).
(** the packed words followed by the bytes of the item: the hash is that of the packed words *)
Definition both_words : lenient obj := {|
  le_eq := le_eq L; le_conv := le_conv L; le_default := le_default L;
  le_words := fun o => le_words L o ++ obj_words o;
  le_nwords := word_count fs + length (obj_words (default_obj [] c));
  le_hash := fun ws => hash_fast_pair (firstn (word_count fs) ws) seed |}.
Notation L2 := both_words.
Lemma HN : c <> CNil. Proof. apply HP. Qed.
Lemma HS : solid c. Proof. apply HP. Qed.
Lemma variant_refl : variant c c.
Proof. assert (K : (forall d, variant_d d d) /\ (forall c, variant c c)) by (apply desc_class_ind; cbn; intros; auto). apply K. Qed.
Lemma storable_suits o : storable c o -> suits x64 c c o.
Proof.
  intros Ho. split; [exact Ho|]. pose proof (pair_facts_same c [] (default_obj [] c) o (proj2 default_both c []) (proj1 Ho)) as HF. pose proof (proj2 dtypes_arrays c o _ AV (proj1 (proj1 Ho))) as A. cbv beta in A. destruct Ho as [_ P].
  clear - HF A P. induction HF as [|a b l m [_ (ED & _)] HF IH]; [constructor|]. constructor; [|apply IH; [exact (Forall_inv_tail P)|exact (Forall_inv_tail A)]].
  pose proof (Forall_inv A) as A1. pose proof (Forall_inv P) as [_ P1]. revert P1. apply Forall_impl. intros z HZ. rewrite ED. apply C75_widening; auto. intros w x H1 H2. exists w. auto.
Qed.
Lemma lf o : storable c o -> loose [] c o. Proof. intros [H _]. now apply batched_loose. Qed.
Lemma hash_same o : storable c o -> lhash L2 o = lhash L o.
Proof.
  intros Ho. unfold lhash, both_words. cbn [le_hash le_words]. destruct (words_some x64 c fs seed HP o (lf o Ho)) as (_ & E & _). cbn [le_words packed_items] in *. rewrite <- E at 1. rewrite firstn_app, Nat.sub_diag, firstn_all. cbn [firstn]. now rewrite app_nil_r.
Qed.
Lemma words_same o p : storable c o -> storable c p -> (same_bytes L2 o p <-> o = p).
Proof.
  intros Ho Hp. unfold same_bytes. cbn [le_words both_words]. split; [|now intros ->]. intros E. apply app_eq_len in E.
  - apply (storable_words c c HN HS variant_refl o p Ho Hp). apply E.
  - destruct (words_some x64 c fs seed HP o (lf o Ho)) as (_ & E1 & _). destruct (words_some x64 c fs seed HP p (lf p Hp)) as (_ & E2 & _). congruence.
Qed.
Lemma both_family : family L2 (storable c).
Proof.
  constructor.
  - cbn [le_nwords both_words]. lia.
  - intros o Ho. cbn [le_nwords le_words both_words]. rewrite app_length. destruct (words_some x64 c fs seed HP o (lf o Ho)) as (_ & -> & _). f_equal. apply (layout_len c); [apply Ho|exact (proj2 default_both c [])].
  - intros o Ho. cbn [le_words both_words]. apply Forall_app. split; [apply (words_some x64 c fs seed HP o (lf o Ho))|]. apply (C42_item_laws c o o Ho Ho). apply (proj2 solid_arrays c [] o (conj HN HS)). now apply lf.
  - apply (conv_native x64 c c seed). exact (proj2 default_both c []).
  - intros o Ho. change (le_conv M (le_conv M o) = le_conv M o). now rewrite !(conv_native x64 c c seed o) by apply Ho.
  - intros o p Ho Hp E. apply (words_same o p Ho Hp) in E. now subst.
  - intros o p Ho Hp. rewrite (words_same o p Ho Hp). apply (suits_eq x64 c c seed HN HS variant_refl AV AV o p); now apply storable_suits.
Qed.
Lemma run_both : forall es t t', lrun L C t es t' -> singles es -> Forall (storable c) (inputs es) -> lrun L2 C t es t'.
Proof.
  intros es t t' H. induction H as [t|t e t1 es t2 HO H IH]; intros HS1 HI; [constructor|].
  inversion HO as [? x t' ok i HI1|? be xs f uk t' ins uniq idx HM HP1]; subst; [|destruct (Forall_inv HS1)].
  change (inputs (EInsert x ok i :: es)) with (x :: inputs es) in HI. pose proof (Forall_inv HI) as Hx. apply (lrun_cons L2 C t _ t1 es t2); [|apply IH; [exact (Forall_inv_tail HS1)|exact (Forall_inv_tail HI)]].
  constructor. rewrite <- HI1. unfold LInsert. change (le_eq L2) with (le_eq L). change (le_default L2) with (le_default L). rewrite (insert_hp (le_eq L) (le_default L) (lhash L2) (lhash L) t x (hash_same x Hx)). reflexivity.
Qed.
Lemma history_both es t : lhistory L C es t -> singles es -> Forall (storable c) (inputs es) -> lhistory L2 C es t.
Proof. intros (cp & b & m & p & H1 & H2) HS1 HI. exists cp, b, m, p. split; [exact H1|]. now apply run_both. Qed.
Lemma reported_both es x i : singles es -> Forall (storable c) (inputs es) -> storable c x -> (TableConv.reported L2 es x i <-> In (EInsert x true i) es).
Proof.
  intros HS1 HI Hx. split.
  - intros (e & HE & HR). unfold singles in HS1. rewrite Forall_forall in HS1. specialize (HS1 e HE). destruct e as [y ok j|]; [|destruct HS1]. destruct HR as (-> & HB & ->).
    assert (Hy : storable c y) by (rewrite Forall_forall in HI; apply HI; unfold inputs; apply in_flat_map; exists (EInsert y true i); split; [exact HE|now left]). apply (words_same y x Hy Hx) in HB. now subst y.
  - intros HE. exists (EInsert x true i). split; [exact HE|]. split; [reflexivity|]. split; reflexivity.
Qed.
(** ** After any single insertions, an item is found exactly when it itself was inserted, at its
    index, whatever other items have its words *)
Theorem C84_single_lookup : forall es t x, lhistory L C es t -> singles es -> Forall (storable c) (inputs es) -> storable c x ->
  exists i f, LLookup L t x = Some (i, f) /\ (f = true <-> exists j, In (EInsert x true j) es) /\ (f = true -> In (EInsert x true i) es /\ LGetItem L t i = x).
Proof.
  intros es t x HH HS1 HI Hx. destruct (C75_lookup L2 _ both_family C es t x (history_both es t HH HS1 HI) HI Hx) as (i & f & E1 & E2 & E3).
  exists i, f. split; [|split].
  - rewrite <- E1. unfold LLookup. symmetry. apply lookup_hp. now apply hash_same.
  - rewrite E2. setoid_rewrite (reported_both es x _ HS1 HI Hx). reflexivity.
  - intros Hf. destruct (E3 Hf) as [E4 E5]. apply (reported_both es x i HS1 HI Hx) in E4. split; [exact E4|]. change (LGetItem L t i) with (LGetItem L2 t i). rewrite E5. apply (conv_native x64 c c seed). apply Hx.
Qed.
(** an insertion succeeds exactly when the item was not there and there is room, and changes
    nothing about the others *)
Theorem C84_single_insert : forall es t x, lhistory L C es t -> singles es -> Forall (storable c) (inputs es) -> storable c x ->
  exists t' ok i, LInsert L t x = Some (t', ok, i) /\
    (ok = true <-> ~ (exists j, In (EInsert x true j) es) /\ count es < slots t) /\
    (ok = true -> LGetItem L t' i = x /\ LLookup L t' x = Some (i, true) /\ size t' = (size t + 1)%N) /\
    (forall y j, storable c y -> In (EInsert y true j) es -> LLookup L t' y = Some (j, true) /\ LGetItem L t' j = y).
Proof.
  intros es t x HH HS1 HI Hx. pose proof (history_both es t HH HS1 HI) as H2.
  assert (LK : forall u y, storable c y -> LLookup L2 u y = LLookup L u y) by (intros u y Hy; unfold LLookup; apply lookup_hp; now apply hash_same).
  assert (CV : forall y, storable c y -> le_conv L2 y = y) by (intros y Hy; apply (conv_native x64 c c seed); apply Hy).
  destruct (C75_insert L2 _ both_family C es t x H2 HI Hx) as (t' & ok & i & E1 & E2 & E3 & E4 & E5). exists t', ok, i. split; [|split; [|split]].
  - rewrite <- E1. unfold LInsert. change (le_eq L2) with (le_eq L). change (le_default L2) with (le_default L). rewrite (insert_hp (le_eq L) (le_default L) (lhash L2) (lhash L) t x (hash_same x Hx)). reflexivity.
  - rewrite E2. setoid_rewrite (reported_both es x _ HS1 HI Hx). reflexivity.
  - intros Hk. destruct (E4 Hk) as (K1 & K2 & K3 & _). rewrite LK in K2 by exact Hx. rewrite (CV x Hx) in K1. auto.
  - intros y j Hy Hj. apply (reported_both es y j HS1 HI Hy) in Hj. destruct (E5 y j Hy Hj) as [K1 K2]. rewrite LK in K1 by exact Hy. split; [exact K1|].
    change (LGetItem L t' j) with (LGetItem L2 t' j). rewrite K2. destruct (C75_found L2 _ both_family C es t y j H2 HI Hy Hj) as [_ K3]. rewrite K3. now apply CV.
Qed.
End S.
(** 2.5 and 2.0, which share their words, inserted one after the other *)
Example C84_single_case : exists es t i j, lhistory PF DEF es t /\ singles es /\ Forall (storable demo_float) (inputs es) /\ In (EInsert (level 0x40200000) true i) es /\ In (EInsert (level 0x40000000) true j) es /\
  packed_words_any PackXla demo_float (level 0x40200000) = packed_words_any PackXla demo_float (level 0x40000000).
Proof.
  destruct C84_batch_loses_refuted as (_ & _ & t1 & i & t2 & j & _ & _ & _ & _ & _ & E1 & E2 & _).
  exists [EInsert (level 0x40200000) true i; EInsert (level 0x40000000) true j], t2, i, j. split.
  - exists 4, 2, 2, None. split; [unfold lconfig_ok; cbn; repeat split; lia|]. econstructor; [constructor; exact E1|]. econstructor; [constructor; exact E2|constructor].
  - split; [repeat constructor|]. split; [constructor; [|constructor; [|constructor]]; apply good_storable; vm_compute; reflexivity|]. split; [now left|]. split; [right; now left|]. vm_compute. reflexivity.
Qed.
Print Assumptions C84_single_lookup. Print Assumptions C84_single_insert.
