(** * PropTableArrays.v — property C47: the hash table stores its items as the rows of one
      instance with an array per field; every index names one complete instance, so lookups,
      insertions and batched insertions act on whole instances. *)
From Coq Require Import String.
From Verif Require Import Jax KeyModel HashModel HashProofs PropHash StableSort TableModel DedupeModel DedupeSpec ParInsertModel BitpackModel BitpackSpec TableSpec PropTableCases.
From Verif Require Import StructModel ArrayModel ArrayFacts ShapeModel PropShape RowsModel RowsLift PropRows SoaModel PropSoa EqModel FloatEq PropEq PropEqTable.
From Verif Require Import AggModel AggKernel PropAgg PropAgg2 PropAggHash HeapArrays TableArrays TableSim TableArraySpec TableArrayHist.

(** ** Specification: where the hash words of an instance come from *)
(** its fields (in a streaming mode), or their packed form (XTRUCTURE_HASH_AGG_MODE) *)
Inductive scheme := FromFields (m : stream_mode) | FromPacked (be : pack_backend) (fs : fields).
Definition sc_words (c : class) (s : scheme) (o : obj) : list N :=
  match s with FromFields _ => obj_words o | FromPacked be _ => match packed_words be c o with Some ws => ws | None => [] end end.
Definition sc_hash (c : class) (s : scheme) (seed : N) (o : obj) : N * N :=
  match s with FromFields m => obj_hash_pair m seed o | FromPacked be _ => match packed_hash_pair be c seed o with Some p => p | None => (0, 0)%N end end.
Definition sc_nwords (c : class) (s : scheme) : nat := length (sc_words c s (default_obj [] c)).
(** the instances: single, no NaN or -0.0; within the declared bits if hashed packed *)
Definition sc_item (c : class) (s : scheme) (o : obj) : Prop :=
  storable c o /\ match s with FromFields _ => True | FromPacked _ _ => in_bits c o end.
(** the classes: a leaf, supported dtypes, default instance among the instances; hashed
    packed only if packable *)
Definition sc_class (c : class) (s : scheme) : Prop :=
  class_ok c = true /\ solid c /\ sc_item c s (default_obj [] c) /\
  match s with
  | FromFields m => obj_words (default_obj [] c) <> [] \/ m <> On
  | FromPacked be fs => packable c fs /\ backend_ok be 1 (word_count fs)
  end.

(** ** The instances as items *)
Lemma in_bitsb_complete : (forall d v, in_bits_v d v -> Forall plain_array (arrays_v v) -> conforms_v d v -> in_bitsb_v d v = true) /\
  (forall c o, in_bits c o -> Forall plain_array (arrays o) -> conforms c o -> in_bitsb c o = true).
Proof.
  apply desc_class_ind.
  - intros dt ish [b|] pb fill [a|o] H HP HC; cbn in *; try contradiction. destruct H as [H1 H2], HC as [HD _]. inversion HP as [|? ? [_ PA] _]; subst. apply andb_true_intro. split.
    + destruct (adtype a) as [|[|w]|[|w]|w]; cbn; try reflexivity; try contradiction; lia.
    + apply forallb_forall. rewrite Forall_forall in H2, PA. intros z Hz. specialize (PA z Hz). destruct (H2 z Hz) as [_ [K1 K2]]. apply plainb_spec in PA. rewrite PA. cbn [andb]. apply andb_true_intro. split; [now apply Z.leb_le|now apply Z.ltb_lt].
  - intros c IH s [a|o] H HP HC; cbn in *; [contradiction|]. now apply IH.
  - intros [|] H HP HC; [reflexivity|contradiction].
  - intros n d IHd r IHr [|m v q] H HP HC; [contradiction|]. cbn in *. apply Forall_app in HP. destruct H, HP, HC as (_ & ? & ?). now rewrite IHd, IHr.
Qed.
Lemma pgood_iff c o : pgood c o = true <-> storable c o /\ in_bits c o.
Proof.
  unfold pgood. rewrite andb_true_iff, good_storable. split; intros [H1 H2]; split; try exact H1; [now apply in_bitsb_spec|]. apply (proj2 in_bitsb_complete); [exact H2|apply H1|apply H1].
Qed.
Lemma class_ok_fields c : class_ok c = true -> c <> CNil.
Proof. intros H ->. discriminate. Qed.
Lemma sc_view c s seed : sc_class c s -> exists (I : Type) (T : dataclass I) (phi : I -> obj),
  item_view c T phi (sc_hash c s seed) (sc_words c s) /\ (forall o, sc_item c s o <-> exists x, phi x = o) /\ dc_nwords T = sc_nwords c s.
Proof.
  intros (HC & HS & HD & HM). destruct s as [m|be fs].
  - exists (item c), (table_item c HC seed), (@proj1_sig _ _). split; [|split; [|reflexivity]].
    + constructor.
      * intros [o G]. cbn. apply good_storable in G. apply G.
      * intros x y. cbn. unfold item_eqb. pose proof (item_arrays c HC x) as HN. destruct x as [o Go], y as [q Gq]. cbn in *.
        destruct (C42_item_laws c o q (proj1 (good_storable c o) Go) (proj1 (good_storable c q) Gq) HN) as ((r & -> & _) & _). reflexivity.
      * apply item_eq.
      * reflexivity.
      * intros x. symmetry. apply C42_hash_pair. destruct HM as [HM|HM]; [left|now right]. intros E. apply HM. apply length_zero_iff_nil. rewrite <- (item_words_len c HC x), E. reflexivity.
      * reflexivity.
    + intros o. unfold sc_item. rewrite <- good_storable. split; [intros [G _]; now exists (exist _ o G)|]. intros [[q G] <-]. cbn. auto.
  - destruct HM as [HP HB]. assert (PO : pclass_ok c = true) by (unfold pclass_ok; rewrite HC; cbn [andb]; apply (proj2 in_bitsb_complete); [apply HD|apply HD|apply HD]).
    assert (W : forall x : pitem c, packed_words be c (proj1_sig x) = Some (p_words c x)).
    { intros x. rewrite <- (proj1 (p_words_some c fs HP x)). apply (C44_faithful c fs _ _ be PackXla HP (pitem_batched c x) (pitem_batched c x) (pitem_bits c x) (pitem_bits c x) HB Logic.I). reflexivity. }
    exists (pitem c), (packed_item c fs HP PO seed), (@proj1_sig _ _). split; [|split].
    + constructor.
      * intros x. apply pitem_batched.
      * intros x y. cbn. unfold p_eqb. pose proof (item_arrays c HC (exist _ _ (pitem_good c x))) as HN. cbn in HN.
        destruct (C42_item_laws c _ _ (proj1 (good_storable c _) (pitem_good c x)) (proj1 (good_storable c _) (pitem_good c y)) HN) as ((r & -> & _) & _). reflexivity.
      * apply pitem_eq.
      * reflexivity.
      * intros x. unfold sc_hash. now rewrite <- (C44_hash_pair c fs HP PO seed be x HB).
      * intros x. unfold sc_words. rewrite W. reflexivity.
    + intros o. unfold sc_item. rewrite <- pgood_iff. split; [intros G; now exists (exist _ o G)|]. intros [[q G] <-]. exact G.
    + unfold sc_nwords, sc_words. change (default_obj [] c) with (proj1_sig (p_default c PO)). rewrite W. symmetry. apply (p_words_some c fs HP).
Qed.

(** ** Theorems *)
Section S.
Variables (c : class) (s : scheme) (seed : N) (C : settings).
Hypothesis HC : sc_class c s.
Notation hp := (sc_hash c s seed).
Notation rowof := (sc_words c s).
Notation w := (sc_nwords c s).
Notation ok := (sc_item c s).
Notation history := (ahistory c ok hp rowof w C).
Notation run := (arun c ok hp rowof w C).
Notation lookup := (ALookup hp).
Notation lookup_parallel := (ALookupParallel hp).
Notation insert := (AInsert hp).
Notation parallel_insert := (AParallelInsert c hp rowof w C).
Notation batch := (batch_of c ok).
Notation absent := (aabsent hp).
Notation reliable := (adedupe_reliable hp rowof w C).
Let HN : c <> CNil := class_ok_fields c (proj1 HC).
Let HS : solid c := proj1 (proj2 HC).

(** an instance reported as inserted is found at the reported index after every later
    history, and that index names the complete instance *)
Theorem C47_found : forall es t x i, history es t -> areported es x i -> lookup t x = Some (i, true) /\ agetitem t i = Some x.
Proof. destruct (sc_view c s seed HC) as (I & T & phi & V & OK & EW). rewrite <- EW. exact (g_found c I T phi ok hp rowof C V HN HS OK). Qed.
(** nothing else is found: lookups never raise, find exactly what was reported as inserted,
    and the index they return names the complete instance *)
Theorem C47_no_false_positives : forall es t x, history es t -> ok x -> exists i b, lookup t x = Some (i, b) /\
  (b = true <-> exists i', areported es x i') /\ (b = true -> agetitem t i = Some x /\ areported es x i).
Proof. destruct (sc_view c s seed HC) as (I & T & phi & V & OK & EW). rewrite <- EW. exact (g_no_false c I T phi ok hp rowof C V HN HS OK). Qed.
(** later operations neither move nor alter a stored instance *)
Theorem C47_never_moves : forall es t es1 t1 x i, history es t -> run t es1 t1 -> ok x -> lookup t x = Some (i, true) ->
  lookup t1 x = Some (i, true) /\ agetitem t1 i = Some x /\ agetitem t i = Some x.
Proof. destruct (sc_view c s seed HC) as (I & T & phi & V & OK & EW). rewrite <- EW. exact (g_never_moves c I T phi ok hp rowof C V HN HS OK). Qed.
(** the table is a finite set of instances with distinct indices; [size] counts them *)
Theorem C47_set : forall es t, history es t -> exists l : list (obj * nat), NoDup (map fst l) /\ NoDup (map snd l) /\
  (forall x i, In (x, i) l -> ok x) /\ (forall x i, ok x -> (In (x, i) l <-> lookup t x = Some (i, true))) /\
  a_size t = N.of_nat (length l) /\ a_size t = N.of_nat (acount es) /\ (a_size t <= N.of_nat (aslots t))%N.
Proof. destruct (sc_view c s seed HC) as (I & T & phi & V & OK & EW). rewrite <- EW. exact (g_set c I T phi ok hp rowof C V HN HS OK). Qed.
(** insert never raises; a present instance is left alone, an absent one is stored whole
    unless the table is full, and no other instance is affected *)
Theorem C47_insert : forall es t x, history es t -> ok x -> exists t' b i, insert t x = Some (t', b, i) /\
  (forall i0, lookup t x = Some (i0, true) -> b = false /\ i = i0 /\ t' = t) /\
  (absent t x -> (b = true <-> (a_size t < N.of_nat (aslots t))%N) /\ (b = false -> t' = t) /\
     (b = true -> a_size t' = (a_size t + 1)%N /\ lookup t' x = Some (i, true) /\ agetitem t' i = Some x /\
        forall y j, ok y -> y <> x -> (lookup t' y = Some (j, true) <-> lookup t y = Some (j, true)))).
Proof. destruct (sc_view c s seed HC) as (I & T & phi & V & OK & EW). rewrite <- EW. exact (g_insert c I T phi ok hp rowof C V HN HS OK). Qed.
(** the batched lookup: element q of the batch is found exactly where it was reported *)
Theorem C47_lookup_parallel : forall es t k inputs f, history es t -> batch k inputs -> amask_ok k f ->
  exists out, lookup_parallel t inputs f = Some out /\ length out = k /\ forall q, q < k ->
    (nth q (mask_list k f) false = true -> forall i, nth q out (0, false) = (i, true) <-> areported es (elem [q] inputs) i) /\
    (nth q (mask_list k f) false = false -> snd (nth q out (0, false)) = false).
Proof. destruct (sc_view c s seed HC) as (I & T & phi & V & OK & EW). rewrite <- EW. exact (g_lookup_parallel c I T phi ok hp rowof C V HN HS OK). Qed.
(** the batched insertion, on every backend: adds exactly the elements it reports, each
    once, each stored whole at its index, and leaves every other instance alone *)
Theorem C47_union : forall be es t k inputs f uk t' ins uniq idx, history es t -> batch k inputs -> amask_ok k f ->
  parallel_insert be t inputs f uk (t', ins, uniq, idx) ->
  length ins = k /\ length uniq = k /\ length idx = k /\
  (forall q, q < k -> nth q ins false = true -> afilled k f q /\ absent t (elem [q] inputs)) /\
  (forall q q', q < k -> q' < k -> nth q ins false = true -> nth q' ins false = true -> elem [q] inputs = elem [q'] inputs -> q = q') /\
  (forall y i, ok y -> (lookup t' y = Some (i, true) <->
     lookup t y = Some (i, true) \/ exists q, q < k /\ nth q ins false = true /\ elem [q] inputs = y /\ nth q idx 0 = i)) /\
  (forall q, q < k -> nth q ins false = true -> agetitem t' (nth q idx 0) = Some (elem [q] inputs)) /\
  a_size t' = (a_size t + N.of_nat (length (filter (fun b => b) ins)))%N.
Proof. destruct (sc_view c s seed HC) as (I & T & phi & V & OK & EW). rewrite <- EW. exact (g_union c I T phi ok hp rowof C V HN HS OK). Qed.
(** and always returns *)
Theorem C47_total : forall be es t k inputs f uk, history es t -> batch k inputs -> amask_ok k f ->
  match be with XLA => True | Triton _ => a_bsz t <= 32 | Pallas _ order => a_bsz t <= 32 /\ forall r, Permutation (order r) (seq 0 k) end ->
  exists out, parallel_insert be t inputs f uk out.
Proof. destruct (sc_view c s seed HC) as (I & T & phi & V & OK & EW). rewrite <- EW. exact (g_total c I T phi ok hp rowof C V HN HS OK). Qed.
(** returned indices: of a filled element in the table, the index naming it; of equal
    elements, the same *)
Theorem C47_indices : forall be es t k inputs f uk t' ins uniq idx, history es t -> batch k inputs -> amask_ok k f ->
  parallel_insert be t inputs f uk (t', ins, uniq, idx) ->
  (reliable k inputs (mask_list k f) uk -> forall q i, afilled k f q -> lookup t' (elem [q] inputs) = Some (i, true) ->
     nth q idx 0 = i /\ agetitem t' (nth q idx 0) = Some (elem [q] inputs)) /\
  (forall q q', afilled k f q -> afilled k f q' -> elem [q] inputs = elem [q'] inputs -> nth q idx 0 = nth q' idx 0).
Proof.
  destruct (sc_view c s seed HC) as (I & T & phi & V & OK & EW). rewrite <- EW. intros be es t k inputs f uk t' ins uniq idx HH HB HM HP. split.
  - intros HD. exact (g_indices c I T phi ok hp rowof C V HN HS OK be es t k inputs f uk t' ins uniq idx HH HB HM HD HP).
  - exact (g_equal_inputs c I T phi ok hp rowof C V HN HS OK be es t k inputs f uk t' ins uniq idx HH HB HM HP).
Qed.
(** indexing with several indices gives the batch of the instances they name *)
Theorem C47_getitems : forall es t is, history es t -> (forall i, In i is -> i < aslots t) ->
  exists r, agetitems t is = Some r /\ batched c [length is] r /\ forall q, q < length is -> Some (elem [q] r) = agetitem t (nth q is 0).
Proof. destruct (sc_view c s seed HC) as (I & T & phi & V & OK & EW). rewrite <- EW. exact (g_getitems c I T phi ok hp rowof C V HN HS OK). Qed.
(** default backend, room for the batch, enough rounds allowed for the table's full buckets: reading the
    returned indices gives back the inserted batch, all fields, duplicates included *)
Theorem C47_readback : forall es t k inputs uk t' ins uniq idx, history es t -> batch k inputs -> reliable k inputs (repeat true k) uk ->
  (a_size t + N.of_nat k <= N.of_nat (aslots t))%N -> (N.of_nat (rounds_needed k (afull_buckets t)) <= a_maxp t)%N ->
  parallel_insert XLA t inputs (FScalar true) uk (t', ins, uniq, idx) -> agetitems t' idx = Some inputs.
Proof. destruct (sc_view c s seed HC) as (I & T & phi & V & OK & EW). rewrite <- EW. exact (g_readback c I T phi ok hp rowof C V HN HS OK). Qed.
(** the default backend is a function, computed by [aparallel_insert_xla] *)
Theorem C47_default_backend : forall t inputs f uk out, parallel_insert XLA t inputs f uk out <->
  aparallel_insert_xla hp rowof w (s_mode C) (s_sort C) t inputs f uk = Some out.
Proof. destruct (sc_view c s seed HC) as (I & T & phi & V & OK & EW). rewrite <- EW. intros. now apply (xla_fun c I T hp rowof C). Qed.
End S.
Print Assumptions C47_found.
Print Assumptions C47_union.
Print Assumptions C47_readback.

(** ** Example: a batch of three, two of them equal, into an empty table of 4 buckets *)
Definition demo_rows : obj := OCons "pos" (VArr (MkArr (DInt 32) [3; 2] [-1; 7; 4; 4; -1; 7]%Z)) (OCons "cost" (VArr (MkArr (DFloat 32) [3] [0x3F800000; 0; 0x3F800000]%Z))
  (OCons "sub" (VObj (OCons "flag" (VArr (MkArr DBool [3; 2; 3] [1; 0; 1; 1; 0; 0; 0; 0; 0; 0; 0; 1; 1; 0; 1; 1; 0; 0]%Z)) ONil)) ONil)).
Example C47_class_case : sc_class demo_class (FromFields Off) /\ sc_class demo_agg (FromPacked PackXla demo_fields).
Proof.
  split; (split; [vm_compute; reflexivity|]); (split; [cbn; repeat split; discriminate|]).
  - split; [|right; discriminate]. split; [|exact Logic.I]. apply good_storable. vm_compute. reflexivity.
  - split; [|split; [exact demo_packed|exact Logic.I]]. apply pgood_iff. vm_compute. reflexivity.
Qed.
Example C47_case : let hp := sc_hash demo_class (FromFields Off) 0 in let ok := sc_item demo_class (FromFields Off) in
  exists out, aconfig_ok demo_class 4 2 2 (Some 64%N) /\ batch_of demo_class ok 3 demo_rows /\
    aparallel_insert_xla hp (sc_words demo_class (FromFields Off)) (sc_nwords demo_class (FromFields Off)) (s_mode DEF) (s_sort DEF) (abuild demo_class 4 2 2 (Some 64%N)) demo_rows (FScalar true) None = Some out /\
    let '(t, ins, uniq, idx) := out in
    ins = [true; true; false] /\ nth 0 idx 0 = nth 2 idx 1 /\ agetitems t idx = Some demo_rows /\ agetitem t (nth 0 idx 0) = Some demo_obj /\ a_size t = 2%N.
Proof.
  cbv zeta.
  assert (HB : batch_of demo_class (sc_item demo_class (FromFields Off)) 3 demo_rows).
  { split; [split; cbn; repeat split|]. unfold rows. cbn [seq map]. repeat apply Forall_cons; try apply Forall_nil; (split; [apply good_storable; vm_compute; reflexivity|exact Logic.I]). }
  eexists. split; [unfold aconfig_ok; cbn; repeat split; lia|]. split; [exact HB|]. split; [vm_compute; reflexivity|]. cbn beta iota. repeat split; vm_compute; reflexivity.
Qed.
(** it meets the hypotheses of [C47_readback] *)
Example C47_readback_case : let sc := FromFields Off in let t := abuild demo_class 4 2 2 (Some 64%N) in
  ahistory demo_class (sc_item demo_class sc) (sc_hash demo_class sc 0) (sc_words demo_class sc) (sc_nwords demo_class sc) DEF [] t /\
  adedupe_reliable (sc_hash demo_class sc 0) (sc_words demo_class sc) (sc_nwords demo_class sc) DEF 3 demo_rows (repeat true 3) None /\
  (a_size t + N.of_nat 3 <= N.of_nat (aslots t))%N /\ (N.of_nat (rounds_needed 3 (afull_buckets t)) <= a_maxp t)%N.
Proof.
  cbv zeta. split; [exists 4, 2, 2, (Some 64%N); split; [unfold aconfig_ok; cbn; repeat split; lia|constructor]|]. split; [|split; vm_compute; discriminate].
  assert (HA : forall q, q < 3 -> nth q (repeat true 3) false = true) by (intros [|[|[|]]] H; try reflexivity; lia).
  unfold adedupe_reliable. cbv zeta. change (s_mode DEF) with Safe. split; [intros q _ _; discriminate|]. split; [left; exact HA|]. split; [left; vm_compute; lia|left; reflexivity].
Qed.
