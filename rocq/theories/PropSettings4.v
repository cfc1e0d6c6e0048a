(** * PropSettings4.v — C79: which numbers are read, and exactly what every variable selects. *)
From Coq Require Import String Ascii.
From Verif Require Import Jax KeyModel HashModel MergeModel KvModel KvProofs HeapSpec TieModel DedupeModel EnvModel PropSettings.
Local Open Scope list_scope.

(** ** Numbers: blanks, a sign, groups of digits joined by single underscores, blanks; nothing else *)
Definition grouped (g : list nat) (gs : list (list nat)) : list ascii := map dig g ++ flat_map (fun h => "_"%char :: map dig h) gs.
Definition group (g : list nat) : Prop := g <> [] /\ Forall (fun d => d < 10) g.
Definition written (s : string) (z : Z) : Prop :=
  exists b1 sign g gs b2, all_blank b1 /\ all_blank b2 /\ group g /\ Forall group gs /\ In sign [[]; ["+"]; ["-"]]%char /\
    s = text (b1 ++ (sign ++ grouped g gs) ++ b2) /\
    z = (match sign with ["-"%char] => - valued (g ++ concat gs) | _ => valued (g ++ concat gs) end)%Z.
Notation value_from := (fold_left (fun a d => 10 * a + Z.of_nat d)%Z).
Lemma digit_dig c d : digit c = Some d -> exists k, k < 10 /\ c = dig k /\ d = Z.of_nat k.
Proof.
  unfold digit. destruct (Nat.leb_spec 48 (nat_of_ascii c)); [|discriminate]. destruct (Nat.leb_spec (nat_of_ascii c) 57); [|discriminate]. cbn [andb]. intros [= <-].
  exists (nat_of_ascii c - 48). split; [lia|]. split; [|reflexivity]. unfold dig. replace (48 + (nat_of_ascii c - 48)) with (nat_of_ascii c) by lia. symmetry. apply ascii_nat_embedding.
Qed.
Lemma digits_sound l : forall b a z, digits l b a = Some z ->
  exists g gs, l = grouped g gs /\ Forall (fun d => d < 10) g /\ Forall group gs /\ (b = false -> g <> []) /\ z = value_from (g ++ concat gs) a.
Proof.
  induction l as [|c l IH]; intros b a z H; cbn [digits] in H.
  - destruct b; [|discriminate]. injection H as <-. exists [], []. repeat split; try constructor. discriminate.
  - destruct (digit c) as [d|] eqn:D.
    + apply digit_dig in D as (k & Hk & -> & ->). apply IH in H as (g & gs & -> & Hg & Hgs & _ & ->). exists (k :: g), gs.
      repeat split; [now constructor|exact Hgs|discriminate].
    + destruct (Nat.eqb_spec (nat_of_ascii c) 95) as [E|]; [|discriminate]. cbn [andb] in H. destruct b; [|discriminate].
      apply IH in H as (g & gs & -> & Hg & Hgs & HN & ->). exists [], (g :: gs). split.
      { unfold grouped. cbn [flat_map map app]. f_equal. rewrite <- (ascii_nat_embedding c), E. reflexivity. }
      split; [constructor|]. split; [constructor; [split; auto|exact Hgs]|]. split; [discriminate|reflexivity].
Qed.
Lemma digits_group g : Forall (fun d => d < 10) g -> forall r b a, g <> [] -> digits (map dig g ++ r) b a = digits r true (value_from g a).
Proof.
  induction 1 as [|d g Hd HG IH]; intros r b a HN; [congruence|]. cbn [map app digits fold_left]. rewrite (proj1 (dig_facts d Hd)).
  destruct g as [|d' g]; [reflexivity|]. apply IH. discriminate.
Qed.
Lemma digits_complete gs : Forall group gs -> forall g a b, group g -> digits (grouped g gs) b a = Some (value_from (g ++ concat gs) a).
Proof.
  induction 1 as [|h gs Hh _ IH]; intros g a b [HN HG]; unfold grouped; rewrite digits_group by assumption.
  - cbn [concat flat_map]. rewrite app_nil_r. reflexivity.
  - cbn [concat flat_map app digits]. change (digit "_") with (@None Z). change (nat_of_ascii "_") with 95. cbn [Nat.eqb andb].
    rewrite fold_left_app. exact (IH h (value_from g a) false Hh).
Qed.
Lemma skip_split l : exists b, all_blank b /\ l = b ++ skip_blanks l.
Proof.
  induction l as [|c l (b & Hb & E)]; [exists []; split; [constructor|reflexivity]|]. cbn [skip_blanks]. destruct (blank c) eqn:K.
  - exists (c :: b). split; [now constructor|]. cbn [app]. now rewrite <- E.
  - exists []. split; [constructor|reflexivity].
Qed.
Lemma strip_split l : exists b1 b2, all_blank b1 /\ all_blank b2 /\ l = b1 ++ strip_chars l ++ b2.
Proof.
  unfold strip_chars. destruct (skip_split l) as (b1 & H1 & E1). destruct (skip_split (rev (skip_blanks l))) as (b2 & H2 & E2).
  exists b1, (rev b2). split; [exact H1|]. split; [now apply Forall_rev|]. rewrite E1 at 1. f_equal. rewrite <- (rev_involutive (skip_blanks l)) at 1. rewrite E2 at 1. apply rev_app_distr.
Qed.
Lemma text_back s l : list_ascii_of_string s = l -> s = text l.
Proof. intros <-. symmetry. apply string_of_list_ascii_of_string. Qed.
Lemma grouped_unblank g gs : group g -> Forall group gs -> unblank (grouped g gs).
Proof.
  assert (U : forall h, group h -> unblank (map dig h)).
  { intros h [_ H]. unfold unblank. rewrite Forall_map. eapply Forall_impl; [|exact H]. intros d Hd. apply (dig_facts d Hd). }
  intros H1 H2. apply Forall_app. split; [now apply U|]. induction H2 as [|h gs Hh _ IH]; [constructor|]. cbn [flat_map]. apply Forall_app. split; [constructor; [reflexivity|now apply U]|exact IH].
Qed.
Theorem C79_int : forall s z, py_int s = Some z <-> written s z.
Proof.
  intros s z. split.
  - intros H. destruct (strip_split (list_ascii_of_string s)) as (b1 & b2 & H1 & H2 & E). unfold py_int in H.
    destruct (strip_chars (list_ascii_of_string s)) as [|c t]; [discriminate|].
    assert (W : forall sign g gs, (sign ++ grouped g gs)%list = c :: t -> In sign [[]; ["+"]; ["-"]]%char -> Forall (fun d => d < 10) g -> Forall group gs -> (false = false -> g <> []) ->
              written s (match sign with ["-"%char] => - valued (g ++ concat gs) | _ => valued (g ++ concat gs) end)%Z).
    { intros sign g gs E' HS HG HGS HN. exists b1, sign, g, gs, b2. rewrite E'. repeat split; try assumption; [now apply HN|now apply text_back]. }
    destruct (Nat.eqb_spec (nat_of_ascii c) 43) as [E3|N3].
    + assert (c = "+"%char) as -> by (rewrite <- (ascii_nat_embedding c), E3; reflexivity). apply digits_sound in H as (g & gs & -> & HG & HGS & HN & ->). apply (W ["+"%char] g gs); cbn; auto.
    + destruct (Nat.eqb_spec (nat_of_ascii c) 45) as [E5|N5].
      * assert (c = "-"%char) as -> by (rewrite <- (ascii_nat_embedding c), E5; reflexivity). destruct (digits t false 0) as [z'|] eqn:D; [|discriminate]. injection H as <-.
        apply digits_sound in D as (g & gs & -> & HG & HGS & HN & ->). apply (W ["-"%char] g gs); cbn; auto.
      * apply digits_sound in H as (g & gs & E' & HG & HGS & HN & ->). apply (W [] g gs); cbn; auto.
  - intros (b1 & sign & g & gs & b2 & H1 & H2 & HG & HGS & HS & -> & ->). unfold py_int. rewrite text_list, strip_core; [|assumption|assumption|].
    + assert (D : forall b, digits (grouped g gs) b 0 = Some (valued (g ++ concat gs))) by (intros b; now apply digits_complete).
      cbn [In] in HS. destruct HS as [<-|[<-|[<-|[]]]]; cbn [app].
      * rewrite <- (D false). destruct g as [|d g]; [destruct HG; congruence|]. destruct HG as [_ HG]. destruct (dig_facts d (Forall_inv HG)) as (_ & _ & K1 & K2). unfold grouped. cbn [map app]. apply Nat.eqb_neq in K1, K2. now rewrite K1, K2.
      * exact (D false).
      * change (nat_of_ascii "-") with 45. cbn [Nat.eqb]. rewrite D. reflexivity.
    + apply Forall_app. split; [|now apply grouped_unblank]. cbn [In] in HS. destruct HS as [<-|[<-|[<-|[]]]]; repeat constructor.
Qed.
Print Assumptions C79_int.

(** ** What every variable of the queue selects *)
Local Open Scope string_scope.
(** the variable of a merge, or the general one *)
Definition value_backend (e : env) (var : string) : string :=
  match e var with Some s => s | None => match e "XTRUCTURE_BGPQ_MERGE_VALUE_BACKEND" with Some s => s | None => "" end end.
Definition min_batch (e : env) (th : Z) : Prop :=
  match e "XTRUCTURE_BGPQ_MERGE_VALUE_AUTO_MIN_BATCH" with Some s => py_int s = Some th | None => th = 0%Z end.
(** the fused merge: on a GPU, when asked for, or when blocks are large enough *)
Definition wants_fused (p : platform) (e : env) (var : string) (B : nat) : Prop :=
  p = Gpu /\ (In (word (value_backend e var)) ["on"; "true"; "parallel"; "pallas"; "kv"; "kv_parallel"]%list \/
              (In (word (value_backend e var)) ["auto"; "kv_auto"]%list /\ exists th, min_batch e th /\ (0 < th <= Z.of_nat B)%Z)).
(** the parallel merge of keys and positions: when asked for, or on a GPU *)
Definition wants_parallel (p : platform) (e : env) : Prop :=
  match e "XTRUCTURE_BGPQ_MERGE_BACKEND" with Some s => In (lower s) ["parallel"; "pallas"]%list | None => p = Gpu end.
Definition wants_concat (e : env) : Prop := exists s, e "XTRUCTURE_BGPQ_VALUE_REORDER" = Some s /\ In (word s) ["concat"; "concat_gather"]%list.
(** the size of the kernel's blocks, if it is fixed *)
Definition wants_block (e : env) (o : option Z) : Prop :=
  match e "XTRUCTURE_BGPQ_MERGE_BLOCK_SIZE" with Some s => (word s = "auto" /\ o = None) \/ (word s <> "auto" /\ exists z, py_int s = Some z /\ (1 <= z)%Z /\ o = Some z) | None => o = None end.
Definition wants_packing (e : env) (pk : packing) : Prop :=
  match e "XTRUCTURE_BGPQ_MERGE_VALUE_PACKING" with
  | Some s => word s = match pk with PAuto => "auto" | PPad => "pad" | PScalar => "scalar" | PShard => "shard" end
  | None => pk = PAuto
  end.
Definition wants_scalar_max (e : env) (m : nat) : Prop :=
  match e "XTRUCTURE_BGPQ_MERGE_VALUE_SCALAR_MAX" with Some s => py_int s = Some (Z.of_nat m) /\ (1 <= m)%nat | None => m = 16 end.
Definition chosen (p : platform) (e : env) (var : string) (B : nat) (h : how) : Prop :=
  match h with
  | ByFused o pk m => wants_fused p e var B /\ wants_block e o /\ wants_packing e pk /\ wants_scalar_max e m
  | ByParallel o c => ~ wants_fused p e var B /\ wants_parallel p e /\ wants_block e o /\ (c = true <-> wants_concat e)
  | BySort c => ~ wants_fused p e var B /\ ~ wants_parallel p e /\ (c = true <-> wants_concat e)
  end.
Lemma in_no s l : one_of s l = false -> ~ In s l.
Proof. intros H K. apply one_of_in in K. congruence. Qed.
Lemma disjoint_words s l1 l2 : In s l1 -> In s l2 -> forallb (fun w => negb (one_of w l2)) l1 = true -> False.
Proof. intros H1 H2 H. rewrite forallb_forall in H. specialize (H s H1). apply one_of_in in H2. now rewrite H2 in H. Qed.
Lemma kv_spec p e var B b : use_kv e (value_backend e var) B = Some b -> (b && is_gpu p = true <-> wants_fused p e var B).
Proof.
  unfold use_kv, wants_fused. set (w := word (value_backend e var)). clearbody w. intros H.
  assert (GP : is_gpu p = true <-> p = Gpu) by (destruct p; split; (discriminate || reflexivity)). rewrite andb_true_iff, GP.
  destruct (one_of w [""; "off"; "0"; "false"; "none"]%list) eqn:E1.
  { injection H as <-. apply one_of_in in E1. split; [intros [? _]; discriminate|]. intros [_ [K|[K _]]]; exfalso; exact (disjoint_words _ _ _ E1 K eq_refl). }
  destruct (one_of w ["on"; "true"; "parallel"; "pallas"; "kv"; "kv_parallel"]%list) eqn:E2.
  { injection H as <-. apply one_of_in in E2. tauto. }
  destruct (one_of w ["auto"; "kv_auto"]%list) eqn:E3; [|discriminate]. apply in_no in E2. apply one_of_in in E3.
  destruct (py_int _) as [th|] eqn:ET; [|discriminate]. injection H as <-.
  assert (MB : forall t, min_batch e t <-> t = th).
  { intros t. unfold min_batch. unfold get in ET. destruct (e "XTRUCTURE_BGPQ_MERGE_VALUE_AUTO_MIN_BATCH") as [s|].
    - rewrite ET. split; [now intros [= ->]|now intros ->].
    - change (Some 0%Z = Some th) in ET. injection ET as <-. reflexivity. }
  rewrite andb_true_iff, Z.ltb_lt, Z.leb_le. split.
  - intros [K G]. split; [exact G|]. right. split; [exact E3|]. exists th. split; [now apply MB|exact K].
  - intros [G [K|(_ & t & K & L)]]; [contradiction|]. apply MB in K. subst t. auto.
Qed.
Lemma parallel_spec p e par : parallel_merge p e = Some par -> (par = true <-> wants_parallel p e).
Proof.
  unfold parallel_merge, wants_parallel, get. destruct (e "XTRUCTURE_BGPQ_MERGE_BACKEND") as [s|]; intros H.
  - destruct (one_of (lower s) ["sort"; "xla"]%list) eqn:E1.
    + injection H as <-. apply one_of_in in E1. split; [discriminate|]. intros K. exfalso. exact (disjoint_words _ _ _ E1 K eq_refl).
    + destruct (one_of (lower s) ["parallel"; "pallas"]%list) eqn:E2; [|discriminate]. injection H as <-. apply one_of_in in E2. tauto.
  - destruct p; injection H as <-; split; (discriminate || reflexivity).
Qed.
Lemma concat_spec e c : reorder_concat e = Some c -> (c = true <-> wants_concat e).
Proof.
  unfold reorder_concat, wants_concat, get. destruct (e "XTRUCTURE_BGPQ_VALUE_REORDER") as [s|]; intros H.
  - destruct (one_of (word s) ["concat"; "concat_gather"]%list) eqn:E1; [injection H as <-; apply one_of_in in E1; split; eauto|].
    destruct (one_of (word s) ["gather"; "direct"]%list); [|discriminate]. injection H as <-. apply in_no in E1. split; [discriminate|]. intros (s' & [= <-] & K). contradiction.
  - change (Some false = Some c) in H. injection H as <-. split; [discriminate|]. intros (s & K & _). discriminate.
Qed.
Lemma block_spec e o : kernel_env e = Some o -> wants_block e o.
Proof.
  intros H. apply kernel_override in H. unfold block_override in H. unfold wants_block. destruct (e "XTRUCTURE_BGPQ_MERGE_BLOCK_SIZE") as [s|]; [|congruence].
  destruct (String.eqb_spec (word s) "auto"); [left; split; congruence|]. destruct (at_least 1 (py_int s)) as [z|] eqn:E; [|discriminate]. injection H as <-. apply at_least_ge in E. right. split; [assumption|]. exists z. tauto.
Qed.
Lemma site_chosen p e var B sizes h : site p e var B sizes = Some h -> chosen p e var B h.
Proof.
  unfold site, bind. change (match e var with Some s => s | None => get e "XTRUCTURE_BGPQ_MERGE_VALUE_BACKEND" "" end) with (value_backend e var).
  destruct (parallel_merge p e) as [par|] eqn:P; [|discriminate]. apply parallel_spec in P.
  destruct (use_kv e (value_backend e var) B) as [kv|] eqn:K; [|discriminate]. apply (kv_spec p) in K.
  destruct (kv && is_gpu p).
  - destruct (value_packing e) as [pk|] eqn:V; [|discriminate]. destruct (scalar_max e) as [m|] eqn:M; [|discriminate]. destruct (kernel_env e) as [o|] eqn:O; [|discriminate].
    destruct (forallb _ _); [|discriminate]. intros [= <-]. cbn [chosen]. split; [now apply K|]. split; [now apply block_spec|]. split.
    + unfold value_packing, get in V. unfold wants_packing. destruct (e "XTRUCTURE_BGPQ_MERGE_VALUE_PACKING") as [s|]; [|change (Some PAuto = Some pk) in V; injection V as <-; reflexivity].
      set (w := word s) in *. clearbody w. destruct (String.eqb_spec w "auto"); [injection V as <-; assumption|]. destruct (String.eqb_spec w "pad"); [injection V as <-; assumption|].
      destruct (String.eqb_spec w "scalar"); [injection V as <-; assumption|]. destruct (String.eqb_spec w "shard"); [injection V as <-; assumption|discriminate].
    + unfold scalar_max, get in M. unfold wants_scalar_max. destruct (e "XTRUCTURE_BGPQ_MERGE_VALUE_SCALAR_MAX") as [s|].
      * apply at_least_ge in M as [M1 M2]. rewrite Z2Nat.id by lia. split; [exact M1|lia].
      * change (Some 16%Z = Some m) in M. injection M as <-. reflexivity.
  - assert (NF : ~ wants_fused p e var B) by (intros W; apply K in W; discriminate). destruct (reorder_concat e) as [c|] eqn:C; [|discriminate]. apply concat_spec in C.
    destruct (match sizes with []%list => negb c | _ => false end); [discriminate|]. destruct par.
    + destruct (kernel_env e) as [o|] eqn:O; [|discriminate]. destruct (is_gpu p); [|discriminate]. intros [= <-]. cbn [chosen]. split; [exact NF|]. split; [now apply P|]. split; [now apply block_spec|exact C].
    + intros [= <-]. cbn [chosen]. split; [exact NF|]. split; [|exact C]. intros W. apply P in W. discriminate.
Qed.
Theorem C79_back_ends : forall p e B sizes q, queue_settings p e B sizes = Some q ->
  chosen p e "XTRUCTURE_BGPQ_MERGE_VALUE_BACKEND_SORTSPLIT" B (q_split q) /\ chosen p e "XTRUCTURE_BGPQ_MERGE_VALUE_BACKEND_BUFFER" B (q_buffer q).
Proof.
  unfold queue_settings, bind. intros p e B sizes q H. destruct (site p e "XTRUCTURE_BGPQ_MERGE_VALUE_BACKEND_SORTSPLIT" B sizes) as [h1|] eqn:E1; [|discriminate].
  destruct (site p e "XTRUCTURE_BGPQ_MERGE_VALUE_BACKEND_BUFFER" B sizes) as [h2|] eqn:E2; [|discriminate]. injection H as <-. cbn [q_split q_buffer]. split; eapply site_chosen; eassumption.
Qed.
Print Assumptions C79_back_ends.
(** the automatic mode is off until a positive threshold is set, and includes it *)
Example C79_threshold :
  let auto := fun th n => if String.eqb n "XTRUCTURE_BGPQ_MERGE_VALUE_BACKEND" then Some "auto" else if String.eqb n "XTRUCTURE_BGPQ_MERGE_VALUE_AUTO_MIN_BATCH" then th else None in
  let fused_at th := option_map any_fused (queue_settings Gpu (auto th) 64 [3]%list) in
  fused_at None = Some false /\ fused_at (Some "0") = Some false /\ fused_at (Some "64") = Some true /\ fused_at (Some "6_5") = Some false /\ fused_at (Some "6__4") = None /\ fused_at (Some "_64") = None /\ fused_at (Some "64_") = None.
Proof. repeat split; reflexivity. Qed.

(** ** How the leaves of a value are cut for the fused kernel *)
Lemma land_pred k : Nat.land (2 ^ k) (2 ^ k - 1) = 0.
Proof. rewrite Nat.sub_1_r, <- Nat.ones_equiv, Nat.land_ones, Nat.mod_same; [reflexivity|]. apply Nat.pow_nonzero. lia. Qed.
Lemma is_pow2_spec n : is_pow2 n = true <-> exists k, n = 2 ^ k.
Proof.
  unfold is_pow2. rewrite andb_true_iff, Nat.ltb_lt, Nat.eqb_eq. split.
  - intros [HP HL]. exists (Nat.log2 n). pose proof (Nat.log2_spec n HP) as [H1 H2]. destruct (Nat.eq_dec n (2 ^ Nat.log2 n)) as [E|NE]; [exact E|exfalso].
    assert (T : Nat.testbit (Nat.land n (n - 1)) (Nat.log2 n) = true).
    { rewrite Nat.land_spec, Nat.bit_log2 by lia. cbn [andb]. replace (Nat.log2 n) with (Nat.log2 (n - 1)); [apply Nat.bit_log2; pose proof (Nat.pow_nonzero 2 (Nat.log2 n)); lia|].
      apply Nat.log2_unique; lia. }
    rewrite HL, Nat.bits_0 in T. discriminate.
  - intros [k ->]. split; [pose proof (Nat.pow_nonzero 2 k); lia|apply land_pred].
Qed.
(** "scalar": one array per entry; "shard": power-of-two arrays without padding; "pad":
    one array, padded to the next power of two; "auto": one array without padding when
    the size is a power of two, else shards up to the given size and padding above *)
Theorem C79_cut : forall m size,
  widths (layout_of PScalar m size) = repeat 1 size /\
  (list_sum (widths (layout_of PShard m size)) = size /\ forall w, In w (widths (layout_of PShard m size)) -> exists k, w = 2 ^ k) /\
  (exists k, widths (layout_of PPad m size) = [2 ^ k]%list /\ (size <= 2 ^ k)%nat /\ forall j, (size <= 2 ^ j -> 2 ^ k <= 2 ^ j)%nat) /\
  ((exists k, size = 2 ^ k) -> widths (layout_of PAuto m size) = [size]%list) /\
  (~ (exists k, size = 2 ^ k) -> layout_of PAuto m size = layout_of (if Nat.leb size m then PShard else PPad) m size).
Proof.
  intros m size. split; [reflexivity|]. split; [split; [apply shards_sum; lia|apply C79_packed_widths]|].
  destruct (next_pow2_spec size) as (k & EK & K1 & K2). split; [|split].
  - exists k. cbn [layout_of widths]. rewrite EK. auto.
  - intros [j HJ]. unfold layout_of. rewrite (proj2 (is_pow2_spec size)) by eauto. cbn [widths]. f_equal. rewrite EK. specialize (K2 j ltac:(lia)). lia.
  - intros HN. unfold layout_of at 1. destruct (is_pow2 size) eqn:E; [apply is_pow2_spec in E; contradiction|]. now destruct (Nat.leb size m).
Qed.
Print Assumptions C79_cut.
Example C79_cut_3_20 : widths (layout_of PAuto 16 3) = [2; 1]%list /\ widths (layout_of PAuto 16 20) = [32]%list /\ widths (layout_of PAuto 16 8) = [8]%list /\ widths (layout_of PShard 16 20) = [16; 4]%list.
Proof. repeat split; reflexivity. Qed.

(** ** Which form of the hash is computed *)
Theorem C79_stream : forall p e layout m, hash_settings p e layout = Some (Some m) ->
  match e "XTRUCTURE_HASH_STREAM" with Some s => word s | None => "auto" end = match m with Off => "off" | On => "on" | Auto _ => "auto" end /\
  (forall th, m = Auto th -> match e "XTRUCTURE_HASH_STREAM_THRESHOLD_U32" with Some s => py_int s = Some (Z.of_nat th) | None => Z.of_nat th = 8192%Z end).
Proof.
  intros p e layout m H. unfold hash_settings in H.
  assert (W : word (get e "XTRUCTURE_HASH_STREAM" "auto") = match e "XTRUCTURE_HASH_STREAM" with Some s => word s | None => "auto" end) by (unfold get; destruct (e "XTRUCTURE_HASH_STREAM"); reflexivity).
  rewrite W in H. set (w := match e "XTRUCTURE_HASH_STREAM" with Some s => word s | None => "auto" end) in *. clearbody w. clear W.
  destruct (negb _); [discriminate|]. destruct (one_of w ["off"; "on"; "auto"]%list) eqn:E; [|discriminate]. cbn [negb] in H. unfold bind in H.
  destruct (at_least 0 (py_int (get e "XTRUCTURE_HASH_STREAM_THRESHOLD_U32" "8192"))) as [th|] eqn:T; [|discriminate]. apply at_least_ge in T as [T1 T2].
  destruct (layout && _); [discriminate|]. injection H as <-. apply one_of_in in E.
  destruct (String.eqb_spec w "off"); [split; [assumption|discriminate]|]. destruct (String.eqb_spec w "on"); [split; [assumption|discriminate]|].
  split; [cbn [In] in E; intuition congruence|]. intros th' [= <-]. rewrite Z2Nat.id by exact T2. unfold get in T1. destruct (e "XTRUCTURE_HASH_STREAM_THRESHOLD_U32"); [exact T1|]. change (Some 8192%Z = Some th) in T1. congruence.
Qed.
Print Assumptions C79_stream.
