(** * PropSettings.v — C79: the settings read from environment variables change how the
      priority queue, the hash table and hashing work, not what they return. *)
From Coq Require Import String Ascii.
From Verif Require Import Jax KeyModel SortProofs HashModel MergeModel MergeProofs HeapModel HeapSpec PropHeap TieModel PropTies KvModel KvProofs QueueAgree DedupeModel EnvModel PropHash.
Local Open Scope list_scope.

(** ** The queue *)
Definition fused (h : how) : bool := match h with ByFused _ _ _ => true | _ => false end.
(** what reading the environment guarantees about a merge *)
Definition how_ok (sizes : list nat) (h : how) : Prop :=
  match h with
  | BySort _ => True
  | ByParallel o _ => forall z, o = Some z -> (1 <= z)%Z
  | ByFused o pk m => (forall z, o = Some z -> (1 <= z)%Z) /\ forallb layout_ok (map (layout_of pk m) sizes) = true
  end.
Lemma at_least_ge lo x z : at_least lo x = Some z -> x = Some z /\ (lo <= z)%Z.
Proof. unfold at_least, bind. destruct x as [y|]; [|discriminate]. destruct (Z.leb_spec lo y) as [H|H]; [|discriminate]. intros [= <-]. auto. Qed.
Lemma override_pos e o z : block_override e = Some o -> o = Some z -> (1 <= z)%Z.
Proof.
  unfold block_override. destruct (e _) as [s|]; [|intros [= <-]; discriminate]. destruct (String.eqb _ _); [intros [= <-]; discriminate|].
  destruct (at_least 1 (py_int s)) as [y|] eqn:E; [|discriminate]. intros [= <-] [= <-]. now apply at_least_ge in E.
Qed.
Lemma kernel_override e o : kernel_env e = Some o -> block_override e = Some o.
Proof.
  unfold kernel_env, bind. destruct (block_override e) as [b|]; [|discriminate]. destruct (unroll_max e); [|discriminate].
  destruct (int_env e "XTRUCTURE_BGPQ_MERGE_NUM_WARPS"); [|discriminate]. destruct (int_env e "XTRUCTURE_BGPQ_MERGE_NUM_STAGES"); [|discriminate]. now intros [= <-].
Qed.
Lemma site_ok p e var B sizes h : site p e var B sizes = Some h -> how_ok sizes h.
Proof.
  unfold site, bind. destruct (parallel_merge p e) as [par|]; [|discriminate]. destruct (use_kv e _ B) as [kv|]; [|discriminate]. destruct (kv && is_gpu p).
  - destruct (value_packing e) as [pk|]; [|discriminate]. destruct (scalar_max e) as [m|]; [|discriminate]. destruct (kernel_env e) as [o|] eqn:E; [|discriminate].
    destruct (forallb layout_ok _) eqn:F; [|discriminate]. intros [= <-]. split; [|exact F]. intros z. apply (override_pos e), kernel_override, E.
  - destruct (reorder_concat e) as [c|]; [|discriminate]. destruct (match sizes with [] => negb c | _ :: _ => false end); [discriminate|].
    destruct par; [|intros [= <-]; exact I]. destruct (kernel_env e) as [o|] eqn:E; [|discriminate]. destruct (is_gpu p); [|discriminate]. intros [= <-] z.
    apply (override_pos e), kernel_override, E.
Qed.
Lemma block_size_pos p o n : (forall z, o = Some z -> (1 <= z)%Z) -> 0 < block_size p o n.
Proof.
  intros H. unfold block_size. destruct o as [z|]; [specialize (H z eq_refl); lia|]. destruct (is_gpu p); [destruct (N.leb _ _)|]; lia.
Qed.

Section Queue.
Context {E : Type} (zero : E) (smin smax : key) (p : platform) (sizes : list nat).
Notation value := (list (list E)).
Notation row := (list (key * value)).

Lemma gather_pairs c (a b : row) :
  let s := merge_sort_idx (map fst a) (map fst b) in
  combine (map fst s) (gather c (map snd a) (map snd b) (map snd s)) = ssort (a ++ b).
Proof.
  intros s. pose proof (merge_sort_split_pairs ([] : value) (map fst a) (map snd a) (map fst b) (map snd b)) as H. rewrite !map_length in H. specialize (H eq_refl eq_refl).
  cbv zeta in H. rewrite !combine_fst_snd in H. unfold merge_sort_split in H. cbv zeta in H. fold s in H. rewrite !map_length in H.
  assert (G : gather c (map snd a) (map snd b) (map snd s) = gather_select [] (map snd a) (map snd b) (map snd s)).
  { unfold gather. destruct c; [|reflexivity]. symmetry. apply gather_select_concat. intros i Hi. unfold s, merge_sort_idx in Hi.
    assert (Hi2 : In i (map snd (combine (map fst a ++ map fst b) (seq 0 (length (map fst a) + length (map fst b)))))).
    { eapply Permutation_in; [|exact Hi]. apply Permutation_map, ssort_perm. }
    rewrite snd_combine in Hi2 by (rewrite app_length, seq_length; reflexivity). apply in_seq in Hi2. rewrite !map_length in *. lia. }
  rewrite G. set (k := map fst s) in *. set (v := gather_select [] (map snd a) (map snd b) (map snd s)) in *.
  injection H as H1 H2 H3 H4. set (n := length a) in *. set (r := ssort (a ++ b)) in *.
  assert (K : k = map fst r) by (rewrite <- (firstn_skipn n k), H1, H3, <- map_app, firstn_skipn; reflexivity).
  assert (W : v = map snd r) by (rewrite <- (firstn_skipn n v), H2, H4, <- map_app, firstn_skipn; reflexivity).
  rewrite K, W. apply combine_fst_snd.
Qed.
Lemma merge_by_whole h (a b : row) : how_ok sizes h -> sorted a -> sorted b ->
  Forall (fun x => fits sizes (snd x)) a -> Forall (fun x => fits sizes (snd x)) b ->
  (fused h = true -> a <> [] /\ b <> []) -> merge_by zero smin smax p sizes h a b = ssort (a ++ b).
Proof.
  intros HO Sa Sb Fa Fb HF. destruct h as [c|o c|o pk m]; cbn [merge_by].
  - apply gather_pairs.
  - rewrite (parallel_eq_sort (map fst a) (map fst b) (sorted_map_fst a Sa) (sorted_map_fst b Sb) smin smax _ (block_size_pos p o _ HO)). apply gather_pairs.
  - destruct HO as [HO HL]. destruct (HF eq_refl) as [Na Nb].
    rewrite (fused_whole zero smin smax (block_size p o (length a + length b)) pk m sizes (map fst a) (map snd a) (map fst b) (map snd b)).
    + now rewrite !combine_fst_snd.
    + exact (sorted_map_fst a Sa).
    + exact (sorted_map_fst b Sb).
    + now rewrite !map_length.
    + now rewrite !map_length.
    + rewrite map_length. destruct a; [congruence|cbn; lia].
    + rewrite map_length. destruct b; [congruence|cbn; lia].
    + now apply block_size_pos.
    + rewrite Forall_map. exact Fa.
    + rewrite Forall_map. exact Fb.
    + exact HL.
Qed.
End Queue.

(** An insertion of a full block of values of the class ([sizes] = the numbers of entries
    of its fields). *)
Definition takes {E : Type} (B : nat) (sizes : list nat) (o : op (list (list E))) : Prop :=
  match o with Ins block => length block = B /\ Forall (fun x => fits sizes (snd x)) block | Del => True end.
Lemma takes_op_ok {E} B sizes (o : op (list (list E))) : takes B sizes o <-> op_ok (fits sizes) B o.
Proof. destruct o; [|tauto]. unfold takes, op_ok, vals_ok. tauto. Qed.
(** does any merge move keys and values in one kernel? *)
Definition any_fused (q : queue_env) : bool := fused (q_split q) || fused (q_buffer q).

Section QueueTheorems.
Context {E : Type} (zero : E) (smin smax : key) (p : platform) (sizes : list nat).
Notation value := (list (list E)).
Notation row := (list (key * value)).
Lemma call_agrees e B q (unstable : row -> row) o : 1 <= B -> queue_settings p e B sizes = Some q -> (B = 1 -> any_fused q = false) ->
  (q_stable q = false -> forall r, Permutation (unstable r) r /\ sorted (unstable r)) ->
  agrees (fits sizes) B (fst (call_with zero smin smax p sizes unstable q o)).
Proof.
  intros HB HQ HF HU. unfold queue_settings, bind in HQ.
  destruct (site p e "XTRUCTURE_BGPQ_MERGE_VALUE_BACKEND_SORTSPLIT" B sizes) as [sp|] eqn:E1; [|discriminate].
  destruct (site p e "XTRUCTURE_BGPQ_MERGE_VALUE_BACKEND_BUFFER" B sizes) as [bu|] eqn:E2; [|discriminate]. injection HQ as <-.
  apply site_ok in E1, E2. unfold any_fused in HF. cbn [q_stable q_split q_buffer] in *. unfold call_with. cbn [fst]. split; cbn [blk_sort merge_at].
  - intros r. cbn [q_stable]. destruct (sort_stable e); [split; [apply ssort_perm|apply ssort_sorted]|exact (HU eq_refl r)].
  - intros s a b n (La & Sa & Va) (Lb & Sb & Vb) Hn. unfold vals_ok in Va, Vb. cbn [q_split q_buffer].
    set (h := match o with Ins _ => if Nat.eqb s 1 then bu else sp | Del => sp end).
    assert (HH : how_ok sizes h /\ (B = 1 -> fused h = false)).
    { unfold h. destruct o; [destruct (Nat.eqb s 1)|]; (split; [assumption|]); intros K; apply HF in K; apply orb_false_elim in K; tauto. }
    apply merge_by_whole; try assumption; [apply HH|]. intros K. destruct (Nat.eq_dec B 1) as [Y|Y]; [rewrite (proj2 HH Y) in K; discriminate|].
    split; intros ->; cbn [length] in *; lia.
Qed.

(** C79: every accepted environment with a stable sort gives, call by call, the results
    and the queue of the default environment: the merge backend, the way values are
    moved, cut and padded, the sizes of kernel blocks and the unrolling do not matter. *)
Theorem C79_queue : forall e B q unstable total (dv : value) ops,
  queue_settings p e B sizes = Some q -> q_stable q = true -> (B = 1 -> any_fused q = false) ->
  params_ok total B -> fits sizes dv -> Forall (takes B sizes) ops ->
  trun (build dv total B) (map (call_with zero smin smax p sizes unstable q) ops) = run (build dv total B) ops.
Proof.
  intros e B q unstable total dv ops HQ HS HF (HB & HT & _) HD HO.
  rewrite (run_agree (fits sizes) B).
  - rewrite <- (proj2 (C68_stable_queue_is_an_instance _)), map_map. f_equal. apply map_ext. intros o. cbn [call_with fst snd blk_sort]. unfold call_with. rewrite HS. reflexivity.
  - lia.
  - apply build_ok; [lia|lia|exact HD].
  - rewrite Forall_map. eapply Forall_impl; [|exact HO]. intros o Ho. split; [|now apply takes_op_ok].
    apply (call_agrees e); try assumption. congruence.
Qed.

(** C79: with an unstable sort — whatever it does to equal keys — every call returns the
    same keys and the same sizes as in the default environment. *)
Theorem C79_queue_unstable : forall e B q unstable total (dv : value) ops,
  queue_settings p e B sizes = Some q -> (forall r, Permutation (unstable r) r /\ sorted (unstable r)) -> (B = 1 -> any_fused q = false) ->
  params_ok total B -> fits sizes dv -> Forall (takes B sizes) ops -> Forall (legal B) ops ->
  exists h1 obs1 h2 obs2,
    trun (build dv total B) (map (call_with zero smin smax p sizes unstable q) ops) = Some (h1, obs1) /\
    run (build dv total B) ops = Some (h2, obs2) /\
    map key_obs obs1 = map key_obs obs2 /\ map (map fst) (rows h1) = map (map fst) (rows h2) /\ map fst (buf h1) = map fst (buf h2).
Proof.
  intros e B q unstable total dv ops HQ HU HF HP HD HO HL. pose proof HP as (HB & HT & _).
  rewrite (run_agree (fits sizes) B); [|lia|apply build_ok; [lia|lia|exact HD]|].
  2:{ rewrite Forall_map. eapply Forall_impl; [|exact HO]. intros o Ho. split; [|now apply takes_op_ok]. apply (call_agrees e); try assumption. intros _. exact HU. }
  rewrite <- (proj2 (C68_stable_queue_is_an_instance _)), map_map.
  assert (HR : lawful (ref (if q_stable q then ssort else unstable))).
  { split; cbn [blk_sort merge_at ref].
    - intros r. destruct (q_stable q); [split; [apply ssort_perm|apply ssort_sorted]|apply HU].
    - intros s a b _ _. split; [apply ssort_perm|apply ssort_sorted]. }
  destruct (C68_keys_do_not_depend_on_ties_or_values value value total B dv dv
    (map (fun o => (ref (if q_stable q then ssort else unstable), o)) ops) (map (fun o => (stable_impl, o)) ops)) as (h1 & o1 & h2 & o2 & A1 & A2 & A3 & A4 & A5 & _).
  - exact HP.
  - rewrite Forall_map. eapply Forall_impl; [|exact HL]. intros o Ho. split; [exact HR|exact Ho].
  - rewrite Forall_map. eapply Forall_impl; [|exact HL]. intros o Ho. split; [apply C68_stable_queue_is_an_instance|exact Ho].
  - rewrite !map_map. reflexivity.
  - exists h1, o1, h2, o2. split; [|auto]. rewrite <- A1. reflexivity.
Qed.
End QueueTheorems.
Print Assumptions C79_queue.
Print Assumptions C79_queue_unstable.

(** ** What is accepted *)
Local Open Scope string_scope.
Definition word_in (e : env) (v : string) (ws : list string) : Prop := forall s, e v = Some s -> In (word s) ws.
(** a variable read without removing blanks *)
Definition raw_in (e : env) (v : string) (ws : list string) : Prop := forall s, e v = Some s -> In (lower s) ws.
Definition number (e : env) (v : string) (lo : Z) : Prop := forall s, e v = Some s -> exists z, py_int s = Some z /\ (lo <= z)%Z.
Definition auto_or_number (e : env) (v : string) : Prop :=
  forall s, e v = Some s -> In (word s) [""; "none"; "auto"]%list \/ exists z, py_int (word s) = Some z /\ (1 <= z)%Z.
Definition backend_words : list string := ["sort"; "xla"; "parallel"; "pallas"]%list.
Definition value_words : list string := [""; "off"; "0"; "false"; "none"; "on"; "true"; "parallel"; "pallas"; "kv"; "kv_parallel"; "auto"; "kv_auto"]%list.
Definition queue_env_ok (e : env) : Prop :=
  raw_in e "XTRUCTURE_BGPQ_MERGE_BACKEND" backend_words /\
  word_in e "XTRUCTURE_BGPQ_MERGE_VALUE_BACKEND" value_words /\
  word_in e "XTRUCTURE_BGPQ_MERGE_VALUE_BACKEND_SORTSPLIT" value_words /\
  word_in e "XTRUCTURE_BGPQ_MERGE_VALUE_BACKEND_BUFFER" value_words /\
  (forall s, e "XTRUCTURE_BGPQ_MERGE_VALUE_AUTO_MIN_BATCH" = Some s -> exists z, py_int s = Some z) /\
  word_in e "XTRUCTURE_BGPQ_MERGE_VALUE_PACKING" ["auto"; "pad"; "scalar"; "shard"]%list /\
  number e "XTRUCTURE_BGPQ_MERGE_VALUE_SCALAR_MAX" 1 /\
  (forall s, e "XTRUCTURE_BGPQ_MERGE_BLOCK_SIZE" = Some s -> word s = "auto" \/ exists z, py_int s = Some z /\ (1 <= z)%Z) /\
  number e "XTRUCTURE_BGPQ_MERGE_UNROLL_MAX" 0 /\
  auto_or_number e "XTRUCTURE_BGPQ_MERGE_NUM_WARPS" /\ auto_or_number e "XTRUCTURE_BGPQ_MERGE_NUM_STAGES" /\
  word_in e "XTRUCTURE_BGPQ_VALUE_REORDER" ["concat"; "concat_gather"; "gather"; "direct"]%list.
Lemma one_of_in s l : one_of s l = true <-> In s l.
Proof.
  unfold one_of. rewrite existsb_exists. split.
  - intros (x & Hx & Ex). apply String.eqb_eq in Ex. now subst x.
  - intros H. exists s. split; [exact H|apply String.eqb_refl].
Qed.
Lemma at_least_some lo z : (lo <= z)%Z -> at_least lo (Some z) = Some z.
Proof. intros H. unfold at_least, bind. destruct (Z.leb_spec lo z); [reflexivity|lia]. Qed.
Ltac enum H := cbn [In] in H; repeat (destruct H as [H|H]; [try rewrite <- H|]); [..|destruct H].
Lemma number_read e v lo d : number e v lo -> (exists z, py_int d = Some z /\ (lo <= z)%Z) -> exists z, at_least lo (py_int (get e v d)) = Some z.
Proof. intros H HD. unfold get. destruct (e v) as [s|] eqn:E; [destruct (H s E) as (z & -> & Hz)|destruct HD as (z & -> & Hz)]; exists z; now apply at_least_some. Qed.
Lemma auto_read e v : auto_or_number e v -> exists o, int_env e v = Some o.
Proof.
  intros H. unfold int_env. destruct (e v) as [s|] eqn:E; [|eauto]. destruct (H s E) as [K|(z & K & Hz)].
  - apply one_of_in in K. rewrite K. eauto.
  - destruct (one_of _ _); [eauto|]. rewrite K, at_least_some by exact Hz. cbn. eauto.
Qed.
Lemma kernel_read e : queue_env_ok e -> exists o, kernel_env e = Some o.
Proof.
  intros (_ & _ & _ & _ & _ & _ & _ & HB & HU & HW & HS & _). unfold kernel_env, bind.
  assert (exists o, block_override e = Some o) as [o ->].
  { unfold block_override. destruct (e _) as [s|] eqn:E; [|eauto]. destruct (HB s eq_refl) as [->|(z & -> & Hz)]; [cbn; eauto|]. destruct (String.eqb _ _); [eauto|]. rewrite at_least_some by exact Hz. cbn. eauto. }
  destruct (number_read e _ 0 "32" HU) as [u EU]; [exists 32%Z; split; [reflexivity|lia]|]. unfold unroll_max. rewrite EU.
  destruct (auto_read _ _ HW) as [x ->]. destruct (auto_read _ _ HS) as [y ->]. eauto.
Qed.
Lemma kv_read e s B : queue_env_ok e -> In (word s) value_words -> exists b, use_kv e s B = Some b.
Proof.
  intros (_ & _ & _ & _ & HA & _) H. unfold use_kv, value_words in *. set (w := word s) in *. clearbody w.
  assert (exists z, py_int (get e "XTRUCTURE_BGPQ_MERGE_VALUE_AUTO_MIN_BATCH" "0") = Some z) as [z EZ].
  { unfold get. destruct (e _) as [t|] eqn:E; [exact (HA t eq_refl)|exists 0%Z; reflexivity]. }
  rewrite EZ. cbn [option_map]. enum H; cbn; eauto.
Qed.
Lemma positive_layouts pk m sizes : (pk <> PPad -> Forall (fun n => 1 <= n) sizes) -> forallb layout_ok (map (layout_of pk m) sizes) = true.
Proof.
  intros H. apply forallb_forall. intros l Hl. apply in_map_iff in Hl as (n & <- & Hn).
  assert (K : pk = PPad \/ 1 <= n). { destruct pk; [right|now left|right|right]; (assert (H2 : Forall (fun n => 1 <= n) sizes) by (apply H; discriminate)); rewrite Forall_forall in H2; now apply H2. }
  destruct K as [->|K]; [reflexivity|]. destruct n as [|n]; [lia|].
  assert (S1 : exists w ws, shards (S n) (S n) = (w :: ws)%list) by (cbn [shards Nat.eqb]; eauto). destruct S1 as (w & ws & S1).
  unfold layout_of. destruct pk; [destruct (is_pow2 (S n)); [|destruct (S n <=? m)%nat]|..]; rewrite ?S1; reflexivity.
Qed.

(** C79: an environment in which every variable is unset or has one of the listed forms
    is accepted for every class with at least one field, none of them empty, unless the
    parallel merge was asked for on a machine without GPU. *)
Theorem C79_queue_accepted : forall p e B sizes, queue_env_ok e -> sizes <> [] -> Forall (fun n => 1 <= n) sizes ->
  (p = Gpu \/ (forall s, e "XTRUCTURE_BGPQ_MERGE_BACKEND" = Some s -> In (lower s) ["sort"; "xla"]%list)) ->
  exists q, queue_settings p e B sizes = Some q.
Proof.
  intros p e B sizes HE HN HS HP.
  assert (S1 : forall var, word_in e var value_words -> exists h, site p e var B sizes = Some h).
  { intros var HV. unfold site. 
    assert (PM : exists par, parallel_merge p e = Some par /\ (par = true -> p = Gpu)).
    { unfold parallel_merge, get. destruct (e "XTRUCTURE_BGPQ_MERGE_BACKEND") as [s|] eqn:EB.
      - destruct HP as [->|HP].
        + pose proof (proj1 HE s EB) as K. unfold backend_words in K. set (w := lower s) in *. clearbody w. enum K; cbn; eauto.
        + specialize (HP s eq_refl). set (w := lower s) in *. clearbody w. enum HP; cbn; eauto; (exists false; split; [reflexivity|discriminate]).
      - destruct p; [exists false; split; [reflexivity|discriminate]|exists true; split; reflexivity|exists false; split; [reflexivity|discriminate]]. }
    destruct PM as (par & -> & Hpar). cbn [bind].
    set (s := match e var with Some s => s | None => get e "XTRUCTURE_BGPQ_MERGE_VALUE_BACKEND" "" end).
    assert (KS : In (word s) value_words).
    { unfold s. destruct (e var) as [t|] eqn:EV; [exact (HV t EV)|]. unfold get. destruct (e "XTRUCTURE_BGPQ_MERGE_VALUE_BACKEND") as [t|] eqn:EW; [exact (proj1 (proj2 HE) t EW)|].
      unfold value_words. left. reflexivity. }
    destruct (kv_read e s B HE KS) as [kv ->]. cbn [bind]. destruct (kernel_read e HE) as [o HO].
    destruct (kv && is_gpu p).
    - assert (exists pk, value_packing e = Some pk) as [pk ->].
      { unfold value_packing, get. destruct HE as (_ & _ & _ & _ & _ & HK & _). destruct (e "XTRUCTURE_BGPQ_MERGE_VALUE_PACKING") as [t|] eqn:EV; [|exists PAuto; reflexivity].
        specialize (HK t EV). set (w := word t) in *. clearbody w. enum HK; cbn; eauto. }
      cbn [bind]. destruct HE as (_ & _ & _ & _ & _ & _ & HM & _). destruct (number_read e _ 1 "16" HM) as [m EM]; [exists 16%Z; split; [reflexivity|lia]|]. unfold scalar_max. rewrite EM. cbn [bind].
      rewrite HO. cbn [bind]. rewrite positive_layouts by (intros _; exact HS). eauto.
    - assert (exists c, reorder_concat e = Some c) as [c ->].
      { unfold reorder_concat, get. destruct HE as (_ & _ & _ & _ & _ & _ & _ & _ & _ & _ & _ & HR). destruct (e "XTRUCTURE_BGPQ_VALUE_REORDER") as [t|] eqn:EV; [|exists false; reflexivity].
        specialize (HR t EV). set (w := word t) in *. clearbody w. enum HR; cbn; eauto. }
      cbn [bind]. destruct sizes as [|n sizes]; [congruence|]. destruct par; [|eauto]. rewrite HO. cbn [bind]. rewrite (Hpar eq_refl). cbn [is_gpu]. eauto. }
  unfold queue_settings. destruct (S1 _ (proj1 (proj2 (proj2 HE)))) as [h1 ->]. destruct (S1 _ (proj1 (proj2 (proj2 (proj2 HE))))) as [h2 ->]. cbn [bind]. eauto.
Qed.
Print Assumptions C79_queue_accepted.

(** ... and the unset environment is the default: stable sort, sorting merge on CPU and
    TPU, parallel index merge on GPU. *)
Theorem C79_queue_default : forall p B sizes, sizes <> [] ->
  queue_settings p (fun _ => None) B sizes =
    Some {| q_stable := true; q_split := if is_gpu p then ByParallel None false else BySort false; q_buffer := if is_gpu p then ByParallel None false else BySort false |}.
Proof. intros p B sizes HN. destruct sizes; [congruence|]. destruct p; reflexivity. Qed.
Print Assumptions C79_queue_default.

(** C79: what is not one of these words is refused, however it would be used. *)
Theorem C79_queue_refused : forall p e B sizes,
  ((exists s, e "XTRUCTURE_BGPQ_MERGE_BACKEND" = Some s /\ ~ In (lower s) backend_words) \/
   (exists v s, In v ["XTRUCTURE_BGPQ_MERGE_VALUE_BACKEND_SORTSPLIT"; "XTRUCTURE_BGPQ_MERGE_VALUE_BACKEND_BUFFER"]%list /\ e v = Some s /\ ~ In (word s) value_words)) ->
  queue_settings p e B sizes = None.
Proof.
  assert (NI : forall s l1 l2, ~ In s (l1 ++ l2)%list -> one_of s l1 = false /\ one_of s l2 = false).
  { intros s l1 l2 H. split; (destruct (one_of s _) eqn:K; [|reflexivity]); apply one_of_in in K; exfalso; apply H, in_or_app; auto. }
  intros p e B sizes [(s & Es & Hs)|(v & s & Hv & Es & Hs)].
  - unfold queue_settings, site, parallel_merge, get. rewrite Es. destruct (NI (lower s) ["sort"; "xla"]%list ["parallel"; "pallas"]%list Hs) as [-> ->]. reflexivity.
  - assert (S1 : site p e v B sizes = None).
    { unfold site, use_kv. rewrite Es. destruct (parallel_merge p e); [|reflexivity]. cbn [bind].
      destruct (NI (word s) [""; "off"; "0"; "false"; "none"]%list ["on"; "true"; "parallel"; "pallas"; "kv"; "kv_parallel"; "auto"; "kv_auto"]%list Hs) as [-> H2].
      destruct (NI (word s) ["on"; "true"; "parallel"; "pallas"; "kv"; "kv_parallel"]%list ["auto"; "kv_auto"]%list) as [-> ->]; [|reflexivity].
      intros K. apply one_of_in in K. cbn [app] in K. congruence. }
    unfold queue_settings. cbn [In] in Hv. destruct Hv as [<-|[<-|[]]]; rewrite S1; [reflexivity|].
    destruct (site p e "XTRUCTURE_BGPQ_MERGE_VALUE_BACKEND_SORTSPLIT" B sizes); reflexivity.
Qed.
Print Assumptions C79_queue_refused.

(** ** How words and numbers are read *)
Local Open Scope list_scope.
Definition text (l : list ascii) : string := string_of_list_ascii l.
Definition unblank (l : list ascii) : Prop := Forall (fun c => blank c = false) l.
Definition all_blank (l : list ascii) : Prop := Forall (fun c => blank c = true) l.
Lemma text_list l : list_ascii_of_string (text l) = l. Proof. apply list_ascii_of_string_of_list_ascii. Qed.
Lemma skip_pad b l : all_blank b -> skip_blanks (b ++ l) = skip_blanks l.
Proof. induction 1 as [|c b Hc _ IH]; [reflexivity|]. cbn [app skip_blanks]. now rewrite Hc. Qed.
Lemma skip_core l r : unblank l -> l <> [] -> skip_blanks (l ++ r) = l ++ r.
Proof. destruct 1 as [|c l Hc _]; [congruence|]. intros _. cbn [app skip_blanks]. now rewrite Hc. Qed.
Lemma strip_core b1 l b2 : all_blank b1 -> all_blank b2 -> unblank l -> strip_chars (b1 ++ l ++ b2) = l.
Proof.
  intros H1 H2 HL. unfold strip_chars. rewrite skip_pad by exact H1. destruct l as [|c l].
  - cbn [app]. rewrite <- (app_nil_r b2), skip_pad by exact H2. reflexivity.
  - rewrite skip_core by (assumption || discriminate). rewrite rev_app_distr, skip_pad by (now apply Forall_rev).
    rewrite <- (app_nil_r (rev (c :: l))), skip_core; [now rewrite app_nil_r, rev_involutive|now apply Forall_rev|]. intros K. apply (f_equal (@length _)) in K. rewrite rev_length in K. discriminate.
Qed.
(** C79: blanks around a word and the case of its letters do not matter ... *)
Definition upper_char (c : ascii) : ascii := let n := nat_of_ascii c in if ((97 <=? n) && (n <=? 122))%nat then ascii_of_nat (n - 32) else c.
Lemma lower_upper c : lower_char (upper_char c) = lower_char c.
Proof. destruct c as [[] [] [] [] [] [] [] []]; reflexivity. Qed.
Theorem C79_words : forall b1 w b2, all_blank b1 -> all_blank b2 -> unblank w ->
  word (text (b1 ++ w ++ b2)) = lower (text w) /\ lower (text (map upper_char w)) = lower (text w).
Proof.
  intros b1 w b2 H1 H2 HW. split.
  - unfold word, strip. rewrite text_list, strip_core by assumption. reflexivity.
  - unfold lower. rewrite !text_list, map_map. f_equal. apply map_ext. apply lower_upper.
Qed.
Print Assumptions C79_words.
(** ... and a number is read in decimal *)
Definition dig (d : nat) : ascii := ascii_of_nat (48 + d).
Definition valued (ds : list nat) : Z := fold_left (fun a d => 10 * a + Z.of_nat d)%Z ds 0%Z.
Lemma dig_facts d : d < 10 -> digit (dig d) = Some (Z.of_nat d) /\ blank (dig d) = false /\ nat_of_ascii (dig d) <> 43 /\ nat_of_ascii (dig d) <> 45.
Proof. intros H. do 10 (destruct d as [|d]; [repeat split; try reflexivity; cbn; discriminate|]). lia. Qed.
Lemma digits_valued ds : Forall (fun d => d < 10) ds -> forall b a, (b = true \/ ds <> []) -> digits (map dig ds) b a = Some (fold_left (fun a d => 10 * a + Z.of_nat d)%Z ds a).
Proof.
  induction 1 as [|d ds Hd _ IH]; intros b a HB; [destruct HB as [->|HB]; [reflexivity|congruence]|].
  cbn [map digits fold_left]. rewrite (proj1 (dig_facts d Hd)). apply IH. now left.
Qed.
Theorem C79_numbers : forall b1 ds b2, all_blank b1 -> all_blank b2 -> ds <> [] -> Forall (fun d => d < 10) ds ->
  py_int (text (b1 ++ map dig ds ++ b2)) = Some (valued ds) /\
  py_int (text (b1 ++ ("-"%char :: map dig ds) ++ b2)) = Some (- valued ds)%Z.
Proof.
  intros b1 ds b2 H1 H2 HN HD.
  assert (HU : unblank (map dig ds)) by (unfold unblank; rewrite Forall_map; eapply Forall_impl; [|exact HD]; intros d Hd; apply (dig_facts d Hd)).
  unfold py_int. rewrite !text_list. split.
  - rewrite strip_core by assumption. destruct ds as [|d ds]; [congruence|]. cbn [map]. inversion HD as [|? ? Hd HD']; subst.
    destruct (dig_facts d Hd) as (_ & _ & K1 & K2). apply Nat.eqb_neq in K1, K2. rewrite K1, K2.
    change (dig d :: map dig ds) with (map dig (d :: ds)). apply digits_valued; [exact HD|now right].
  - rewrite strip_core; [|assumption|assumption|constructor; [reflexivity|exact HU]]. cbn [nat_of_ascii]. change (nat_of_ascii "-") with 45. cbn [Nat.eqb].
    rewrite digits_valued by (exact HD || now right). reflexivity.
Qed.
Print Assumptions C79_numbers.

(** C79: the sort is unstable exactly for these three spellings ... *)
Local Open Scope string_scope.
Theorem C79_sort_stable : forall e,
  sort_stable e = false <-> exists s, e "XTRUCTURE_BGPQ_SORT_STABLE" = Some s /\ In (lower s) ["0"; "false"; "off"]%list.
Proof.
  intros e. unfold sort_stable, get. rewrite negb_false_iff, one_of_in. destruct (e _) as [s|]; split; intros H; [eauto|destruct H as (s' & [= ->] & H); exact H| |destruct H as (s' & H & _); discriminate].
  exfalso. cbv in H. repeat (destruct H as [H|H]; [discriminate|]). exact H.
Qed.
Print Assumptions C79_sort_stable.
Definition set1 (v x : string) : env := fun n => if String.eqb n v then Some x else None.
(** ... so that asking with "no", "n" or a blank too many is silently ignored, although
    the table's switches take "no" and blanks; a blank too many in the merge backend is
    an error, as is "1" for the value backend, which takes "0" *)
Theorem C79_spelling_traps :
  (forall s, In s ["no"; "n"; " false"; "false "]%list -> sort_stable (set1 "XTRUCTURE_BGPQ_SORT_STABLE" s) = true) /\
  bool_env (set1 "X" "no") "X" true = Some false /\ bool_env (set1 "X" " False ") "X" true = Some false /\
  (forall p B sizes, queue_settings p (set1 "XTRUCTURE_BGPQ_MERGE_BACKEND" " sort") B sizes = None) /\
  (forall p B sizes, queue_settings p (set1 "XTRUCTURE_BGPQ_MERGE_VALUE_BACKEND" "1") B sizes = None) /\
  (forall p B sizes, sizes <> []%list -> queue_settings p (set1 "XTRUCTURE_BGPQ_MERGE_VALUE_BACKEND" "0") B sizes = queue_settings p (fun _ => None) B sizes).
Proof.
  split; [|split; [reflexivity|split; [reflexivity|split; [|split]]]].
  - intros s Hs. enum Hs; reflexivity.
  - intros [] B sizes; reflexivity.
  - intros [] B sizes; reflexivity.
  - intros p B sizes HN. destruct sizes; [congruence|]. destruct p; reflexivity.
Qed.
Print Assumptions C79_spelling_traps.

(** C79: every array given to the fused kernel has a power of two entries per row,
    whatever the shapes and the packing ... *)
Theorem C79_packed_widths : forall pk m size w, In w (widths (layout_of pk m size)) -> exists k, w = 2 ^ k.
Proof.
  intros pk m size w H.
  assert (P1 : In w [next_pow2 size]%list -> exists k, w = 2 ^ k) by (intros [<-|[]]; destruct (next_pow2_spec size) as (k & -> & _); eauto).
  unfold layout_of in H. destruct pk; cbn [widths] in H.
  - destruct (is_pow2 size); [exact (P1 H)|]. destruct (size <=? m)%nat; [exact (shards_pow _ _ _ H)|exact (P1 H)].
  - exact (P1 H).
  - apply repeat_spec in H. subst w. exists 0. reflexivity.
  - exact (shards_pow _ _ _ H).
Qed.
Print Assumptions C79_packed_widths.
(** ... but a class with an empty field can not be merged that way unless padding is
    asked for, though every other setting takes it *)
Theorem C79_empty_field_traps : forall B,
  let on := set1 "XTRUCTURE_BGPQ_MERGE_VALUE_BACKEND" "on" in
  let pad := fun n => if String.eqb n "XTRUCTURE_BGPQ_MERGE_VALUE_PACKING" then Some "pad" else on n in
  queue_settings Gpu on B [3; 0]%list = None /\ (exists q, queue_settings Gpu pad B [3; 0]%list = Some q) /\
  (exists q, queue_settings Gpu (fun _ => None) B [3; 0]%list = Some q) /\ (exists q, queue_settings Cpu on B [3; 0]%list = Some q).
Proof. intros B on pad. split; [reflexivity|]. split; [eexists; reflexivity|]. split; eexists; reflexivity. Qed.
Print Assumptions C79_empty_field_traps.

(** ** Hashing *)
(** C79: accepted settings that do not hash the packed form give one hash. *)
Theorem C79_hash : forall p1 p2 e1 e2 l1 l2 m1 m2 (words : list (list N)) seed,
  hash_settings p1 e1 l1 = Some (Some m1) -> hash_settings p2 e2 l2 = Some (Some m2) -> concat words <> []%list ->
  hash_mode m1 words seed = hash_mode m2 words seed /\ hash_pair_mode m1 words seed = hash_pair_mode m2 words seed.
Proof. intros. now apply C17_modes_agree. Qed.
(** C79: the packed form is hashed exactly when asked for: "packed", or "auto" on a TPU,
    for a class with such a form; all three variables are checked first. *)
Theorem C79_hash_settings : forall p e layout,
  (hash_settings p e layout = Some None <->
     layout = true /\ (exists s, e "XTRUCTURE_HASH_AGG_MODE" = Some s /\ (word s = "packed" \/ (word s = "auto" /\ p = Tpu))) /\
     word_in e "XTRUCTURE_HASH_STREAM" ["off"; "on"; "auto"]%list /\ number e "XTRUCTURE_HASH_STREAM_THRESHOLD_U32" 0) /\
  (hash_settings p e layout <> None <->
     word_in e "XTRUCTURE_HASH_AGG_MODE" ["raw"; "packed"; "auto"]%list /\
     word_in e "XTRUCTURE_HASH_STREAM" ["off"; "on"; "auto"]%list /\ number e "XTRUCTURE_HASH_STREAM_THRESHOLD_U32" 0).
Proof.
  intros p e layout.
  assert (NUM : number e "XTRUCTURE_HASH_STREAM_THRESHOLD_U32" 0 <-> exists z, at_least 0 (py_int (get e "XTRUCTURE_HASH_STREAM_THRESHOLD_U32" "8192")) = Some z).
  { split; [intros H; apply number_read; [exact H|exists 8192%Z; split; [reflexivity|lia]]|]. intros [z Hz] s Es. unfold get in Hz. rewrite Es in Hz. apply at_least_ge in Hz. eauto. }
  assert (WRD : forall v d ws, In (word d) ws -> (one_of (word (get e v d)) ws = true <-> word_in e v ws)).
  { intros v d ws Hd. rewrite one_of_in. unfold get, word_in. destruct (e v) as [s|]; split; intros H; [intros s' [= <-]; exact H|exact (H s eq_refl)|discriminate|exact Hd]. }
  pose proof (WRD "XTRUCTURE_HASH_AGG_MODE" "raw" ["raw"; "packed"; "auto"]%list (or_introl eq_refl)) as W1.
  pose proof (WRD "XTRUCTURE_HASH_STREAM" "auto" ["off"; "on"; "auto"]%list (or_intror (or_intror (or_introl eq_refl)))) as W2.
  unfold hash_settings. set (agg := word (get e "XTRUCTURE_HASH_AGG_MODE" "raw")) in *. set (st := word (get e "XTRUCTURE_HASH_STREAM" "auto")) in *.
  assert (PK : layout && (String.eqb agg "packed" || (String.eqb agg "auto" && is_tpu p)) = true <->
               layout = true /\ exists s, e "XTRUCTURE_HASH_AGG_MODE" = Some s /\ (word s = "packed" \/ (word s = "auto" /\ p = Tpu))).
  { rewrite andb_true_iff, orb_true_iff, andb_true_iff, !String.eqb_eq. unfold agg, get. destruct (e "XTRUCTURE_HASH_AGG_MODE") as [s|].
    - split; intros [H1 H2]; (split; [exact H1|]).
      + exists s. split; [reflexivity|]. destruct H2 as [H2|[H2 H3]]; [now left|right]. split; [exact H2|]. destruct p; [discriminate|discriminate|reflexivity].
      + destruct H2 as (s' & [= <-] & [H2|[H2 ->]]); [now left|right; now split].
    - split; intros [H1 H2]; [destruct H2 as [H2|[H2 _]]; discriminate|]. destruct H2 as (s & H2 & _). discriminate. }
  assert (AG : (exists s, e "XTRUCTURE_HASH_AGG_MODE" = Some s /\ (word s = "packed" \/ (word s = "auto" /\ p = Tpu))) -> one_of agg ["raw"; "packed"; "auto"]%list = true).
  { intros (s & Es & H). unfold agg, get. rewrite Es. apply one_of_in. destruct H as [->|[-> _]]; cbn; tauto. }
  destruct (one_of agg ["raw"; "packed"; "auto"]%list) eqn:E1; cbn [negb].
  2:{ split; split; intros H; [discriminate|destruct H as (_ & H & _); specialize (AG H); discriminate|congruence|destruct H as (H & _); apply W1 in H; discriminate]. }
  destruct (one_of st ["off"; "on"; "auto"]%list) eqn:E2; cbn [negb].
  2:{ split; split; intros H; [discriminate|destruct H as (_ & _ & H & _); apply W2 in H; discriminate|congruence|destruct H as (_ & H & _); apply W2 in H; discriminate]. }
  pose proof (proj1 W1 eq_refl) as W1'. pose proof (proj1 W2 eq_refl) as W2'.
  destruct (at_least 0 (py_int (get e "XTRUCTURE_HASH_STREAM_THRESHOLD_U32" "8192"))) as [th|]; cbn [bind].
  - assert (NM : number e "XTRUCTURE_HASH_STREAM_THRESHOLD_U32" 0) by (apply NUM; eauto).
    split; [|split; [auto|discriminate]]. destruct (layout && _) eqn:E3.
    + split; [|reflexivity]. intros _. destruct (proj1 PK eq_refl). auto.
    + split; [discriminate|]. intros (H1 & H2 & _). exfalso. assert (false = true) by (apply PK; auto). discriminate.
  - assert (NM : ~ number e "XTRUCTURE_HASH_STREAM_THRESHOLD_U32" 0) by (intros K; apply NUM in K as [z K]; discriminate).
    split; split; intros H; [discriminate|exfalso; apply NM, H|congruence|exfalso; apply NM, H].
Qed.
Print Assumptions C79_hash.
Print Assumptions C79_hash_settings.
