(** * PropSettings2.v — C79 for the hash table, and concrete cases for PropSettings.v. *)
From Coq Require Import String Ascii.
From Verif Require Import Jax KeyModel StableSort TableModel TableInv DedupeModel ParInsertModel ParInsert ParEffect Claims TritonModel TritonProofs PallasModel PallasProofs TableBound TableSpec TableHistory PropTable PropSplit EnvModel PropSettings.
Local Open Scope list_scope.

(** the implementation of slot assignment the settings name (the grid order of the TPU
    kernel is not a setting) *)
Inductive runs_on : assigner -> backend -> Prop :=
  | runs_xla : runs_on OnXla XLA
  | runs_triton n : runs_on (OnTriton n) (Triton n)
  | runs_pallas n order : runs_on (OnPallas n) (Pallas n order).
Section Table.
Context {item : Type} (T : dataclass item) (C : settings).
Notation table := (@table item).
(** a batch runs on the assigner [a], its duplicates are found reliably, and — on the
    default implementation only — at most [R] stored items leave room for it *)
Definition fits_call (a : assigner) (t : table) (R : nat) (c : call (item:=item)) : Prop :=
  match c with
  | CInsert _ => True
  | CBatch be xs f uk =>
      runs_on a be /\ dedupe_reliable T C xs (mask_list (length xs) f) uk /\
      (a = OnXla -> let m := trues (mask_list (length xs) f) in R + m <= slots t /\ (N.of_nat (rounds_needed m (R / bsz t)) <= maxp t)%N)
  end.
(** no limit on the buckets probed, or one that is not below their number *)
Definition probes_all (e : env) (v : string) (capacity : nat) : Prop :=
  forall s, e v = Some s -> In (word s) [""; "none"; "auto"]%string \/ exists z, py_int (word s) = Some z /\ (Z.of_nat capacity <= z)%Z.
Lemma max_probe_all e v c n : probes_all e v c -> max_probe e v c = Some n -> c <= n.
Proof.
  unfold max_probe, int_env. destruct (e v) as [s|] eqn:E; intros H; [|intros [= <-]; lia].
  destruct (one_of (word s) [""; "none"; "auto"]%string) eqn:O; [intros [= <-]; lia|]. destruct (H s E) as [K|(z & K & Hz)].
  - apply one_of_in in K. congruence.
  - rewrite K. destruct (at_least 1 (Some z)) as [y|] eqn:A; [|discriminate]. apply at_least_ge in A as [A _]. injection A as <-. intros [= <-]. lia.
Qed.
Lemma fits_lossless p e bs (t : table) R s a mode c : table_settings p e bs (cap t) = Some (mode, s, a) ->
  probes_all e "XTRUCTURE_HASHTABLE_TRITON_INSERT_MAX_PROBE_BUCKETS" (cap t) -> probes_all e "XTRUCTURE_HASHTABLE_PALLAS_INSERT_MAX_PROBE_BUCKETS" (cap t) ->
  fits_call a t R c -> lossless T C t R c.
Proof.
  intros HS HT HP. destruct c as [x|be xs f uk]; [auto|]. intros (HR & HD & HX). split; [exact HD|].
  assert (HA : match a with OnXla => True | OnTriton n | OnPallas n => cap t <= n end).
  { unfold table_settings, bind in HS. destruct (if one_of _ _ then _ else _) as [m0|]; [|discriminate]. destruct (if String.eqb _ _ then _ else _) as [s0|]; [|discriminate].
    destruct p.
    - injection HS as <- <- <-. exact I.
    - destruct (Nat.leb bs 32); [|injection HS as <- <- <-; exact I]. destruct (bool_env _ _ _) as [on|]; [|discriminate]. destruct on; [|injection HS as <- <- <-; exact I].
      destruct (max_probe e _ (cap t)) as [n|] eqn:EM; [|discriminate]. destruct (int_env e "XTRUCTURE_HASHTABLE_TRITON_INSERT_NUM_WARPS"); [|discriminate].
      destruct (int_env e "XTRUCTURE_HASHTABLE_TRITON_INSERT_NUM_STAGES"); [|discriminate]. injection HS as <- <- <-. exact (max_probe_all _ _ _ _ HT EM).
    - destruct (Nat.leb bs 32); [|injection HS as <- <- <-; exact I]. destruct (bool_env _ _ _) as [on|]; [|discriminate]. destruct on; [|injection HS as <- <- <-; exact I].
      destruct (max_probe e _ (cap t)) as [n|] eqn:EM; [|discriminate]. injection HS as <- <- <-. exact (max_probe_all _ _ _ _ HP EM). }
  destruct HR; [apply HX; reflexivity|exact HA|exact HA].
Qed.
End Table.

(** C79: programs that ask for the same items, run under any two accepted environments on
    any two platforms, leave tables that answer every lookup alike.  The dedupe mode
    and the sort are those of [C1], [C2]. *)
Theorem C79_table : forall (item : Type) (T : dataclass item) (C1 C2 : settings) capacity bs mult mp p1 p2 e1 e2 s1 s2 a1 a2 cs1 cs2 t1 t2 R,
  config_ok T capacity bs mult mp ->
  let b := Build T capacity bs mult mp in
  table_settings p1 e1 bs (cap b) = Some (s_mode C1, s1, a1) -> table_settings p2 e2 bs (cap b) = Some (s_mode C2, s2, a2) ->
  (forall v, In v ["XTRUCTURE_HASHTABLE_TRITON_INSERT_MAX_PROBE_BUCKETS"; "XTRUCTURE_HASHTABLE_PALLAS_INSERT_MAX_PROBE_BUCKETS"]%string ->
     probes_all e1 v (cap b) /\ probes_all e2 v (cap b)) ->
  program T C1 b cs1 t1 -> program T C2 b cs2 t2 ->
  Forall (fits_call T C1 a1 b R) cs1 -> Forall (fits_call T C2 a2 b R) cs2 -> R <= slots b ->
  (forall x, asked T cs1 x <-> asked T cs2 x) -> at_most R (asked T cs1) ->
  size t1 = size t2 /\
  (forall x, (exists i, Lookup T t1 x = Some (i, true)) <-> (exists i, Lookup T t2 x = Some (i, true))) /\
  (forall ys f, mask_ok ys f -> exists o1 o2, LookupParallel T t1 ys f = Some o1 /\ LookupParallel T t2 ys f = Some o2 /\ map snd o1 = map snd o2).
Proof.
  intros item T C1 C2 capacity bs mult mp p1 p2 e1 e2 s1 s2 a1 a2 cs1 cs2 t1 t2 R HC b S1 S2 HV P1 P2 F1 F2 HR HA HM.
  assert (VT := HV _ (or_introl eq_refl)). assert (VP := HV _ (or_intror (or_introl eq_refl))).
  apply (C62_table_same item T T C1 C2 capacity bs mult mp capacity bs mult mp cs1 cs2 t1 t2 R); try assumption.
  - eapply Forall_impl; [|exact F1]. intros c. exact (fits_lossless T C1 p1 e1 bs b R s1 a1 _ c S1 (proj1 VT) (proj1 VP)).
  - eapply Forall_impl; [|exact F2]. intros c. exact (fits_lossless T C2 p2 e2 bs b R s2 a2 _ c S2 (proj2 VT) (proj2 VP)).
Qed.
Print Assumptions C79_table.

(** C79: the unset environment, and the kernels being left for buckets above 32 slots *)
Theorem C79_table_default : forall p bs capacity,
  table_settings p (fun _ => None) bs capacity =
    Some (Safe, StableArgsort, if Nat.leb bs 32 then match p with Cpu => OnXla | Gpu => OnTriton capacity | Tpu => OnPallas capacity end else OnXla).
Proof. intros p bs capacity. unfold table_settings. destruct p; cbn -[Nat.leb]; destruct (Nat.leb bs 32); reflexivity. Qed.
Theorem C79_table_large_buckets : forall p e bs capacity r, 32 < bs -> table_settings p e bs capacity = Some r -> snd r = OnXla.
Proof.
  intros p e bs capacity r H. unfold table_settings, bind. destruct (if one_of _ _ then _ else _) as [m0|]; [|discriminate]. destruct (if String.eqb _ _ then _ else _) as [s0|]; [|discriminate].
  assert (K : Nat.leb bs 32 = false) by (apply Nat.leb_gt; exact H). rewrite K. destruct p; intros [= <-]; reflexivity.
Qed.
(** C79: when the three words and the four numbers are as documented, nothing raises. *)
Theorem C79_table_accepted : forall p e bs capacity,
  word_in e "XTRUCTURE_HASHTABLE_DEDUPE_MODE" ["fast"; "safe"; "exact"; "approx"]%string ->
  word_in e "XTRUCTURE_HASHTABLE_SORT_BACKEND" ["stable_argsort"; "lax_unstable"; "lax_stable"]%string ->
  (forall v, In v ["XTRUCTURE_HASHTABLE_TRITON_INSERT"; "XTRUCTURE_HASHTABLE_PALLAS_INSERT"]%string ->
     word_in e v ["1"; "true"; "yes"; "y"; "on"; "0"; "false"; "no"; "n"; "off"]%string) ->
  (forall v, In v ["XTRUCTURE_HASHTABLE_TRITON_INSERT_MAX_PROBE_BUCKETS"; "XTRUCTURE_HASHTABLE_PALLAS_INSERT_MAX_PROBE_BUCKETS";
                   "XTRUCTURE_HASHTABLE_TRITON_INSERT_NUM_WARPS"; "XTRUCTURE_HASHTABLE_TRITON_INSERT_NUM_STAGES"]%string -> auto_or_number e v) ->
  exists r, table_settings p e bs capacity = Some r.
Proof.
  intros p e bs capacity HM HS HB HN. unfold table_settings.
  assert (exists m, (if one_of (word (get e "XTRUCTURE_HASHTABLE_DEDUPE_MODE" "safe")) ["fast"; "safe"]%string then Some Safe
                     else if String.eqb (word (get e "XTRUCTURE_HASHTABLE_DEDUPE_MODE" "safe")) "exact" then Some Exact
                     else if String.eqb (word (get e "XTRUCTURE_HASHTABLE_DEDUPE_MODE" "safe")) "approx" then Some Approx else None) = Some m) as [m ->].
  { unfold get. destruct (e "XTRUCTURE_HASHTABLE_DEDUPE_MODE"%string) as [s|] eqn:E; [|exists Safe; reflexivity]. specialize (HM s E). set (w := word s) in *. clearbody w. enum HM; cbn; eauto. }
  cbn [bind].
  assert (exists x, (if String.eqb (word (get e "XTRUCTURE_HASHTABLE_SORT_BACKEND" "stable_argsort")) "stable_argsort" then Some StableArgsort
                     else if String.eqb (word (get e "XTRUCTURE_HASHTABLE_SORT_BACKEND" "stable_argsort")) "lax_unstable" then Some LaxUnstable
                     else if String.eqb (word (get e "XTRUCTURE_HASHTABLE_SORT_BACKEND" "stable_argsort")) "lax_stable" then Some LaxStable else None) = Some x) as [x ->].
  { unfold get. destruct (e "XTRUCTURE_HASHTABLE_SORT_BACKEND"%string) as [s|] eqn:E; [|exists StableArgsort; reflexivity]. specialize (HS s E). set (w := word s) in *. clearbody w. enum HS; cbn; eauto. }
  cbn [bind].
  assert (BE : forall v, word_in e v ["1"; "true"; "yes"; "y"; "on"; "0"; "false"; "no"; "n"; "off"]%string -> exists b, bool_env e v true = Some b).
  { intros v H. unfold bool_env. destruct (e v) as [s|] eqn:E; [|eauto]. specialize (H s E). set (w := word s) in *. clearbody w. enum H; cbn; eauto. }
  assert (MP : forall v, auto_or_number e v -> exists n, max_probe e v capacity = Some n).
  { intros v H. unfold max_probe. destruct (auto_read e v H) as [o ->]. cbn. eauto. }
  destruct p; [eauto| |]; (destruct (Nat.leb bs 32); [|eauto]).
  - destruct (BE "XTRUCTURE_HASHTABLE_TRITON_INSERT"%string) as [b ->]; [apply HB; cbn; tauto|]. cbn [bind]. destruct b; [|eauto].
    destruct (MP "XTRUCTURE_HASHTABLE_TRITON_INSERT_MAX_PROBE_BUCKETS"%string) as [n ->]; [apply HN; cbn; tauto|]. cbn [bind].
    destruct (auto_read e "XTRUCTURE_HASHTABLE_TRITON_INSERT_NUM_WARPS") as [y ->]; [apply HN; cbn; tauto|]. cbn [bind].
    destruct (auto_read e "XTRUCTURE_HASHTABLE_TRITON_INSERT_NUM_STAGES") as [z ->]; [apply HN; cbn; tauto|]. cbn [bind]. eauto.
  - destruct (BE "XTRUCTURE_HASHTABLE_PALLAS_INSERT"%string) as [b ->]; [apply HB; cbn; tauto|]. cbn [bind]. destruct b; [|eauto].
    destruct (MP "XTRUCTURE_HASHTABLE_PALLAS_INSERT_MAX_PROBE_BUCKETS"%string) as [n ->]; [apply HN; cbn; tauto|]. cbn [bind]. eauto.
Qed.
Print Assumptions C79_table_default.
Print Assumptions C79_table_large_buckets.
Print Assumptions C79_table_accepted.

(** ** Concrete cases *)
From Verif Require Import SortProofs HeapModel HeapSpec PropHeap TieModel PropTies MergeModel KvModel KvProofs.
Local Open Scope string_scope.
(** everything set, in mixed case and with blanks *)
Definition env_case : env := fun v =>
  if String.eqb v "XTRUCTURE_BGPQ_MERGE_BACKEND" then Some "Parallel" else
  if String.eqb v "XTRUCTURE_BGPQ_MERGE_VALUE_BACKEND" then Some " KV " else
  if String.eqb v "XTRUCTURE_BGPQ_MERGE_VALUE_BACKEND_BUFFER" then Some "auto" else
  if String.eqb v "XTRUCTURE_BGPQ_MERGE_VALUE_AUTO_MIN_BATCH" then Some "64" else
  if String.eqb v "XTRUCTURE_BGPQ_MERGE_VALUE_PACKING" then Some "Shard" else
  if String.eqb v "XTRUCTURE_BGPQ_MERGE_BLOCK_SIZE" then Some " 3" else
  if String.eqb v "XTRUCTURE_BGPQ_VALUE_REORDER" then Some "concat" else
  if String.eqb v "XTRUCTURE_BGPQ_SORT_STABLE" then Some "False" else
  if String.eqb v "XTRUCTURE_BGPQ_MERGE_NUM_WARPS" then Some "Auto" else None.
Example C79_env_case : queue_settings Gpu env_case 2 [3; 1]%list =
  Some {| q_stable := false; q_split := ByFused (Some 3%Z) PShard 16; q_buffer := ByParallel (Some 3%Z) true |} /\ queue_env_ok env_case.
Proof.
  split; [vm_compute; reflexivity|].
  assert (K : forall (P : string -> Prop) v s, env_case v = Some s -> (match env_case v with Some t => P t | None => True end) -> P s) by (intros P v s -> HP; exact HP).
  unfold queue_env_ok, word_in, raw_in, number, auto_or_number.
  split; [intros s H; apply (K (fun s => In (lower s) backend_words) _ s H); vm_compute; tauto|].
  split; [intros s H; apply (K (fun s => In (word s) value_words) _ s H); vm_compute; tauto|].
  split; [intros s H; apply (K (fun s => In (word s) value_words) _ s H); vm_compute; tauto|].
  split; [intros s H; apply (K (fun s => In (word s) value_words) _ s H); vm_compute; tauto|].
  split; [intros s H; apply (K (fun s => exists z, py_int s = Some z) _ s H); exists 64%Z; vm_compute; reflexivity|].
  split; [intros s H; apply (K (fun s => In (word s) ["auto"; "pad"; "scalar"; "shard"]%list) _ s H); vm_compute; tauto|].
  split; [intros s H; discriminate H|].
  split; [intros s H; apply (K (fun s => word s = "auto" \/ exists z, py_int s = Some z /\ (1 <= z)%Z) _ s H); right; exists 3%Z; split; [vm_compute; reflexivity|lia]|].
  split; [intros s H; discriminate H|].
  split; [intros s H; apply (K (fun s => In (word s) [""; "none"; "auto"]%list \/ exists z, py_int (word s) = Some z /\ (1 <= z)%Z) _ s H); left; vm_compute; tauto|].
  split; [intros s H; discriminate H|].
  intros s H; apply (K (fun s => In (word s) ["concat"; "concat_gather"; "gather"; "direct"]%list) _ s H); vm_compute; tauto.
Qed.
Local Open Scope list_scope.
Definition val (x : Z) : list (list Z) := [[x; x + 1; x + 2]; [x]]%Z.
Definition calls_case : list (op (list (list Z))) :=
  [Ins [(Fin 4, val 1); (Fin 2, val 2)]; Ins [(Fin 2, val 3); (PInf, val 0)]; Ins [(Fin 1, val 4); (Fin 2, val 5)]; Del; Del; Del]%Z.
(** the hypotheses of C79_queue_unstable (with the sort that reverses equal keys) and,
    with the variable of the sort unset, of C79_queue *)
Example C79_queue_case :
  params_ok 6 2 /\ fits [3; 1] (val 0) /\ Forall (takes 2 [3; 1]) calls_case /\ Forall (legal 2) calls_case /\
  (forall r : list (key * list (list Z)), Permutation (anti_sort r) r /\ sorted (anti_sort r)) /\
  (exists q, queue_settings Gpu (fun v => if String.eqb v "XTRUCTURE_BGPQ_SORT_STABLE" then None else env_case v) 2 [3; 1] = Some q /\ q_stable q = true /\ any_fused q = true) /\
  option_map (fun r => map (fun o => map fst (fst o)) (snd r)) (run (build (val 0) 6 2) calls_case) =
    Some [[]; []; []; [Fin 1; Fin 2]; [Fin 2; Fin 2]; [Fin 4; PInf]]%Z.
Proof.
  split; [unfold params_ok; lia|]. split; [reflexivity|]. split; [repeat (constructor; [first [exact I|split; [reflexivity|repeat constructor]]|]); constructor|].
  split; [|split; [|split]].
  - repeat (constructor; [first [exact I|split; [reflexivity|intros x Hx; cbn [In] in Hx; repeat (destruct Hx as [<-|Hx]; [discriminate|]); destruct Hx]]|]). constructor.
  - intros r. unfold anti_sort. split; [|apply ssort_sorted]. rewrite ssort_perm. symmetry. apply Permutation_rev.
  - eexists. split; [vm_compute; reflexivity|]. split; reflexivity.
  - vm_compute. reflexivity.
Qed.

(** ** The table: the default settings of a CPU and of a GPU *)
From Verif Require Import PropTableCases PropSplitCases.
Example C79_table_case : exists t1 t2,
  table_settings Cpu (fun _ => None) 8 (cap T0) = Some (s_mode DEF, StableArgsort, OnXla) /\
  table_settings Gpu (fun _ => None) 8 (cap T0) = Some (s_mode DEF, StableArgsort, OnTriton (cap T0)) /\
  program U32 DEF T0 [CBatch XLA B1 F1 K1] t1 /\ program U32 DEF T0 [CBatch (Triton (cap T0)) B1 F1 K1] t2 /\
  Forall (fits_call U32 DEF OnXla T0 4) [CBatch XLA B1 F1 K1] /\ Forall (fits_call U32 DEF (OnTriton (cap T0)) T0 4) [CBatch (Triton (cap T0)) B1 F1 K1] /\
  4 <= slots T0 /\ (forall x, asked U32 [CBatch XLA B1 F1 K1] x <-> asked U32 [CBatch (Triton (cap T0)) B1 F1 K1] x) /\ at_most 4 (asked U32 [CBatch XLA B1 F1 K1]).
Proof.
  assert (H0 : history U32 DEF [] T0) by (exists 16, 8, 2, None; split; [exact T0_ok|constructor]).
  destruct (C26_total U32 DEF XLA [] T0 B1 F1 K1 H0 eq_refl Logic.I) as ([[[t1 i1] u1] x1] & E1).
  destruct (C26_total U32 DEF (Triton (cap T0)) [] T0 B1 F1 K1 H0 eq_refl) as ([[[t2 i2] u2] x2] & E2); [vm_compute; lia|].
  exists t1, t2. split; [reflexivity|]. split; [reflexivity|].
  split; [econstructor; [exact (does_batch U32 DEF T0 XLA B1 F1 K1 t1 i1 u1 x1 eq_refl E1)|constructor]|].
  split; [econstructor; [exact (does_batch U32 DEF T0 (Triton (cap T0)) B1 F1 K1 t2 i2 u2 x2 eq_refl E2)|constructor]|].
  split; [constructor; [|constructor]; split; [constructor|]; split; [exact case_reliable|]; intros _; cbv zeta; split; [vm_compute; lia|vm_compute; discriminate]|].
  split; [constructor; [|constructor]; split; [constructor|]; split; [exact case_reliable|discriminate]|].
  split; [vm_compute; lia|].
  assert (AK : forall be x, asked U32 [CBatch be B1 F1 K1] x <-> asks U32 (CBatch XLA B1 F1 K1) x).
  { intros be x. split; [intros (c & [<-|[]] & H); exact H|intros H; exists (CBatch be B1 F1 K1); split; [now left|exact H]]. }
  split; [intros x; rewrite !AK; reflexivity|]. exists [1; 2; 5; 7]%N. split; [cbn; lia|]. intros x Hx. apply AK in Hx. apply asked_2. exists (CBatch XLA B1 F1 K1). split; [now left|exact Hx].
Qed.
