(** * TableHistory.v — the table invariant along every history of operations. *)
From Verif Require Import Jax KeyModel HashModel HashProofs StableSort TableModel ProbeProofs TableLookup TableInv TableInsert ResolveProofs TableRounds TableCommit TableBound DedupeModel DedupeSpec DedupeProofs DedupeExact ParInsertModel ParInsert ParEffect Claims TritonModel TritonProofs PallasModel PallasProofs TableSpec.

Lemma nth_repeat' {A} (a dd : A) n i : nth i (repeat a n) dd = a \/ nth i (repeat a n) dd = dd.
Proof. destruct (nth_in_or_default i (repeat a n) dd) as [H|H]; [left; apply (repeat_spec n a _ H)|right; exact H]. Qed.
Lemma nodup_pairs (f : nat -> nat) l : NoDup l -> NoDup (flat_map (fun b => map (pair b) (seq 0 (f b))) l).
Proof.
  induction 1 as [|b l Hn ND IH]; [constructor|]. cbn [flat_map].
  assert (forall l1 l2 : list (nat * nat), NoDup l1 -> NoDup l2 -> (forall x, In x l1 -> ~ In x l2) -> NoDup (l1 ++ l2)) as HA.
  { intros l1 l2 H1 H2 H3. induction H1 as [|x l1 Hx H1 IH1]; [exact H2|]. cbn. constructor.
    - rewrite in_app_iff. intros [H|H]; [contradiction|]. apply (H3 x); [left; reflexivity|exact H].
    - apply IH1. intros y Hy. apply H3. right. exact Hy. }
  apply HA; [|exact IH|].
  - apply FinFun.Injective_map_NoDup; [intros x y E; congruence|apply seq_NoDup].
  - intros [b' s] H1 H2. apply in_map_iff in H1. destruct H1 as (s' & E & _). injection E as -> ->.
    apply in_flat_map in H2. destruct H2 as (b2 & Hb2 & H2). apply in_map_iff in H2. destruct H2 as (s2 & E & _). injection E as -> ->. contradiction.
Qed.
Lemma nodup_map_on {A B} (f : A -> B) l : (forall x y, In x l -> In y l -> f x = f y -> x = y) -> NoDup l -> NoDup (map f l).
Proof.
  intros HI ND. induction ND as [|x l Hn ND IH]; [constructor|]. cbn. constructor.
  - intros H. apply in_map_iff in H. destruct H as (y & E & Hy). apply HI in E; [subst; contradiction|right; exact Hy|left; reflexivity].
  - apply IH. intros a b Ha Hb. apply HI; right; assumption.
Qed.

Section H.
Context {item : Type} (T : dataclass item) (C : settings).
Notation table := (@table item).
Notation d := (dc_default T).
Notation hp := (hash_pair T).
Notation inv := (TableInv.inv d hp).
Notation stored := (TableInv.stored d).
Notation X xs i := (nth i xs d).
Notation B l i := (nth i l false).
Notation dres := (false, (0, 0)).
Notation start_ok := (ParInsert.start_ok d hp).
Notation backend_ok := (ParInsert.backend_ok d hp).

Definition good (k : nat) (t : table) : Prop := inv k t /\ limit_ok t.

Lemma build_good capacity bs mult mp : config_ok T capacity bs mult mp ->
  exists k, good k (Build T capacity bs mult mp) /\ total (Build T capacity bs mult mp) = 0.
Proof.
  unfold config_ok, Build. cbv zeta. intros (HB & HS & HM).
  set (c := cap (build d capacity bs mult mp)) in *.
  destruct (table_cap_pow2 (mult * capacity / bs)) as (k & HK). change (table_cap (mult * capacity / bs)) with c in HK.
  assert (k <= 31) as Hk31.
  { destruct (Nat.le_gt_cases k 31) as [|Hgt]; [assumption|exfalso].
    assert (2 ^ 31 <= N.of_nat c)%N. { rewrite HK, pow2N. apply N.pow_le_mono_r; lia. } nia. }
  assert (forall b, fillOf (build d capacity bs mult mp) b = 0) as HF.
  { intros b. unfold fillOf, build. cbn [fill]. destruct (nth_repeat' 0 0 (table_cap (mult * capacity / bs) + 1) b); assumption. }
  assert (total (build d capacity bs mult mp) = 0) as HT.
  { unfold total. rewrite (sum_const _ 0); [lia|]. intros b _. apply HF. }
  exists k. split; [|exact HT]. split.
  - constructor.
    + constructor; auto; try (unfold build; cbn [tab fps fill occ cap bsz]; rewrite ?repeat_length; reflexivity).
      intros b _. rewrite HF. lia.
    + intros b s Hb Hs. rewrite HF in Hs. lia.
    + intros b s Hb Hs. rewrite HF in Hs. lia.
    + intros b s b' s' Hb Hs. rewrite HF in Hs. lia.
    + rewrite HT. reflexivity.
    + intros _ b Hb. rewrite HF. unfold build. cbn [occ]. destruct (nth_repeat' 0%N 0%N (table_cap (mult * capacity / bs) + 1) b); assumption.
  - unfold limit_ok. change (cap (build d capacity bs mult mp)) with c. change (bsz (build d capacity bs mult mp)) with bs.
    change (maxp (build d capacity bs mult mp)) with (match mp with None => N.of_nat (c * bs) | Some m => m end).
    destruct mp as [p|]; [exact HM|]. split; [lia|]. change (2 ^ 32)%N with 4294967296%N. change (2 ^ 31)%N with 2147483648%N in HS. nia.
Qed.

Lemma limit_maxp k t : good k t -> (maxp t < 2 ^ 32)%N.
Proof. intros [V [_ L]]. pose proof (wf_bsz _ _ (i_wf _ _ _ _ V)). lia. Qed.

(** every backend meets the slot contract *)
Lemma assigns_ok be k t rows t' res : good k t -> start_ok k t rows -> assigns T be t rows t' res ->
  backend_ok k t rows t' res /\
  (forall maxb, (be = Triton maxb \/ exists o, be = Pallas maxb o) -> cap t <= maxb ->
     forall i, i < length rows -> iupd (nth i rows (dr d)) = true -> fst (nth i res dres) = false -> total t' = cap t * bsz t).
Proof.
  intros G HS HA. pose proof (limit_maxp k t G) as HM. destruct G as [V L]. destruct be as [|maxb|maxb o]; cbn [assigns] in HA.
  - destruct (xla_spec (dc_eqb T) d hp (dc_words T) (dc_nwords T) (dc_eq T) (dc_hash T) (fun x => eq_refl) (dc_inj T) (dc_len T) k t rows V HM HS) as (t2 & r2 & E & BO). rewrite E in HA. injection HA as <- <-.
    split; [exact BO|]. intros maxb [H|[o H]]; discriminate.
  - destruct HA as [H32 HR]. destruct (triton_spec d hp k t rows maxb V H32 HS t' res HR) as [BO HF]. split; [exact BO|].
    intros mb [H|[o H]] Hc i Hi U NI; [|discriminate]. injection H as ->. apply (HF i); assumption.
  - destruct HA as (H32 & HO & E). destruct (pallas_spec d hp k t rows maxb o V H32 HS HO) as (t2 & r2 & E2 & BO & HF).
    rewrite E in E2. injection E2 as <- <-. split; [exact BO|].
    intros mb [H|[o' H]] Hc i Hi U NI; [discriminate|]. injection H as -> _. apply (HF i); assumption.
Qed.
(** and every backend finishes *)
Lemma triton_runs k t rows maxb : good k t -> start_ok k t rows -> bsz t <= 32 ->
  exists t' res, triton_result d hp t rows maxb t' res.
Proof.
  intros [V L] HS H32.
  assert (forall m c, treach d hp t rows maxb c -> meas t maxb c <= m -> exists c', treach d hp t rows maxb c' /\ finished c') as HX.
  { induction m as [m IH] using lt_wf_ind. intros c HR Hm.
    destruct (Forall_Exists_dec (fun p => match p with Done _ _ _ => True | _ => False end)) with (l := pcs c) as [HF|HE].
    - intros [| |]; [right|right|left]; auto.
    - exists c. split; [exact HR|]. intros i Hi. rewrite Forall_forall in HF. specialize (HF _ (nth_In _ (Done false 0 0) Hi)).
      destruct (nth i (pcs c) (Done false 0 0)) as [| |ins b s]; try contradiction. exists ins, b, s. reflexivity.
    - assert (~ finished c) as HN.
      { intros HF. apply Exists_exists in HE. destruct HE as (p & Hp & HE). apply (In_nth _ _ (Done false 0 0)) in Hp. destruct Hp as (i & Hi & <-).
        destruct (HF i Hi) as (a & b & s & E). rewrite E in HE. apply HE. exact I. }
      destruct (triton_progress d hp t rows maxb c HR HN) as (c' & ST).
      pose proof (triton_terminates d hp k t rows maxb V H32 c c' ST) as HD.
      apply (IH (meas t maxb c')) with (c := c'); [lia|exact (r_step d hp t rows maxb c c' HR ST)|lia]. }
  destruct (HX _ (start t rows) (r_start d hp t rows maxb) (le_n _)) as (c & HR & HF).
  exists (commit_gpu hp t rows (mem c) (map res_of (pcs c))), (map res_of (pcs c)), c. auto.
Qed.
Lemma assigns_total be k t rows : good k t -> start_ok k t rows ->
  match be with XLA => True | Triton _ => bsz t <= 32 | Pallas _ o => bsz t <= 32 /\ forall r, Permutation (o r) (seq 0 (length rows)) end ->
  exists t' res, assigns T be t rows t' res.
Proof.
  intros G HS HU. pose proof (limit_maxp k t G) as HM. destruct be as [|maxb|maxb o]; cbn [assigns].
  - destruct (xla_spec (dc_eqb T) d hp (dc_words T) (dc_nwords T) (dc_eq T) (dc_hash T) (fun x => eq_refl) (dc_inj T) (dc_len T) k t rows (proj1 G) HM HS) as (t2 & r2 & E & BO). exists t2, r2. exact E.
  - destruct (triton_runs k t rows maxb G HS HU) as (t' & res & HR). exists t', res. auto.
  - destruct HU as [H32 HO]. destruct (pallas_spec d hp k t rows maxb o (proj1 G) H32 HS HO) as (t2 & r2 & E2 & _). exists t2, r2. auto.
Qed.

(** ** one batch *)
Record batch_fact (be : backend) (k : nat) (t : table) (xs : list item) (filled : list bool) (uk : option (list costval))
    (t' : table) (ins uniq : list bool) (idx : list nat) : Prop := {
  bf_eff : par_effect d hp k t xs filled t' ins uniq idx;
  bf_reps : exists reps, (uniq, reps) = dedupe_pairs (s_mode C) (dc_nwords T) (s_sort C filled (map hp xs)) (map hp xs) (map (dc_words T) xs) filled uk /\
     forall q, q < length xs -> B filled q = true -> B uniq (nth q reps 0) = true -> nth q idx 0 = nth (nth q reps 0) idx 0;
  bf_full : forall maxb, (be = Triton maxb \/ exists o, be = Pallas maxb o) -> cap t <= maxb ->
     forall q, q < length xs -> B uniq q = true -> B ins q = false -> stored t (nth q idx 0) (X xs q) \/ total t' = cap t * bsz t }.

Lemma batch_fact_of be k t xs f uk t' ins uniq idx : good k t -> mask_ok xs f -> f <> FScalar false ->
  ParallelInsert T C be t xs f uk (t', ins, uniq, idx) ->
  batch_fact be k t xs (mask_list (length xs) f) uk t' ins uniq idx.
Proof.
  intros G HL HN HP. set (filled := mask_list (length xs) f) in *. assert (length filled = length xs) as HLf by exact HL.
  assert (exists uniq' reps rs t2 res, par_prepare (dc_eqb T) d hp (dc_words T) (dc_nwords T) (s_mode C) (s_sort C) t xs filled uk = Some (uniq', reps, rs) /\
      assigns T be t (par_rows xs uniq' rs) t2 res /\ (t', ins, uniq, idx) = (t2, map fst res, uniq', par_idx t rs res reps)) as HQ.
  { unfold ParallelInsert in HP. fold filled in HP. destruct f as [[|]|]; try exact HP. congruence. }
  destruct HQ as (u & reps & rs & t2 & res & EP & HA & E). injection E as -> -> -> ->.
  destruct (prepare_spec (dc_eqb T) d hp (dc_words T) (dc_nwords T) (dc_eq T) (dc_hash T) (fun x => eq_refl) (dc_inj T) (dc_len T) (s_mode C) (s_sort C) (s_sort_ok C) k t xs filled uk (proj1 G) (proj2 G) HL)
    as (u2 & reps2 & rs2 & EP2 & ED & DS & PP).
  rewrite EP in EP2. injection EP2 as <- <- <-.
  destruct (assigns_ok be k t _ t2 res G (pp_start _ _ _ _ _ _ _ _ PP) HA) as [BO HF].
  destruct (par_core (dc_eqb T) d hp (dc_words T) (dc_nwords T) (dc_eq T) (dc_hash T) (fun x => eq_refl) (dc_inj T) (dc_len T) (s_sort C) (s_sort_ok C) k t xs filled u reps rs t2 res (proj1 G) HL DS PP BO) as (H1 & H2 & H3).
  constructor.
  - exact H1.
  - exists reps. split; [exact ED|exact H2].
  - intros maxb Hbe Hc q Hq U NI. destruct (H3 q Hq U NI) as [HU|HS]; [right|left; exact HS].
    pose proof (ds_lm _ _ _ _ DS) as LU. cbn [fst] in LU. pose proof (pp_len _ _ _ _ _ _ _ _ PP) as LRS.
    apply (HF maxb Hbe Hc q); [rewrite par_rows_length; lia|exact HU|].
    rewrite (map_nth_lt fst res q dres false) in NI; [exact NI|]. rewrite (bo_len _ _ _ _ _ _ _ BO), par_rows_length; lia.
Qed.
Lemma batch_total be k t xs f uk : good k t -> mask_ok xs f ->
  match be with XLA => True | Triton _ => bsz t <= 32 | Pallas _ o => bsz t <= 32 /\ forall r, Permutation (o r) (seq 0 (length xs)) end ->
  exists out, ParallelInsert T C be t xs f uk out.
Proof.
  intros G HL HU. set (filled := mask_list (length xs) f) in *. assert (length filled = length xs) as HLf by exact HL.
  destruct (prepare_spec (dc_eqb T) d hp (dc_words T) (dc_nwords T) (dc_eq T) (dc_hash T) (fun x => eq_refl) (dc_inj T) (dc_len T) (s_mode C) (s_sort C) (s_sort_ok C) k t xs filled uk (proj1 G) (proj2 G) HL)
    as (u & reps & rs & EP & ED & DS & PP).
  pose proof (ds_lm _ _ _ _ DS) as LU. cbn [fst] in LU. pose proof (pp_len _ _ _ _ _ _ _ _ PP) as LRS.
  destruct (assigns_total be k t (par_rows xs u rs) G (pp_start _ _ _ _ _ _ _ _ PP)) as (t' & res & HA).
  { rewrite par_rows_length by lia. exact HU. }
  unfold ParallelInsert. fold filled.
  destruct f as [[|]|]; [|eexists; reflexivity|]; (exists (t', map fst res, u, par_idx t rs res reps), u, reps, rs, t', res; auto).
Qed.

(** ** one operation *)
Record step_fact (k : nat) (t : table) (e : event) (t' : table) : Prop := {
  sf_good : good k t';
  sf_cap : cap t' = cap t; sf_bsz : bsz t' = bsz t; sf_maxp : maxp t' = maxp t;
  sf_stored : forall i y, stored t' i y <-> stored t i y \/ event_reports T e y i;
  sf_new : forall i y, event_reports T e y i -> forall i', ~ stored t i' y;
  sf_total : total t' = total t + event_count e }.
Lemma repeat_false_trues n : length (filter (fun b => b) (repeat false n)) = 0.
Proof. induction n; [reflexivity|exact IHn]. Qed.
Lemma op_fact k t e t' : good k t -> op T C t e t' -> step_fact k t e t'.
Proof.
  intros G HO. destruct HO as [t x t' ok i E|t be xs f uk t' ins uniq idx HL HP].
  - destruct G as [V [LO HI]].
    destruct (insert_spec (dc_eqb T) d hp (dc_eq T) k t x V HI) as (t2 & ok2 & i2 & E2 & IE & _).
    unfold Insert in E. rewrite E in E2. injection E2 as <- <- <-.
    assert (good k t') as G'.
    { split; [apply IE|]. unfold limit_ok. rewrite (ie_cap _ _ _ _ _ _ _ _ IE), (ie_bsz _ _ _ _ _ _ _ _ IE), (ie_maxp _ _ _ _ _ _ _ _ IE). split; assumption. }
    constructor; auto; try apply IE.
    + intros i' y. rewrite (ie_stored _ _ _ _ _ _ _ _ IE). cbn [event_reports]. intuition (subst; auto).
    + intros i' y (-> & <- & <-). apply (ie_ok _ _ _ _ _ _ _ _ IE eq_refl).
    + cbn [event_count]. destruct ok; cbn [Nat.b2n].
      * destruct (ie_ok _ _ _ _ _ _ _ _ IE eq_refl) as (_ & _ & ->). lia.
      * rewrite (ie_no _ _ _ _ _ _ _ _ IE eq_refl). lia.
  - destruct f as [[|]|l] eqn:EF; [|clear HL|].
    2:{ cbn [ParallelInsert] in HP. injection HP as -> -> -> ->. constructor; auto.
      - intros i y. split; [auto|]. intros [H|(q & _ & H & _)]; [exact H|]. rewrite nth_repeat in H. discriminate.
      - intros i y (q & _ & H & _). rewrite nth_repeat in H. discriminate.
      - cbn [event_count]. rewrite repeat_false_trues. lia. }
    all: rewrite <- EF in HL, HP; assert (f <> FScalar false) as HN by (rewrite EF; discriminate); clear EF;
      destruct (batch_fact_of be k t xs f uk t' ins uniq idx G HL HN HP) as [PE _ _];
      destruct G as [V L];
      (constructor;
      [ split; [apply PE|]; unfold limit_ok; rewrite (pe_cap _ _ _ _ _ _ _ _ _ _ PE), (pe_bsz _ _ _ _ _ _ _ _ _ _ PE), (pe_maxp _ _ _ _ _ _ _ _ _ _ PE); exact L
      | apply PE | apply PE | apply PE
      | intros i y; rewrite (pe_stored _ _ _ _ _ _ _ _ _ _ PE); cbn [event_reports]; reflexivity
      | intros i y (q & Hq & HI & <- & _); apply (pe_ins _ _ _ _ _ _ _ _ _ _ PE q Hq HI)
      | apply PE ]).
Qed.
Record run_fact (k : nat) (t : table) (es : list event) (t' : table) : Prop := {
  rf_good : good k t';
  rf_cap : cap t' = cap t; rf_bsz : bsz t' = bsz t; rf_maxp : maxp t' = maxp t;
  rf_stored : forall i y, stored t' i y <-> stored t i y \/ reported T es y i;
  rf_total : total t' = total t + count es }.
Lemma run_facts k t es t' : good k t -> run T C t es t' -> run_fact k t es t'.
Proof.
  intros G HR. revert G. induction HR as [t|t e t1 es t2 HO HR IH]; intros G.
  - constructor; auto. intros i y. split; [auto|]. intros [H|(e & [] & _)]. exact H.
  - pose proof (op_fact k t e t1 G HO) as S. specialize (IH (sf_good _ _ _ _ S)). constructor.
    + apply IH.
    + rewrite (rf_cap _ _ _ _ IH). apply S.
    + rewrite (rf_bsz _ _ _ _ IH). apply S.
    + rewrite (rf_maxp _ _ _ _ IH). apply S.
    + intros i y. rewrite (rf_stored _ _ _ _ IH), (sf_stored _ _ _ _ S). unfold reported. cbn [In]. split.
      * intros [[H|H]|(e' & He & H)]; [auto|right; exists e; auto|right; exists e'; auto].
      * intros [H|(e' & [<-|He] & H)]; [auto|auto|right; exists e'; auto].
    + rewrite (rf_total _ _ _ _ IH), (sf_total _ _ _ _ S). unfold count. cbn [map list_sum fold_right]. change (fold_right Nat.add 0) with list_sum. lia.
Qed.
Lemma history_facts es t : history T C es t -> exists k, good k t /\ (forall i y, stored t i y <-> reported T es y i) /\ total t = count es.
Proof.
  intros (c & bs & mu & mp & HC & HR). destruct (build_good c bs mu mp HC) as (k & G & T0). exists k.
  pose proof (run_facts k _ es t G HR) as F. split; [apply F|]. split.
  - intros i y. rewrite (rf_stored _ _ _ _ F). split; [|auto]. intros [(b & s & Hb & Hs & _)|H]; [|exact H]. exfalso.
    unfold Build, fillOf, build in Hs. cbn [fill] in Hs.
    destruct (nth_repeat' 0 0 (table_cap (mu * c / bs) + 1) b) as [E|E]; rewrite E in Hs; lia.
  - rewrite (rf_total _ _ _ _ F), T0. lia.
Qed.
Lemma history_run es t es' t' : history T C es t -> run T C t es' t' -> history T C (es ++ es') t'.
Proof.
  intros (c & bs & mu & mp & HC & HR) HR'. exists c, bs, mu, mp. split; [exact HC|].
  clear HC. induction HR as [t|t e t1 es t2 HO HR IH]; [exact HR'|]. cbn. econstructor; [exact HO|auto].
Qed.

(** ** lookup = stored *)
Lemma found_iff k t x i : good k t -> (found T t x i <-> stored t i x).
Proof.
  intros [V [LO HI]]. destruct (lookup_spec (dc_eqb T) d hp (dc_eq T) k t x V HI) as (i' & f & E & H1 & H2).
  unfold found, Lookup. rewrite E. split.
  - intros EE. injection EE as -> ->. auto.
  - intros HS. destruct f; [|exfalso; apply (H2 eq_refl LO i HS)]. f_equal. f_equal. apply (stored_inj d hp k t i' x V i); auto.
Qed.
Lemma absent_iff k t x : good k t -> (absent T t x <-> forall i, ~ stored t i x).
Proof.
  intros [V [LO HI]]. destruct (lookup_spec (dc_eqb T) d hp (dc_eq T) k t x V HI) as (i' & f & E & H1 & H2).
  unfold absent, Lookup. rewrite E. split.
  - intros (i & EE). injection EE as -> ->. auto.
  - intros HS. destruct f; [exfalso; apply (HS i' (H1 eq_refl))|]. exists i'. reflexivity.
Qed.
Lemma lookup_total k t x : good k t -> exists i f, Lookup T t x = Some (i, f).
Proof. intros [V [LO HI]]. destruct (lookup_spec (dc_eqb T) d hp (dc_eq T) k t x V HI) as (i' & f & E & _). exists i', f. exact E. Qed.
Lemma stored_get t i x : stored t i x -> GetItem T t i = x.
Proof. intros (b & s & _ & _ & _ & E). exact E. Qed.

Lemma lookup_parallel_facts k t xs f : good k t -> mask_ok xs f ->
  exists out, LookupParallel T t xs f = Some out /\ length out = length xs /\
    forall q, q < length xs ->
      (nth q (mask_list (length xs) f) false = true -> forall i, nth q out (0, false) = (i, true) <-> stored t i (X xs q)) /\
      (nth q (mask_list (length xs) f) false = false -> snd (nth q out (0, false)) = false).
Proof.
  intros [V [LO HI]] HL. unfold LookupParallel, lookup_parallel. set (filled := mask_list (length xs) f) in *. assert (length filled = length xs) as HLf by exact HL.
  assert (exists out, option_map (map (fun s => (pb s * bsz t + ps s, pfound s)))
                 (lookup_rows (dc_eqb T) d hp t (map (fun p => (fst p, (false, snd p))) (combine xs filled))) = Some out /\ length out = length xs /\
    forall q, q < length xs ->
      (nth q filled false = true -> forall i, nth q out (0, false) = (i, true) <-> stored t i (X xs q)) /\
      (nth q filled false = false -> snd (nth q out (0, false)) = false)) as HX.
  { set (qs := map (fun p => (fst p, (false, snd p))) (combine xs filled)).
    destruct (lookup_rows_spec (dc_eqb T) d hp (dc_eq T) k t qs (i_wf _ _ _ _ V) (i_fps _ _ _ _ V) HI) as (rs & E & HF).
    rewrite E. cbn [option_map]. eexists. split; [reflexivity|].
    assert (length qs = length xs) as LQ by (unfold qs; rewrite map_length, combine_length; lia).
    pose proof (Forall2_len _ _ _ HF) as LR. rewrite LQ in LR. split; [rewrite map_length; lia|].
    intros q Hq. pose proof (Forall2_nth' _ _ _ (d, (false, false)) (MkP 0 0 false 0 false) HF q ltac:(lia)) as HR.
    unfold qs in HR. rewrite (map_nth_lt _ _ q (d, false)) in HR by (rewrite combine_length; lia).
    rewrite combine_nth in HR by lia. cbn [fst snd] in HR.
    rewrite (map_nth_lt _ rs q (MkP 0 0 false 0 false) (0, false)) by lia.
    set (r := nth q rs (MkP 0 0 false 0 false)) in *.
    pose proof (wf_bsz _ _ (i_wf _ _ _ _ V)) as HB. pose proof (wf_cap _ _ (i_wf _ _ _ _ V)) as HC. pose proof (wf_k _ _ (i_wf _ _ _ _ V)) as HKK.
    assert (forall j, probe hp (cap t) k (X xs q) j < cap t) as PL by (intros j; apply probe_lt; [exact HC|lia]).
    assert (0 < cap t) as HCpos by (rewrite HC; pose proof (Nat.pow_nonzero 2 k); lia).
    unfold row_final in HR. split; intros HFi; rewrite HFi in HR; cbn [negb andb] in HR; [|cbn [snd]; apply HR].
    intros i. destruct HR as [(j & s & E1 & E2 & E3 & (P & HS & E4) & _)|[(j & s & E1 & E2 & E3 & (P & -> & HS & NI) & _)|[(j & E1 & E2 & E3 & P & HM)|(E1 & E2 & E3 & HZ)]]]; rewrite E1, E2, E3.
    - assert (stored t (probe hp (cap t) k (X xs q) j * bsz t + s) (X xs q)) as HST by (exists (probe hp (cap t) k (X xs q) j), s; auto).
      split; [intros EE; injection EE as <-; exact HST|]. intros HS2. rewrite (stored_inj d hp k t _ _ V _ HST HS2). reflexivity.
    - split; [discriminate|]. intros HS2. exfalso. destruct (stored_in d t i _ HS2) as (b & Hb & HIn).
      apply (proj2 (open_absent (dc_eqb T) d hp (dc_eq T) k t V _ j P HS NI) b Hb HIn).
    - split; [discriminate|]. intros HS2. exfalso. destruct (stored_in d t i _ HS2) as (b & Hb & HIn).
      apply (passed_wrap (dc_eqb T) d hp (dc_eq T) k t V _ _ P) in HIn; [exact HIn| |exact Hb].
      assert (cap t * bsz t <= S j * bsz t) as HXX by lia. apply Nat.mul_le_mono_pos_r in HXX; lia.
    - exfalso. rewrite HZ in LO. nia. }
  destruct f as [[|]|l]; [exact HX| |exact HX].
  exists (repeat (0, false) (length xs)). split; [reflexivity|]. split; [apply repeat_length|]. intros q Hq.
  unfold filled. cbn [mask_list]. rewrite !nth_repeat. split; [discriminate|reflexivity].
Qed.

(** ** listing the contents *)
Definition contents (t : table) : list (item * nat) :=
  map (fun p => (tabAt d t (fst p * bsz t + snd p), fst p * bsz t + snd p)) (flat_map (fun b => map (pair b) (seq 0 (fillOf t b))) (seq 0 (cap t))).
Lemma in_bs (t : table) b s : In (b, s) (flat_map (fun b => map (pair b) (seq 0 (fillOf t b))) (seq 0 (cap t))) <-> b < cap t /\ s < fillOf t b.
Proof.
  rewrite in_flat_map. split.
  - intros (b' & Hb & H). apply in_map_iff in H. destruct H as (s' & E & Hs). injection E as -> ->. apply in_seq in Hb, Hs. lia.
  - intros [Hb Hs]. exists b. split; [apply in_seq; lia|]. apply in_map_iff. exists s. split; [reflexivity|apply in_seq; lia].
Qed.
Lemma contents_spec k t : good k t -> NoDup (map fst (contents t)) /\ NoDup (map snd (contents t)) /\
  (forall x i, In (x, i) (contents t) <-> stored t i x) /\ length (contents t) = total t.
Proof.
  intros [V _]. pose proof (wf_bsz _ _ (i_wf _ _ _ _ V)) as HB.
  assert (NoDup (flat_map (fun b => map (pair b) (seq 0 (fillOf t b))) (seq 0 (cap t)))) as ND by (apply nodup_pairs, seq_NoDup).
  unfold contents. rewrite !map_map. cbn [fst snd]. split; [|split; [|split]].
  - apply nodup_map_on; [|exact ND]. intros [b s] [b' s'] H H' E. apply in_bs in H, H'. cbn [fst snd] in E.
    destruct (i_nodup _ _ _ _ V b s b' s') as [-> ->]; try apply H; try apply H'; auto.
  - apply nodup_map_on; [|exact ND]. intros [b s] [b' s'] H H' E. apply in_bs in H, H'. cbn [fst snd] in E.
    pose proof (wf_fill _ _ (i_wf _ _ _ _ V) b (proj1 H)). pose proof (wf_fill _ _ (i_wf _ _ _ _ V) b' (proj1 H')).
    apply flat_inj in E; [|lia|lia]. destruct E as [-> ->]. reflexivity.
  - intros x i. rewrite in_map_iff. split.
    + intros ([b s] & E & H). apply in_bs in H. injection E as <- <-. exists b, s. cbn [fst snd]. intuition.
    + intros (b & s & Hb & Hs & -> & <-). exists (b, s). split; [reflexivity|apply in_bs; auto].
  - rewrite map_length. unfold total. generalize (seq 0 (cap t)). intros l. induction l as [|b l IH]; [reflexivity|].
    cbn [flat_map map list_sum fold_right]. rewrite app_length, map_length, seq_length, IH. reflexivity.
Qed.
Lemma size_total k t : good k t -> size t = N.of_nat (total t).
Proof. intros [V _]. apply (i_size _ _ _ _ V). Qed.
Lemma insert_facts k t x : good k t ->
  exists t' ok i, Insert T t x = Some (t', ok, i) /\ insert_effect d hp k t x t' ok i /\
    (ok = false -> stored t i x \/ (total t = slots t /\ forall i', ~ stored t i' x)).
Proof.
  intros [V [LO HI]]. destruct (insert_spec (dc_eqb T) d hp (dc_eq T) k t x V HI) as (t2 & ok & i & E & IE & HN).
  exists t2, ok, i. split; [exact E|]. split; [exact IE|]. intros H. destruct (HN H) as [H1|[H1|H1]]; [auto|lia|auto].
Qed.
Lemma total_le k t : good k t -> total t <= slots t.
Proof.
  intros [V _]. unfold total, slots. etransitivity; [apply (list_sum_le _ (bsz t))|].
  - intros b Hb. apply in_seq in Hb. apply (wf_fill _ _ (i_wf _ _ _ _ V)). lia.
  - rewrite seq_length. lia.
Qed.
End H.
