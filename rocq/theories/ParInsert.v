(** * ParInsert.v — what parallel_insert does, for any backend meeting the slot contract. *)
From Verif Require Import Jax KeyModel HashModel HashProofs StableSort TableModel ProbeProofs TableLookup TableInv TableInsert ResolveProofs TableRounds TableCommit TableBound DedupeModel DedupeSpec DedupeProofs DedupeExact ParInsertModel.

Lemma Forall2_nth' {A B} (P : A -> B -> Prop) la lb (da : A) (db : B) : Forall2 P la lb ->
  forall i, i < length la -> P (nth i la da) (nth i lb db).
Proof.
  induction 1 as [|a b la lb H HF IH]; intros i Hi; [cbn in Hi; lia|]. destruct i as [|i]; [exact H|]. apply IH. cbn in Hi. lia.
Qed.

Lemma Forall2_len {A B} (P : A -> B -> Prop) la lb : Forall2 P la lb -> length la = length lb.
Proof. induction 1; cbn; lia. Qed.

Section P0.
Context {item : Type} (d : item).
Notation bres := (bool * (nat * nat))%type.
Notation place := (item * (nat * nat))%type.
Notation X xs i := (nth i xs d).
Notation B l i := (nth i l false).
Notation dres := (false, (0, 0)).
Notation dprow := (MkP 0 0 false 0 false).
Notation PR rs q := (nth q rs dprow).
(** the places a backend filled *)
Definition res_places (xs : list item) (res : list bres) : list place :=
  map (fun p => (fst p, snd (snd p))) (filter (fun p => fst (snd p)) (combine xs res)).
Lemma in_res_places xs res x b s : length res = length xs ->
  (In (x, (b, s)) (res_places xs res) <-> exists q, q < length xs /\ X xs q = x /\ nth q res dres = (true, (b, s))).
Proof.
  intros HL. unfold res_places. rewrite in_map_iff. split.
  - intros ([x' [i p]] & E & HI). apply filter_In in HI. destruct HI as [HI HT]. cbn in HT, E. subst i. injection E as -> ->.
    apply (in_combine_nth _ _ d dres) in HI; [|lia]. destruct HI as (q & Hq & E1 & E2). exists q. auto.
  - intros (q & Hq & E1 & E2). exists (x, (true, (b, s))). split; [reflexivity|]. apply filter_In. split; [|reflexivity].
    apply (in_combine_nth _ _ d dres); [lia|]. exists q. auto.
Qed.

Lemma par_rows_length (xs : list item) uniq rs : length uniq = length xs -> length rs = length xs -> length (par_rows xs uniq rs) = length xs.
Proof. intros H1 H2. unfold par_rows. rewrite map_length, !combine_length. lia. Qed.
Lemma par_rows_nth (xs : list item) uniq rs q : length uniq = length xs -> length rs = length xs -> q < length xs ->
  nth q (par_rows xs uniq rs) (dr d) =
  MkI (X xs q) (negb (pfound (PR rs q)) && B uniq q) (pb (PR rs q)) (ps (PR rs q)) false.
Proof.
  intros H1 H2 Hq. unfold par_rows. rewrite (map_nth_lt _ _ q (d, false, dprow) (dr d)) by (rewrite !combine_length; lia).
  rewrite combine_nth by (rewrite combine_length; lia). rewrite combine_nth by lia. reflexivity.
Qed.

End P0.

Section P.
Context {item : Type} (eqb : item -> item -> bool) (d : item) (hp : item -> N * N) (rowof : item -> list N) (w : nat).
Hypothesis eqb_eq : forall x y, eqb x y = true <-> x = y.
Variable pairf : list N -> N * N.
Hypothesis hp_row : forall x, hp x = pairf (rowof x).
Hypothesis row_inj : forall x y, rowof x = rowof y -> x = y.
Hypothesis row_len : forall x, length (rowof x) = w.
Variable m : dmode.
Variable sortp : list bool -> list (N * N) -> list nat.
Hypothesis sort_ok : forall filled pairs, length pairs = length filled -> sorting [] (pairs_keys filled pairs) (sortp filled pairs).
Notation table := (@table item).
Notation bres := (bool * (nat * nat))%type.
Notation place := (item * (nat * nat))%type.
Notation inv := (TableInv.inv d hp).
Notation stored := (TableInv.stored d).
Notation X xs i := (nth i xs d).
Notation B l i := (nth i l false).
Notation dres := (false, (0, 0)).

(** default probe limit (or larger), small enough not to wrap *)
Definition limit_ok (t : table) : Prop :=
  (N.of_nat (cap t * bsz t) <= maxp t)%N /\ (maxp t + N.of_nat (bsz t) <= 2 ^ 32)%N.

(** contract of a slot-assignment backend on rows [rows] of table [t] *)
Record backend_ok (k : nat) (t : table) (rows : list (@irow item)) (t' : table) (res : list bres) : Prop := {
  bo_len : length res = length rows;
  bo_upd : forall q, q < length rows -> fst (nth q res dres) = true -> iupd (nth q rows (dr d)) = true;
  bo_good : good_places d hp k t (res_places (map ix rows) res);
  bo_placed : placed d hp t t' (res_places (map ix rows) res) }.

(** ** rows prepared for the backend: a row that wants a slot holds a new item and sits
    at the first free slot of its chain *)
Definition start_ok (k : nat) (t : table) (rows : list (@irow item)) : Prop :=
  RI d hp k t rows /\
  (forall i i', i < length rows -> i' < length rows -> iupd (nth i rows (dr d)) = true -> iupd (nth i' rows (dr d)) = true ->
     ix (nth i rows (dr d)) = ix (nth i' rows (dr d)) -> i = i') /\
  (forall i, i < length rows -> iupd (nth i rows (dr d)) = true -> forall b, b < cap t -> ~ in_bucket d t b (ix (nth i rows (dr d)))) /\
  (forall i, i < length rows -> iupd (nth i rows (dr d)) = true ->
     exists j, ib (nth i rows (dr d)) = probe hp (cap t) k (ix (nth i rows (dr d))) j /\
       forall j', j' < j -> fillOf t (probe hp (cap t) k (ix (nth i rows (dr d))) j') = bsz t).

(** the dedupe contracts on items instead of rows *)
Notation dprow := (MkP 0 0 false 0 false).
Notation PR rs q := (nth q rs dprow).
Lemma row_nth xs i : i < length xs -> nth i (map rowof xs) [] = rowof (X xs i).
Proof. intros H. apply (map_nth_lt rowof xs i d []). exact H. Qed.
Lemma sound_items xs filled res : length filled = length xs ->
  dedupe_sound [] (map rowof xs) filled res -> dedupe_sound d xs filled res.
Proof.
  intros HL D. constructor; try apply D.
  - intros i i' Hi Hi' U U' E. apply (ds_distinct _ _ _ _ D); auto. rewrite !row_nth by lia. congruence.
  - intros i i' Hi Hi' U U' E. apply (ds_same _ _ _ _ D); auto. rewrite !row_nth by lia. congruence.
Qed.
Lemma exact_items xs filled uk res : length filled = length xs ->
  dedupe_nan [] (map rowof xs) filled uk res -> dedupe_nan d xs filled uk res.
Proof.
  intros HL D. constructor; try apply D.
  2:{ intros i i' Hi HF Hi' HF' EE. apply (dn_nan _ _ _ _ _ D i i'); auto. rewrite !row_nth by lia. congruence. }
  intros i Hi HF HNF. destruct (dn_rep _ _ _ _ _ D i Hi HF) as (A & B & C & E).
  { intros i' Hi' HF' EE. apply HNF; auto. rewrite !row_nth in EE by lia. apply row_inj. exact EE. }
  cbv zeta. split; [exact A|]. split; [exact B|].
  rewrite !row_nth in C by lia. split; [apply row_inj; exact C|].
  intros i' Hi' HF' EE. apply E; auto. rewrite !row_nth by lia. congruence.
Qed.

Record prepared (k : nat) (t : table) (xs : list item) (filled uniq : list bool) (rs : list prow) : Prop := {
  pp_len : length rs = length xs;
  pp_dup : forall q, q < length xs -> B uniq q = false -> pfound (PR rs q) = true;
  pp_found : forall q, q < length xs -> B uniq q = true -> pfound (PR rs q) = true ->
      stored t (pb (PR rs q) * bsz t + ps (PR rs q)) (X xs q);
  pp_absent : forall q, q < length xs -> B uniq q = true -> pfound (PR rs q) = false -> forall i, ~ stored t i (X xs q);
  pp_start : start_ok k t (par_rows xs uniq rs) }.

Lemma prepare_spec k t xs filled uk : inv k t -> limit_ok t -> length filled = length xs ->
  exists uniq reps rs, par_prepare eqb d hp rowof w m sortp t xs filled uk = Some (uniq, reps, rs) /\
    (uniq, reps) = dedupe_pairs m w (sortp filled (map hp xs)) (map hp xs) (map rowof xs) filled uk /\
    dedupe_sound d xs filled (uniq, reps) /\ prepared k t xs filled uniq rs.
Proof.
  intros V [LO HI] HL. unfold par_prepare.
  destruct (dedupe_pairs m w (sortp filled (map hp xs)) (map hp xs) (map rowof xs) filled uk) as [uniq reps] eqn:ED.
  assert (dedupe_sound d xs filled (uniq, reps)) as DS.
  { rewrite <- ED. apply sound_items; [exact HL|].
    apply (dedupe_pairs_sound w (map rowof xs) filled uk) with (pairf := pairf).
    - rewrite map_length. congruence.
    - intros r Hr. apply in_map_iff in Hr. destruct Hr as (x & <- & _). apply row_len.
    - rewrite map_length. congruence.
    - intros i Hi _. rewrite (map_nth_lt hp xs i d) by lia. rewrite row_nth by lia. apply hp_row.
    - apply sort_ok. rewrite map_length. congruence. }
  destruct (lookup_rows_spec eqb d hp eqb_eq k t (combine xs (combine (map negb uniq) filled)) (i_wf _ _ _ _ V) (i_fps _ _ _ _ V) HI)
    as (rs & ER & HR).
  rewrite ER. exists uniq, reps, rs. split; [reflexivity|]. split; [reflexivity|]. split; [exact DS|].
  pose proof (ds_lm _ _ _ _ DS) as LU. cbn [fst] in LU.
  pose proof (Forall2_len _ _ _ HR) as LR. rewrite !combine_length, map_length in LR.
  assert (length rs = length xs) as LRS by lia.
  assert (forall q, q < length xs -> row_final d hp k t (X xs q, (negb (B uniq q), B filled q)) (PR rs q)) as HF.
  { intros q Hq. pose proof (Forall2_nth' _ _ _ (d, (negb false, false)) dprow HR q) as H.
    rewrite combine_nth in H by (rewrite combine_length, map_length; lia).
    rewrite combine_nth in H by (rewrite map_length; lia).
    rewrite map_nth in H. apply H. rewrite !combine_length, map_length. lia. }
  assert (forall q, q < length xs -> B uniq q = true -> row_result d hp k t (X xs q) (PR rs q)) as HRR.
  { intros q Hq U. specialize (HF q Hq). rewrite U, (ds_filled _ _ _ _ DS q) in HF by (auto; lia). exact HF. }
  pose proof (wf_bsz _ _ (i_wf _ _ _ _ V)) as HB.
  pose proof (wf_cap _ _ (i_wf _ _ _ _ V)) as HC. pose proof (wf_k _ _ (i_wf _ _ _ _ V)) as HK.
  assert (0 < cap t) as HCpos by (rewrite HC; pose proof (Nat.pow_nonzero 2 k); lia).
  assert (forall q, q < length xs -> B uniq q = true -> pfound (PR rs q) = false ->
     (forall b, b < cap t -> ~ in_bucket d t b (X xs q)) /\ exists j, pb (PR rs q) = probe hp (cap t) k (X xs q) j /\ ps (PR rs q) = fillOf t (pb (PR rs q)) /\ passed d hp k t (X xs q) j) as HAB.
  { intros q Hq U NF. destruct (HRR q Hq U) as [(j & s & _ & _ & E & _)|[(j & s & E1 & E2 & _ & (P & E3 & HS & NI) & _)|[(j & E1 & E2 & _ & P & HM)|(_ & _ & _ & E)]]].
    - congruence.
    - subst s. rewrite E3 in HS. split; [apply (open_absent eqb d hp eqb_eq k t V _ j P HS NI)|]. exists j. split; [exact E1|]. split; [congruence|exact P].
    - split.
      + intros b Hb. apply (passed_wrap eqb d hp eqb_eq k t V _ _ P); [|exact Hb].
        assert (cap t * bsz t <= S j * bsz t) as HX by lia. apply Nat.mul_le_mono_pos_r in HX; lia.
      + exists j. split; [exact E1|]. destruct (P j) as [PF _]; [lia|]. split; [rewrite E1; congruence|].
        intros i Hi. apply P. lia.
    - exfalso. rewrite E in LO. nia. }
  constructor.
  - exact LRS.
  - intros q Hq U. specialize (HF q Hq). rewrite U in HF. cbn [negb andb] in HF. apply HF.
  - intros q Hq U FD. destruct (HRR q Hq U) as [(j & s & E1 & E2 & _ & (P & HS & E3) & _)|[(j & s & _ & _ & E & _)|[(j & _ & _ & E & _)|(_ & _ & E & _)]]]; try congruence.
    rewrite E1, E2. exists (probe hp (cap t) k (X xs q) j), s. split; [apply probe_lt; [exact HC|lia]|]. auto.
  - intros q Hq U NF i HS. destruct (HAB q Hq U NF) as [A _]. destruct (stored_in d t i _ HS) as (b & Hb & HI2). apply (A b Hb HI2).
  - unfold start_ok. rewrite par_rows_length by lia.
    assert (forall q, q < length xs -> nth q (par_rows xs uniq rs) (dr d) =
       MkI (X xs q) (negb (pfound (PR rs q)) && B uniq q) (pb (PR rs q)) (ps (PR rs q)) false) as HN.
    { intros q Hq. apply par_rows_nth; lia. }
    split; [|split; [|split]].
    + split; rewrite par_rows_length by lia; intros q Hq.
      * rewrite HN by exact Hq. cbn [ib is_]. destruct (B uniq q) eqn:U.
        -- destruct (HRR q Hq U) as [(j & s & E1 & E2 & _ & (P & HS & E3) & _)|[(j & s & E1 & E2 & E & (P & E3 & HS & NI) & _)|[(j & E1 & E2 & E & _)|(E1 & E2 & E & _)]]];
           rewrite E1, E2; (split; [apply probe_lt; [exact HC|lia]|]).
           ++ pose proof (wf_fill _ _ (i_wf _ _ _ _ V) (probe hp (cap t) k (X xs q) j) ltac:(apply probe_lt; [exact HC|lia])). lia.
           ++ lia.
           ++ lia.
           ++ lia.
        -- specialize (HF q Hq). rewrite U in HF. cbn [negb andb] in HF. destruct HF as (E1 & E2 & _). rewrite E1, E2.
           split; [apply (start_lt hp (cap t) k HC ltac:(lia))|lia].
      * intros HU. rewrite HN in HU by exact Hq. cbn [iupd] in HU. apply andb_prop in HU. destruct HU as [NF U]. apply negb_true_iff in NF.
        destruct (HAB q Hq U NF) as (A & j & E1 & E2 & P). exists j. rewrite HN by exact Hq. cbn [ib is_ ix]. rewrite E2.
        split; [exact E1|]. split; [rewrite E1; lia|]. split; [rewrite E1; auto|].
        intros j' s' [Hj|[-> Hs]] HR'.
        -- exfalso. destruct (P j' Hj) as [PF _]. lia.
        -- exfalso. rewrite E1 in Hs. lia.
    + intros i i' Hi Hi' U U' E. rewrite (HN i Hi) in U, E. rewrite (HN i' Hi') in U', E. cbn [iupd ix] in U, U', E.
      apply andb_prop in U. apply andb_prop in U'. destruct U as [_ U], U' as [_ U']. apply (ds_distinct _ _ _ _ DS); cbn [fst]; try lia; assumption.
    + intros i Hi U. rewrite HN in * by assumption. cbn [iupd ix] in *. apply andb_prop in U. destruct U as [NF U]. apply negb_true_iff in NF.
      apply HAB; assumption.
    + intros i Hi U. rewrite (HN i Hi) in U |- *. cbn [iupd ix ib] in *. apply andb_prop in U. destruct U as [NF U]. apply negb_true_iff in NF.
      destruct (HAB i Hi U NF) as (_ & j & E1 & _ & P). exists j. split; [exact E1|]. intros j' Hj. apply P. exact Hj.
Qed.
End P.
