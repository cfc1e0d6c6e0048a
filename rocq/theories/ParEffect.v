(** * ParEffect.v — the effect of parallel_insert on the stored set, for any backend that
      meets the slot contract; the XLA backend meets it. *)
From Verif Require Import Jax KeyModel HashModel HashProofs StableSort TableModel ProbeProofs TableLookup TableInv TableInsert ResolveProofs TableRounds TableCommit TableBound DedupeModel DedupeSpec DedupeProofs DedupeExact ParInsertModel ParInsert.

Definition trues (l : list bool) : nat := length (filter (fun b => b) l).

Section P.
Context {item : Type} (eqb : item -> item -> bool) (d : item) (hp : item -> N * N) (rowof : item -> list N) (w : nat).
Hypothesis eqb_eq : forall x y, eqb x y = true <-> x = y.
Variable pairf : list N -> N * N.
Hypothesis hp_row : forall x, hp x = pairf (rowof x).
Hypothesis row_inj : forall x y, rowof x = rowof y -> x = y.
Hypothesis row_len : forall x, length (rowof x) = w.
Variable m : dmode.
Variable sortp : list bool -> list (N * N) -> list nat.
Hypothesis sort_ok : forall filled pairs, length pairs = length filled -> sorting [] (pairs_keys filled pairs) (sortp filled pairs).
Notation table := (@table item).
Notation bres := (bool * (nat * nat))%type.
Notation place := (item * (nat * nat))%type.
Notation inv := (TableInv.inv d hp).
Notation stored := (TableInv.stored d).
Notation X xs i := (nth i xs d).
Notation B l i := (nth i l false).
Notation dres := (false, (0, 0)).
Notation dprow := (MkP 0 0 false 0 false).
Notation PR rs q := (nth q rs dprow).

(** the effect on the stored set; [xs]/[filled] the batch, [ins]/[uniq]/[idx] the results *)
Record par_effect (k : nat) (t : table) (xs : list item) (filled : list bool)
    (t' : table) (ins uniq : list bool) (idx : list nat) : Prop := {
  pe_inv : inv k t';
  pe_cap : cap t' = cap t; pe_bsz : bsz t' = bsz t; pe_maxp : maxp t' = maxp t;
  pe_lens : length ins = length xs /\ length uniq = length xs /\ length idx = length xs;
  pe_uniq : forall q, q < length xs -> B uniq q = true -> B filled q = true;
  pe_ins : forall q, q < length xs -> B ins q = true ->
     B uniq q = true /\ (forall i, ~ stored t i (X xs q)) /\ stored t' (nth q idx 0) (X xs q);
  pe_stored : forall i y, stored t' i y <->
     stored t i y \/ exists q, q < length xs /\ B ins q = true /\ X xs q = y /\ nth q idx 0 = i;
  pe_total : total t' = total t + trues ins;
  pe_once : forall q q', q < length xs -> q' < length xs -> B ins q = true -> B ins q' = true -> X xs q = X xs q' -> q = q';
  pe_not : forall q, q < length xs -> B uniq q = true -> B ins q = false ->
     stored t (nth q idx 0) (X xs q) \/ forall i, ~ stored t' i (X xs q);
  pe_same : forall q q', q < length xs -> q' < length xs -> B filled q = true -> B filled q' = true -> X xs q = X xs q' ->
     nth q idx 0 = nth q' idx 0 }.

Lemma in_places_ix (rows : list (@irow item)) (f : irow -> bres) (g : irow -> place) :
  (forall r, g r = (ix r, snd (f r))) ->
  res_places (map ix rows) (map f rows) = map g (filter (fun r => fst (f r)) rows).
Proof.
  intros H. unfold res_places. induction rows as [|r rows IH]; [reflexivity|]. cbn [map combine filter snd].
  destruct (fst (f r)); cbn [map fst snd]; rewrite IH; [rewrite H|]; reflexivity.
Qed.
Lemma same_ix rows rows' : same d rows rows' -> map ix rows' = map ix rows.
Proof.
  intros [HL H]. apply (nth_ext _ _ d d); rewrite !map_length; [exact HL|]. intros i Hi.
  rewrite (map_nth_lt ix rows' i (dr d) d), (map_nth_lt ix rows i (dr d) d) by lia. apply H. lia.
Qed.

Definition xres (t : table) (rows : list (@irow item)) : list bres := map (fun r => (succ_row t r, (ib r, is_ r))) rows.
Lemma xla_ok k t rows rows' : inv k t -> start_ok d hp k t rows -> RI d hp k t rows' -> settled d t rows' -> same d rows rows' ->
  backend_ok d hp k t rows (commit hp t rows') (xres t rows').
Proof.
  intros V (HR & HD & HF & _) HR' HS HSm. pose proof (same_ix _ _ HSm) as EI. destruct HSm as [HL HE].
  assert (res_places (map ix rows) (xres t rows') = places t rows') as EP.
  { rewrite <- EI. unfold xres. rewrite (in_places_ix rows' _ place_of) by reflexivity. reflexivity. }
  assert (good_places d hp k t (places t rows')) as G.
  { apply places_good; auto.
    - rewrite HL. intros i i' Hi Hi' U U' E. destruct (HE i Hi) as [E1 E2], (HE i' Hi') as [E1' E2'].
      apply HD; auto; congruence.
    - rewrite HL. intros i Hi U b Hb. destruct (HE i Hi) as [E1 E2]. rewrite E1. apply HF; auto. congruence. }
  constructor.
  - unfold xres. rewrite map_length. exact HL.
  - intros q Hq HT. unfold xres in HT. rewrite (map_nth_lt _ rows' q (dr d) dres) in HT by lia. cbn [fst] in HT. unfold succ_row in HT.
    apply andb_prop in HT. destruct HT as [HT _]. apply andb_prop in HT. destruct HT as [HT _]. destruct (HE q Hq) as [_ E]. congruence.
  - rewrite EP. exact G.
  - rewrite EP, commit_write. apply write_places_placed with (k := k); assumption.
Qed.
Lemma xla_spec k t rows : inv k t -> (maxp t < 2 ^ 32)%N -> start_ok d hp k t rows ->
  exists t' res, xla hp t rows = Some (t', res) /\ backend_ok d hp k t rows t' res.
Proof.
  intros V HM HS. destruct (rounds_spec d hp k t V rows (proj1 HS) HM) as (rows' & E & H1 & H2 & H3).
  exists (commit hp t rows'), (xres t rows'). split; [unfold xla; rewrite E; reflexivity|]. apply xla_ok; assumption.
Qed.
(** with room and a generous round limit every row that wants a slot gets one *)
Lemma xla_complete k t rows mm F : inv k t -> (maxp t < 2 ^ 32)%N -> start_ok d hp k t rows ->
  ups d rows <= mm -> mm + total t <= cap t * bsz t -> (forall q, q < length rows -> iupd (nth q rows (dr d)) = true -> crossing hp k t mm F (ix (nth q rows (dr d)))) ->
  (N.of_nat (round_bound mm F) <= maxp t)%N ->
  exists t' res, xla hp t rows = Some (t', res) /\ backend_ok d hp k t rows t' res /\
    forall q, q < length rows -> iupd (nth q rows (dr d)) = true -> fst (nth q res dres) = true.
Proof.
  intros V HM HS HU HT HX HR.
  destruct (rounds_complete d hp k t V (length rows) mm F HT rows (conj eq_refl (conj HU HX)) (proj1 HS) HM HR) as (rows' & E & H1 & H2 & H3 & H4).
  exists (commit hp t rows'), (xres t rows'). split; [unfold xla; rewrite E; reflexivity|]. split; [apply xla_ok; assumption|].
  intros q Hq U. destruct H3 as [HL HE]. destruct (HE q Hq) as [_ EU]. unfold xres.
  rewrite (map_nth_lt _ rows' q (dr d) dres) by lia. cbn [fst]. unfold succ_row. rewrite EU, U, (H4 q Hq). cbn [andb negb].
  apply Nat.ltb_lt. destruct (Nat.lt_ge_cases (is_ (nth q rows' (dr d))) (bsz t)) as [H|H]; [exact H|exfalso].
  destruct (H2 q ltac:(lia)) as [_ HP]. rewrite (H4 q Hq) in HP. discriminate HP. split; [congruence|left; exact H].
Qed.

Lemma trues_places (xs : list item) (res : list bres) : length res = length xs -> length (res_places xs res) = trues (map fst res).
Proof.
  unfold res_places, trues. rewrite map_length. revert res. induction xs as [|x xs IH]; intros [|r res] HL; cbn in HL; try lia; [reflexivity|].
  cbn [combine filter map snd]. destruct (fst r); cbn [length]; rewrite IH by lia; reflexivity.
Qed.
Lemma par_rows_ix (xs : list item) uniq rs : length uniq = length xs -> length rs = length xs -> map ix (par_rows xs uniq rs) = xs.
Proof.
  intros H1 H2. apply (nth_ext _ _ d d); rewrite map_length, par_rows_length by lia; [reflexivity|]. intros i Hi.
  rewrite (map_nth_lt ix _ i (dr d) d) by (rewrite par_rows_length; lia). rewrite par_rows_nth by lia. reflexivity.
Qed.

Theorem par_core k t xs filled uniq reps rs t' res :
  inv k t -> length filled = length xs ->
  dedupe_sound d xs filled (uniq, reps) -> prepared d hp k t xs filled uniq rs ->
  backend_ok d hp k t (par_rows xs uniq rs) t' res ->
  par_effect k t xs filled t' (map fst res) uniq (par_idx t rs res reps) /\
  (forall q, q < length xs -> B filled q = true -> B uniq (nth q reps 0) = true -> nth q (par_idx t rs res reps) 0 = nth (nth q reps 0) (par_idx t rs res reps) 0) /\
  (forall q, q < length xs -> B uniq q = true -> B (map fst res) q = false ->
     iupd (nth q (par_rows xs uniq rs) (dr d)) = true \/ stored t (nth q (par_idx t rs res reps) 0) (X xs q)).
Proof.
  intros V HL DS PP BO.
  pose proof (ds_lm _ _ _ _ DS) as LU. pose proof (ds_lr _ _ _ _ DS) as LR. cbn [fst snd] in LU, LR.
  pose proof (pp_len _ _ _ _ _ _ _ _ PP) as LRS.
  pose proof (bo_len _ _ _ _ _ _ _ BO) as LB. rewrite par_rows_length in LB by lia.
  pose proof (bo_good _ _ _ _ _ _ _ BO) as G. pose proof (bo_placed _ _ _ _ _ _ _ BO) as P. rewrite par_rows_ix in G, P by lia.
  assert (forall q, q < length xs -> B (map fst res) q = fst (nth q res dres)) as HI.
  { intros q Hq. rewrite (map_nth_lt fst res q dres false) by lia. reflexivity. }
  set (prov := map (fun p : prow * bres =>
      if pfound (fst p) || negb (fst (snd p)) then pb (fst p) * bsz t + ps (fst p)
      else fst (snd (snd p)) * bsz t + snd (snd (snd p))) (combine rs res)).
  assert (forall q, q < length xs -> nth q prov 0 = if pfound (PR rs q) || negb (fst (nth q res dres)) then pb (PR rs q) * bsz t + ps (PR rs q)
     else fst (snd (nth q res dres)) * bsz t + snd (snd (nth q res dres))) as HP.
  { intros q Hq. unfold prov. rewrite (map_nth_lt _ _ q (dprow, dres) 0) by (rewrite combine_length; lia). rewrite combine_nth by lia. reflexivity. }
  assert (forall q, q < length xs -> nth q (par_idx t rs res reps) 0 = nth (nth q reps 0) prov 0) as HX.
  { intros q Hq. unfold par_idx. fold prov. rewrite (map_nth_lt _ reps q 0 0) by lia. reflexivity. }
  assert (forall q, q < length xs -> B uniq q = true -> nth q (par_idx t rs res reps) 0 = nth q prov 0) as HXU.
  { intros q Hq U. rewrite HX by exact Hq. f_equal. apply (ds_self _ _ _ _ DS q ltac:(lia) U). }
  assert (forall q, q < length xs -> fst (nth q res dres) = true -> B uniq q = true /\ pfound (PR rs q) = false) as HIU.
  { intros q Hq HT. pose proof (bo_upd _ _ _ _ _ _ _ BO q) as H. rewrite par_rows_length in H by lia. specialize (H Hq HT).
    rewrite par_rows_nth in H by lia. cbn [iupd] in H. apply andb_prop in H. destruct H as [H1 H2]. apply negb_true_iff in H1. auto. }
  assert (forall q, q < length xs -> fst (nth q res dres) = true ->
     In (X xs q, snd (nth q res dres)) (res_places xs res) /\
     nth q (par_idx t rs res reps) 0 = fst (snd (nth q res dres)) * bsz t + snd (snd (nth q res dres))) as HIN.
  { intros q Hq HT. split.
    - destruct (nth q res dres) as [i [b s]] eqn:ER. cbn [fst snd] in *. apply (in_res_places d); [lia|]. exists q. subst i. auto.
    - destruct (HIU q Hq HT) as [U NF]. rewrite HXU, HP, NF, HT by assumption. reflexivity. }
  assert (forall i y, stored t' i y <-> stored t i y \/ exists q, q < length xs /\ fst (nth q res dres) = true /\ X xs q = y /\ nth q (par_idx t rs res reps) 0 = i) as HST.
  { intros i y. rewrite (placed_stored d hp k t t' _ V G P). split; (intros [H|H]; [left; exact H|right]).
    - destruct H as (b & s & Hin & ->). apply (in_res_places d) in Hin; [|lia]. destruct Hin as (q & Hq & E & ER).
      exists q. assert (fst (nth q res dres) = true) as HT by (rewrite ER; reflexivity). split; [exact Hq|]. split; [exact HT|]. split; [exact E|].
      rewrite (proj2 (HIN q Hq HT)), ER. reflexivity.
    - destruct H as (q & Hq & HT & <- & <-). destruct (HIN q Hq HT) as [Hin E].
      exists (fst (snd (nth q res dres))), (snd (snd (nth q res dres))). split; [|exact E]. destruct (snd (nth q res dres)); exact Hin. }
  assert (forall q q', q < length xs -> q' < length xs -> fst (nth q res dres) = true -> B uniq q' = true -> X xs q = X xs q' -> q = q') as HON.
  { intros q q' Hq Hq' HT U E. apply (ds_distinct _ _ _ _ DS); cbn [fst]; try lia; auto. apply HIU; assumption. }
  split; [|split].
  - constructor.
    + apply (placed_inv d hp k t t' _ V G P).
    + apply P.
    + apply P.
    + apply P.
    + rewrite map_length. split; [lia|]. split; [lia|]. unfold par_idx. rewrite map_length. lia.
    + intros q Hq U. apply (ds_filled _ _ _ _ DS q); [lia|exact U].
    + intros q Hq HT. rewrite HI in HT by exact Hq. destruct (HIU q Hq HT) as [U NF]. split; [exact U|]. split.
      * apply (pp_absent _ _ _ _ _ _ _ _ PP q Hq U NF).
      * apply HST. right. exists q. auto.
    + intros i y. rewrite HST. split; (intros [H|(q & Hq & HT & H)]; [left; exact H|right; exists q]).
      * rewrite HI by exact Hq. auto.
      * rewrite HI in HT by exact Hq. auto.
    + rewrite (placed_total d hp k t t' _ G P), trues_places by lia. reflexivity.
    + intros q q' Hq Hq' HT HT' E. rewrite HI in HT, HT' by assumption. apply HON; auto. apply HIU; assumption.
    + intros q Hq U HT. rewrite HI in HT by exact Hq. destruct (pfound (PR rs q)) eqn:FD.
      * left. rewrite HXU, HP, FD by assumption. cbn [orb]. apply (pp_found _ _ _ _ _ _ _ _ PP); assumption.
      * right. intros i HS. apply HST in HS. destruct HS as [HS|(q' & Hq' & HT' & E & _)].
        -- apply (pp_absent _ _ _ _ _ _ _ _ PP q Hq U FD i HS).
        -- pose proof (HON q' q Hq' Hq HT' U E). congruence.
    + intros q q' Hq Hq' Fq Fq' E. rewrite !HX by assumption. f_equal. apply (ds_same _ _ _ _ DS); try lia; assumption.
  - intros q Hq Fq U. pose proof (ds_range _ _ _ _ DS q ltac:(lia)) as HR. cbn [snd] in HR.
    rewrite (HXU (nth q reps 0)) by (auto; lia). rewrite HX by exact Hq. reflexivity.
  - intros q Hq U HT. rewrite HI in HT by exact Hq. rewrite par_rows_nth by lia. cbn [iupd].
    destruct (pfound (PR rs q)) eqn:FD; [right|left; rewrite U; reflexivity].
    rewrite HXU, HP, FD by assumption. cbn [orb]. apply (pp_found _ _ _ _ _ _ _ _ PP); assumption.
Qed.

(** any backend meeting the contract *)
Theorem parallel_insert_spec backend k t xs f uk : inv k t -> limit_ok t ->
  (forall rows, start_ok d hp k t rows -> exists t' res, backend t rows = Some (t', res) /\ backend_ok d hp k t rows t' res) ->
  length (mask_list (length xs) f) = length xs -> f <> FScalar false ->
  exists t' ins uniq idx reps,
    parallel_insert_with eqb d hp rowof w m sortp backend t xs f uk = Some (t', ins, uniq, idx) /\
    (uniq, reps) = dedupe_pairs m w (sortp (mask_list (length xs) f) (map hp xs)) (map hp xs) (map rowof xs) (mask_list (length xs) f) uk /\
    par_effect k t xs (mask_list (length xs) f) t' ins uniq idx /\
    (forall q, q < length xs -> B (mask_list (length xs) f) q = true -> B uniq (nth q reps 0) = true ->
       nth q idx 0 = nth (nth q reps 0) idx 0).
Proof.
  intros V LM HB HL HN. set (filled := mask_list (length xs) f) in *.
  destruct (prepare_spec eqb d hp rowof w eqb_eq pairf hp_row row_inj row_len m sortp sort_ok k t xs filled uk V LM HL)
    as (uniq & reps & rs & EP & ED & DS & PP).
  destruct (HB _ (pp_start _ _ _ _ _ _ _ _ PP)) as (t' & res & EB & BO).
  destruct (par_core k t xs filled uniq reps rs t' res V HL DS PP BO) as (H1 & H2 & _).
  exists t', (map fst res), uniq, (par_idx t rs res reps), reps. split; [|auto].
  unfold parallel_insert_with. fold filled. rewrite EP, EB. destruct f as [[|]|]; try reflexivity. congruence.
Qed.

(** no silent loss: with room for the new items and a generous round limit, the items
    marked unique all end up stored *)
Theorem parallel_insert_complete k t xs f uk mm F : inv k t -> limit_ok t -> (maxp t < 2 ^ 32)%N ->
  length (mask_list (length xs) f) = length xs -> f <> FScalar false ->
  mm + total t <= cap t * bsz t -> (forall q, q < length xs -> B (mask_list (length xs) f) q = true -> crossing hp k t mm F (X xs q)) ->
  (N.of_nat (round_bound mm F) <= maxp t)%N -> trues (mask_list (length xs) f) <= mm ->
  exists t' ins uniq idx reps,
    parallel_insert eqb d hp rowof w m sortp t xs f uk = Some (t', ins, uniq, idx) /\
    (uniq, reps) = dedupe_pairs m w (sortp (mask_list (length xs) f) (map hp xs)) (map hp xs) (map rowof xs) (mask_list (length xs) f) uk /\
    par_effect k t xs (mask_list (length xs) f) t' ins uniq idx /\
    (forall q, q < length xs -> B (mask_list (length xs) f) q = true -> B uniq (nth q reps 0) = true ->
       nth q idx 0 = nth (nth q reps 0) idx 0) /\
    (forall q, q < length xs -> B uniq q = true -> stored t' (nth q idx 0) (X xs q)).
Proof.
  intros V LM HM HL HN HT HCX HR HF. set (filled := mask_list (length xs) f) in *.
  destruct (prepare_spec eqb d hp rowof w eqb_eq pairf hp_row row_inj row_len m sortp sort_ok k t xs filled uk V LM HL)
    as (uniq & reps & rs & EP & ED & DS & PP).
  pose proof (ds_lm _ _ _ _ DS) as LU. cbn [fst] in LU. pose proof (pp_len _ _ _ _ _ _ _ _ PP) as LRS.
  assert (ups d (par_rows xs uniq rs) <= mm) as HUP.
  { etransitivity; [|exact HF]. unfold ups, upn, trues. rewrite par_rows_length by lia. rewrite <- HL.
    assert (length (filter (fun b => b) filled) = length (filter (fun i => B filled i) (seq 0 (length filled)))) as ->.
    { assert (filled = map (fun i => B filled i) (seq 0 (length filled))) as EF.
      { apply (nth_ext _ _ false false); [rewrite map_length, seq_length; reflexivity|]. intros i Hi.
        rewrite (nth_map_seq (fun i => B filled i)) by exact Hi. reflexivity. }
      rewrite EF at 1. generalize (seq 0 (length filled)). intros l. induction l as [|a l IH]; [reflexivity|].
      cbn [map filter]. destruct (B filled a); cbn [length]; rewrite IH; reflexivity. }
    assert (forall l, (forall i, In i l -> i < length xs) -> length (filter (fun i => iupd (nth i (par_rows xs uniq rs) (dr d))) l) <= length (filter (fun i => B filled i) l)) as HG.
    { induction l as [|a l IH]; intros Hl; [cbn; lia|]. specialize (IH (fun i Hi => Hl i (or_intror Hi))).
      pose proof (Hl a (or_introl eq_refl)) as Ha. cbn [filter].
      destruct (iupd (nth a (par_rows xs uniq rs) (dr d))) eqn:EU.
      - rewrite par_rows_nth in EU by lia. cbn [iupd] in EU. apply andb_prop in EU. destruct EU as [_ EU].
        rewrite (ds_filled _ _ _ _ DS a ltac:(lia) EU). cbn [length]. lia.
      - destruct (B filled a); cbn [length]; lia. }
    apply HG. intros i Hi. apply in_seq in Hi. lia. }
  assert (HCY : forall q, q < length (par_rows xs uniq rs) -> iupd (nth q (par_rows xs uniq rs) (dr d)) = true -> crossing hp k t mm F (ix (nth q (par_rows xs uniq rs) (dr d)))).
  { intros q Hq U. rewrite par_rows_length in Hq by lia. rewrite par_rows_nth in U |- * by lia. cbn [iupd ix] in *. apply andb_prop in U. destruct U as [_ U].
    apply HCX; [lia|]. exact (ds_filled _ _ _ _ DS q ltac:(lia) U). }
  destruct (xla_complete k t _ mm F V HM (pp_start _ _ _ _ _ _ _ _ PP) HUP HT HCY HR) as (t' & res & EB & BO & HALL).
  destruct (par_core k t xs filled uniq reps rs t' res V HL DS PP BO) as (H1 & H2 & H3).
  exists t', (map fst res), uniq, (par_idx t rs res reps), reps. split; [|split; [exact ED|split; [exact H1|split; [exact H2|]]]].
  - unfold parallel_insert, parallel_insert_with. fold filled. rewrite EP, EB. destruct f as [[|]|]; try reflexivity. congruence.
  - intros q Hq U. destruct (B (map fst res) q) eqn:EI.
    + apply (pe_ins _ _ _ _ _ _ _ _ H1 q Hq EI).
    + destruct (H3 q Hq U EI) as [HU|HS].
      * exfalso. rewrite par_rows_length in HALL by lia. specialize (HALL q Hq HU).
        rewrite (map_nth_lt fst res q dres false) in EI; [congruence|]. rewrite (bo_len _ _ _ _ _ _ _ BO), par_rows_length; lia.
      * apply (pe_stored _ _ _ _ _ _ _ _ H1). left. exact HS.
Qed.
End P.
