(** * TableLookup.v — what the two lookup loops compute. *)
From Verif Require Import Jax HashModel HashProofs StableSort TableModel ProbeProofs.

Section L.
Context {item : Type} (eqb : item -> item -> bool) (d : item) (hp : item -> N * N).
Hypothesis eqb_eq : forall x y, eqb x y = true <-> x = y.
Notation table := (@table item).
Implicit Types (t : table) (x : item) (b s : nat).

Record wf (k : nat) (t : table) : Prop := {
  wf_cap : cap t = 2 ^ k;
  wf_k : k <= 31;
  wf_bsz : 0 < bsz t < 256;
  wf_tab : length (tab t) = (cap t + 1) * bsz t;
  wf_fps : length (fps t) = (cap t + 1) * bsz t;
  wf_fill_len : length (fill t) = cap t + 1;
  wf_occ_len : length (occ t) = cap t + 1;
  wf_fill : forall b, b < cap t -> fillOf t b <= bsz t;
  wf_small : (N.of_nat ((cap t + 1) * bsz t) < 2 ^ 31)%N }.

Definition slot_item t b s := tabAt d t (b * bsz t + s).
Definition in_bucket t b x := exists s, s < fillOf t b /\ slot_item t b s = x.
Definition fps_ok t := forall b s, b < cap t -> s < fillOf t b -> fpAt t (b * bsz t + s) = fp_of hp (slot_item t b s).

Lemma u8_small n : n < 256 -> u8 n = n. Proof. intros H. apply Nat.mod_small. exact H. Qed.
Lemma map_u8_seq n : n <= 256 -> map u8 (seq 0 n) = seq 0 n.
Proof.
  intros H. rewrite <- (map_id (seq 0 n)) at 2. apply map_ext_in. intros a Ha. apply in_seq in Ha. apply u8_small. lia.
Qed.
Lemma nth_map_seq {B} (f : nat -> B) n i dd : i < n -> nth i (map f (seq 0 n)) dd = f i.
Proof.
  intros H. rewrite (nth_indep _ dd (f 0)) by (rewrite map_length, seq_length; exact H).
  rewrite map_nth, seq_nth by exact H. reflexivity.
Qed.
Lemma combine_map_seq {B} (f : nat -> B) n o : combine (map f (seq o n)) (seq o n) = map (fun i => (f i, i)) (seq o n).
Proof. revert o; induction n as [|n IH]; intros o; [reflexivity|]. cbn [seq map combine]. f_equal. apply IH. Qed.

Lemma scan_inactive t x fp b : fst (scan eqb d t x fp false b) = false.
Proof.
  unfold scan. cbn [andb]. set (offs := map u8 (seq 0 (bsz t))).
  assert (any (map (fun _ : nat => false) offs) = false) as HA.
  { clear. induction offs; [reflexivity|exact IHoffs]. }
  rewrite HA. cbn [andb negb orb].
  assert (forall f, any (map (fun p : bool * nat => fst p && f p) (combine (map (fun _ : nat => false) offs) offs)) = false) as HB.
  { clear. intros f. induction offs; [reflexivity|exact IHoffs]. }
  rewrite HB. reflexivity.
Qed.

Lemma scan_spec k t x fp b : wf k t -> b < cap t ->
  (fst (scan eqb d t x fp true b) = true /\
   snd (scan eqb d t x fp true b) < fillOf t b /\
   slot_item t b (snd (scan eqb d t x fp true b)) = x /\
   fpAt t (b * bsz t + snd (scan eqb d t x fp true b)) = fp) \/
  (fst (scan eqb d t x fp true b) = false /\
   forall s, s < fillOf t b -> fpAt t (b * bsz t + s) = fp -> slot_item t b s <> x).
Proof.
  intros W Hb. destruct (wf_bsz _ _ W) as [HB0 HB]. pose proof (wf_fill _ _ W b Hb) as HF.
  unfold scan. rewrite u8_small by lia. rewrite map_u8_seq by lia. cbn [andb].
  rewrite combine_map_seq, map_map. cbn [fst snd].
  set (n := bsz t) in *. set (L := fillOf t b) in *.
  set (g := fun o => (o <? L) && (fpAt t (b * n + o) =? fp)%N).
  set (fpm := map g (seq 0 n)).
  assert (forall i, i < n -> nth i fpm false = g i) as Hfpm by (intros i Hi; apply nth_map_seq; exact Hi).
  assert (length fpm = n) as Hlen by (unfold fpm; rewrite map_length, seq_length; reflexivity).
  assert (argmax fpm < 256) as Ham.
  { unfold argmax. destruct (first_true fpm) eqn:E; [|lia]. apply first_true_some in E. lia. }
  rewrite (u8_small (argmax fpm)) by exact Ham.
  set (fst_ := argmax fpm) in *. rewrite combine_map_seq, map_map. cbn [fst snd].
  set (h := fun o => g o && negb (o =? fst_)).
  set (sqf := fun o => h o && eqb (tabAt d t (b * n + o)) x).
  destruct (any fpm && eqb (tabAt d t (b * n + fst_)) x) eqn:EF.
  - left. cbn [fst snd negb andb orb]. apply andb_prop in EF. destruct EF as [EA EE].
    apply argmax_spec in EA. destruct EA as [A1 A2]. fold fst_ in A1, A2. rewrite Hfpm in A2 by lia.
    unfold g in A2. apply andb_prop in A2. destruct A2 as [A2 A3]. apply Nat.ltb_lt in A2. apply N.eqb_eq in A3.
    repeat split; auto. apply eqb_eq. exact EE.
  - cbn [negb andb]. fold (any (map h (seq 0 n))). 
    change (fun x0 : nat => (x0 <? L) && (fpAt t (b * n + x0) =? fp)%N && negb (x0 =? fst_)) with h.
    change (fun x0 : nat => (x0 <? L) && (fpAt t (b * n + x0) =? fp)%N && negb (x0 =? fst_) && eqb (tabAt d t (b * n + x0)) x) with sqf.
    assert (forall s, s < L -> fpAt t (b * n + s) = fp -> slot_item t b s = x -> s <> fst_ /\ s < n /\ sqf s = true) as Hwit.
    { intros s Hs Hfp Hx. assert (g s = true) as Hg.
      { unfold g. apply andb_true_intro. split; [apply Nat.ltb_lt; lia|apply N.eqb_eq; exact Hfp]. }
      assert (any fpm = true) as Hany.
      { unfold any. apply existsb_exists. exists true. split; [|reflexivity]. unfold fpm. apply in_map_iff. exists s.
        split; [exact Hg|apply in_seq; lia]. }
      assert (s <> fst_) as Hne.
      { intros ->. rewrite Hany in EF. cbn [andb] in EF. unfold slot_item in Hx. fold n in Hx.
        assert (eqb (tabAt d t (b * n + fst_)) x = true) by (apply eqb_eq; exact Hx). congruence. }
      split; [exact Hne|]. split; [lia|]. unfold sqf, h. rewrite Hg. cbn [andb].
      destruct (Nat.eqb_spec s fst_); [contradiction|]. cbn [negb andb]. apply eqb_eq. exact Hx. }
    destruct (any (map h (seq 0 n))) eqn:EH.
    + cbn [fst snd orb]. destruct (any (map sqf (seq 0 n))) eqn:ES.
      * left. split; [reflexivity|]. apply argmax_spec in ES. rewrite map_length, seq_length in ES. destruct ES as [S1 S2].
        rewrite u8_small by lia. rewrite nth_map_seq in S2 by exact S1. unfold sqf, h in S2.
        apply andb_prop in S2. destruct S2 as [S2 S3]. apply andb_prop in S2. destruct S2 as [S2 S4].
        unfold g in S2. apply andb_prop in S2. destruct S2 as [S2 S5]. apply Nat.ltb_lt in S2. apply N.eqb_eq in S5.
        apply eqb_eq in S3. repeat split; assumption.
      * right. split; [reflexivity|]. intros s Hs Hfp Hx. destruct (Hwit s Hs Hfp Hx) as (_ & Hn & Hsq).
        pose proof (existsb_id_false _ ES s) as E. rewrite nth_map_seq in E by exact Hn. congruence.
    + right. split; [reflexivity|]. intros s Hs Hfp Hx. destruct (Hwit s Hs Hfp Hx) as (_ & Hn & Hsq).
      pose proof (existsb_id_false _ EH s) as E. rewrite nth_map_seq in E by exact Hn.
      unfold sqf in Hsq. rewrite E in Hsq. discriminate.
Qed.

(** with correct fingerprints the scan decides membership in the bucket *)
Lemma scan_in k t x b : wf k t -> fps_ok t -> b < cap t ->
  (fst (scan eqb d t x (fp_of hp x) true b) = true /\
   snd (scan eqb d t x (fp_of hp x) true b) < fillOf t b /\
   slot_item t b (snd (scan eqb d t x (fp_of hp x) true b)) = x) \/
  (fst (scan eqb d t x (fp_of hp x) true b) = false /\ ~ in_bucket t b x).
Proof.
  intros W F Hb. destruct (scan_spec k t x (fp_of hp x) b W Hb) as [(A & B & C & _)|[A B]].
  - left. auto.
  - right. split; [exact A|]. intros (s & Hs & Hx). apply (B s Hs); [|exact Hx].
    rewrite F by assumption. rewrite Hx. reflexivity.
Qed.

(** ** walking the probe chain *)
Section Walk.
Variables (k : nat) (t : table) (x : item).
Hypothesis W : wf k t.
Hypothesis F : fps_ok t.
Notation pr := (probe hp (cap t) k x).

Lemma k32 : k <= 32. Proof. destruct W. lia. Qed.
Lemma pr_lt j : pr j < cap t. Proof. apply (probe_lt hp (cap t) k (wf_cap _ _ W) k32). Qed.
Lemma pr_S j : pr (S j) = next_bucket (cap t) (step_of hp (cap t) x) (pr j).
Proof. apply (probe_S hp (cap t) k (wf_cap _ _ W) k32). Qed.
Lemma pr_0 : pr 0 = start_of hp (cap t) x. Proof. apply (probe_0 hp (cap t) k (wf_cap _ _ W) k32). Qed.

(** the first [j] buckets are full and do not contain [x] *)
Definition passed (j : nat) : Prop := forall i, i < j -> fillOf t (pr i) = bsz t /\ ~ in_bucket t (pr i) x.
Lemma passed_0 : passed 0. Proof. intros i Hi. lia. Qed.
Lemma passed_S j : passed j -> fillOf t (pr j) = bsz t -> ~ in_bucket t (pr j) x -> passed (S j).
Proof. intros H A B i Hi. destruct (Nat.eq_dec i j) as [->|Hne]; [split; assumption|apply H; lia]. Qed.

Definition found_at (j s : nat) : Prop := passed j /\ s < fillOf t (pr j) /\ slot_item t (pr j) s = x.
Definition free_at (j s : nat) : Prop := passed j /\ s = fillOf t (pr j) /\ s < bsz t /\ ~ in_bucket t (pr j) x.

Lemma full_test b : b < cap t -> (u8 (fillOf t b) =? bsz t) = (fillOf t b =? bsz t).
Proof. intros Hb. rewrite u8_small; [reflexivity|]. pose proof (wf_fill _ _ W b Hb). pose proof (wf_bsz _ _ W). lia. Qed.

(** what [lookup_bucket] returns *)
Definition lookup_result (r : nat * nat * bool) : Prop :=
  (exists j s, r = (pr j, s, true) /\ found_at j s /\ (N.of_nat (j * bsz t) < maxp t)%N) \/
  (exists j s, r = (pr j, s, false) /\ free_at j s /\ (N.of_nat (j * bsz t) < maxp t)%N) \/
  (exists j, r = (pr j, 0, false) /\ passed j /\ (maxp t <= N.of_nat (j * bsz t))%N).

Lemma lookup_bucket_spec : (maxp t + N.of_nat (bsz t) <= 2 ^ 32)%N ->
  exists r, lookup_bucket eqb d hp t x = Some r /\ lookup_result r.
Proof.
  intros HM. pose proof (wf_bsz _ _ W) as HB.
  set (I := fun s : lst => let '(b, sl, f, p) := s in
     (exists j, b = pr j /\ sl = 0 /\ f = false /\ p = N.of_nat (j * bsz t) /\ passed j) \/
     (p = maxp t /\ lookup_result (b, sl, f))).
  set (m := fun s : lst => let '(_, _, f, p) := s in N.to_nat (maxp t - p)).
  destruct (while_total I m (lk_cond t) (lk_body eqb d t x (step_of hp (cap t) x) (fp_of hp x))) with
    (fuel := S (N.to_nat (maxp t))) (s := (start_of hp (cap t) x, 0, false, 0%N)) as ([[[b sl] f] p] & E & HI & HC).
  - intros [[[b sl] f] p] HI HC. unfold lk_cond in HC. apply andb_prop in HC. destruct HC as [Hf Hp].
    apply N.ltb_lt in Hp. destruct HI as [(j & -> & -> & -> & -> & Hpass)|[-> _]]; [|lia].
    unfold lk_body. pose proof (scan_in k t x (pr j) W F (pr_lt j)) as HS.
    destruct (scan eqb d t x (fp_of hp x) true (pr j)) as [fd ms]. cbn [fst snd] in HS.
    rewrite full_test by apply pr_lt. destruct HS as [(-> & H1 & H2)|(-> & H1)].
    + cbn [orb negb]. split.
      * right. split; [reflexivity|]. left. exists j, ms.
        split; [reflexivity|]. split; [|exact Hp]. split; [exact Hpass|]. split; assumption.
      * unfold m. lia.
    + cbn [orb]. destruct (Nat.eqb_spec (fillOf t (pr j)) (bsz t)) as [HF|HF]; cbn [negb].
      * assert (w32 (N.of_nat (j * bsz t) + N.of_nat (bsz t)) = N.of_nat (S j * bsz t)) as ->.
        { rewrite w32_small; [lia|]. unfold word, W32. lia. }
        split; [|unfold m; lia]. left. exists (S j). rewrite pr_S.
        do 4 (split; [reflexivity|]). apply passed_S; assumption.
      * split; [|unfold m; lia]. right. split; [reflexivity|]. right; left.
        exists j, (fillOf t (pr j)). pose proof (wf_fill _ _ W (pr j) (pr_lt j)) as HL.
        rewrite u8_small by lia. split; [reflexivity|]. split; [|exact Hp].
        split; [exact Hpass|]. split; [reflexivity|]. split; [lia|exact H1].
  - left. exists 0. rewrite pr_0. do 4 (split; [reflexivity|]). apply passed_0.
  - unfold m. lia.
  - unfold lookup_bucket. rewrite E. exists (b, sl, f). split; [reflexivity|].
    destruct HI as [(j & -> & -> & -> & -> & Hpass)|[_ HR]]; [|exact HR].
    right; right. exists j. split; [reflexivity|]. split; [exact Hpass|].
    unfold lk_cond in HC. cbn [negb andb] in HC. apply N.ltb_ge in HC. exact HC.
Qed.

(** what one row of the parallel lookup returns *)
Definition row_result (r : prow) : Prop :=
  (exists j s, pb r = pr j /\ ps r = s /\ pfound r = true /\ found_at j s /\ (N.of_nat (j * bsz t) < maxp t)%N) \/
  (exists j s, pb r = pr j /\ ps r = s /\ pfound r = false /\ free_at j s /\ (N.of_nat (j * bsz t) < maxp t)%N) \/
  (exists j, pb r = pr j /\ ps r = bsz t /\ pfound r = false /\ passed (S j) /\ (maxp t <= N.of_nat (S j * bsz t))%N) \/
  (pb r = pr 0 /\ ps r = 0 /\ pfound r = false /\ maxp t = 0%N).
(** loop invariant of a row started with founds = false, active = true *)
Definition row_inv (r : prow) : Prop :=
  (pact r = true /\ exists j, pb r = pr j /\ ps r = 0 /\ pfound r = false /\ pprobes r = N.of_nat (j * bsz t) /\ passed j /\
     (j = 0 \/ (N.of_nat (j * bsz t) < maxp t)%N)) \/
  (pact r = false /\ row_result r).

Definition row_measure (r : prow) : nat := if pact r then S (N.to_nat (maxp t - pprobes r)) else 0.

Lemma pl_step_inactive (r : prow) : pact r && (negb (pfound r) && (pprobes r <? maxp t)%N) = false ->
  pl_step eqb d hp t x r = {| pb := pb r; ps := ps r; pfound := pfound r; pprobes := pprobes r; pact := false |}.
Proof.
  intros E. unfold pl_step. rewrite E. pose proof (scan_inactive t x (fp_of hp x) (pb r)) as HS.
  destruct (scan eqb d t x (fp_of hp x) false (pb r)) as [fd ms]. cbn [fst] in HS. subst fd.
  cbn [andb]. rewrite orb_false_r. reflexivity.
Qed.
Lemma row_step (r : prow) : (maxp t + N.of_nat (bsz t) <= 2 ^ 32)%N -> row_inv r ->
  row_inv (pl_step eqb d hp t x r) /\ row_measure (pl_step eqb d hp t x r) <= pred (row_measure r).
Proof.
  intros HM HI. pose proof (wf_bsz _ _ W) as HB. destruct HI as [(HA & j & Hb & Hs & Hf & Hp & Hpass & Hj)|[HA HR]].
  - destruct (N.ltb_spec (pprobes r) (maxp t)) as [HL|HL].
    + unfold pl_step. rewrite HA, Hf, Hb. replace (pprobes r <? maxp t)%N with true by lia. cbn [negb andb].
      pose proof (scan_in k t x (pr j) W F (pr_lt j)) as HS.
      destruct (scan eqb d t x (fp_of hp x) true (pr j)) as [fd ms]. cbn [fst snd] in HS.
      rewrite full_test by apply pr_lt. cbn [orb].
      assert (w32 (pprobes r + N.of_nat (bsz t)) = N.of_nat (S j * bsz t)) as HP.
      { rewrite Hp. rewrite w32_small; [lia|]. unfold word, W32. lia. }
      rewrite HP. destruct HS as [(-> & H1 & H2)|(-> & H1)]; cbn [negb andb].
      * split; [|unfold row_measure; cbn [pact]; lia]. right. split; [reflexivity|]. left. exists j, ms. cbn [pb ps pfound].
        do 3 (split; [reflexivity|]). split; [|rewrite <- Hp; exact HL]. split; [exact Hpass|]. split; assumption.
      * destruct (Nat.eqb_spec (fillOf t (pr j)) (bsz t)) as [HF|HF]; cbn [andb].
        -- destruct (N.ltb_spec (N.of_nat (S j * bsz t)) (maxp t)) as [HL2|HL2].
           ++ split.
              ** left. split; [reflexivity|]. exists (S j). cbn [pb ps pfound pprobes]. rewrite pr_S.
                 split; [reflexivity|]. split; [reflexivity|]. split; [reflexivity|]. split; [reflexivity|].
                 split; [apply passed_S; assumption|]. right. exact HL2.
              ** unfold row_measure. rewrite HA. cbn [pact pprobes]. rewrite Hp. lia.
           ++ split; [|unfold row_measure; cbn [pact]; lia]. right. split; [reflexivity|]. right; right; left. exists j.
              cbn [pb ps pfound]. rewrite HF, u8_small by lia.
              do 3 (split; [reflexivity|]). split; [apply passed_S; assumption|exact HL2].
        -- split; [|unfold row_measure; cbn [pact]; lia]. right. split; [reflexivity|]. right; left.
           pose proof (wf_fill _ _ W (pr j) (pr_lt j)) as HL2.
           exists j, (fillOf t (pr j)). cbn [pb ps pfound]. rewrite u8_small by lia.
           do 3 (split; [reflexivity|]). split; [|rewrite <- Hp; exact HL]. split; [exact Hpass|]. split; [reflexivity|]. split; [lia|exact H1].
    + rewrite pl_step_inactive; [|rewrite Hf; cbn [negb andb]; rewrite HA; cbn [andb]; lia].
      split; [|unfold row_measure; cbn [pact]; lia]. right. split; [reflexivity|].
      right; right; right. cbn [pb ps pfound]. destruct Hj as [->|Hj]; [|lia].
      split; [exact Hb|]. split; [exact Hs|]. split; [exact Hf|]. lia.
  - rewrite pl_step_inactive; [|rewrite HA; reflexivity].
    split; [|unfold row_measure; rewrite HA; cbn; lia]. right. split; [reflexivity|]. exact HR.
Qed.
Lemma row_init_inv : row_inv (pl_init hp t x false true).
Proof.
  left. split; [reflexivity|]. exists 0. cbn [pb ps pfound pprobes pl_init]. rewrite pr_0.
  do 4 (split; [reflexivity|]). split; [apply passed_0|left; reflexivity].
Qed.
End Walk.

(** the whole batch: every row gets the result it would get alone *)
Definition row_final (k : nat) (t : table) (q : item * (bool * bool)) (r : prow) : Prop :=
  let '(x, (found, active)) := q in
  if negb found && active then row_result k t x r
  else pb r = start_of hp (cap t) x /\ ps r = 0 /\ pfound r = found.

Lemma lookup_rows_spec k t (q : list (item * (bool * bool))) : wf k t -> fps_ok t ->
  (maxp t + N.of_nat (bsz t) <= 2 ^ 32)%N ->
  exists rs, lookup_rows eqb d hp t q = Some rs /\ Forall2 (row_final k t) q rs.
Proof.
  intros W F HM.
  set (Irow := fun (qq : item * (bool * bool)) (xr : item * prow) =>
    fst xr = fst qq /\
    let '(x, (found, active)) := qq in
    if negb found && active then row_inv k t x (snd xr)
    else pb (snd xr) = start_of hp (cap t) x /\ ps (snd xr) = 0 /\ pfound (snd xr) = found /\
         (pact (snd xr) = true -> found = true)).
  set (I := fun l : list (item * prow) => Forall2 Irow q l).
  set (m := fun l : list (item * prow) => list_max (map (fun xr => row_measure t (snd xr)) l)).
  assert (forall l, (forall xr, In xr l -> row_measure t (snd xr) <= S (N.to_nat (maxp t))) -> m l <= S (N.to_nat (maxp t))) as Hmax.
  { intros l Hl. apply list_max_le, Forall_forall. intros y Hy. apply in_map_iff in Hy. destruct Hy as (xr & <- & Hxr). auto. }
  destruct (while_total I m pl_cond (pl_body eqb d hp t)) with (fuel := S (N.to_nat (maxp t)))
     (s := map (fun r => (fst r, pl_init hp t (fst r) (fst (snd r)) (snd (snd r)))) q) as (l' & E & HI & HC).
  - intros l HI HC. split.
    + unfold I in *. clear HC. unfold pl_body. induction HI as [|qq xr q' l' HR HI IH]; cbn [map]; constructor; [|exact IH].
      destruct xr as [x' r]. destruct qq as [x [found active]]. destruct HR as [Hx HR]. cbn [fst snd] in Hx, HR |- *. subst x'.
      split; [reflexivity|]. destruct (negb found && active) eqn:EA.
      * apply row_step; assumption.
      * destruct HR as (R1 & R2 & R3 & R4).
        cbn [snd]. rewrite pl_step_inactive.
        -- cbn [pb ps pfound pact]. repeat split; auto. discriminate.
        -- rewrite R3. destruct (pact r); [|reflexivity]. rewrite (R4 eq_refl). reflexivity.
    + assert (0 < m l) as Hpos.
      { unfold pl_cond in HC. apply existsb_exists in HC. destruct HC as (xr & Hin & Ha). unfold m.
        assert (0 < row_measure t (snd xr)) as Hr by (unfold row_measure; rewrite Ha; lia).
        pose proof (proj1 (list_max_le (map (fun xr => row_measure t (snd xr)) l) (list_max (map (fun xr => row_measure t (snd xr)) l))) (le_n _)) as HF.
        rewrite Forall_forall in HF. specialize (HF _ (in_map (fun xr => row_measure t (snd xr)) _ _ Hin)). cbn beta in HF. lia. }
      assert (m (pl_body eqb d hp t l) <= pred (m l)) as Hle; [|lia].
      unfold m at 1. apply list_max_le, Forall_forall. intros y Hy. apply in_map_iff in Hy. destruct Hy as (xr' & <- & Hxr').
      unfold pl_body in Hxr'. apply in_map_iff in Hxr'. destruct Hxr' as (xr & <- & Hxr). cbn [snd fst].
      assert (row_measure t (pl_step eqb d hp t (fst xr) (snd xr)) <= pred (row_measure t (snd xr))) as H1.
      { clear Hpos HC.
        assert (exists qq, Irow qq xr) as (qq & HR).
        { unfold I in HI. clear - HI Hxr. induction HI as [|a b0 la lb H1 H2 IH]; [destruct Hxr|].
          destruct Hxr as [->|Hxr]; [exists a; exact H1|apply IH; exact Hxr]. }
        destruct xr as [x' rr]. destruct qq as [x1 [found active]]. destruct HR as [Hx HR]. cbn [fst snd] in *. subst x'.
        destruct (negb found && active) eqn:EA.
        - apply (row_step k t x1 W F rr HM HR).
        - destruct HR as (R1 & R2 & R3 & R4). rewrite pl_step_inactive; [unfold row_measure; cbn; lia|].
          rewrite R3. destruct (pact rr); [|reflexivity]. rewrite (R4 eq_refl). reflexivity. }
      assert (row_measure t (snd xr) <= m l) as H2.
      { pose proof (proj1 (list_max_le (map (fun xr => row_measure t (snd xr)) l) (m l)) (le_n _)) as HF.
        rewrite Forall_forall in HF. apply (HF _ (in_map (fun xr => row_measure t (snd xr)) _ _ Hxr)). }
      lia.
  - unfold I. clear Hmax m I HM. induction q as [|[x [found active]] q IH]; cbn [map]; constructor; [|exact IH].
    split; [reflexivity|]. cbn [fst snd]. destruct found, active; cbn [negb andb].
    + cbn. repeat split; auto.
    + cbn. repeat split; auto.
    + apply row_init_inv; assumption.
    + cbn. repeat split; auto.
  - apply Hmax. intros xr Hxr. apply in_map_iff in Hxr. destruct Hxr as ([x [fo ac]] & <- & _). cbn.
    unfold row_measure. cbn. destruct ac; lia.
  - unfold lookup_rows. rewrite E. eexists. split; [reflexivity|].
    unfold I in HI. unfold pl_cond in HC. clear E Hmax m.
    induction HI as [|[x [found active]] [x' r] q' l' HR HI IH]; cbn [map]; [constructor|].
    cbn [existsb snd] in HC. apply orb_false_elim in HC. destruct HC as [HC1 HC2].
    constructor; [|apply IH; exact HC2]. destruct HR as [Hx HR]. cbn [fst snd] in Hx, HR |- *. subst x'.
    unfold row_final. destruct (negb found && active); [|tauto].
    destruct HR as [[HA _]|[_ HR]]; [congruence|exact HR].
Qed.
End L.
