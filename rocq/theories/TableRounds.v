(** * TableRounds.v — the conflict-resolution rounds of parallel_insert (XLA backend). *)
From Verif Require Import Jax HashModel HashProofs StableSort TableModel ProbeProofs TableLookup TableInv TableInsert ResolveProofs.

(** ** generic list facts *)
Lemma filter_nodup_nth {A B} (p : A -> bool) (f : A -> B) (dd : A) (l : list A) :
  (forall i j, i < j < length l -> p (nth i l dd) = true -> p (nth j l dd) = true -> f (nth i l dd) <> f (nth j l dd)) ->
  NoDup (map f (filter p l)).
Proof.
  induction l as [|a l IH]; intros H; [constructor|]. cbn [filter].
  assert (NoDup (map f (filter p l))) as HN.
  { apply IH. intros i j Hij. apply (H (S i) (S j)). cbn. lia. }
  destruct (p a) eqn:Ea; [|exact HN]. cbn [map]. constructor; [|exact HN].
  intros HI. apply in_map_iff in HI. destruct HI as (b & Eb & Hb). apply filter_In in Hb. destruct Hb as [Hb Pb].
  apply (In_nth _ _ dd) in Hb. destruct Hb as (j & Hj & <-).
  apply (H 0 (S j)); cbn; auto. lia.
Qed.
Lemma map_nth_lt {A B} (f : A -> B) l i (da : A) (db : B) : i < length l -> nth i (map f l) db = f (nth i l da).
Proof. intros H. rewrite (nth_indep _ db (f da)) by (rewrite map_length; exact H). apply map_nth. Qed.

Section R.
Context {item : Type} (d : item) (hp : item -> N * N).
Notation table := (@table item).
Notation irow := (@irow item).
Notation inv := (TableInv.inv d hp).
Implicit Types (rows : list irow) (r : irow) (b s i j : nat).
Variables (k : nat) (t : table).
Hypothesis V : inv k t.
Notation pr := (probe hp (cap t) k).
Definition dr : irow := MkI d false 0 0 false.
Notation rw rows i := (nth i rows dr).

Let W := i_wf _ _ _ _ V.

(** row [i] waits at [(b, s)] *)
Definition at_ rows i b s : Prop := i < length rows /\ iupd (rw rows i) = true /\ ib (rw rows i) = b /\ is_ (rw rows i) = s.

(** the position of a row and what lies before it on its path *)
Definition row_ok rows i : Prop :=
  exists j, ib (rw rows i) = pr (ix (rw rows i)) j /\
    fillOf t (pr (ix (rw rows i)) j) <= is_ (rw rows i) /\
    (is_ (rw rows i) = bsz t -> fillOf t (pr (ix (rw rows i)) j) = bsz t) /\
    forall j' s', (j' < j \/ j' = j /\ s' < is_ (rw rows i)) ->
      fillOf t (pr (ix (rw rows i)) j') <= s' < bsz t ->
      exists i', i' < i /\ at_ rows i' (pr (ix (rw rows i)) j') s'.
Definition RI rows : Prop :=
  (forall i, i < length rows -> ib (rw rows i) < cap t /\ is_ (rw rows i) <= bsz t) /\
  (forall i, i < length rows -> iupd (rw rows i) = true -> row_ok rows i).
(** a row is pending iff it is not the first updatable row at a valid slot *)
Definition settled rows : Prop := forall i, i < length rows ->
  (ipend (rw rows i) = true <->
   iupd (rw rows i) = true /\
   (bsz t <= is_ (rw rows i) \/ exists i', i' < i /\ at_ rows i' (ib (rw rows i)) (is_ (rw rows i)))).
Definition same rows rows' : Prop := length rows' = length rows /\
  forall i, i < length rows -> ix (rw rows' i) = ix (rw rows i) /\ iupd (rw rows' i) = iupd (rw rows i).

Lemma settle_spec rows : RI rows ->
  length (settle t rows) = length rows /\
  (forall i, i < length rows -> ix (rw (settle t rows) i) = ix (rw rows i) /\ iupd (rw (settle t rows) i) = iupd (rw rows i) /\
     ib (rw (settle t rows) i) = ib (rw rows i) /\ is_ (rw (settle t rows) i) = is_ (rw rows i)) /\
  settled (settle t rows).
Proof.
  intros [HR _]. unfold settle.
  set (flats := map (fun r => ib r * bsz t + is_ r) rows).
  set (act := map (fun r => iupd r && (is_ r <? bsz t)) rows).
  set (win := resolve flats act).
  assert (length flats = length rows) as HLf by (unfold flats; apply map_length).
  assert (length act = length rows) as HLa by (unfold act; apply map_length).
  assert (length win = length rows) as HLw by (unfold win; rewrite resolve_length; exact HLf).
  set (f := fun p : irow * bool => let r := fst p in
     {| ix := ix r; iupd := iupd r; ib := ib r; is_ := is_ r;
        ipend := (iupd r && negb (snd p)) || (iupd r && negb (is_ r <? bsz t)) |}).
  assert (length (map f (combine rows win)) = length rows) as HL by (rewrite map_length, combine_length; lia).
  assert (forall i, i < length rows -> nth i (map f (combine rows win)) dr = f (rw rows i, nth i win false)) as Hn.
  { intros i Hi. rewrite (map_nth_lt f _ i (dr, false)) by (rewrite combine_length; lia).
    rewrite combine_nth by lia. reflexivity. }
  assert (forall i, i < length rows -> nth i flats 0 = ib (rw rows i) * bsz t + is_ (rw rows i)) as Hfl.
  { intros i Hi. unfold flats. rewrite (map_nth_lt _ _ i dr) by exact Hi. reflexivity. }
  assert (forall i, i < length rows -> nth i act false = iupd (rw rows i) && (is_ (rw rows i) <? bsz t)) as Hac.
  { intros i Hi. unfold act. rewrite (map_nth_lt _ _ i dr) by exact Hi. reflexivity. }
  assert (forall i, i < length rows -> (nth i win false = true <->
     (iupd (rw rows i) = true /\ is_ (rw rows i) < bsz t) /\
     forall i', i' < i -> ~ at_ rows i' (ib (rw rows i)) (is_ (rw rows i)))) as Hw.
  { intros i Hi. unfold win. rewrite resolve_spec.
    - rewrite Hac, andb_true_iff, Nat.ltb_lt by exact Hi. split; intros [HA HB]; (split; [exact HA|]).
      + intros i' Hi' (L & U & E1 & E2). apply (HB i' Hi').
        * rewrite Hac by exact L. rewrite U, E2. apply Nat.ltb_lt. apply HA.
        * rewrite !Hfl by lia. rewrite E1, E2. reflexivity.
      + intros i' Hi' HU E. rewrite Hac, andb_true_iff, Nat.ltb_lt in HU by lia. rewrite !Hfl in E by lia.
        apply flat_inj in E; [|tauto|tauto]. apply (HB i' Hi'). unfold at_. destruct E, HU. repeat split; auto. lia.
    - lia.
    - intros y Hy. apply (In_nth _ _ 0) in Hy. destruct Hy as (q & Hq & <-). rewrite HLf in Hq. rewrite Hfl by exact Hq.
      destruct (HR q Hq) as [Hb Hs]. pose proof (wf_small _ _ W) as HS. unfold sentinel.
      assert (ib (rw rows q) * bsz t + is_ (rw rows q) <= (cap t + 1) * bsz t) by nia. lia.
    - lia. }
  split; [exact HL|]. split.
  - intros i Hi. rewrite Hn by exact Hi. cbn. auto.
  - intros i Hi. rewrite HL in Hi. rewrite Hn by exact Hi. unfold f at 1 2 3. cbn [fst snd ipend iupd is_].
    specialize (Hw i Hi).
    assert (forall i' b s, at_ (map f (combine rows win)) i' b s <-> at_ rows i' b s) as Hat.
    { intros i' b s. unfold at_. rewrite HL. split; intros (L & H); (split; [exact L|]);
        rewrite Hn in * by exact L; exact H. }
    rewrite orb_true_iff, !andb_true_iff, !negb_true_iff, Nat.ltb_ge.
    split.
    + intros [[U N]|[U N]]; (split; [exact U|]).
      * destruct (Nat.lt_ge_cases (is_ (rw rows i)) (bsz t)) as [HS|HS]; [right|left; exact HS].
        assert (exists i', i' < i /\ at_ rows i' (ib (rw rows i)) (is_ (rw rows i))) as (i' & Hi' & HA).
        { destruct (Forall_Exists_dec (fun i' => ~ at_ rows i' (ib (rw rows i)) (is_ (rw rows i)))
             (fun i' => ltac:(unfold at_; destruct (lt_dec i' (length rows)), (bool_dec (iupd (rw rows i')) true),
                 (Nat.eq_dec (ib (rw rows i')) (ib (rw rows i))), (Nat.eq_dec (is_ (rw rows i')) (is_ (rw rows i))); tauto)) (seq 0 i)) as [HF|HE].
          - exfalso. rewrite Forall_forall in HF. assert (nth i win false = true) as HT; [|congruence].
            apply Hw. split; [split; assumption|]. intros i' Hi'. apply HF. apply in_seq. lia.
          - apply Exists_exists in HE. destruct HE as (i' & Hi' & HE). apply in_seq in Hi'. exists i'. split; [lia|].
            destruct (lt_dec i' (length rows)), (bool_dec (iupd (rw rows i')) true),
                 (Nat.eq_dec (ib (rw rows i')) (ib (rw rows i))), (Nat.eq_dec (is_ (rw rows i')) (is_ (rw rows i)));
              unfold at_ in *; tauto. }
        exists i'. split; [exact Hi'|]. apply Hat. exact HA.
      * left. exact N.
    + intros [U [HS|(i' & Hi' & HA)]].
      * right. split; assumption.
      * left. split; [exact U|]. destruct (nth i win false) eqn:E; [|reflexivity]. exfalso.
        destruct (proj1 Hw eq_refl) as [_ HN]. apply (HN i' Hi'). apply Hat in HA. exact HA.
Qed.

Lemma RI_ext rows rows' : same rows rows' ->
  (forall i, i < length rows -> ib (rw rows' i) = ib (rw rows i) /\ is_ (rw rows' i) = is_ (rw rows i)) -> RI rows -> RI rows'.
Proof.
  intros [HL HS] HP [H1 H2]. split.
  - intros i Hi. rewrite HL in Hi. destruct (HP i Hi) as [-> ->]. auto.
  - intros i Hi U. rewrite HL in Hi. destruct (HP i Hi) as [E1 E2], (HS i Hi) as [E3 E4]. rewrite E4 in U.
    destruct (H2 i Hi U) as (j & A & B & C & D). exists j. rewrite E1, E2, E3. repeat (split; [assumption|]).
    intros j' s' HO HB. destruct (D j' s' HO HB) as (i' & Hi' & L & U' & P1 & P2). exists i'. split; [exact Hi'|].
    destruct (HP i' L) as [F1 F2], (HS i' L) as [_ F4]. unfold at_. rewrite HL, F1, F2, F4. auto.
Qed.
Lemma same_trans rows1 rows2 rows3 : same rows1 rows2 -> same rows2 rows3 -> same rows1 rows3.
Proof.
  intros [L1 H1] [L2 H2]. split; [lia|]. intros i Hi. destruct (H1 i Hi), (H2 i ltac:(lia)). split; congruence.
Qed.
Lemma settle_RI rows : RI rows -> RI (settle t rows) /\ settled (settle t rows) /\ same rows (settle t rows).
Proof.
  intros H. destruct (settle_spec rows H) as (HL & HE & HS).
  assert (same rows (settle t rows)) as SM by (split; [exact HL|intros i Hi; destruct (HE i Hi) as (? & ? & _); auto]).
  split; [|split; assumption]. apply (RI_ext rows); [exact SM| |exact H]. intros i Hi. destruct (HE i Hi) as (_ & _ & ? & ?); auto.
Qed.

(** an occupied valid slot has a non-pending (winning) row of no greater index *)
Lemma winner rows : settled rows -> forall i b s, s < bsz t -> at_ rows i b s ->
  exists i', i' <= i /\ at_ rows i' b s /\ ipend (rw rows i') = false.
Proof.
  intros S i. induction i as [i IH] using lt_wf_ind. intros b s Hs HA.
  destruct (ipend (rw rows i)) eqn:E.
  - apply S in E; [|apply HA]. destruct HA as (L & U & Eb & Es). destruct E as [_ [HB|(i' & Hi' & HA')]]; [lia|].
    rewrite Eb, Es in HA'. destruct (IH i' Hi' b s Hs HA') as (i2 & H2 & H3). exists i2. split; [lia|exact H3].
  - exists i. auto.
Qed.

Lemma move_pos r : ib r < cap t -> is_ r <= bsz t ->
  move hp t r = if ipend r then
     if bsz t - 1 <=? is_ r
     then MkI (ix r) (iupd r) (next_bucket (cap t) (step_of hp (cap t) (ix r)) (ib r))
              (fillOf t (next_bucket (cap t) (step_of hp (cap t) (ix r)) (ib r))) true
     else MkI (ix r) (iupd r) (ib r) (is_ r + 1) true
   else r.
Proof.
  intros Hb Hs. unfold move. destruct (ipend r); [|reflexivity]. unfold advance. pose proof (wf_bsz _ _ W) as HB.
  destruct (Nat.leb_spec (bsz t - 1) (is_ r)) as [H|H].
  - rewrite u8_small; [reflexivity|]. pose proof (wf_cap _ _ W) as HC. pose proof (wf_k _ _ W) as HK.
    pose proof (wf_fill _ _ W (next_bucket (cap t) (step_of hp (cap t) (ix r)) (ib r))) as HF.
    specialize (HF ltac:(apply (next_bucket_lt (cap t) k HC); lia)). lia.
  - rewrite u8_small by lia. reflexivity.
Qed.

Lemma move_step rows : RI rows -> settled rows -> RI (map (move hp t) rows) /\ same rows (map (move hp t) rows).
Proof.
  intros [H1 H2] S. pose proof (wf_cap _ _ W) as HC. pose proof (wf_k _ _ W) as HK. pose proof (wf_bsz _ _ W) as HB.
  assert (forall i, i < length rows -> rw (map (move hp t) rows) i = move hp t (rw rows i)) as Hn.
  { intros i Hi. apply map_nth_lt. exact Hi. }
  assert (same rows (map (move hp t) rows)) as SM.
  { split; [apply map_length|]. intros i Hi. rewrite Hn by exact Hi. destruct (H1 i Hi) as [Hb Hs].
    rewrite move_pos by assumption. destruct (ipend (rw rows i)); [|auto]. destruct (bsz t - 1 <=? is_ (rw rows i)); auto. }
  split; [|exact SM]. destruct SM as [SL SM].
  assert (forall i b s, s < bsz t -> at_ rows i b s -> exists i', i' <= i /\ at_ (map (move hp t) rows) i' b s) as Hkeep.
  { intros i b s Hs HA. destruct (winner rows S i b s Hs HA) as (i' & Hi' & (L & U & E1 & E2) & P).
    exists i'. split; [exact Hi'|]. unfold at_. rewrite SL, Hn by exact L. unfold move. rewrite P. auto. }
  split.
  - intros i Hi. rewrite SL in Hi. rewrite Hn by exact Hi. destruct (H1 i Hi) as [Hb Hs]. rewrite move_pos by assumption.
    destruct (ipend (rw rows i)); [|auto]. destruct (Nat.leb_spec (bsz t - 1) (is_ (rw rows i))); cbn [ib is_].
    + split; [apply (next_bucket_lt (cap t) k HC); lia|]. apply (wf_fill _ _ W). apply (next_bucket_lt (cap t) k HC); lia.
    + split; [exact Hb|lia].
  - intros i Hi U. rewrite SL in Hi. destruct (SM i Hi) as [EX EU]. rewrite EU in U.
    destruct (H2 i Hi U) as (j & A & B & C & D). destruct (H1 i Hi) as [Hb Hs].
    unfold row_ok. rewrite EX. rewrite Hn by exact Hi. rewrite move_pos by assumption.
    destruct (ipend (rw rows i)) eqn:EP.
    2:{ exists j. repeat (split; [assumption|]). intros j' s' HO HR. destruct (D j' s' HO HR) as (i' & Hi' & HA).
        destruct (Hkeep i' _ _ (proj2 HR) HA) as (i2 & Hi2 & HA2). exists i2. split; [lia|exact HA2]. }
    assert (forall s', s' = is_ (rw rows i) -> s' < bsz t -> exists i', i' < i /\ at_ (map (move hp t) rows) i' (pr (ix (rw rows i)) j) s') as Hcur.
    { intros s' -> Hv. apply S in EP; [|exact Hi]. destruct EP as [_ [HBad|(i' & Hi' & HA)]]; [lia|].
      rewrite A in HA. destruct (Hkeep i' _ _ Hv HA) as (i2 & Hi2 & HA2). exists i2. split; [lia|exact HA2]. }
    assert (forall j' s', (j' < j \/ j' = j /\ s' <= is_ (rw rows i)) -> fillOf t (pr (ix (rw rows i)) j') <= s' < bsz t ->
       exists i', i' < i /\ at_ (map (move hp t) rows) i' (pr (ix (rw rows i)) j') s') as Hbefore.
    { intros j' s' HO HR. destruct (Nat.eq_dec j' j) as [->|Hne]; [destruct (Nat.eq_dec s' (is_ (rw rows i))) as [E|Hne2]|].
      - apply Hcur; [exact E|apply HR].
      - destruct (D j s') as (i' & Hi' & HA); [lia|exact HR|].
        destruct (Hkeep i' _ _ (proj2 HR) HA) as (i2 & Hi2 & HA2). exists i2. split; [lia|exact HA2].
      - destruct (D j' s') as (i' & Hi' & HA); [lia|exact HR|].
        destruct (Hkeep i' _ _ (proj2 HR) HA) as (i2 & Hi2 & HA2). exists i2. split; [lia|exact HA2]. }
    destruct (Nat.leb_spec (bsz t - 1) (is_ (rw rows i))) as [HLast|HLast]; cbn [ix ib is_].
    + exists (Datatypes.S j). rewrite A, <- (probe_S hp (cap t) k HC) by lia.
      split; [reflexivity|]. split; [lia|]. split; [auto|].
      intros j' s' HO HR. apply Hbefore; [|exact HR].
      destruct HO as [HO|[-> HO]]; [|lia]. destruct (Nat.eq_dec j' j) as [->|Hne]; [|lia]. right. split; [reflexivity|lia].
    + exists j. split; [exact A|]. split; [lia|]. split; [lia|].
      intros j' s' HO HR. apply Hbefore; [|exact HR]. destruct HO as [HO|[-> HO]]; [left; exact HO|right; split; [reflexivity|lia]].
Qed.

(** ** the loop *)
Theorem rounds_spec rows : RI rows -> (maxp t < 2 ^ 32)%N ->
  exists rows', rounds hp t rows = Some rows' /\ RI rows' /\ settled rows' /\ same rows rows'.
Proof.
  intros HI HM.
  set (I := fun q : list irow * N => RI (fst q) /\ settled (fst q) /\ same rows (fst q) /\ (snd q <= maxp t)%N).
  destruct (while_total I (fun q => N.to_nat (maxp t - snd q)) (rd_cond t) (rd_body hp t)) with
    (fuel := S (N.to_nat (maxp t))) (s := (settle t rows, 0%N)) as ((rows' & p) & E & (H1 & H2 & H3 & _) & _).
  - intros [l p] (H1 & H2 & H3 & H4) HC. cbn [fst snd] in *. unfold rd_cond in HC. cbn [fst snd] in HC.
    apply andb_prop in HC. destruct HC as [_ HC]. apply N.ltb_lt in HC.
    unfold rd_body, I. cbn [fst snd]. rewrite w32_small by (unfold word, W32; lia).
    destruct (move_step l H1 H2) as [M1 M2]. destruct (settle_RI _ M1) as (S1 & S2 & S3).
    split; [|lia]. split; [exact S1|]. split; [exact S2|]. split; [|lia].
    eapply same_trans; [exact H3|]. eapply same_trans; eassumption.
  - destruct (settle_RI rows HI) as (S1 & S2 & S3). unfold I. cbn [fst snd]. split; [exact S1|]. split; [exact S2|]. split; [exact S3|]. lia.
  - cbn [snd]. lia.
  - exists rows'. unfold rounds. rewrite E. cbn [option_map fst]. auto.
Qed.
End R.
