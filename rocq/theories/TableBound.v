(** * TableBound.v — how many rounds always suffice to place a whole batch. *)
From Verif Require Import Jax HashModel HashProofs StableSort TableModel ProbeProofs TableLookup TableInv TableInsert ResolveProofs TableRounds TableCommit.

Lemma list_sum_app' l1 l2 : list_sum (l1 ++ l2) = list_sum l1 + list_sum l2.
Proof. induction l1; cbn; [reflexivity|]. unfold list_sum in *. lia. Qed.
Lemma sum_pointwise_le (f g : nat -> nat) l : (forall i, In i l -> f i <= g i) -> list_sum (map f l) <= list_sum (map g l).
Proof.
  induction l as [|a l IH]; intros H; [apply le_n|]. cbn [map list_sum fold_right]. change (fold_right Nat.add 0) with list_sum.
  pose proof (H a (or_introl eq_refl)). specialize (IH (fun i Hi => H i (or_intror Hi))). lia.
Qed.
Lemma sum_pointwise_lt (f g : nat -> nat) l i : (forall i, In i l -> f i <= g i) -> In i l -> f i < g i ->
  list_sum (map f l) < list_sum (map g l).
Proof.
  induction l as [|a l IH]; intros H HI HL; [destruct HI|]. cbn [map list_sum fold_right]. change (fold_right Nat.add 0) with list_sum.
  pose proof (H a (or_introl eq_refl)). pose proof (sum_pointwise_le f g l (fun i Hi => H i (or_intror Hi))).
  destruct HI as [->|HI]; [lia|]. specialize (IH (fun i Hi => H i (or_intror Hi)) HI HL). lia.
Qed.

Section B.
Context {item : Type} (d : item) (hp : item -> N * N).
Notation table := (@table item).
Notation irow := (@irow item).
Notation inv := (TableInv.inv d hp).
Implicit Types (rows : list irow) (r : irow) (b s i j : nat).
Variables (k : nat) (t : table).
Hypothesis V : inv k t.
Notation pr := (probe hp (cap t) k).
Let W := i_wf _ _ _ _ V.
Notation dr := (dr d).
Notation rw rows i := (nth i rows dr).
Let HC := wf_cap _ _ W.
Lemma k32' : k <= 32. Proof. pose proof (wf_k _ _ W). lia. Qed.

(** the free positions of one bucket, and of the first [j] buckets of a chain *)
Definition free_in b : list (nat * nat) := map (pair b) (seq (fillOf t b) (bsz t - fillOf t b)).
Definition free_before x j : list (nat * nat) := flat_map (fun j' => free_in (pr x j')) (seq 0 j).
Lemma in_free_in b p : b < cap t -> In p (free_in b) <-> fst p = b /\ fillOf t b <= snd p < bsz t.
Proof.
  intros Hb. pose proof (wf_fill _ _ W b Hb). unfold free_in. rewrite in_map_iff. split.
  - intros (s & <- & Hs). apply in_seq in Hs. cbn. lia.
  - intros [<- Hs]. exists (snd p). split; [destruct p; reflexivity|]. apply in_seq. lia.
Qed.
Lemma in_free_before x j p : In p (free_before x j) -> exists j', j' < j /\ fst p = pr x j' /\ fillOf t (pr x j') <= snd p < bsz t.
Proof.
  unfold free_before. rewrite in_flat_map. intros (j' & Hj' & Hp). apply in_seq in Hj'.
  apply in_free_in in Hp; [|apply (probe_lt hp (cap t) k HC k32')]. exists j'. split; [lia|exact Hp].
Qed.
Lemma free_before_S x j : free_before x (S j) = free_before x j ++ free_in (pr x j).
Proof. unfold free_before. rewrite seq_S, flat_map_app. cbn. rewrite app_nil_r. reflexivity. Qed.
Lemma NoDup_app' {A} (a b : list A) : NoDup a -> NoDup b -> (forall x, In x a -> ~ In x b) -> NoDup (a ++ b).
Proof.
  induction a as [|x a IH]; intros Ha Hb Hd; [exact Hb|]. cbn. inversion Ha as [|y l Hn Hl]; subst. constructor.
  - intros HI. apply in_app_or in HI. destruct HI as [HI|HI]; [exact (Hn HI)|]. apply (Hd x (or_introl eq_refl) HI).
  - apply IH; auto. intros y Hy. apply Hd. right. exact Hy.
Qed.
Lemma free_in_nodup b : NoDup (free_in b).
Proof.
  unfold free_in. apply FinFun.Injective_map_NoDup; [|apply seq_NoDup]. intros u v E. congruence.
Qed.
Lemma free_before_nodup x j : j <= cap t -> NoDup (free_before x j).
Proof.
  induction j as [|j IH]; intros Hj; [constructor|]. rewrite free_before_S. apply NoDup_app'.
  - apply IH. lia.
  - apply free_in_nodup.
  - intros p H1 H2. apply in_free_before in H1. destruct H1 as (j' & Hj' & E & _).
    apply in_free_in in H2; [|apply (probe_lt hp (cap t) k HC k32')]. destruct H2 as [E2 _]. rewrite E in E2.
    apply (probe_inj hp (cap t) k HC k32') in E2; lia.
Qed.
Lemma free_in_length b : length (free_in b) = bsz t - fillOf t b.
Proof. unfold free_in. rewrite map_length, seq_length. reflexivity. Qed.
Lemma flat_map_length' {A B} (f : A -> list B) l : length (flat_map f l) = list_sum (map (fun a => length (f a)) l).
Proof. induction l as [|a l IH]; [reflexivity|]. cbn [flat_map map list_sum fold_right]. change (fold_right Nat.add 0) with list_sum. rewrite app_length. lia. Qed.
Lemma free_all x : length (free_before x (cap t)) + total t = cap t * bsz t.
Proof.
  unfold free_before. rewrite flat_map_length'.
  rewrite (map_ext (fun a => length (free_in (pr x a))) (fun a => bsz t - fillOf t (pr x a))) by (intros; apply free_in_length).
  assert (total t = list_sum (map (fun j => fillOf t (pr x j)) (seq 0 (cap t)))) as ->.
  { unfold total. assert (Permutation (seq 0 (cap t)) (map (pr x) (seq 0 (cap t)))) as HP.
    { apply NoDup_Permutation; [apply seq_NoDup|apply (probe_nodup hp (cap t) k HC k32')|].
      intros b. rewrite in_seq, in_map_iff. split.
      - intros Hb. destruct (probe_onto hp (cap t) k HC k32' x b ltac:(lia)) as (j & Hj & E). exists j. split; [exact E|apply in_seq; lia].
      - intros (j & <- & _). pose proof (probe_lt hp (cap t) k HC k32' x j). lia. }
    apply (Permutation_map (fillOf t)) in HP. rewrite map_map in HP.
    clear - HP. induction HP; cbn; unfold list_sum in *; lia. }
  rewrite <- list_sum_add. rewrite (sum_const _ (bsz t)); [rewrite seq_length; reflexivity|].
  intros j Hj. pose proof (wf_fill _ _ W (pr x j) (probe_lt hp (cap t) k HC k32' x j)). lia.
Qed.

(** pigeonhole: distinct positions held by updatable rows below [i] *)
Definition upn rows i : list nat := filter (fun i' => iupd (rw rows i')) (seq 0 i).
Definition ups rows : nat := length (upn rows (length rows)).
Lemma occupied_count rows i (L : list (nat * nat)) : NoDup L ->
  (forall p, In p L -> exists i', i' < i /\ at_ d rows i' (fst p) (snd p)) -> length L <= length (upn rows i).
Proof.
  intros ND H. assert (incl L (map (fun i' => (ib (rw rows i'), is_ (rw rows i'))) (upn rows i))) as HI.
  { intros p Hp. destruct (H p Hp) as (i' & Hi' & (_ & U & E1 & E2)). apply in_map_iff. exists i'.
    split; [rewrite E1, E2; destruct p; reflexivity|apply filter_In; split; [apply in_seq; lia|exact U]]. }
  apply NoDup_incl_length in HI; [|exact ND]. rewrite map_length in HI. exact HI.
Qed.
Lemma upn_lt rows i : i < length rows -> iupd (rw rows i) = true -> length (upn rows i) < ups rows.
Proof.
  intros Hi U. unfold ups, upn. replace (length rows) with (i + S (length rows - S i)) by lia.
  rewrite seq_app, filter_app, app_length. cbn [seq filter plus]. rewrite U. cbn [length]. lia.
Qed.
Lemma ups_same rows rows' : same d rows rows' -> ups rows' = ups rows.
Proof.
  intros [HL H]. unfold ups, upn. rewrite HL. f_equal. apply filter_ext_in. intros i Hi. apply in_seq in Hi. apply H. lia.
Qed.

(** probe index of a bucket *)
Definition jof x b : nat := match find (fun j => pr x j =? b) (seq 0 (cap t)) with Some j => j | None => 0 end.
Lemma jof_pr x j : j < cap t -> jof x (pr x j) = j.
Proof.
  intros Hj. unfold jof. destruct (find _ _) as [j'|] eqn:E.
  - apply find_some in E. destruct E as [HI E]. apply in_seq in HI. apply Nat.eqb_eq in E.
    apply (probe_inj hp (cap t) k HC k32') in E; lia.
  - exfalso. apply find_none with (x := j) in E; [|apply in_seq; lia]. rewrite Nat.eqb_refl in E. discriminate.
Qed.
(** full buckets among the first [j] of a chain *)
Definition fulls x j : nat := length (filter (fun j' => fillOf t (pr x j') =? bsz t) (seq 0 j)).
Lemma fulls_S x j : fulls x (S j) = fulls x j + Nat.b2n (fillOf t (pr x j) =? bsz t).
Proof. unfold fulls. rewrite seq_S, filter_app, app_length. cbn [plus filter]. destruct (fillOf t (pr x j) =? bsz t); reflexivity. Qed.
(** the number of rounds a row has spent: one per full bucket and per free slot passed *)
Definition wt r : nat :=
  let j := jof (ix r) (ib r) in fulls (ix r) j + length (free_before (ix r) j) + (is_ r - fillOf t (ib r)).

(** [n] rows, at most [mm] of them updatable; each meets at most [F] full buckets before
    its [mm]-th free slot *)
Variables n mm F : nat.
Hypothesis Hfree : mm + total t <= cap t * bsz t.
Definition crossing x : Prop := forall j, j < cap t -> length (free_before x j) < mm -> fulls x j <= F.
Definition sized rows : Prop := length rows = n /\ ups rows <= mm /\ forall i, i < n -> iupd (rw rows i) = true -> crossing (ix (rw rows i)).
Lemma sized_same rows rows' : same d rows rows' -> sized rows -> sized rows'.
Proof.
  intros S (A & B & D). pose proof (ups_same _ _ S) as E. destruct S as [L S]. split; [lia|]. split; [lia|]. intros i Hi.
  destruct (S i ltac:(lia)) as [-> ->]. now apply D.
Qed.
Lemma upn_same rows rows' i : same d rows rows' -> i <= length rows -> upn rows' i = upn rows i.
Proof. intros [HL H] Hi. unfold upn. apply filter_ext_in. intros q Hq. apply in_seq in Hq. apply H. lia. Qed.

Lemma row_bound rows i : sized rows -> RI d hp k t rows -> i < n -> iupd (rw rows i) = true ->
  exists j, j < cap t /\ ib (rw rows i) = pr (ix (rw rows i)) j /\ fillOf t (ib (rw rows i)) <= is_ (rw rows i) /\
    (is_ (rw rows i) = bsz t -> fillOf t (ib (rw rows i)) = bsz t) /\ wt (rw rows i) <= F + length (upn rows i).
Proof.
  intros (HL & HU & HCR) HI Hi U. pose proof (upn_lt rows i ltac:(lia) U) as HUP. destruct (proj2 HI i ltac:(lia) U) as (j & A & B & C & D).
  destruct (proj1 HI i ltac:(lia)) as [Hb Hs].
  assert (j < cap t) as Hj.
  { destruct (Nat.lt_ge_cases j (cap t)) as [H|H]; [exact H|exfalso].
    assert (length (free_before (ix (rw rows i)) (cap t)) <= length (upn rows i)) as HL2.
    { apply (occupied_count rows); [apply free_before_nodup; lia|]. intros p Hp. apply in_free_before in Hp.
      destruct Hp as (j' & Hj' & E & HR). rewrite E. apply D; [left; lia|exact HR]. }
    pose proof (free_all (ix (rw rows i))). lia. }
  exists j. split; [exact Hj|]. split; [exact A|]. rewrite A. split; [exact B|]. split; [exact C|].
  unfold wt. rewrite A, jof_pr by exact Hj.
  set (x := ix (rw rows i)) in *. set (s := is_ (rw rows i)) in *.
  set (L := free_before x j ++ map (pair (pr x j)) (seq (fillOf t (pr x j)) (s - fillOf t (pr x j)))).
  assert (length L <= length (upn rows i)) as HLL.
  { apply (occupied_count rows).
    - apply NoDup_app'; [apply free_before_nodup; lia| |].
      + apply FinFun.Injective_map_NoDup; [|apply seq_NoDup]. intros u v E. congruence.
      + intros p H1 H2. apply in_free_before in H1. destruct H1 as (j' & Hj' & E & _).
        apply in_map_iff in H2. destruct H2 as (s' & <- & _). cbn in E. apply (probe_inj hp (cap t) k HC k32') in E; lia.
    - intros p Hp. apply in_app_or in Hp. destruct Hp as [Hp|Hp].
      + apply in_free_before in Hp. destruct Hp as (j' & Hj' & E & HR). rewrite E. apply D; [left; lia|exact HR].
      + apply in_map_iff in Hp. destruct Hp as (s' & <- & Hs'). apply in_seq in Hs'. cbn [fst snd].
        apply D; [right; split; [reflexivity|lia]|lia]. }
  unfold L in HLL. rewrite app_length, map_length, seq_length in HLL. pose proof (HCR i Hi U j Hj) as HK. fold x in HK. lia.
Qed.

Lemma move_wt rows i : sized rows -> RI d hp k t rows -> settled d t rows -> i < n -> iupd (rw rows i) = true ->
  wt (rw rows i) + Nat.b2n (ipend (rw rows i)) <= wt (rw (map (move hp t) rows) i).
Proof.
  intros HZ HI HS Hi U. pose proof HZ as (HL & HU & _). pose proof (upn_lt rows i ltac:(lia) U) as HUP. destruct (move_step d hp k t V rows HI HS) as [HM HSM]. pose proof HSM as [SL SM].
  destruct (row_bound rows i HZ HI Hi U) as (j & Hj & A & B & C & _).
  destruct (row_bound (map (move hp t) rows) i) as (j' & Hj' & A' & B' & C' & _); [apply (sized_same rows); assumption|exact HM|exact Hi| |].
  { destruct (SM i ltac:(lia)) as [_ ->]. exact U. }
  revert A' B'. rewrite (map_nth_lt (move hp t) rows i dr) by lia.
  destruct (proj1 HI i ltac:(lia)) as [Hb Hs]. rewrite (move_pos d hp k t V) by assumption.
  destruct (ipend (rw rows i)) eqn:EP; cbn [Nat.b2n]; [|intros; lia].
  pose proof (wf_bsz _ _ W) as HB.
  destruct (Nat.leb_spec (bsz t - 1) (is_ (rw rows i))) as [HLst|HLst]; cbn [ix ib is_]; intros A' B'; unfold wt; cbn [ix ib is_].
  - rewrite A in *. rewrite <- (probe_S hp (cap t) k HC k32') in *.
    assert (S j < cap t) as HSj.
    { destruct (Nat.lt_ge_cases (S j) (cap t)) as [H|H]; [exact H|exfalso].
      (* wrapped to the first bucket: the moved row would have lower rows on every free slot *)
      destruct (proj2 HI i ltac:(lia) U) as (j0 & A0 & B0 & C0 & D0). 
      assert (length (free_before (ix (rw rows i)) (cap t)) <= length (upn rows i)) as HL2.
      { apply (occupied_count rows); [apply free_before_nodup; lia|]. intros p Hp. apply in_free_before in Hp.
        destruct Hp as (j2 & Hj2 & E & HR). rewrite E.
        assert (j <= j0) as Hjj.
        { destruct (Nat.lt_ge_cases j0 (cap t)) as [Hc|Hc]; [|lia].
          rewrite A in A0. apply (probe_inj hp (cap t) k HC k32') in A0; lia. }
        assert (j2 < j0 \/ j2 = j0) as [Hlt|Heq] by lia.
        - apply D0; [left; lia|exact HR].
        - destruct (Nat.eq_dec (snd p) (is_ (rw rows i))) as [Es|Es].
          + apply HS in EP; [|lia]. destruct EP as [_ [HBad|(i' & Hi' & HA)]]; [lia|].
            exists i'. split; [exact Hi'|]. rewrite Heq, <- A0, Es. exact HA.
          + apply D0; [right; split; [exact Heq|lia]|exact HR]. }
      pose proof (free_all (ix (rw rows i))). lia. }
    rewrite !jof_pr by assumption. rewrite free_before_S, app_length, free_in_length, fulls_S. pose proof (wf_fill _ _ W (pr (ix (rw rows i)) j) (probe_lt hp (cap t) k HC k32' (ix (rw rows i)) j)) as HFI. destruct (Nat.eqb_spec (fillOf t (pr (ix (rw rows i)) j)) (bsz t)) as [EF|EF]; cbn [Nat.b2n]; [lia|]. assert (is_ (rw rows i) <> bsz t) by (intros EX; apply EF; now apply C). lia.
  - rewrite A in *. rewrite !jof_pr by assumption. lia.
Qed.

Definition slack rows : nat := list_sum (map (fun i => if iupd (rw rows i) then F + length (upn rows i) - wt (rw rows i) else 0) (seq 0 n)).
Definition round_bound (m f : nat) : nat := m * f + m * (m - 1) / 2.
Lemma round_bound_S m f : round_bound (S m) f = round_bound m f + f + m.
Proof.
  unfold round_bound. replace (S m * (S m - 1)) with (m * (m - 1) + m * 2) by (destruct m; nia). rewrite Nat.div_add by lia. nia.
Qed.
Lemma round_bound_mono m m' f : m <= m' -> round_bound m f <= round_bound m' f.
Proof. induction 1 as [|m' H IH]; [lia|]. rewrite round_bound_S. lia. Qed.
Lemma ranks rows q : list_sum (map (fun i => if iupd (rw rows i) then F + length (upn rows i) else 0) (seq 0 q)) = round_bound (length (upn rows q)) F.
Proof.
  induction q as [|q IH]; [reflexivity|]. rewrite seq_S, map_app, list_sum_app', IH. cbn [map plus].
  assert (EU : upn rows (S q) = upn rows q ++ (if iupd (rw rows q) then [q] else [])) by (unfold upn; rewrite seq_S, filter_app; reflexivity).
  rewrite EU, app_length. destruct (iupd (rw rows q)); cbn [list_sum fold_right length].
  - replace (length (upn rows q) + 1) with (S (length (upn rows q))) by lia. rewrite round_bound_S. lia.
  - rewrite !Nat.add_0_r. reflexivity.
Qed.
Lemma slack_le rows : sized rows -> slack rows <= round_bound mm F.
Proof.
  intros (HL & HU & _). etransitivity; [|apply round_bound_mono; exact HU]. unfold ups. rewrite HL, <- ranks. unfold slack. apply sum_pointwise_le. intros i _. destruct (iupd (rw rows i)); lia.
Qed.
Lemma body_slack rows p : sized rows -> RI d hp k t rows -> settled d t rows -> existsb ipend rows = true ->
  slack (fst (rd_body hp t (rows, p))) < slack rows.
Proof.
  intros HZ HI HS HE. pose proof HZ as (HL & _). unfold rd_body. cbn [fst].
  destruct (move_step d hp k t V rows HI HS) as [HM SMM]. pose proof SMM as [SL SM].
  destruct (settle_spec d hp k t V _ HM) as (TL & TE & _). rewrite map_length in TL, TE.
  assert (forall i, i < n -> iupd (rw rows i) = true -> wt (rw (settle t (map (move hp t) rows)) i) = wt (rw (map (move hp t) rows) i)) as Hwt.
  { intros i Hi _. destruct (TE i ltac:(lia)) as (E1 & E2 & E3 & E4). unfold wt. rewrite E1, E3, E4. reflexivity. }
  assert (forall i, i < n -> iupd (rw (settle t (map (move hp t) rows)) i) = iupd (rw rows i)) as Hup.
  { intros i Hi. destruct (TE i ltac:(lia)) as (E1 & E2 & E3 & E4). rewrite E2. apply SM. lia. }
  assert (forall i, i < n -> upn (settle t (map (move hp t) rows)) i = upn rows i) as Hun.
  { intros i Hi. unfold upn. apply filter_ext_in. intros q Hq. apply in_seq in Hq. apply Hup. lia. }
  apply existsb_exists in HE. destruct HE as (r & Hr & HP). apply (In_nth _ _ dr) in Hr. destruct Hr as (i & Hi & <-).
  unfold slack. apply sum_pointwise_lt with (i := i).
  - intros q Hq. apply in_seq in Hq. rewrite Hup, Hun by lia. destruct (iupd (rw rows q)) eqn:U; [|lia].
    rewrite Hwt by (auto; lia). pose proof (move_wt rows q HZ HI HS ltac:(lia) U). lia.
  - apply in_seq. lia.
  - rewrite Hup, Hun by lia. pose proof HP as HP'. apply HS in HP'; [|exact Hi]. destruct HP' as [U _]. rewrite U.
    rewrite Hwt by (auto; lia). pose proof (move_wt rows i HZ HI HS ltac:(lia) U) as HW. rewrite HP in HW. cbn in HW.
    destruct (row_bound (map (move hp t) rows) i (sized_same _ _ SMM HZ) HM ltac:(lia)) as (_ & _ & _ & _ & _ & HB); [destruct (SM i ltac:(lia)) as [_ ->]; exact U|]. rewrite (upn_same _ _ i SMM) in HB by lia. lia.
Qed.

(** with room for the batch and at least m*F + m*(m-1)/2 rounds allowed, every row is placed *)
Theorem rounds_complete rows : sized rows -> RI d hp k t rows -> (maxp t < 2 ^ 32)%N ->
  (N.of_nat (round_bound mm F) <= maxp t)%N ->
  exists rows', rounds hp t rows = Some rows' /\ RI d hp k t rows' /\ settled d t rows' /\ same d rows rows' /\
    forall i, i < n -> ipend (rw rows' i) = false.
Proof.
  intros HL HI HM HR.
  set (I := fun q : list irow * N => RI d hp k t (fst q) /\ settled d t (fst q) /\ same d rows (fst q) /\ (snd q <= maxp t)%N /\
     (slack (fst q) + N.to_nat (snd q) <= round_bound mm F)).
  destruct (while_total I (fun q => N.to_nat (maxp t - snd q)) (rd_cond t) (rd_body hp t)) with
    (fuel := S (N.to_nat (maxp t))) (s := (settle t rows, 0%N)) as ((rows' & p) & E & (H1 & H2 & H3 & H4 & H5) & HCo).
  - intros [l p] (H1 & H2 & H3 & H4 & H5) HCo. cbn [fst snd] in *. unfold rd_cond in HCo. cbn [fst snd] in HCo.
    apply andb_prop in HCo. destruct HCo as [HE HCo]. apply N.ltb_lt in HCo.
    assert (sized l) as Hll by (apply (sized_same rows); assumption).
    pose proof (body_slack l p Hll H1 H2 HE) as HSl.
    unfold I. unfold rd_body in HSl |- *. cbn [fst snd] in HSl |- *. rewrite w32_small by (unfold word, W32; lia).
    destruct (move_step d hp k t V l H1 H2) as [M1 M2]. destruct (settle_RI d hp k t V _ M1) as (S1 & S2 & S3).
    split; [|lia]. split; [exact S1|]. split; [exact S2|]. split; [|split; lia].
    apply (same_trans d k _ l); [exact H3|]. apply (same_trans d k _ (map (move hp t) l)); assumption.
  - destruct (settle_RI d hp k t V rows HI) as (S1 & S2 & S3). unfold I. cbn [fst snd]. split; [exact S1|]. split; [exact S2|]. split; [exact S3|].
    split; [lia|]. rewrite Nat.add_0_r. apply slack_le. apply (sized_same rows); assumption.
  - cbn [snd]. lia.
  - exists rows'. unfold rounds. rewrite E. cbn [option_map fst snd] in *. split; [reflexivity|]. repeat (split; [assumption|]).
    assert (sized rows') as Hll by (apply (sized_same rows); assumption).
    unfold rd_cond in HCo. cbn [fst snd] in HCo. destruct (existsb ipend rows') eqn:HE.
    + exfalso. cbn [andb] in HCo. apply N.ltb_ge in HCo. pose proof (body_slack rows' p Hll H1 H2 HE). lia.
    + intros i Hi. destruct (ipend (rw rows' i)) eqn:EP; [|reflexivity]. exfalso.
      assert (existsb ipend rows' = true); [|congruence]. apply existsb_exists. exists (rw rows' i). split; [apply nth_In; destruct Hll; lia|exact EP].
Qed.
End B.
