(** * TableCommit.v — the winners of the rounds are good places; writing them is [placed]. *)
From Verif Require Import Jax HashModel HashProofs StableSort TableModel ProbeProofs TableLookup TableInv TableInsert ResolveProofs TableRounds.

(** ** scatters *)
Section Scatter.
Context {item : Type}.
Notation place := (item * (nat * nat))%type.
Definition flat_of (n : nat) (p : place) : nat := fst (snd p) * n + snd (snd p).

Lemma fold_upd_length {A B} (f : B -> nat) (v : list A -> B -> A) (l : list B) : forall init,
  length (fold_left (fun a p => upd a (f p) (v a p)) l init) = length init.
Proof. induction l as [|a l IH]; intros init; cbn [fold_left]; [reflexivity|]. rewrite IH. apply upd_length. Qed.

Lemma flats_nodup n (ok : list place) : (forall p, In p ok -> snd (snd p) < n) -> NoDup (map snd ok) -> NoDup (map (flat_of n) ok).
Proof.
  intros HR. induction ok as [|p ok IH]; intros ND; [constructor|]. cbn [map] in *. inversion ND as [|a l Hn Hl]; subst.
  constructor; [|apply IH; [intros q Hq; apply HR; right; exact Hq|exact Hl]].
  intros HI. apply in_map_iff in HI. destruct HI as (q & E & Hq). apply Hn. apply in_map_iff. exists q. split; [|exact Hq].
  unfold flat_of in E. apply flat_inj in E; [|apply HR; right; exact Hq|apply HR; left; reflexivity].
  destruct p as [x [b s]], q as [y [b' s']]. cbn in *. destruct E. congruence.
Qed.

Lemma fold_fill (ok : list place) : forall init b, b < length init ->
  nth b (fold_left (fun a p => upd a (fst (snd p)) (nth (fst (snd p)) a 0 + 1)) ok init) 0 = nth b init 0 + cnt b ok.
Proof.
  induction ok as [|[x [b' s]] ok IH]; intros init b Hb; cbn [fold_left fst snd].
  - unfold cnt. cbn. lia.
  - rewrite IH by (rewrite upd_length; exact Hb). unfold cnt. cbn [filter fst snd]. rewrite nth_upd.
    destruct (Nat.eqb_spec b' b) as [->|Hne]; destruct (Nat.ltb_spec b (length init)); cbn [andb length]; try lia.
Qed.
Definition bitsum (l : list nat) : N := fold_right (fun s a => (2 ^ N.of_nat s + a)%N) 0%N l.
Lemma fold_occ (ok : list place) : forall init b, b < length init -> word (nth b init 0%N) ->
  nth b (fold_left (fun a p => upd a (fst (snd p)) (w32 (nth (fst (snd p)) a 0%N + N.shiftl 1 (N.of_nat (snd (snd p)))))) ok init) 0%N
  = w32 (nth b init 0%N + bitsum (slots_at b ok)).
Proof.
  induction ok as [|[x [b' s]] ok IH]; intros init b Hb Hw; cbn [fold_left fst snd].
  - unfold slots_at. cbn. rewrite N.add_0_r. symmetry. apply w32_small. exact Hw.
  - rewrite IH.
    + unfold slots_at. cbn [filter fst snd]. rewrite nth_upd.
      destruct (Nat.eqb_spec b' b) as [->|Hne]; destruct (Nat.ltb_spec b (length init)); cbn [andb map snd]; try lia; try reflexivity.
      cbn [bitsum fold_right]. fold (bitsum (map (fun p : place => snd (snd p)) (filter (fun p : place => fst (snd p) =? b) ok))).
      rewrite N.shiftl_1_l. unfold w32. rewrite N.add_mod_idemp_l by discriminate. f_equal. lia.
    + rewrite upd_length. exact Hb.
    + rewrite nth_upd. destruct ((b' =? b) && (b' <? length init)); [apply w32_word|exact Hw].
Qed.
Lemma bitsum_perm l l' : Permutation l l' -> bitsum l = bitsum l'.
Proof. unfold bitsum. induction 1; cbn [fold_right]; [reflexivity|congruence|lia|congruence]. Qed.
Lemma bitsum_seq f c : (N.ones (N.of_nat f) + bitsum (seq f c) = N.ones (N.of_nat (f + c)))%N.
Proof.
  revert f. induction c as [|c IH]; intros f; cbn [seq].
  - rewrite Nat.add_0_r. cbn. lia.
  - unfold bitsum. cbn [fold_right]. fold (bitsum (seq (S f) c)). replace (f + S c) with (S f + c) by lia. rewrite <- IH. rewrite !N.ones_equiv.
    replace (N.of_nat (S f)) with (N.succ (N.of_nat f)) by lia. rewrite N.pow_succ_r'.
    pose proof (N.pow_nonzero 2 (N.of_nat f)). lia.
Qed.
End Scatter.

Section C.
Context {item : Type} (d : item) (hp : item -> N * N).
Notation table := (@table item).
Notation irow := (@irow item).
Notation place := (item * (nat * nat))%type.
Notation inv := (TableInv.inv d hp).
Implicit Types (rows : list irow) (r : irow) (b s i j : nat) (ok : list place).
Variables (k : nat) (t : table).
Hypothesis V : inv k t.
Notation pr := (probe hp (cap t) k).
Let W := i_wf _ _ _ _ V.
Notation dr := (dr d).
Notation rw rows i := (nth i rows dr).

(** writing places: the array updates shared by the backends *)
Definition write_places t ok : table :=
  {| cap := cap t; bsz := bsz t; maxp := maxp t;
     size := w32 (size t + N.of_nat (length ok));
     tab := fold_left (fun a p => upd a (flat_of (bsz t) p) (fst p)) ok (tab t);
     fill := fold_left (fun a p => upd a (fst (snd p)) (nth (fst (snd p)) a 0 + 1)) ok (fill t);
     occ := if bsz t <=? 32
            then fold_left (fun a p => upd a (fst (snd p)) (w32 (nth (fst (snd p)) a 0%N + N.shiftl 1 (N.of_nat (snd (snd p)))))) ok (occ t)
            else occ t;
     fps := fold_left (fun a p => upd a (flat_of (bsz t) p) (fp_of hp (fst p))) ok (fps t) |}.

Lemma word_ones n : n <= 32 -> word (N.ones (N.of_nat n)).
Proof.
  intros H. unfold word, W32. rewrite N.ones_equiv. pose proof (N.pow_nonzero 2 (N.of_nat n)).
  assert (2 ^ N.of_nat n <= 2 ^ 32)%N by (apply N.pow_le_mono_r; lia). lia.
Qed.

Lemma write_places_placed ok : good_places d hp k t ok -> placed d hp t (write_places t ok) ok.
Proof.
  intros G. pose proof (wf_bsz _ _ W) as HB.
  assert (NoDup (map (flat_of (bsz t)) ok)) as ND.
  { apply flats_nodup; [|apply G]. intros [x [b s]] Hp. apply (g_range _ _ _ _ _ G) in Hp. cbn. lia. }
  assert (forall x b s, In (x, (b, s)) ok -> b * bsz t + s < (cap t + 1) * bsz t) as Hflat.
  { intros x b s Hp. apply (g_range _ _ _ _ _ G) in Hp. apply flat_lt; lia. }
  assert (forall b, b < cap t -> fillOf (write_places t ok) b = fillOf t b + cnt b ok) as HFill.
  { intros b Hb. unfold fillOf at 1, write_places. cbn [fill]. rewrite fold_fill; [reflexivity|].
    rewrite (wf_fill_len _ _ W). lia. }
  destruct (scatter_nth (flat_of (bsz t)) fst d ok (tab t) ND) as (T1 & T2 & T3).
  destruct (scatter_nth (flat_of (bsz t)) (fun p => fp_of hp (fst p)) 0%N ok (fps t) ND) as (F1 & F2 & F3).
  constructor; try reflexivity.
  - unfold write_places. cbn [tab]. exact T3.
  - unfold write_places. cbn [fps]. exact F3.
  - unfold write_places. cbn [fill]. apply (fold_upd_length (fun p : place => fst (snd p)) (fun a p => nth (fst (snd p)) a 0 + 1)).
  - unfold write_places. cbn [occ]. destruct (bsz t <=? 32); [|reflexivity].
    apply (fold_upd_length (fun p : place => fst (snd p)) (fun a p => w32 (nth (fst (snd p)) a 0%N + N.shiftl 1 (N.of_nat (snd (snd p)))))).
  - intros x b s Hp. specialize (T1 (x, (b, s)) Hp). specialize (F1 (x, (b, s)) Hp). unfold flat_of in T1, F1. cbn [fst snd] in T1, F1.
    unfold tabAt, fpAt, write_places. cbn [tab fps]. split; [apply T1; rewrite (wf_tab _ _ W)|apply F1; rewrite (wf_fps _ _ W)]; eauto.
  - intros i Hne. unfold tabAt, fpAt, write_places. cbn [tab fps].
    assert (~ In i (map (flat_of (bsz t)) ok)) as HN.
    { intros HI. apply in_map_iff in HI. destruct HI as ([x [b s]] & E & Hp). apply (Hne x b s Hp). rewrite <- E. reflexivity. }
    split; [apply T2|apply F2]; exact HN.
  - exact HFill.
  - intros H32 HO b Hb. rewrite HFill by exact Hb. unfold write_places. cbn [occ].
    replace (bsz t <=? 32) with true by (symmetry; apply Nat.leb_le; exact H32).
    pose proof (wf_fill _ _ W b Hb) as HF.
    rewrite fold_occ; [|rewrite (wf_occ_len _ _ W); lia|rewrite HO by exact Hb; apply word_ones; lia].
    rewrite HO by exact Hb.
    assert (Permutation (slots_at b ok) (seq (fillOf t b) (cnt b ok))) as HP.
    { apply NoDup_Permutation; [apply slots_at_nodup; apply G|apply seq_NoDup|].
      intros s. rewrite slots_at_in, in_seq. apply (slots_mem d hp k t ok G b s Hb). }
    rewrite (bitsum_perm _ _ HP), bitsum_seq. apply w32_small. apply word_ones.
    pose proof (fill'_le d hp k t ok V G b Hb). lia.
Qed.

Lemma fold_map_upd {A B C} (g : C -> B) (f : list A -> B -> list A) (l : list C) : forall init,
  fold_left (fun a c => f a (g c)) l init = fold_left f (map g l) init.
Proof. induction l as [|c l IH]; intros init; [reflexivity|]. cbn [map fold_left]. apply IH. Qed.
Definition place_of r : place := (ix r, (ib r, is_ r)).
Definition places rows : list place := map place_of (filter (succ_row t) rows).
Lemma commit_write rows : commit hp t rows = write_places t (places rows).
Proof.
  unfold commit, write_places, places. rewrite map_length. f_equal.
  - apply (fold_map_upd place_of (fun a p => upd a (flat_of (bsz t) p) (fst p))).
  - apply (fold_map_upd place_of (fun a p => upd a (fst (snd p)) (nth (fst (snd p)) a 0 + 1))).
  - destruct (bsz t <=? 32); [|reflexivity].
    apply (fold_map_upd place_of (fun a p => upd a (fst (snd p)) (w32 (nth (fst (snd p)) a 0%N + N.shiftl 1 (N.of_nat (snd (snd p))))))).
  - apply (fold_map_upd place_of (fun a p => upd a (flat_of (bsz t) p) (fp_of hp (fst p)))).
Qed.

(** ** the winners are good places *)
Lemma in_places rows x b s : RI d hp k t rows -> settled d t rows ->
  (In (x, (b, s)) (places rows) <-> exists i, at_ d rows i b s /\ ix (rw rows i) = x /\ s < bsz t /\ ipend (rw rows i) = false).
Proof.
  intros HI HS. unfold places. rewrite in_map_iff. split.
  - intros (r & E & Hr). apply filter_In in Hr. destruct Hr as [Hr HO]. apply (In_nth _ _ dr) in Hr. destruct Hr as (i & Hi & <-).
    unfold place_of in E. injection E as E1 E2 E3. unfold succ_row in HO.
    apply andb_prop in HO. destruct HO as [HO H3]. apply andb_prop in HO. destruct HO as [H1 H2]. apply Nat.ltb_lt in H3.
    exists i. unfold at_. rewrite negb_true_iff in H2. repeat split; auto. lia.
  - intros (i & (L & U & E1 & E2) & E & Hs & HP). exists (rw rows i). split; [unfold place_of; congruence|].
    apply filter_In. split; [apply nth_In; exact L|]. unfold succ_row. rewrite U, HP, E2. cbn. apply Nat.ltb_lt. exact Hs.
Qed.
Lemma occupied_places rows i b s : RI d hp k t rows -> settled d t rows -> s < bsz t -> at_ d rows i b s ->
  exists x, In (x, (b, s)) (places rows).
Proof.
  intros HI HS Hs HA. destruct (winner d t rows HS i b s Hs HA) as (i' & _ & HA' & HP).
  exists (ix (rw rows i')). apply in_places; auto. exists i'. auto.
Qed.
Lemma winner_unique rows i i' b s : settled d t rows -> at_ d rows i b s -> at_ d rows i' b s ->
  ipend (rw rows i) = false -> ipend (rw rows i') = false -> i = i'.
Proof.
  intros HS HA HA' HP HP'.
  assert (forall a c, a < c -> at_ d rows a b s -> at_ d rows c b s -> ipend (rw rows c) = true) as H.
  { intros a c Hac H1 H2. apply HS; [apply H2|]. split; [apply H2|]. right. exists a. split; [exact Hac|].
    destruct H2 as (_ & _ & -> & ->). exact H1. }
  destruct (Nat.lt_trichotomy i i') as [HL|[E|HL]]; [|exact E|].
  - rewrite (H i i' HL HA HA') in HP'. discriminate.
  - rewrite (H i' i HL HA' HA) in HP. discriminate.
Qed.

Theorem places_good rows : RI d hp k t rows -> settled d t rows ->
  (forall i i', i < length rows -> i' < length rows -> iupd (rw rows i) = true -> iupd (rw rows i') = true ->
     ix (rw rows i) = ix (rw rows i') -> i = i') ->
  (forall i, i < length rows -> iupd (rw rows i) = true -> forall b, b < cap t -> ~ in_bucket d t b (ix (rw rows i))) ->
  good_places d hp k t (places rows).
Proof.
  intros HI HS HD HF. pose proof (wf_bsz _ _ W) as HB.
  assert (NoDup (map snd (places rows))) as ND.
  { unfold places. rewrite map_map. apply (filter_nodup_nth _ _ dr). intros i j Hij H1 H2 E.
    unfold succ_row in H1, H2. apply andb_prop in H1. destruct H1 as [H1 A3]. apply andb_prop in H1. destruct H1 as [A1 A2].
    apply andb_prop in H2. destruct H2 as [H2 B3]. apply andb_prop in H2. destruct H2 as [B1 B2]. rewrite negb_true_iff in A2, B2.
    unfold place_of in E. cbn in E. injection E as E1 E2.
    assert (i = j); [|lia]. apply (winner_unique rows i j (ib (rw rows i)) (is_ (rw rows i)) HS); auto; unfold at_; repeat split; auto; lia. }
  assert (forall x b s, In (x, (b, s)) (places rows) -> b < cap t /\ fillOf t b <= s < bsz t) as HR.
  { intros x b s Hp. apply in_places in Hp; auto. destruct Hp as (i & (L & U & E1 & E2) & E & Hs & HP).
    destruct HI as [H1 H2]. destruct (H1 i L). destruct (H2 i L U) as (j & A & B & C & D).
    split; [congruence|]. rewrite <- A in B. rewrite E1, E2 in B. lia. }
  constructor.
  - exact HR.
  - exact ND.
  - intros x b s Hp s' Hs'. apply in_places in Hp; auto. destruct Hp as (i & (L & U & E1 & E2) & E & Hs & HP).
    destruct (proj2 HI i L U) as (j & A & B & C & D). rewrite E1 in A.
    destruct (D j s') as (i' & Hi' & HA); [right; split; [reflexivity|lia]|rewrite <- A; lia|].
    rewrite <- A in HA. apply (occupied_places rows i' b s'); auto. lia.
  - unfold places. rewrite map_map. apply (filter_nodup_nth _ _ dr). intros i j Hij H1 H2 E. cbn in E.
    unfold succ_row in H1, H2. apply andb_prop in H1. destruct H1 as [H1 _]. apply andb_prop in H1. destruct H1 as [A1 _].
    apply andb_prop in H2. destruct H2 as [H2 _]. apply andb_prop in H2. destruct H2 as [B1 _].
    assert (i = j); [|lia]. apply HD; auto; lia.
  - intros x b s Hp. apply in_places in Hp; auto. destruct Hp as (i & (L & U & E1 & E2) & <- & Hs & HP). apply HF; assumption.
  - intros x b s Hp. apply in_places in Hp; auto. destruct Hp as (i & (L & U & E1 & E2) & <- & Hs & HP).
    destruct (proj2 HI i L U) as (j & A & B & C & D). rewrite E1 in A. rewrite E2 in B, C, D.
    exists j. pose proof (wf_cap _ _ W) as HC. pose proof (wf_k _ _ W) as HK.
    split; [|split; [congruence|]].
    + destruct (Nat.lt_ge_cases j (cap t)) as [Hj|Hj]; [exact Hj|exfalso].
      destruct (D (j - cap t) s) as (i' & Hi' & HA).
      { left. destruct (proj1 HI i L). lia. }
      { replace (pr (ix (rw rows i)) (j - cap t)) with (pr (ix (rw rows i)) j); [lia|].
        replace j with (cap t + (j - cap t)) at 1 by lia. apply (probe_period hp (cap t) k HC). lia. }
      replace (pr (ix (rw rows i)) (j - cap t)) with b in HA.
      2:{ rewrite A. replace j with (cap t + (j - cap t)) at 1 by lia. apply (probe_period hp (cap t) k HC). lia. }
      destruct (winner d t rows HS i' b s Hs HA) as (i2 & Hi2 & HA2 & HP2).
      assert (i2 = i); [|lia]. apply (winner_unique rows i2 i b s HS); auto. unfold at_. auto.
    + intros q Hq. set (b' := pr (ix (rw rows i)) q).
      assert (b' < cap t) as Hb' by (apply (probe_lt hp (cap t) k HC); lia).
      rewrite <- slots_at_length.
      assert (length (slots_at b' (places rows)) = length (seq (fillOf t b') (bsz t - fillOf t b'))) as ->.
      { apply Nat.le_antisymm; (apply NoDup_incl_length; [first [apply slots_at_nodup; exact ND|apply seq_NoDup]|]).
        - intros s' Hs'. apply slots_at_in in Hs'. destruct Hs' as (x' & Hx'). apply HR in Hx'. apply in_seq. lia.
        - intros s' Hs'. apply in_seq in Hs'. apply slots_at_in.
          destruct (D q s') as (i' & Hi' & HA); [left; exact Hq|fold b'; lia|].
          apply (occupied_places rows i' b' s'); auto. lia. }
      rewrite seq_length. pose proof (wf_fill _ _ W b' Hb'). lia.
Qed.
End C.
