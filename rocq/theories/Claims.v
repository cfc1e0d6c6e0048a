(** * Claims.v — slot claiming: an invariant of any procedure that hands out the next
      free slot of a bucket, one row at a time, to rows whose earlier buckets are full. *)
From Verif Require Import Jax KeyModel HashModel HashProofs StableSort TableModel ProbeProofs TableLookup TableInv TableInsert ResolveProofs TableRounds TableCommit TableBound DedupeModel DedupeSpec DedupeProofs DedupeExact ParInsertModel ParInsert.

Section C.
Context {item : Type} (d : item) (hp : item -> N * N).
Notation table := (@table item).
Notation irow := (@irow item).
Notation bres := (bool * (nat * nat))%type.
Notation place := (item * (nat * nat))%type.
Notation inv := (TableInv.inv d hp).
Notation dres := (false, (0, 0)).
Variables (k : nat) (t : table) (rows : list irow).
Hypothesis V : inv k t.
Notation pr := (probe hp (cap t) k).
Notation rw i := (nth i rows (dr d)).
Notation rs l i := (nth i l dres).
Notation n := (length rows).

Record claims_ok (g : nat -> nat) (res : list bres) : Prop := {
  c_len : length res = n;
  c_g : forall b, b < cap t -> fillOf t b <= g b <= bsz t;
  c_claim : forall i b s, i < n -> rs res i = (true, (b, s)) ->
    iupd (rw i) = true /\ b < cap t /\ fillOf t b <= s < g b /\
    exists j, pr (ix (rw i)) j = b /\ forall j', j' < j -> g (pr (ix (rw i)) j') = bsz t;
  c_full : forall b s, b < cap t -> fillOf t b <= s < g b -> exists i, i < n /\ rs res i = (true, (b, s));
  c_inj : forall i i' p, i < n -> i' < n -> rs res i = (true, p) -> rs res i' = (true, p) -> i = i' }.

Lemma claims_init res : length res = n -> (forall i, i < n -> fst (rs res i) = false) -> claims_ok (fillOf t) res.
Proof.
  intros HL HF. constructor.
  - exact HL.
  - intros b Hb. pose proof (wf_fill _ _ (i_wf _ _ _ _ V) b Hb). lia.
  - intros i b s Hi E. specialize (HF i Hi). rewrite E in HF. discriminate.
  - intros b s Hb Hs. lia.
  - intros i i' p Hi _ E _. specialize (HF i Hi). rewrite E in HF. discriminate.
Qed.

Definition bump (g : nat -> nat) (b : nat) : nat -> nat := fun b' => if b' =? b then S (g b) else g b'.
Lemma claim_one g res i b j : claims_ok g res -> i < n -> iupd (rw i) = true -> fst (rs res i) = false ->
  b = pr (ix (rw i)) j -> b < cap t -> (forall j', j' < j -> g (pr (ix (rw i)) j') = bsz t) -> g b < bsz t ->
  claims_ok (bump g b) (upd res i (true, (b, g b))).
Proof.
  intros C Hi U NF Eb Hb Hj Hg.
  assert (forall q, q < n -> rs (upd res i (true, (b, g b))) q = if q =? i then (true, (b, g b)) else rs res q) as HN.
  { intros q Hq. destruct (Nat.eqb_spec q i) as [->|Hne]; [apply nth_upd_eq; rewrite (c_len _ _ C); exact Hi|apply nth_upd_neq; auto]. }
  assert (forall b', g b' <= bump g b b') as HM.
  { intros b'. unfold bump. destruct (Nat.eqb_spec b' b) as [->|]; lia. }
  assert (forall b', g b' = bsz t -> bump g b b' = bsz t) as HFu.
  { intros b' E. unfold bump. destruct (Nat.eqb_spec b' b) as [->|]; lia. }
  constructor.
  - rewrite upd_length. apply C.
  - intros b' Hb'. pose proof (c_g _ _ C b' Hb'). unfold bump. destruct (Nat.eqb_spec b' b) as [->|]; lia.
  - intros q b' s Hq. rewrite HN by exact Hq. destruct (Nat.eqb_spec q i) as [->|Hne].
    + intros E. injection E as <- <-. split; [exact U|]. split; [exact Hb|]. pose proof (c_g _ _ C b Hb).
      split; [unfold bump; rewrite Nat.eqb_refl; lia|]. exists j. split; [auto|]. intros j' Hj'. apply HFu. apply Hj. exact Hj'.
    + intros E. destruct (c_claim _ _ C q b' s Hq E) as (A1 & A2 & A3 & j' & A4 & A5). split; [exact A1|]. split; [exact A2|].
      split; [specialize (HM b'); lia|]. exists j'. split; [exact A4|]. intros j'' Hj''. apply HFu, A5. exact Hj''.
  - intros b' s Hb' Hs. unfold bump in Hs.
    assert (b' = b /\ s = g b \/ fillOf t b' <= s < g b') as [[-> ->]|HO].
    { destruct (Nat.eqb_spec b' b) as [->|]; lia. }
    + exists i. split; [exact Hi|]. rewrite HN by exact Hi. rewrite Nat.eqb_refl. reflexivity.
    + destruct (c_full _ _ C b' s Hb' HO) as (q & Hq & E). exists q. split; [exact Hq|]. rewrite HN by exact Hq.
      destruct (Nat.eqb_spec q i) as [->|]; [rewrite E in NF; discriminate|exact E].
  - assert (forall q, q < n -> rs res q = (true, (b, g b)) -> False) as HX.
    { intros q Hq E. destruct (c_claim _ _ C q b (g b) Hq E) as (_ & _ & H & _). lia. }
    intros q q' p Hq Hq'. rewrite !HN by assumption.
    destruct (Nat.eqb_spec q i) as [->|], (Nat.eqb_spec q' i) as [->|]; intros E E'; auto.
    + exfalso. injection E as <-. apply (HX q' Hq' E').
    + exfalso. injection E' as <-. apply (HX q Hq E).
    + apply (c_inj _ _ C q q' p); assumption.
Qed.

(** the places claimed *)
Notation pls res := (res_places (map ix rows) res).
Lemma in_pls g res x b s : claims_ok g res ->
  (In (x, (b, s)) (pls res) <-> exists i, i < n /\ ix (rw i) = x /\ rs res i = (true, (b, s))).
Proof.
  intros C. rewrite (in_res_places d) by (rewrite map_length; apply C). rewrite map_length. split; intros (i & Hi & E & H); exists i.
  - rewrite (map_nth_lt ix rows i (dr d) d) in E by exact Hi. auto.
  - rewrite (map_nth_lt ix rows i (dr d) d) by exact Hi. auto.
Qed.
Lemma pls_nodup {B} (f : place -> B) g res : claims_ok g res ->
  (forall i i' p p', i < n -> i' < n -> rs res i = (true, p) -> rs res i' = (true, p') -> f (ix (rw i), p) = f (ix (rw i'), p') -> i = i') ->
  NoDup (map f (pls res)).
Proof.
  intros C H. unfold res_places. rewrite map_map.
  assert (length (combine (map ix rows) res) = n) as HL by (rewrite combine_length, map_length, (c_len _ _ C); lia).
  apply (filter_nodup_nth (fun p : item * bres => fst (snd p)) (fun p : item * bres => f (fst p, snd (snd p))) (d, dres)). rewrite HL.
  intros i j Hij. rewrite !combine_nth by (rewrite map_length; symmetry; apply C). cbn [fst snd]. intros T1 T2 E.
  rewrite !(map_nth_lt ix rows _ (dr d) d) in E by lia.
  assert (i = j); [|lia]. apply (H i j (snd (rs res i)) (snd (rs res j))); try lia; auto; [destruct (rs res i)|destruct (rs res j)]; cbn in *; congruence.
Qed.
Lemma claims_cnt g res b : claims_ok g res -> b < cap t -> fillOf t b + cnt b (pls res) = g b.
Proof.
  intros C Hb.
  assert (NoDup (map snd (pls res))) as ND.
  { apply (pls_nodup snd g); [exact C|]. cbn [snd]. intros i i' p p' Hi Hi' E E' ->. apply (c_inj _ _ C i i' p'); assumption. }
  rewrite <- slots_at_length.
  assert (Permutation (slots_at b (pls res)) (seq (fillOf t b) (g b - fillOf t b))) as HP.
  { apply NoDup_Permutation; [apply slots_at_nodup; exact ND|apply seq_NoDup|]. intros s. rewrite slots_at_in, in_seq. split.
    - intros (x & Hx). apply (in_pls g) in Hx; [|exact C]. destruct Hx as (i & Hi & _ & E).
      destruct (c_claim _ _ C i b s Hi E) as (_ & _ & H & _). pose proof (c_g _ _ C b Hb). lia.
    - intros Hs. destruct (c_full _ _ C b s Hb) as (i & Hi & E); [lia|]. exists (ix (rw i)). apply (in_pls g); [exact C|]. exists i. auto. }
  rewrite (Permutation_length HP), seq_length. pose proof (c_g _ _ C b Hb). lia.
Qed.
Lemma claims_good g res : start_ok d hp k t rows -> claims_ok g res -> good_places d hp k t (pls res).
Proof.
  intros (_ & HD & HF & _) C. pose proof (wf_cap _ _ (i_wf _ _ _ _ V)) as HC. pose proof (wf_k _ _ (i_wf _ _ _ _ V)) as HK.
  constructor.
  - intros x b s Hx. apply (in_pls g) in Hx; [|exact C]. destruct Hx as (i & Hi & <- & E).
    destruct (c_claim _ _ C i b s Hi E) as (_ & Hb & H & _). pose proof (c_g _ _ C b Hb). lia.
  - apply (pls_nodup snd g); [exact C|]. cbn [snd]. intros i i' p p' Hi Hi' E E' ->. apply (c_inj _ _ C i i' p'); assumption.
  - intros x b s Hx s' Hs'. apply (in_pls g) in Hx; [|exact C]. destruct Hx as (i & Hi & <- & E).
    destruct (c_claim _ _ C i b s Hi E) as (_ & Hb & H & _). destruct (c_full _ _ C b s' Hb) as (i' & Hi' & E'); [lia|].
    exists (ix (rw i')). apply (in_pls g); [exact C|]. exists i'. auto.
  - apply (pls_nodup fst g); [exact C|]. cbn [fst]. intros i i' [b s] [b' s'] Hi Hi' E E' EX.
    apply HD; auto; [apply (c_claim _ _ C i b s Hi E)|apply (c_claim _ _ C i' b' s' Hi' E')].
  - intros x b s Hx b' Hb'. apply (in_pls g) in Hx; [|exact C]. destruct Hx as (i & Hi & <- & E).
    apply HF; auto. apply (c_claim _ _ C i b s Hi E).
  - intros x b s Hx. apply (in_pls g) in Hx; [|exact C]. destruct Hx as (i & Hi & <- & E).
    destruct (c_claim _ _ C i b s Hi E) as (_ & Hb & H & j & Ej & Hj).
    assert (cap t <> 0) as Hcz by lia.
    exists (j mod cap t). split; [apply Nat.mod_upper_bound; exact Hcz|]. split.
    + rewrite <- Ej. rewrite (Nat.div_mod j (cap t) Hcz) at 2. generalize (j / cap t). intros q. induction q as [|q IH].
      * rewrite Nat.mul_0_r, Nat.add_0_l. reflexivity.
      * replace (cap t * S q + j mod cap t) with (cap t + (cap t * q + j mod cap t)) by lia.
        rewrite (probe_period hp (cap t) k HC ltac:(lia)). exact IH.
    + intros i' Hi'. rewrite (claims_cnt g) by (auto; apply (probe_lt hp (cap t) k HC ltac:(lia))).
      apply Hj. pose proof (Nat.mod_le j (cap t) Hcz). lia.
Qed.
(** a table whose arrays reflect the claims is the old table plus the claimed places *)
Lemma claims_placed g res t' : start_ok d hp k t rows -> claims_ok g res ->
  cap t' = cap t -> bsz t' = bsz t -> maxp t' = maxp t ->
  tab t' = tab (write_places hp t (pls res)) -> fps t' = fps (write_places hp t (pls res)) ->
  size t' = w32 (size t + N.of_nat (length (pls res))) ->
  length (fill t') = length (fill t) -> length (occ t') = length (occ t) ->
  (forall b, b < cap t -> fillOf t' b = g b) ->
  (forall b, b < cap t -> nth b (occ t') 0%N = N.ones (N.of_nat (g b))) ->
  backend_ok d hp k t rows t' res.
Proof.
  intros HS C E1 E2 E3 E4 E5 E6 E7 E8 E9 E10.
  pose proof (claims_good g res HS C) as G. pose proof (write_places_placed d hp k t V _ G) as P.
  constructor.
  - apply C.
  - intros q Hq HT. destruct (rs res q) as [i [b s]] eqn:E. cbn in HT. subst i. apply (c_claim _ _ C q b s Hq E).
  - exact G.
  - constructor.
    + exact E1.
    + exact E2.
    + exact E3.
    + rewrite E4. apply (pl_ltab _ _ _ _ _ P).
    + rewrite E5. apply (pl_lfps _ _ _ _ _ P).
    + exact E7.
    + exact E8.
    + intros x b s Hx. destruct (pl_new _ _ _ _ _ P x b s Hx) as [A B]. unfold tabAt, fpAt in *. rewrite E4, E5. auto.
    + intros i Hx. destruct (pl_old _ _ _ _ _ P i Hx) as [A B]. unfold tabAt, fpAt in *. rewrite E4, E5. auto.
    + intros b Hb. rewrite E9 by exact Hb. symmetry. apply (claims_cnt g); assumption.
    + exact E6.
    + intros _ _ b Hb. rewrite E10, E9 by exact Hb. reflexivity.
Qed.
End C.
