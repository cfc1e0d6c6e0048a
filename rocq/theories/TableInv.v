(** * TableInv.v — the hash-table invariant and what placing a batch of items at
      fresh slots does to it (shared by insert and every parallel_insert backend). *)
From Verif Require Import Jax HashModel HashProofs StableSort TableModel ProbeProofs TableLookup.

Lemma flat_inj n b s b' s' : s < n -> s' < n -> b * n + s = b' * n + s' -> b = b' /\ s = s'.
Proof.
  intros H H' E. destruct (Nat.lt_trichotomy b b') as [HL|[->|HL]]; [|split; lia|]; exfalso.
  - assert (S b * n <= b' * n) by (apply Nat.mul_le_mono_r; lia). cbn in *. lia.
  - assert (S b' * n <= b * n) by (apply Nat.mul_le_mono_r; lia). cbn in *. lia.
Qed.
Lemma flat_lt n c b s : b < c -> s < n -> b * n + s < (c + 1) * n.
Proof. intros Hb Hs. assert (S b * n <= c * n) by (apply Nat.mul_le_mono_r; lia). cbn in *. lia. Qed.

(** a contiguous run of naturals *)
Lemma run_mem a (l : list nat) : NoDup l -> (forall y, In y l -> a <= y) ->
  (forall y z, In y l -> a <= z < y -> In z l) -> forall y, In y l <-> a <= y < a + length l.
Proof.
  intros ND LO DC y. split.
  - intros Hy. split; [auto|].
    assert (incl (seq a (S (y - a))) l) as HI.
    { intros z Hz. apply in_seq in Hz. destruct (Nat.eq_dec z y) as [->|Hne]; [exact Hy|].
      apply (DC y); [exact Hy|]. specialize (LO y Hy). lia. }
    apply NoDup_incl_length in HI; [|apply seq_NoDup]. rewrite seq_length in HI. specialize (LO y Hy). lia.
  - intros Hy. destruct (in_dec Nat.eq_dec y l) as [Hin|Hn]; [exact Hin|].
    assert (incl l (seq a (y - a))) as HI.
    { intros z Hz. apply in_seq. specialize (LO z Hz). destruct (Nat.lt_trichotomy z y) as [HL|[->|HL]]; [lia|contradiction|].
      exfalso. apply Hn. apply (DC z); [exact Hz|lia]. }
    apply NoDup_incl_length in HI; [|exact ND]. rewrite seq_length in HI. lia.
Qed.

Lemma list_sum_add (f g : nat -> nat) l : list_sum (map (fun b => f b + g b) l) = list_sum (map f l) + list_sum (map g l).
Proof. induction l; [reflexivity|]. cbn [map list_sum fold_right]. change (fold_right Nat.add 0) with list_sum. rewrite IHl. lia. Qed.
Lemma list_sum_le (f : nat -> nat) m l : (forall b, In b l -> f b <= m) -> list_sum (map f l) <= length l * m.
Proof.
  induction l as [|a l IH]; intros H; [cbn; lia|]. cbn [map list_sum fold_right length]. change (fold_right Nat.add 0) with list_sum.
  specialize (H a (or_introl eq_refl)) as Ha. specialize (IH (fun b Hb => H b (or_intror Hb))). lia.
Qed.


Section I.
Context {item : Type} (d : item) (hp : item -> N * N).
Notation table := (@table item).
Notation place := (item * (nat * nat))%type.
Implicit Types (t : table) (x : item) (b s : nat) (ok : list place).
Notation wf := (@TableLookup.wf item).
Notation slot_item := (slot_item d).
Notation in_bucket := (in_bucket d).
Notation fps_ok := (fps_ok d hp).

Definition total t : nat := list_sum (map (fillOf t) (seq 0 (cap t))).

Record inv (k : nat) (t : table) : Prop := {
  i_wf : wf k t;
  i_fps : fps_ok t;
  i_chain : forall b s, b < cap t -> s < fillOf t b ->
     exists j, j < cap t /\ probe hp (cap t) k (slot_item t b s) j = b /\
       forall i, i < j -> fillOf t (probe hp (cap t) k (slot_item t b s) i) = bsz t;
  i_nodup : forall b s b' s', b < cap t -> s < fillOf t b -> b' < cap t -> s' < fillOf t b' ->
     slot_item t b s = slot_item t b' s' -> b = b' /\ s = s';
  i_size : size t = N.of_nat (total t);
  i_occ : bsz t <= 32 -> forall b, b < cap t -> nth b (occ t) 0%N = N.ones (N.of_nat (fillOf t b)) }.

(** [x] is stored at flat index [i] *)
Definition stored t (i : nat) x : Prop :=
  exists b s, b < cap t /\ s < fillOf t b /\ i = b * bsz t + s /\ tabAt d t i = x.

Lemma stored_inj k t i x : inv k t -> forall j, stored t i x -> stored t j x -> i = j.
Proof.
  intros V j (b & s & Hb & Hs & -> & E) (b' & s' & Hb' & Hs' & -> & E').
  destruct (i_nodup _ _ V b s b' s') as [-> ->]; auto. unfold TableLookup.slot_item. congruence.
Qed.
Lemma stored_fun t i x y : stored t i x -> stored t i y -> x = y.
Proof. intros (b & s & _ & _ & _ & E) (b' & s' & _ & _ & _ & E'). congruence. Qed.

Definition cnt b ok : nat := length (filter (fun p : place => fst (snd p) =? b) ok).
Definition slots_at b ok : list nat := map (fun p : place => snd (snd p)) (filter (fun p : place => fst (snd p) =? b) ok).
Lemma slots_at_in b ok s : In s (slots_at b ok) <-> exists x, In (x, (b, s)) ok.
Proof.
  unfold slots_at. rewrite in_map_iff. split.
  - intros ([x [b' s']] & E & H). cbn in E. subst s'. apply filter_In in H. destruct H as [H E]. cbn in E.
    apply Nat.eqb_eq in E. subst b'. exists x. exact H.
  - intros (x & H). exists (x, (b, s)). split; [reflexivity|]. apply filter_In. split; [exact H|]. apply Nat.eqb_refl.
Qed.
Lemma NoDup_filter' {A} (f : A -> bool) l : NoDup l -> NoDup (filter f l).
Proof. apply NoDup_filter. Qed.
Lemma slots_at_nodup b ok : NoDup (map snd ok) -> NoDup (slots_at b ok).
Proof.
  unfold slots_at. induction ok as [|[x [b' s']] ok IH]; intros H; [constructor|].
  cbn [map snd] in H. inversion H as [|a l Hn Hl]; subst. cbn [filter fst snd].
  destruct (Nat.eqb_spec b' b) as [->|Hne]; [|apply IH; exact Hl]. cbn [map snd]. constructor; [|apply IH; exact Hl].
  intros HI. apply Hn. apply in_map_iff in HI. destruct HI as ([y [b2 s2]] & E & HI). cbn in E. subst s2.
  apply filter_In in HI. destruct HI as [HI E]. cbn in E. apply Nat.eqb_eq in E. subst b2.
  apply in_map_iff. exists (y, (b, s')). split; [reflexivity|exact HI].
Qed.
Lemma slots_at_length b ok : length (slots_at b ok) = cnt b ok.
Proof. unfold slots_at, cnt. apply map_length. Qed.

Lemma sum_cnt c ok : Forall (fun p => fst (snd p) < c) ok -> list_sum (map (fun b => cnt b ok) (seq 0 c)) = length ok.
Proof.
  induction 1 as [|[x [b s]] ok Hb H IH].
  - unfold cnt. cbn. induction (seq 0 c); [reflexivity|]. cbn. exact IHl.
  - cbn [fst snd] in Hb. cbn [length]. rewrite <- IH. clear IH H.
    assert (forall o n, list_sum (map (fun b0 => cnt b0 ((x, (b, s)) :: ok)) (seq o n)) =
              list_sum (map (fun b0 => cnt b0 ok) (seq o n)) + Nat.b2n ((o <=? b) && (b <? o + n))) as HG.
    { intros o n. revert o. induction n as [|n IHn]; intros o.
      - cbn [seq map list_sum fold_right]. destruct (Nat.leb_spec o b), (Nat.ltb_spec b (o + 0)); cbn [andb Nat.b2n]; cbn; lia.
      - cbn [seq map list_sum fold_right]. change (fold_right Nat.add 0) with list_sum. rewrite IHn.
        unfold cnt at 1. cbn [filter fst snd]. destruct (Nat.eqb_spec b o) as [->|Hne].
        + cbn [length]. fold (cnt o ok). destruct (Nat.leb_spec (S o) o); [lia|].
          destruct (Nat.leb_spec o o); [|lia]. destruct (Nat.ltb_spec o (o + S n)); [|lia]. cbn. lia.
        + fold (cnt o ok). 
          replace ((o <=? b) && (b <? o + S n)) with ((S o <=? b) && (b <? S o + n)); [lia|].
          destruct (Nat.leb_spec (S o) b), (Nat.leb_spec o b), (Nat.ltb_spec b (S o + n)), (Nat.ltb_spec b (o + S n)); cbn; lia. }
    rewrite HG. destruct (Nat.leb_spec 0 b), (Nat.ltb_spec b (0 + c)); cbn [andb Nat.b2n]; lia.
Qed.

(** ** the effect of placing [ok] *)
Record placed (t t' : table) (ok : list place) : Prop := {
  pl_cap : cap t' = cap t; pl_bsz : bsz t' = bsz t; pl_maxp : maxp t' = maxp t;
  pl_ltab : length (tab t') = length (tab t); pl_lfps : length (fps t') = length (fps t);
  pl_lfill : length (fill t') = length (fill t); pl_locc : length (occ t') = length (occ t);
  pl_new : forall x b s, In (x, (b, s)) ok -> tabAt d t' (b * bsz t + s) = x /\ fpAt t' (b * bsz t + s) = fp_of hp x;
  pl_old : forall i, (forall x b s, In (x, (b, s)) ok -> i <> b * bsz t + s) ->
             tabAt d t' i = tabAt d t i /\ fpAt t' i = fpAt t i;
  pl_fill : forall b, b < cap t -> fillOf t' b = fillOf t b + cnt b ok;
  pl_size : size t' = w32 (size t + N.of_nat (length ok));
  pl_occ : bsz t <= 32 -> (forall b, b < cap t -> nth b (occ t) 0%N = N.ones (N.of_nat (fillOf t b))) ->
             forall b, b < cap t -> nth b (occ t') 0%N = N.ones (N.of_nat (fillOf t' b)) }.

(** conditions on the chosen slots *)
Record good_places (k : nat) (t : table) (ok : list place) : Prop := {
  g_range : forall x b s, In (x, (b, s)) ok -> b < cap t /\ fillOf t b <= s < bsz t;
  g_slots : NoDup (map snd ok);
  g_prefix : forall x b s, In (x, (b, s)) ok -> forall s', fillOf t b <= s' < s -> exists y, In (y, (b, s')) ok;
  g_items : NoDup (map fst ok);
  g_fresh : forall x b s, In (x, (b, s)) ok -> forall b', b' < cap t -> ~ in_bucket t b' x;
  g_chain : forall x b s, In (x, (b, s)) ok -> exists j, j < cap t /\ probe hp (cap t) k x j = b /\
     forall i, i < j -> fillOf t (probe hp (cap t) k x i) + cnt (probe hp (cap t) k x i) ok = bsz t }.

Section Placed.
Variables (k : nat) (t t' : table) (ok : list place).
Hypothesis V : inv k t.
Hypothesis G : good_places k t ok.
Hypothesis P : placed t t' ok.

Lemma slots_mem b s : b < cap t -> (exists x, In (x, (b, s)) ok) <-> fillOf t b <= s < fillOf t b + cnt b ok.
Proof.
  intros Hb. rewrite <- slots_at_in, <- slots_at_length. apply run_mem.
  - apply slots_at_nodup. apply G.
  - intros y Hy. apply slots_at_in in Hy. destruct Hy as (x & Hy). apply (g_range _ _ _ G) in Hy. lia.
  - intros y z Hy Hz. apply slots_at_in in Hy. destruct Hy as (x & Hy). apply slots_at_in.
    apply (g_prefix _ _ _ G x b y Hy z Hz).
Qed.
Lemma fill'_le b : b < cap t -> fillOf t b + cnt b ok <= bsz t.
Proof.
  intros Hb. destruct (cnt b ok) as [|n] eqn:E.
  - rewrite Nat.add_0_r. apply (wf_fill _ _ (i_wf _ _ V) b Hb).
  - assert (exists x, In (x, (b, fillOf t b + n)) ok) as (x & Hx).
    { apply slots_mem; [exact Hb|]. rewrite E. lia. }
    apply (g_range _ _ _ G) in Hx. lia.
Qed.
Lemma slot_lt b s : b < cap t -> s < fillOf t b + cnt b ok -> s < bsz t.
Proof. intros Hb Hs. pose proof (fill'_le b Hb). lia. Qed.
Lemma new_or_old b s : b < cap t -> s < fillOf t b + cnt b ok ->
  s < fillOf t b \/ exists x, In (x, (b, s)) ok.
Proof.
  intros Hb Hs. destruct (Nat.lt_ge_cases s (fillOf t b)) as [H|H]; [left; exact H|right].
  apply slots_mem; [exact Hb|lia].
Qed.
Lemma old_keeps b s : b < cap t -> s < fillOf t b ->
  tabAt d t' (b * bsz t + s) = tabAt d t (b * bsz t + s) /\ fpAt t' (b * bsz t + s) = fpAt t (b * bsz t + s).
Proof.
  intros Hb Hs. apply (pl_old _ _ _ P). intros x b' s' Hin E.
  destruct (g_range _ _ _ G _ _ _ Hin) as [Hb' Hs'].
  pose proof (wf_fill _ _ (i_wf _ _ V) b Hb).
  apply flat_inj in E; [|lia|lia]. destruct E as [-> ->]. lia.
Qed.

Lemma placed_stored i x : stored t' i x <-> stored t i x \/ exists b s, In (x, (b, s)) ok /\ i = b * bsz t + s.
Proof.
  unfold stored. rewrite (pl_cap _ _ _ P), (pl_bsz _ _ _ P). split.
  - intros (b & s & Hb & Hs & -> & E). rewrite (pl_fill _ _ _ P) in Hs by exact Hb.
    destruct (new_or_old b s Hb Hs) as [Ho|(y & Hy)].
    + left. exists b, s. destruct (old_keeps b s Hb Ho) as [E1 _]. repeat split; auto. congruence.
    + right. exists b, s. split; [|reflexivity]. destruct (pl_new _ _ _ P _ _ _ Hy) as [E1 _]. congruence.
  - intros [(b & s & Hb & Hs & -> & E)|(b & s & Hin & ->)].
    + exists b, s. destruct (old_keeps b s Hb Hs) as [E1 _]. rewrite (pl_fill _ _ _ P) by exact Hb.
      repeat split; auto; [lia|congruence].
    + destruct (g_range _ _ _ G _ _ _ Hin) as [Hb Hs]. exists b, s. rewrite (pl_fill _ _ _ P) by exact Hb.
      split; [exact Hb|]. split; [apply slots_mem; [exact Hb|exists x; exact Hin]|]. split; [reflexivity|].
      apply (pl_new _ _ _ P _ _ _ Hin).
Qed.

Lemma placed_total : total t' = total t + length ok.
Proof.
  unfold total. rewrite (pl_cap _ _ _ P).
  rewrite (map_ext_in _ (fun b => fillOf t b + cnt b ok)).
  - rewrite list_sum_add, sum_cnt; [reflexivity|]. apply Forall_forall. intros [x [b s]] Hin.
    apply (g_range _ _ _ G) in Hin. cbn. tauto.
  - intros b Hb. apply in_seq in Hb. apply (pl_fill _ _ _ P). lia.
Qed.
Lemma probe_lt' (tt : table) x j : cap tt = 2 ^ k -> k <= 31 -> probe hp (cap tt) k x j < cap tt.
Proof. intros H1 H2. apply probe_lt; [exact H1|lia]. Qed.

Theorem placed_inv : inv k t'.
Proof.
  destruct (i_wf _ _ V) as [W1 W2 W3 W4 W5 W6 W7 W8 W9].
  assert (wf k t') as W'.
  { constructor; rewrite ?(pl_cap _ _ _ P), ?(pl_bsz _ _ _ P), ?(pl_ltab _ _ _ P), ?(pl_lfps _ _ _ P),
      ?(pl_lfill _ _ _ P), ?(pl_locc _ _ _ P); auto.
    intros b Hb. rewrite (pl_fill _ _ _ P) by exact Hb. apply fill'_le; exact Hb. }
  assert (forall b s, b < cap t -> s < fillOf t' b ->
     (s < fillOf t b /\ slot_item t' b s = slot_item t b s /\ fpAt t' (b * bsz t + s) = fpAt t (b * bsz t + s)) \/
     (exists x, In (x, (b, s)) ok /\ slot_item t' b s = x /\ fpAt t' (b * bsz t + s) = fp_of hp x)) as Hcase.
  { intros b s Hb Hs. rewrite (pl_fill _ _ _ P) in Hs by exact Hb.
    unfold TableLookup.slot_item. rewrite (pl_bsz _ _ _ P).
    destruct (new_or_old b s Hb Hs) as [Ho|(x & Hx)].
    - left. destruct (old_keeps b s Hb Ho) as [E1 E2]. auto.
    - right. exists x. destruct (pl_new _ _ _ P _ _ _ Hx) as [E1 E2]. auto. }
  constructor.
  - exact W'.
  - intros b s. rewrite (pl_cap _ _ _ P), (pl_bsz _ _ _ P). intros Hb Hs. destruct (Hcase b s Hb Hs) as [(Ho & E1 & E2)|(x & Hx & E1 & E2)].
    + rewrite E1, E2. apply (i_fps _ _ V); assumption.
    + rewrite E1, E2. reflexivity.
  - intros b s. rewrite (pl_cap _ _ _ P), (pl_bsz _ _ _ P). intros Hb Hs. destruct (Hcase b s Hb Hs) as [(Ho & E1 & _)|(x & Hx & E1 & _)]; rewrite E1.
    + destruct (i_chain _ _ V b s Hb Ho) as (j & Hj & E & Hf). exists j. split; [exact Hj|]. split; [exact E|].
      intros i Hi. specialize (Hf i Hi). pose proof (probe_lt' t (slot_item t b s) i W1 W2) as Hlt.
      rewrite (pl_fill _ _ _ P) by exact Hlt.
      pose proof (fill'_le (probe hp (cap t) k (slot_item t b s) i) Hlt). lia.
    + destruct (g_chain _ _ _ G _ _ _ Hx) as (j & Hj & E & Hf). exists j. split; [exact Hj|]. split; [exact E|].
      intros i Hi. specialize (Hf i Hi). rewrite (pl_fill _ _ _ P); [exact Hf|]. apply (probe_lt' t x i W1 W2).
  - intros b s b' s'. rewrite !(pl_cap _ _ _ P). intros Hb Hs Hb' Hs' E.
    destruct (Hcase b s Hb Hs) as [(Ho & E1 & _)|(x & Hx & E1 & _)];
    destruct (Hcase b' s' Hb' Hs') as [(Ho' & E1' & _)|(x' & Hx' & E1' & _)]; rewrite E1, E1' in E.
    + apply (i_nodup _ _ V); assumption.
    + exfalso. subst x'. apply (g_fresh _ _ _ G _ _ _ Hx' b Hb). exists s. auto.
    + exfalso. subst x. apply (g_fresh _ _ _ G _ _ _ Hx b' Hb'). exists s'. auto.
    + subst x'. pose proof (g_items _ _ _ G) as ND.
      assert (forall l : list place, NoDup (map fst l) -> forall p q, In p l -> In q l -> fst p = fst q -> p = q) as HU.
      { clear. induction l as [|a l IH]; intros ND p q Hp Hq E; [destruct Hp|].
        cbn [map] in ND. inversion ND as [|y m Hn HND]; subst.
        destruct Hp as [->|Hp], Hq as [->|Hq]; auto.
        - exfalso. apply Hn. rewrite E. apply in_map. exact Hq.
        - exfalso. apply Hn. rewrite <- E. apply in_map. exact Hp. }
      pose proof (HU ok ND _ _ Hx Hx' eq_refl) as EQ. injection EQ as -> ->. auto.
  - rewrite (pl_size _ _ _ P), placed_total, (i_size _ _ V), <- Nat2N.inj_add. apply w32_small.
    unfold word, W32. assert (total t' <= cap t * bsz t) as HT.
    { unfold total. rewrite (pl_cap _ _ _ P). etransitivity; [apply (list_sum_le _ (bsz t))|rewrite seq_length; lia].
      intros b Hb. apply in_seq in Hb. rewrite (pl_fill _ _ _ P) by lia. apply fill'_le. lia. }
    rewrite placed_total in HT. nia.
  - rewrite (pl_bsz _ _ _ P), (pl_cap _ _ _ P). intros H32 b Hb. apply (pl_occ _ _ _ P); auto. apply (i_occ _ _ V). exact H32.
Qed.
End Placed.
End I.
