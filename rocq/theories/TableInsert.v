(** * TableInsert.v — single insertion preserves the invariant; what lookup means under it. *)
From Verif Require Import Jax HashModel HashProofs StableSort TableModel ProbeProofs TableLookup TableInv.

Lemma sum_const (f : nat -> nat) m l : (forall b, In b l -> f b = m) -> list_sum (map f l) = length l * m.
Proof.
  induction l as [|a l IH]; intros H; [reflexivity|]. cbn [map list_sum fold_right length]. change (fold_right Nat.add 0) with list_sum.
  rewrite (H a (or_introl eq_refl)), IH; [lia|]. intros b Hb. apply H. right. exact Hb.
Qed.

Section S.
Context {item : Type} (eqb : item -> item -> bool) (d : item) (hp : item -> N * N).
Hypothesis eqb_eq : forall x y, eqb x y = true <-> x = y.
Notation table := (@table item).
Implicit Types (t : table) (x : item) (b s : nat).
Notation inv := (TableInv.inv d hp).
Notation stored := (TableInv.stored d).

Section T.
Variables (k : nat) (t : table).
Hypothesis V : inv k t.
Let W := i_wf _ _ _ _ V.
Let F := i_fps _ _ _ _ V.
Notation pr := (probe hp (cap t) k).

Lemma cap_eq : cap t = 2 ^ k. Proof. apply W. Qed.
Lemma kk : k <= 32. Proof. pose proof (wf_k _ _ W). lia. Qed.
Lemma prlt x j : pr x j < cap t. Proof. apply probe_lt; [apply cap_eq|apply kk]. Qed.
Lemma pronto x b : b < cap t -> exists j, j < cap t /\ pr x j = b.
Proof. apply probe_onto; [apply cap_eq|apply kk]. Qed.

(** the stored position of an item as a probe index *)
Lemma stored_probe i x : stored t i x <->
  exists j s, j < cap t /\ s < fillOf t (pr x j) /\ i = pr x j * bsz t + s /\ slot_item d t (pr x j) s = x /\
    (forall i', i' < j -> fillOf t (pr x i') = bsz t).
Proof.
  split.
  - intros (b & s & Hb & Hs & -> & E). destruct (i_chain _ _ _ _ V b s Hb Hs) as (j & Hj & Ej & Hf).
    unfold slot_item in Ej, Hf. rewrite E in Ej, Hf. exists j, s. rewrite Ej. auto.
  - intros (j & s & Hj & Hs & -> & E & _). exists (pr x j), s.
    split; [apply prlt|]. split; [exact Hs|]. split; [reflexivity|exact E].
Qed.
Lemma stored_in i x : stored t i x -> exists b, b < cap t /\ in_bucket d t b x.
Proof. intros (b & s & Hb & Hs & -> & E). exists b. split; [exact Hb|]. exists s. split; [exact Hs|exact E]. Qed.
Lemma in_stored b x : b < cap t -> in_bucket d t b x -> exists i, stored t i x.
Proof. intros Hb (s & Hs & E). exists (b * bsz t + s), b, s. auto. Qed.

Lemma passed_wrap x j : passed d hp k t x j -> cap t <= j ->
  forall b, b < cap t -> fillOf t b = bsz t /\ ~ in_bucket d t b x.
Proof. intros P HL b Hb. destruct (pronto x b Hb) as (i & Hi & <-). apply P. lia. Qed.

(** an open slot at probe index [j] proves absence *)
Lemma open_absent x j : passed d hp k t x j -> fillOf t (pr x j) < bsz t -> ~ in_bucket d t (pr x j) x ->
  j < cap t /\ forall b, b < cap t -> ~ in_bucket d t b x.
Proof.
  intros P HF HN. assert (j < cap t) as Hj.
  { destruct (Nat.lt_ge_cases j (cap t)) as [H|H]; [exact H|].
    destruct (passed_wrap x j P H (pr x j) (prlt x j)). lia. }
  split; [exact Hj|]. intros b Hb Hin. destruct (in_stored b x Hb Hin) as (i & Hst).
  apply stored_probe in Hst. destruct Hst as (j' & s & Hj' & Hs & _ & E & Hf).
  destruct (Nat.lt_trichotomy j' j) as [HL|[->|HL]].
  - destruct (P j' HL) as [_ Hn]. apply Hn. exists s. auto.
  - apply HN. exists s. auto.
  - specialize (Hf j HL). lia.
Qed.
End T.

(** ** one write *)
Lemma ones_S f : N.lor (N.ones (N.of_nat f)) (N.shiftl 1 (N.of_nat f)) = N.ones (N.of_nat (S f)).
Proof.
  clear eqb eqb_eq.
  apply N.bits_inj. intros i. rewrite N.lor_spec, N.shiftl_1_l, N.pow2_bits_eqb.
  destruct (N.lt_ge_cases i (N.of_nat f)) as [H|H].
  - rewrite N.ones_spec_low by exact H. rewrite N.ones_spec_low by lia. reflexivity.
  - rewrite N.ones_spec_high by exact H. destruct (N.eqb_spec (N.of_nat f) i) as [<-|Hne].
    + rewrite N.ones_spec_low by lia. reflexivity.
    + rewrite N.ones_spec_high by lia. reflexivity.
Qed.
Lemma cnt_single x b s b' : cnt b' [(x : item, (b, s))] = if b =? b' then 1 else 0.
Proof. unfold cnt. cbn [filter fst snd]. destruct (b =? b'); reflexivity. Qed.

Lemma write_placed k t x b : wf k t -> b < cap t -> fillOf t b < bsz t ->
  placed d hp t (write hp t x b (fillOf t b)) [(x, (b, fillOf t b))].
Proof.
  intros W Hb HF. pose proof (flat_lt (bsz t) (cap t) b (fillOf t b) Hb HF) as Hi.
  assert (forall b', b' < cap t -> fillOf (write hp t x b (fillOf t b)) b' = fillOf t b' + cnt b' [(x, (b, fillOf t b))]) as HFill.
  { intros b' Hb'. rewrite cnt_single. unfold fillOf at 1, write. cbn [fill]. rewrite nth_upd.
    rewrite (wf_fill_len _ _ W).
    destruct (Nat.eqb_spec b b') as [->|Hne]; destruct (Nat.ltb_spec b' (cap t + 1)); cbn; try lia; fold (fillOf t b'); try lia.
    all: unfold fillOf; lia. }
  constructor; cbn [cap bsz maxp]; try reflexivity; unfold write; cbn [tab fps fill occ]; rewrite ?upd_length; try reflexivity.
  - destruct (bsz t <=? 32); rewrite ?upd_length; reflexivity.
  - intros y b' s' [E|[]]. injection E as <- <- <-. unfold tabAt, fpAt. cbn [tab fps].
    rewrite !nth_upd_eq; [split; reflexivity|rewrite (wf_fps _ _ W)|rewrite (wf_tab _ _ W)]; exact Hi.
  - intros i Hne. unfold tabAt, fpAt. cbn [tab fps]. specialize (Hne x b (fillOf t b) (or_introl eq_refl)).
    rewrite !nth_upd_neq by congruence. split; reflexivity.
  - exact HFill.
  - intros H32 HO b' Hb'. rewrite HFill by exact Hb'. unfold write. cbn [occ].
    replace (bsz t <=? 32) with true by (symmetry; apply Nat.leb_le; exact H32).
    rewrite nth_upd, (wf_occ_len _ _ W), cnt_single.
    destruct (Nat.eqb_spec b b') as [->|Hne]; destruct (Nat.ltb_spec b' (cap t + 1)); cbn [andb]; try lia.
    + rewrite HO by exact Hb'. rewrite ones_S. f_equal. lia.
    + rewrite HO by exact Hb'. f_equal. lia.
Qed.

Lemma write_good k t x j : inv k t -> passed d hp k t x j -> fillOf t (probe hp (cap t) k x j) < bsz t ->
  ~ in_bucket d t (probe hp (cap t) k x j) x ->
  good_places d hp k t [(x, (probe hp (cap t) k x j, fillOf t (probe hp (cap t) k x j)))].
Proof.
  intros V P HF HN. destruct (open_absent k t V x j P HF HN) as [Hj Habs].
  constructor.
  - intros y b s [E|[]]. injection E as <- <- <-. split; [apply (prlt k t V)|lia].
  - repeat constructor. intros [].
  - intros y b s [E|[]]. injection E as <- <- <-. intros s' Hs'. lia.
  - repeat constructor. intros [].
  - intros y b s [E|[]]. injection E as <- <- <-. exact Habs.
  - intros y b s [E|[]]. injection E as <- <- <-. exists j. split; [exact Hj|]. split; [reflexivity|].
    intros i Hi. destruct (P i Hi) as [HP _]. rewrite cnt_single.
    destruct (Nat.eqb_spec (probe hp (cap t) k x j) (probe hp (cap t) k x i)) as [E|E].
    + rewrite <- E in HP. lia.
    + lia.
Qed.

Lemma total_full t : (forall b, b < cap t -> fillOf t b = bsz t) -> total t = cap t * bsz t.
Proof.
  clear eqb eqb_eq.
  intros H. unfold total. rewrite (sum_const _ (bsz t)); [rewrite seq_length; reflexivity|].
  intros b Hb. apply in_seq in Hb. apply H. lia.
Qed.
(** ** insert *)
Record insert_effect k t x (t' : table) (ok : bool) (i : nat) : Prop := {
  ie_inv : inv k t';
  ie_maxp : maxp t' = maxp t; ie_cap : cap t' = cap t; ie_bsz : bsz t' = bsz t;
  ie_ok : ok = true -> (forall i', ~ stored t i' x) /\ stored t' i x /\ total t' = S (total t);
  ie_stored : forall i' y, stored t' i' y <-> stored t i' y \/ (ok = true /\ i' = i /\ y = x);
  ie_no : ok = false -> t' = t }.

Theorem insert_spec k t x : inv k t -> (maxp t + N.of_nat (bsz t) <= 2 ^ 32)%N ->
  exists t' ok i, insert eqb d hp t x = Some (t', ok, i) /\ insert_effect k t x t' ok i /\
    (ok = false -> stored t i x \/ (maxp t < N.of_nat (cap t * bsz t))%N \/
       (total t = cap t * bsz t /\ forall i', ~ stored t i' x)).
Proof.
  intros V HM. pose proof (i_wf _ _ _ _ V) as W. pose proof (wf_bsz _ _ W) as HB.
  destruct (lookup_bucket_spec eqb d hp eqb_eq k t x W (i_fps _ _ _ _ V) HM) as (r & E & HR).
  unfold insert. rewrite E.
  assert (forall j, passed d hp k t x j -> fillOf t (probe hp (cap t) k x j) < bsz t ->
     ~ in_bucket d t (probe hp (cap t) k x j) x ->
     insert_effect k t x (write hp t x (probe hp (cap t) k x j) (fillOf t (probe hp (cap t) k x j))) true
       (probe hp (cap t) k x j * bsz t + fillOf t (probe hp (cap t) k x j))) as HW.
  { intros j P HF HN. pose proof (prlt k t V x j) as Hlt.
    pose proof (write_placed k t x _ W Hlt HF) as PL. pose proof (write_good k t x j V P HF HN) as G.
    pose proof (placed_stored d hp k t _ _ V G PL) as PS.
    set (b := probe hp (cap t) k x j) in *. set (s := fillOf t b) in *.
    assert (forall i' y, stored (write hp t x b s) i' y <-> stored t i' y \/ (true = true /\ i' = b * bsz t + s /\ y = x)) as HST.
    { intros i' y. rewrite PS. split; (intros [H|H]; [left; exact H|right]).
      - destruct H as (b' & s' & [E'|[]] & ->). injection E' as <- <- <-. auto.
      - destruct H as (_ & -> & ->). exists b, s. split; [left|]; reflexivity. }
    constructor; try reflexivity.
    - apply (placed_inv d hp k t _ _ V G PL).
    - intros _. destruct (open_absent k t V x j P HF HN) as [_ Habs]. split; [|split].
      + intros i' Hst. destruct (stored_in t i' x Hst) as (b' & Hb' & Hin). exact (Habs b' Hb' Hin).
      + apply HST. right. auto.
      + rewrite (placed_total d hp k t _ _ G PL). cbn. lia.
    - exact HST.
    - discriminate. }
  destruct HR as [(j & s & -> & (P & Hs & HX) & HL)|[(j & s & -> & (P & -> & HF & HN) & HL)|(j & -> & P & HL)]].
  - cbn [negb andb]. exists t, false, (probe hp (cap t) k x j * bsz t + s). split; [reflexivity|]. split.
    + constructor; auto; try discriminate. intros i' y. split; [auto|intros [H|[H _]]; [exact H|discriminate]].
    + intros _. left. exists (probe hp (cap t) k x j), s. split; [apply (prlt k t V)|]. auto.
  - cbn [negb andb]. rewrite Nat.leb_refl. do 3 eexists. split; [reflexivity|]. split; [|discriminate]. apply HW; assumption.
  - cbn [negb andb]. destruct (Nat.leb_spec (fillOf t (probe hp (cap t) k x j)) 0) as [H0|H0].
    + assert (fillOf t (probe hp (cap t) k x j) = 0) as E0 by lia. do 3 eexists. split; [reflexivity|]. split; [|discriminate].
      rewrite <- E0 at 1 2. apply HW; [exact P|lia|]. intros (s & Hs & _). lia.
    + do 3 eexists. split; [reflexivity|]. split.
      * constructor; auto; try discriminate. intros i' y. split; [auto|intros [H|[H _]]; [exact H|discriminate]].
      * intros _. right. destruct (N.lt_ge_cases (maxp t) (N.of_nat (cap t * bsz t))) as [HC|HC]; [left; exact HC|right].
        assert (cap t <= j) as Hj by nia. pose proof (passed_wrap k t V x j P Hj) as HA. split.
        -- apply total_full. intros b Hb. apply HA. exact Hb.
        -- intros i' Hst. destruct (stored_in t i' x Hst) as (b' & Hb' & Hin). exact (proj2 (HA b' Hb') Hin).
Qed.

(** ** lookup under the invariant *)
Theorem lookup_spec k t x : inv k t -> (maxp t + N.of_nat (bsz t) <= 2 ^ 32)%N ->
  exists i f, lookup eqb d hp t x = Some (i, f) /\ (f = true -> stored t i x) /\
    (f = false -> (N.of_nat (cap t * bsz t) <= maxp t)%N -> forall i', ~ stored t i' x).
Proof.
  intros V HM. pose proof (i_wf _ _ _ _ V) as W. pose proof (wf_bsz _ _ W) as HB.
  destruct (lookup_bucket_spec eqb d hp eqb_eq k t x W (i_fps _ _ _ _ V) HM) as (r & E & HR).
  unfold lookup. rewrite E. cbn [option_map].
  destruct HR as [(j & s & -> & (P & Hs & HX) & HL)|[(j & s & -> & (P & -> & HF & HN) & HL)|(j & -> & P & HL)]];
    do 2 eexists; (split; [reflexivity|]); (split; try discriminate).
  - intros _. exists (probe hp (cap t) k x j), s. split; [apply (prlt k t V)|]. auto.
  - intros _ _ i' Hst. destruct (open_absent k t V x j P HF HN) as [_ Habs].
    destruct (stored_in t i' x Hst) as (b' & Hb' & Hin). exact (Habs b' Hb' Hin).
  - intros _ HC i' Hst. assert (cap t <= j) as Hj by nia. pose proof (passed_wrap k t V x j P Hj) as HA.
    destruct (stored_in t i' x Hst) as (b' & Hb' & Hin). exact (proj2 (HA b' Hb') Hin).
Qed.
(** exactly which stored items a lookup with any probe limit finds *)
Theorem lookup_reach k t x : inv k t -> (maxp t + N.of_nat (bsz t) <= 2 ^ 32)%N ->
  forall i, lookup eqb d hp t x = Some (i, true) <->
    exists j s, j < cap t /\ i = probe hp (cap t) k x j * bsz t + s /\ s < fillOf t (probe hp (cap t) k x j) /\
      tabAt d t i = x /\ (N.of_nat (j * bsz t) < maxp t)%N.
Proof.
  intros V HM i. pose proof (i_wf _ _ _ _ V) as W. pose proof (wf_bsz _ _ W) as HB.
  destruct (lookup_bucket_spec eqb d hp eqb_eq k t x W (i_fps _ _ _ _ V) HM) as (r & E & HR).
  unfold lookup. rewrite E. cbn [option_map].
  assert (forall j, passed d hp k t x j -> forall j' s, j' < j -> s < fillOf t (probe hp (cap t) k x j') ->
            tabAt d t (probe hp (cap t) k x j' * bsz t + s) <> x) as HP.
  { intros j P j' s Hj Hs EQ. apply (P j' Hj). exists s. auto. }
  destruct HR as [(j & s & -> & (P & Hs & HX) & HL)|[(j & s & -> & (P & -> & HF & HN) & HL)|(j & -> & P & HL)]].
  - split.
    + intros EQ. injection EQ as <-. destruct (pronto k t V x (probe hp (cap t) k x j) (prlt k t V x j)) as (j' & Hj' & Ej').
      assert (j < cap t) as Hjc.
      { destruct (Nat.lt_ge_cases j (cap t)) as [H|H]; [exact H|]. exfalso.
        apply (proj2 (passed_wrap k t V x j P H _ (prlt k t V x j))). exists s. auto. }
      exists j, s. auto.
    + intros (j' & s' & Hj' & -> & Hs' & EQ & HL'). f_equal. f_equal.
      destruct (i_nodup _ _ _ _ V (probe hp (cap t) k x j) s (probe hp (cap t) k x j') s') as [-> ->]; auto;
        try apply (prlt k t V). unfold slot_item in *. congruence.
  - split; [discriminate|]. intros (j' & s' & Hj' & -> & Hs' & EQ & HL'). exfalso.
    destruct (open_absent k t V x j P HF HN) as [_ Habs]. apply (Habs _ (prlt k t V x j')). exists s'. auto.
  - split; [discriminate|]. intros (j' & s' & Hj' & -> & Hs' & EQ & HL'). exfalso.
    apply (HP j P j' s'); auto. nia.
Qed.
End S.
