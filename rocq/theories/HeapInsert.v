(** * HeapInsert.v — path addressing and the push-down of insert. *)
From Verif Require Import Jax KeyModel SortProofs HeapModel HeapSpec HeapProofs.

(** ** Addressing *)
Lemma clz_from_log2 bits x : (0 < x)%N -> (x < 2 ^ N.of_nat bits)%N ->
  clz_from bits x + N.to_nat (N.log2 x) + 1 = bits.
Proof.
  revert x. induction bits as [|b IH]; intros x H0 H1.
  - change (2 ^ N.of_nat 0)%N with 1%N in H1. lia.
  - cbn [clz_from]. destruct (N.testbit x (N.of_nat b)) eqn:E.
    + assert (N.log2 x = N.of_nat b); [|lia].
      apply N.le_antisymm.
      * apply N.lt_succ_r. apply N.log2_lt_pow2; [assumption|]. rewrite <- Nat2N.inj_succ. assumption.
      * apply N.le_ngt. intros HL. apply (N.bits_above_log2 x (N.of_nat b)) in HL. congruence.
    + rewrite <- (IH x H0) at 2; [lia|].
      destruct (N.lt_ge_cases x (2 ^ N.of_nat b)) as [HL|HL]; [assumption|exfalso].
      assert (HE : N.log2 x = N.of_nat b).
      { apply N.log2_unique; [lia|]. rewrite <- Nat2N.inj_succ. split; assumption. }
      pose proof (N.bit_log2 x ltac:(lia)) as HB. rewrite HE in HB. congruence.
Qed.

Lemma log2_N_nat n : 0 < n -> N.to_nat (N.log2 (N.of_nat n)) = Nat.log2 n.
Proof.
  intros H. symmetry. apply Nat.log2_unique; [lia|].
  pose proof (N.log2_spec (N.of_nat n) ltac:(lia)) as [H1 H2].
  set (b := N.log2 (N.of_nat n)) in *.
  split.
  - assert (E : N.of_nat (2 ^ N.to_nat b) = (2 ^ b)%N) by (rewrite Nat2N.inj_pow, N2Nat.id; reflexivity).
    lia.
  - assert (E : N.of_nat (2 ^ S (N.to_nat b)) = (2 ^ N.succ b)%N).
    { rewrite Nat2N.inj_pow, (Nat2N.inj_succ (N.to_nat b)), N2Nat.id. reflexivity. }
    lia.
Qed.

Lemma clz32_log2 n : 0 < n -> (N.of_nat n < 2 ^ 32)%N -> clz32 (N.of_nat n) + Nat.log2 n = 31.
Proof.
  intros H0 H1. unfold clz32.
  pose proof (clz_from_log2 32 (N.of_nat n) ltac:(lia) H1) as H. rewrite log2_N_nat in H by lia. lia.
Qed.

Definition small (t : nat) : Prop := (Z.of_nat t < 2 ^ 31)%Z.

Lemma node_depth_log2 t : small t -> node_depth t = Nat.log2 (t + 1).
Proof.
  unfold small, node_depth. intros H. pose proof (clz32_log2 (t + 1) ltac:(lia) ltac:(lia)). lia.
Qed.

Lemma path_index_div t l : small t -> path_index t l = (t + 1) / 2 ^ (Nat.log2 (t + 1) - l) - 1.
Proof. intros H. unfold path_index. rewrite node_depth_log2 by assumption. rewrite Nat.shiftr_div_pow2. reflexivity. Qed.

Lemma pow2_pos k : 0 < 2 ^ k.
Proof. induction k; simpl; lia. Qed.

Lemma path_index_0 t : small t -> path_index t 0 = 0.
Proof.
  intros H. rewrite path_index_div by assumption. rewrite Nat.sub_0_r.
  pose proof (Nat.log2_spec (t + 1) ltac:(lia)) as [H1 H2].
  rewrite Nat.pow_succ_r' in H2.
  assert ((t + 1) / 2 ^ Nat.log2 (t + 1) < 2).
  { apply Nat.div_lt_upper_bound; [pose proof (pow2_pos (Nat.log2 (t + 1))); lia|lia]. }
  lia.
Qed.
Lemma path_index_depth t : small t -> path_index t (Nat.log2 (t + 1)) = t.
Proof.
  intros H. rewrite path_index_div by assumption. rewrite Nat.sub_diag. cbn [Nat.pow].
  rewrite Nat.div_1_r. lia.
Qed.
Lemma path_index_parent t l : small t -> 1 <= l <= Nat.log2 (t + 1) ->
  1 <= path_index t l <= t /\ (path_index t l - 1) / 2 = path_index t (l - 1).
Proof.
  intros H Hl. rewrite !path_index_div by assumption.
  pose proof (Nat.log2_spec (t + 1) ltac:(lia)) as [H1 H2].
  set (d := Nat.log2 (t + 1)) in *.
  replace (d - (l - 1)) with (S (d - l)) by lia.
  rewrite Nat.pow_succ_r', Nat.mul_comm, <- Nat.div_div by (pose proof (pow2_pos (d - l)); lia).
  assert (Hm : 2 <= (t + 1) / 2 ^ (d - l)).
  { apply Nat.div_le_lower_bound; [pose proof (pow2_pos (d - l)); lia|].
    rewrite Nat.mul_comm, <- Nat.pow_succ_r'. etransitivity; [|exact H1]. apply Nat.pow_le_mono_r; lia. }
  assert (Hm2 : (t + 1) / 2 ^ (d - l) <= t + 1) by (apply Nat.div_le_upper_bound; pose proof (pow2_pos (d - l)); nia).
  set (m := (t + 1) / 2 ^ (d - l)) in *.
  split; [lia|].
  replace m with (m - 2 + 1 * 2) at 2 by lia. rewrite Nat.div_add by lia.
  replace (m - 1 - 1) with (m - 2) by lia. lia.
Qed.

Lemma depth_lt t br : t < br -> Nat.log2 (t + 1) < max_depth br.
Proof.
  intros H. unfold max_depth. apply (Nat.pow_lt_mono_r_iff 2); [lia|].
  pose proof (Nat.log2_spec (t + 1) ltac:(lia)) as [H1 _].
  pose proof (Nat.log2_log2_up_spec (br + 1) ltac:(lia)) as [_ H2]. lia.
Qed.

(** the levels of the path below the root *)
Definition pnodes (t : nat) : list nat := map (path_index t) (seq 1 (Nat.log2 (t + 1))).

Fixpoint chain (q : nat) (ps : list nat) : Prop :=
  match ps with [] => True | p :: t => 1 <= p /\ par p = q /\ chain p t end.

Lemma pnodes_chain t : small t -> chain 0 (pnodes t).
Proof.
  intros H. unfold pnodes.
  assert (HG : forall k l, k + l <= Nat.log2 (t + 1) ->
             chain (path_index t l) (map (path_index t) (seq (S l) k))).
  { induction k as [|k IH]; intros l Hk; [exact I|]. cbn [seq map chain].
    pose proof (path_index_parent t (S l) H ltac:(lia)) as [H1 H2].
    replace (S l - 1) with l in H2 by lia. repeat split; [lia|exact H2|]. apply IH. lia. }
  specialize (HG (Nat.log2 (t + 1)) 0 ltac:(lia)). rewrite (path_index_0 t H) in HG. exact HG.
Qed.
Lemma pnodes_bound t p : small t -> In p (pnodes t) -> 1 <= p <= t.
Proof.
  intros H Hp. unfold pnodes in Hp. apply in_map_iff in Hp as (l & <- & Hl). apply in_seq in Hl.
  pose proof (path_index_parent t l H ltac:(lia)). lia.
Qed.
Lemma pnodes_snoc t : small t -> 1 <= t ->
  exists ps, pnodes t = ps ++ [t] /\ (forall p, In p ps -> 1 <= p < t).
Proof.
  intros H Ht. unfold pnodes.
  assert (Hd : 1 <= Nat.log2 (t + 1)) by (apply Nat.log2_le_pow2; simpl; lia).
  remember (Nat.log2 (t + 1) - 1) as k eqn:Ek.
  replace (Nat.log2 (t + 1)) with (k + 1) by lia. rewrite seq_app, map_app.
  exists (map (path_index t) (seq 1 k)). split.
  - f_equal. cbn [seq map]. f_equal. replace (1 + k) with (Nat.log2 (t + 1)) by lia.
    apply path_index_depth; assumption.
  - intros p Hp. apply in_map_iff in Hp as (l & <- & Hl). apply in_seq in Hl.
    pose proof (path_index_parent t l H ltac:(lia)) as [HA _].
    split; [lia|].
    pose proof (path_index_parent t (S l) H ltac:(lia)) as [HB HC].
    replace (S l - 1) with l in HC by lia. pose proof (par_lt (path_index t (S l)) ltac:(lia)) as HD.
    unfold par in HD. lia.
Qed.

Lemma chain_gt q ps p : chain q ps -> In p ps -> q < p.
Proof.
  revert q. induction ps as [|p0 t IH]; intros q HC Hp; [destruct Hp|].
  cbn [chain] in HC. destruct HC as (H1 & H2 & H3). pose proof (par_lt p0 H1).
  destruct Hp as [<-|Hp]; [lia|]. specialize (IH p0 H3 Hp). lia.
Qed.

(** ** push-down *)
Section H.
Context {V : Type}.
Notation item := (key * V)%type.
Notation row := (list item).
Implicit Types r a b lo hi s carry c : list (key * V).
Implicit Types rs T : list (list (key * V)).

Fixpoint push rs (ps : list nat) carry : list row * row :=
  match ps with
  | [] => (rs, carry)
  | p :: t => let '(hd, nx) := msplit (rowi rs p) carry in push (upd rs p hd) t nx
  end.

Lemma push_app rs ps qs carry :
  push rs (ps ++ qs) carry = let '(rs1, c1) := push rs ps carry in push rs1 qs c1.
Proof.
  revert rs carry. induction ps as [|p t IH]; intros rs carry; [reflexivity|].
  cbn [app push]. destruct (msplit (rowi rs p) carry) as [hd nx]. apply IH.
Qed.

Definition good (B : nat) r := length r = B /\ sorted r /\ nonn r.
Definition goodrows (B : nat) rs := forall i, i < length rs -> good B (rowi rs i).

Lemma goodrows_upd B rs i r : goodrows B rs -> good B r -> goodrows B (upd rs i r).
Proof.
  intros HG Hr j Hj. rewrite upd_length in Hj. destruct (Nat.lt_ge_cases i (length rs)) as [Hi|Hi].
  - rewrite rowi_upd by assumption. destruct (Nat.eqb i j); auto.
  - rewrite upd_oob by assumption. auto.
Qed.

Lemma below_trans a b c : b <> [] -> below a b -> below b c -> below a c.
Proof.
  intros Hb H1 H2 x z Hx Hz. destruct b as [|y b]; [congruence|].
  apply (ile_trans x y z); [apply H1|apply H2]; auto; left; reflexivity.
Qed.

Lemma push_spec B ps : 1 <= B -> forall rs q carry rs' c',
  chain q ps -> (forall p, In p ps -> p < length rs) ->
  goodrows B rs -> ordered rs -> good B carry -> below (rowi rs q) carry ->
  push rs ps carry = (rs', c') ->
  length rs' = length rs /\ goodrows B rs' /\ ordered rs' /\ good B c' /\
  Permutation (concat rs' ++ c') (concat rs ++ carry) /\
  (forall i, ~ In i ps -> rowi rs' i = rowi rs i) /\
  (forall p, p = q \/ In p ps -> below (rowi rs' p) c') /\
  ((forall p, In p ps -> allfin (rowi rs p)) -> allfin carry ->
     (forall p, In p ps -> allfin (rowi rs' p)) /\ allfin c') /\
  (forall x, In x carry \/ (exists p, In p ps /\ In x (rowi rs p)) -> exists e, In e c' /\ ile x e).
Proof.
  intros HB. induction ps as [|p t IH]; intros rs q carry rs' c' HC Hin HG HO Hcar Hbel HPu.
  - cbn [push] in HPu. injection HPu as <- <-. repeat split; auto; try (apply HG; assumption);
    try (apply Hcar).
    + intros p [->|[]]. exact Hbel.
    + intros x [Hx|(p & [] & _)]. exists x. split; [exact Hx|apply ile_refl].
  - cbn [push] in HPu. destruct (msplit (rowi rs p) carry) as [hd nx] eqn:EM.
    cbn [chain] in HC. destruct HC as (Hp1 & Hp2 & HC).
    assert (Hp : p < length rs) by (apply Hin; left; reflexivity).
    pose proof (HG p Hp) as (Gp1 & Gp2 & Gp3). destruct Hcar as (Gc1 & Gc2 & Gc3).
    pose proof (msplit_spec _ _ _ _ EM) as (M1 & M2 & M3 & M4).
    pose proof (msplit_parts _ _ _ _ EM) as (M5 & M6 & M7).
    pose proof (msplit_nonn _ _ _ _ EM Gp3 Gc3) as (M8 & M9).
    assert (Gh : good B hd) by (repeat split; [lia|assumption|assumption]).
    assert (Gn : good B nx) by (repeat split; [lia|assumption|assumption]).
    assert (Hqp : q < p) by (subst q; apply par_lt; assumption).
    assert (HO1 : ordered (upd rs p hd)).
    { apply ordered_upd; auto.
      - intros _. rewrite Hp2. pose proof (HO p ltac:(lia)) as HH. rewrite Hp2 in HH.
        apply (msplit_above _ _ _ _ _ EM HH Hbel).
      - intros c Hc1 Hc2. eapply msplit_below_l; [exact EM|]. rewrite <- Hc2. apply HO. exact Hc1. }
    assert (HB1 : below (rowi (upd rs p hd) p) nx).
    { rewrite rowi_upd by assumption. rewrite Nat.eqb_refl. exact M7. }
    assert (Hnot : ~ In p t) by (intros HH; pose proof (chain_gt p t p HC HH); lia).
    specialize (IH (upd rs p hd) p nx rs' c' HC
                  ltac:(intros p' Hp'; rewrite upd_length; apply Hin; right; exact Hp')
                  (goodrows_upd B rs p hd HG Gh) HO1 Gn HB1 HPu).
    destruct IH as (I1 & I2 & I3 & I4 & I5 & I6 & I7 & I8 & I9).
    rewrite upd_length in I1.
    assert (Hnx : forall i, i <> p -> rowi (upd rs p hd) i = rowi rs i).
    { intros i Hi. rewrite rowi_upd by assumption. destruct (Nat.eqb_spec p i); [congruence|reflexivity]. }
    split; [exact I1|]. split; [exact I2|]. split; [exact I3|]. split; [exact I4|].
    split; [|split; [|split; [|split]]].
    + rewrite I5. destruct (concat_upd rs p Hp) as [rest Hrest].
      rewrite (Hrest hd). rewrite <- (upd_same _ rs p []) at 1. rewrite (Hrest (nth p rs [])).
      change (nth p rs []) with (rowi rs p).
      rewrite <- !app_assoc. rewrite (Permutation_app_comm rest nx), (Permutation_app_comm rest carry).
      rewrite !app_assoc. apply Permutation_app_tail. exact M1.
    + intros i Hi. rewrite I6 by (intros HH; apply Hi; right; exact HH).
      apply Hnx. intros ->. apply Hi. left; reflexivity.
    + intros p' [->|[->|Hp']].
      * assert (Eq : rowi rs' q = rowi rs q).
        { rewrite I6; [apply Hnx; lia|]. intros HH. pose proof (chain_gt p t q HC HH). lia. }
        rewrite Eq. specialize (I7 p (or_introl eq_refl)).
        apply (below_trans _ (rowi rs' p)); [|rewrite <- Eq, <- Hp2; apply I3; lia|exact I7].
        intros E0. pose proof (I2 p ltac:(lia)) as (L1 & _). rewrite E0 in L1. cbn [length] in L1. lia.
      * apply I7. left; reflexivity.
      * apply I7. right; exact Hp'.
    + intros HF HFc. pose proof (HF p (or_introl eq_refl)) as HFp.
      pose proof (msplit_allfin _ _ _ _ EM HFp HFc) as [F1 F2].
      assert (HFt : forall p', In p' t -> allfin (rowi (upd rs p hd) p')).
      { intros p' Hp'. rewrite Hnx by (intros ->; contradiction). apply HF. right; exact Hp'. }
      destruct (I8 HFt F2) as [J1 J2]. split; [|exact J2].
      intros p' [<-|Hp']; [|apply J1; exact Hp'].
      rewrite I6 by assumption. rewrite rowi_upd by assumption. rewrite Nat.eqb_refl. exact F1.
    + assert (Hlocal : forall x, In x (rowi rs p ++ carry) -> exists e, In e c' /\ ile x e).
      { intros x Hx. apply (Permutation_in x (Permutation_sym M1)) in Hx. apply in_app_or in Hx as [Hx|Hx].
        - destruct nx as [|y nx']; [cbn [length] in M4; lia|].
          destruct (I9 y (or_introl (or_introl eq_refl))) as (e & He1 & He2).
          exists e. split; [exact He1|]. apply (ile_trans x y e); [|exact He2]. apply M7; [exact Hx|left; reflexivity].
        - apply I9. left; exact Hx. }
      intros x [Hx|(p' & [<-|Hp'] & Hx)].
      * apply Hlocal. apply in_or_app; right; exact Hx.
      * apply Hlocal. apply in_or_app; left; exact Hx.
      * apply I9. right. exists p'. split; [exact Hp'|]. rewrite Hnx by (intros ->; contradiction). exact Hx.
Qed.
Lemma scan_app rs xs ys carry :
  scan_path rs (xs ++ ys) carry =
  let '(c1, o1) := scan_path rs xs carry in
  let '(c2, o2) := scan_path rs ys c1 in (c2, o1 ++ o2).
Proof.
  revert carry. induction xs as [|[i m] t IH]; intros carry; cbn [app scan_path].
  - destruct (scan_path rs ys carry) as [c2 o2]. reflexivity.
  - destruct m.
    + destruct (msplit (row_at rs i) carry) as [hd nx]. rewrite IH.
      destruct (scan_path rs t nx) as [c1 o1]. destruct (scan_path rs ys c1) as [c2 o2]. reflexivity.
    + rewrite IH. destruct (scan_path rs t carry) as [c1 o1].
      destruct (scan_path rs ys c1) as [c2 o2]. reflexivity.
Qed.

Lemma scan_false rs (f : nat -> nat) l carry :
  scan_path rs (map (fun i => (f i, false)) l) carry = (carry, map (fun _ => row_at rs 0) l).
Proof.
  revert carry. induction l as [|i t IH]; intros carry; cbn [map scan_path]; [reflexivity|].
  rewrite IH. reflexivity.
Qed.

Lemma scan_true rs ps : forall carry c heads rs0,
  scan_path rs (map (fun p => (p, true)) ps) carry = (c, heads) ->
  (forall p, In p ps -> p < length rs) -> length rs0 = length rs ->
  (forall p, In p ps -> rowi rs0 p = rowi rs p) -> NoDup ps ->
  push rs0 ps carry = (scatter_rows rs0 (combine ps heads), c) /\ length heads = length ps.
Proof.
  induction ps as [|p t IH]; intros carry c heads rs0 HS Hin HL Heq HN.
  - cbn [map scan_path] in HS. injection HS as <- <-. split; reflexivity.
  - cbn [map scan_path] in HS.
    rewrite row_at_in in HS by (apply Hin; left; reflexivity).
    destruct (msplit (rowi rs p) carry) as [hd nx] eqn:EM.
    destruct (scan_path rs (map (fun p => (p, true)) t) nx) as [c1 o1] eqn:ES.
    injection HS as <- <-. apply NoDup_cons_iff in HN as [HN1 HN2].
    cbn [push]. rewrite (Heq p) by (left; reflexivity). rewrite EM.
    destruct (IH nx c1 o1 (upd rs0 p hd) ES) as [I1 I2]; auto.
    + intros p' Hp'. apply Hin. right; exact Hp'.
    + rewrite upd_length. exact HL.
    + intros p' Hp'. rewrite rowi_upd by (rewrite HL; apply Hin; left; reflexivity).
      destruct (Nat.eqb_spec p p') as [->|_]; [contradiction|]. apply Heq. right; exact Hp'.
    + split; [exact I1|]. cbn [length]. f_equal. exact I2.
Qed.

Lemma chain_NoDup q ps : chain q ps -> NoDup ps.
Proof.
  revert q. induction ps as [|p t IH]; intros q HC; [constructor|].
  cbn [chain] in HC. destruct HC as (H1 & H2 & H3). constructor; [|apply (IH p H3)].
  intros HH. pose proof (chain_gt p t p H3 HH). lia.
Qed.

Lemma scatter_app rs u v : scatter_rows rs (u ++ v) = scatter_rows (scatter_rows rs u) v.
Proof. apply fold_left_app. Qed.
Lemma scatter_length rs u : length (scatter_rows rs u) = length rs.
Proof.
  unfold scatter_rows. revert rs. induction u as [|p t IH]; intros rs; cbn [fold_left]; [reflexivity|].
  rewrite IH. apply upd_length.
Qed.
Lemma scatter_oob rs u : (forall p, In p u -> length rs <= fst p) -> scatter_rows rs u = rs.
Proof.
  unfold scatter_rows. induction u as [|p t IH]; intros H; cbn [fold_left]; [reflexivity|].
  rewrite upd_oob by (apply H; left; reflexivity). apply IH. intros q Hq; apply H; right; exact Hq.
Qed.

Lemma combine_app' (A C : Type) (l1 l2 : list A) (m1 m2 : list C) : length l1 = length m1 ->
  combine (l1 ++ l2) (m1 ++ m2) = combine l1 m1 ++ combine l2 m2.
Proof.
  revert m1. induction l1 as [|x t IH]; intros [|y m1] H; cbn [length] in H; try lia; [reflexivity|].
  cbn [app combine]. f_equal. apply IH. lia.
Qed.

Lemma update_path_push (h : heap V) t blk :
  small t -> 1 <= t < branch h -> length (rows h) = branch h ->
  update_path h t blk = set_rows h (fst (push (rows h) (pnodes t) blk)).
Proof.
  intros Hs Ht HL. unfold update_path, path, scatter_indices.
  set (d := Nat.log2 (t + 1)).
  assert (Hd : d < max_depth (branch h)) by (apply depth_lt; lia).
  replace (max_depth (branch h)) with (1 + (d + (max_depth (branch h) - 1 - d))) by lia.
  rewrite !seq_app. cbn [seq app]. cbn [map]. rewrite !map_app.
  rewrite (map_ext_in _ (fun l => (path_index t l, true)) (seq (0 + 1) d)).
  2:{ intros l Hl. apply in_seq in Hl. f_equal. unfold path_mask. rewrite node_depth_log2 by assumption.
      fold d. destruct (Nat.leb_spec l d); [|lia]. destruct (Nat.ltb_spec 0 l); [reflexivity|lia]. }
  rewrite (map_ext_in _ (fun l => (path_index t l, false)) (seq (0 + 1 + d) _)).
  2:{ intros l Hl. apply in_seq in Hl. f_equal. unfold path_mask. rewrite node_depth_log2 by assumption.
      fold d. destruct (Nat.leb_spec l d); [lia|reflexivity]. }
  rewrite (map_ext_in _ (path_index t) (seq (0 + 1) d)).
  2:{ intros l Hl. apply in_seq in Hl. unfold path_mask. rewrite node_depth_log2 by assumption.
      fold d. destruct (Nat.leb_spec l d); [|lia]. destruct (Nat.ltb_spec 0 l); [reflexivity|lia]. }
  rewrite (map_ext_in _ (fun _ => branch h) (seq (0 + 1 + d) _)).
  2:{ intros l Hl. apply in_seq in Hl. unfold path_mask. rewrite node_depth_log2 by assumption.
      fold d. destruct (Nat.leb_spec l d); [lia|]. destruct (Nat.eqb_spec l 0); [lia|reflexivity]. }
  rewrite andb_false_r. cbn [orb Nat.eqb]. cbn [scan_path]. rewrite scan_app.
  change (0 + 1) with 1.
  rewrite <- (map_map (path_index t) (fun p => (p, true)) (seq 1 d)).
  change (map (path_index t) (seq 1 d)) with (pnodes t).
  destruct (scan_path (rows h) (map (fun p => (p, true)) (pnodes t)) blk) as [c heads] eqn:ES.
  rewrite scan_false.
  pose proof (pnodes_chain t Hs) as HC.
  destruct (scan_true (rows h) (pnodes t) blk c heads (rows h) ES) as [P1 P2]; auto.
  { intros p Hp. pose proof (pnodes_bound t p Hs Hp). lia. }
  { apply (chain_NoDup 0). exact HC. }
  rewrite P1. cbn [fst]. f_equal. cbn [combine].
  unfold scatter_rows at 1. cbn [fold_left fst snd].
  rewrite (path_index_0 t Hs). rewrite row_at_in by lia. unfold rowi. rewrite upd_same.
  fold (scatter_rows (rows h) (combine (pnodes t ++ map (fun _ : nat => branch h) (seq (1 + d) (max_depth (branch h) - 1 - d))) (heads ++ map (fun _ : nat => nth 0 (rows h) []) (seq (1 + d) (max_depth (branch h) - 1 - d))))).
  rewrite combine_app' by (symmetry; exact P2). rewrite scatter_app. apply scatter_oob.
  intros [i r] Hp. cbn [fst]. rewrite scatter_length. apply in_combine_l in Hp.
  apply in_map_iff in Hp as (l & <- & _). lia.
Qed.
End H.
