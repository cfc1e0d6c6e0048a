(** * TieProofs.v — invariant and refinement proofs for the queue over an arbitrary
      lawful sorting/merging back end (TieModel.v). *)
From Verif Require Import Jax KeyModel SortProofs HeapModel HeapSpec HeapProofs HeapInsert HeapInv HeapDelete TieModel.

Section H.
Context {V : Type}.
Notation item := (key * V)%type.
Notation row := (list item).
Implicit Types r a b lo hi s carry c cur bufx : list (key * V).
Implicit Types rs T : list (list (key * V)).
Implicit Types h : heap V.

(** what a lawful merge-and-split guarantees *)
Definition SP a b lo hi : Prop :=
  Permutation (lo ++ hi) (a ++ b) /\ sorted (lo ++ hi) /\ length lo = length a /\ length hi = length b.
Lemma sp_spec a b lo hi : SP a b lo hi ->
  Permutation (lo ++ hi) (a ++ b) /\ sorted (lo ++ hi) /\ length lo = length a /\ length hi = length b.
Proof. exact (fun H => H). Qed.

Lemma sp_dom_l a b lo hi z : SP a b lo hi ->
  (forall x, In x a -> kle (fst x) z = true) -> forall x, In x lo -> kle (fst x) z = true.
Proof. intros H. apply sp_spec in H as (H1 & H2 & H3 & _). exact (split_dominated a b lo hi H1 H2 H3 z). Qed.

Lemma sp_dom_r a b lo hi z : SP a b lo hi -> length a = length b ->
  (forall x, In x b -> kle (fst x) z = true) -> forall x, In x lo -> kle (fst x) z = true.
Proof.
  intros H HL. apply sp_spec in H as (H1 & H2 & H3 & _).
  apply (split_dominated b a lo hi); [|assumption|congruence].
  rewrite H1. apply Permutation_app_comm.
Qed.

Lemma sp_below_l a b lo hi c : SP a b lo hi -> below a c -> below lo c.
Proof. intros H Hc x y Hx Hy. unfold ile. eapply sp_dom_l; eauto. intros z Hz. apply (Hc z y Hz Hy). Qed.

Lemma sp_below_r a b lo hi c : SP a b lo hi -> length a = length b -> below b c -> below lo c.
Proof. intros H HL Hc x y Hx Hy. unfold ile. eapply sp_dom_r; eauto. intros z Hz. apply (Hc z y Hz Hy). Qed.

Lemma sp_above a b lo hi c : SP a b lo hi -> below c a -> below c b -> below c lo /\ below c hi.
Proof.
  intros H Ha Hb. apply sp_spec in H as (H1 & _).
  apply below_app_r. eapply below_perm_r; [symmetry; exact H1|]. apply below_app_r; auto.
Qed.

Lemma sp_parts a b lo hi : SP a b lo hi -> sorted lo /\ sorted hi /\ below lo hi.
Proof. intros H. apply sp_spec in H as (_ & H2 & _). apply sorted_app in H2. tauto. Qed.

Lemma sp_nonn a b lo hi : SP a b lo hi -> nonn a -> nonn b -> nonn lo /\ nonn hi.
Proof.
  intros H Ha Hb. apply sp_spec in H as (H1 & _). apply nonn_app.
  eapply nonn_perm; [symmetry; exact H1|]. apply nonn_app; auto.
Qed.

Lemma sp_allfin a b lo hi : SP a b lo hi -> allfin a -> allfin b -> allfin lo /\ allfin hi.
Proof.
  intros H Ha Hb. apply sp_spec in H as (H1 & _). apply allfin_app.
  eapply allfin_perm; [symmetry; exact H1|]. apply allfin_app; auto.
Qed.

Lemma sp_lo_fin a b lo hi : SP a b lo hi -> nonn a -> nonn b ->
  length a <= length (fin (a ++ b)) -> allfin lo.
Proof.
  intros H Ha Hb HL. pose proof (sp_spec a b lo hi H) as (H1 & H2 & H3 & H4).
  assert (E : lo = firstn (length lo) (lo ++ hi)).
  { rewrite firstn_app, Nat.sub_diag. cbn [firstn]. rewrite app_nil_r. symmetry. apply firstn_all2. lia. }
  rewrite E. apply sorted_firstn_fin; [assumption| |].
  - eapply nonn_perm; [symmetry; exact H1|]. apply nonn_app; auto.
  - rewrite nfin_fin. rewrite (Permutation_length (fin_perm _ _ H1)). lia.
Qed.

Lemma sp_hi_inf a b lo hi : SP a b lo hi -> nonn a -> nonn b ->
  length (fin (a ++ b)) <= length a -> allinf hi.
Proof.
  intros H Ha Hb HL. pose proof (sp_spec a b lo hi H) as (H1 & H2 & H3 & H4).
  assert (E : hi = skipn (length lo) (lo ++ hi)).
  { rewrite skipn_app, Nat.sub_diag. cbn [skipn]. rewrite skipn_all. reflexivity. }
  rewrite E. apply sorted_skipn_inf; [assumption| |].
  - eapply nonn_perm; [symmetry; exact H1|]. apply nonn_app; auto.
  - rewrite nfin_fin. rewrite (Permutation_length (fin_perm _ _ H1)). lia.
Qed.


Variable K : impl V.
Hypothesis HK : lawful K.

Lemma tsplit_SP n a b lo hi : tsplit K n a b = (lo, hi) -> sorted a -> sorted b -> SP a b lo hi.
Proof.
  unfold tsplit. intros H Ha Hb. injection H as <- <-. destruct (proj2 HK n a b Ha Hb) as [H1 H2].
  assert (HL : length (merge_at K n a b) = length a + length b) by (rewrite (Permutation_length H1), app_length; reflexivity).
  unfold SP. rewrite firstn_skipn, firstn_length, skipn_length. repeat split; try lia; assumption.
Qed.

Fixpoint tpush rs (ps : list nat) carry : list row * row :=
  match ps with
  | [] => (rs, carry)
  | p :: t => let '(hd, nx) := tsplit K (3 + p) (rowi rs p) carry in tpush (upd rs p hd) t nx
  end.

Lemma tpush_app rs ps qs carry :
  tpush rs (ps ++ qs) carry = let '(rs1, c1) := tpush rs ps carry in tpush rs1 qs c1.
Proof.
  revert rs carry. induction ps as [|p t IH]; intros rs carry; [reflexivity|].
  cbn [app tpush]. destruct (tsplit K (3 + p) (rowi rs p) carry) as [hd nx]. apply IH.
Qed.

Lemma tpush_spec B ps : 1 <= B -> forall rs q carry rs' c',
  chain q ps -> (forall p, In p ps -> p < length rs) ->
  goodrows B rs -> ordered rs -> good B carry -> below (rowi rs q) carry ->
  tpush rs ps carry = (rs', c') ->
  length rs' = length rs /\ goodrows B rs' /\ ordered rs' /\ good B c' /\
  Permutation (concat rs' ++ c') (concat rs ++ carry) /\
  (forall i, ~ In i ps -> rowi rs' i = rowi rs i) /\
  (forall p, p = q \/ In p ps -> below (rowi rs' p) c') /\
  ((forall p, In p ps -> allfin (rowi rs p)) -> allfin carry ->
     (forall p, In p ps -> allfin (rowi rs' p)) /\ allfin c') /\
  (forall x, In x carry \/ (exists p, In p ps /\ In x (rowi rs p)) -> exists e, In e c' /\ ile x e).
Proof.
  intros HB. induction ps as [|p t IH]; intros rs q carry rs' c' HC Hin HG HO Hcar Hbel HPu.
  - cbn [tpush] in HPu. injection HPu as <- <-. repeat split; auto; try (apply HG; assumption);
    try (apply Hcar).
    + intros p [->|[]]. exact Hbel.
    + intros x [Hx|(p & [] & _)]. exists x. split; [exact Hx|apply ile_refl].
  - cbn [tpush] in HPu. destruct (tsplit K (3 + p) (rowi rs p) carry) as [hd nx] eqn:EM0.
    cbn [chain] in HC. destruct HC as (Hp1 & Hp2 & HC).
    assert (Hp : p < length rs) by (apply Hin; left; reflexivity).
    pose proof (HG p Hp) as (Gp1 & Gp2 & Gp3). destruct Hcar as (Gc1 & Gc2 & Gc3).
    pose proof (tsplit_SP _ _ _ _ _ EM0 Gp2 Gc2) as EM.
    pose proof (sp_spec _ _ _ _ EM) as (M1 & M2 & M3 & M4).
    pose proof (sp_parts _ _ _ _ EM) as (M5 & M6 & M7).
    pose proof (sp_nonn _ _ _ _ EM Gp3 Gc3) as (M8 & M9).
    assert (Gh : good B hd) by (repeat split; [lia|assumption|assumption]).
    assert (Gn : good B nx) by (repeat split; [lia|assumption|assumption]).
    assert (Hqp : q < p) by (subst q; apply par_lt; assumption).
    assert (HO1 : ordered (upd rs p hd)).
    { apply ordered_upd; auto.
      - intros _. rewrite Hp2. pose proof (HO p ltac:(lia)) as HH. rewrite Hp2 in HH.
        apply (sp_above _ _ _ _ _ EM HH Hbel).
      - intros c Hc1 Hc2. eapply sp_below_l; [exact EM|]. rewrite <- Hc2. apply HO. exact Hc1. }
    assert (HB1 : below (rowi (upd rs p hd) p) nx).
    { rewrite rowi_upd by assumption. rewrite Nat.eqb_refl. exact M7. }
    assert (Hnot : ~ In p t) by (intros HH; pose proof (chain_gt p t p HC HH); lia).
    specialize (IH (upd rs p hd) p nx rs' c' HC
                  ltac:(intros p' Hp'; rewrite upd_length; apply Hin; right; exact Hp')
                  (goodrows_upd B rs p hd HG Gh) HO1 Gn HB1 HPu).
    destruct IH as (I1 & I2 & I3 & I4 & I5 & I6 & I7 & I8 & I9).
    rewrite upd_length in I1.
    assert (Hnx : forall i, i <> p -> rowi (upd rs p hd) i = rowi rs i).
    { intros i Hi. rewrite rowi_upd by assumption. destruct (Nat.eqb_spec p i); [congruence|reflexivity]. }
    split; [exact I1|]. split; [exact I2|]. split; [exact I3|]. split; [exact I4|].
    split; [|split; [|split; [|split]]].
    + rewrite I5. destruct (concat_upd rs p Hp) as [rest Hrest].
      rewrite (Hrest hd). rewrite <- (upd_same _ rs p []) at 1. rewrite (Hrest (nth p rs [])).
      change (nth p rs []) with (rowi rs p).
      rewrite <- !app_assoc. rewrite (Permutation_app_comm rest nx), (Permutation_app_comm rest carry).
      rewrite !app_assoc. apply Permutation_app_tail. exact M1.
    + intros i Hi. rewrite I6 by (intros HH; apply Hi; right; exact HH).
      apply Hnx. intros ->. apply Hi. left; reflexivity.
    + intros p' [->|[->|Hp']].
      * assert (Eq : rowi rs' q = rowi rs q).
        { rewrite I6; [apply Hnx; lia|]. intros HH. pose proof (chain_gt p t q HC HH). lia. }
        rewrite Eq. specialize (I7 p (or_introl eq_refl)).
        apply (below_trans _ (rowi rs' p)); [|rewrite <- Eq, <- Hp2; apply I3; lia|exact I7].
        intros E0. pose proof (I2 p ltac:(lia)) as (L1 & _). rewrite E0 in L1. cbn [length] in L1. lia.
      * apply I7. left; reflexivity.
      * apply I7. right; exact Hp'.
    + intros HF HFc. pose proof (HF p (or_introl eq_refl)) as HFp.
      pose proof (sp_allfin _ _ _ _ EM HFp HFc) as [F1 F2].
      assert (HFt : forall p', In p' t -> allfin (rowi (upd rs p hd) p')).
      { intros p' Hp'. rewrite Hnx by (intros ->; contradiction). apply HF. right; exact Hp'. }
      destruct (I8 HFt F2) as [J1 J2]. split; [|exact J2].
      intros p' [<-|Hp']; [|apply J1; exact Hp'].
      rewrite I6 by assumption. rewrite rowi_upd by assumption. rewrite Nat.eqb_refl. exact F1.
    + assert (Hlocal : forall x, In x (rowi rs p ++ carry) -> exists e, In e c' /\ ile x e).
      { intros x Hx. apply (Permutation_in x (Permutation_sym M1)) in Hx. apply in_app_or in Hx as [Hx|Hx].
        - destruct nx as [|y nx']; [cbn [length] in M4; lia|].
          destruct (I9 y (or_introl (or_introl eq_refl))) as (e & He1 & He2).
          exists e. split; [exact He1|]. apply (ile_trans x y e); [|exact He2]. apply M7; [exact Hx|left; reflexivity].
        - apply I9. left; exact Hx. }
      intros x [Hx|(p' & [<-|Hp'] & Hx)].
      * apply Hlocal. apply in_or_app; right; exact Hx.
      * apply Hlocal. apply in_or_app; left; exact Hx.
      * apply I9. right. exists p'. split; [exact Hp'|]. rewrite Hnx by (intros ->; contradiction). exact Hx.
Qed.

Lemma tscan_app rs xs ys carry :
  tscan_path K rs (xs ++ ys) carry =
  let '(c1, o1) := tscan_path K rs xs carry in
  let '(c2, o2) := tscan_path K rs ys c1 in (c2, o1 ++ o2).
Proof.
  revert carry. induction xs as [|[i m] t IH]; intros carry; cbn [app tscan_path].
  - destruct (tscan_path K rs ys carry) as [c2 o2]. reflexivity.
  - destruct m.
    + destruct (tsplit K (3 + i) (row_at rs i) carry) as [hd nx]. rewrite IH.
      destruct (tscan_path K rs t nx) as [c1 o1]. destruct (tscan_path K rs ys c1) as [c2 o2]. reflexivity.
    + rewrite IH. destruct (tscan_path K rs t carry) as [c1 o1].
      destruct (tscan_path K rs ys c1) as [c2 o2]. reflexivity.
Qed.

Lemma tscan_false rs (f : nat -> nat) l carry :
  tscan_path K rs (map (fun i => (f i, false)) l) carry = (carry, map (fun _ => row_at rs 0) l).
Proof.
  revert carry. induction l as [|i t IH]; intros carry; cbn [map tscan_path]; [reflexivity|].
  rewrite IH. reflexivity.
Qed.

Lemma tscan_true rs ps : forall carry c heads rs0,
  tscan_path K rs (map (fun p => (p, true)) ps) carry = (c, heads) ->
  (forall p, In p ps -> p < length rs) -> length rs0 = length rs ->
  (forall p, In p ps -> rowi rs0 p = rowi rs p) -> NoDup ps ->
  tpush rs0 ps carry = (scatter_rows rs0 (combine ps heads), c) /\ length heads = length ps.
Proof.
  induction ps as [|p t IH]; intros carry c heads rs0 HS Hin HL Heq HN.
  - cbn [map tscan_path] in HS. injection HS as <- <-. split; reflexivity.
  - cbn [map tscan_path] in HS.
    rewrite row_at_in in HS by (apply Hin; left; reflexivity).
    destruct (tsplit K (3 + p) (rowi rs p) carry) as [hd nx] eqn:EM.
    destruct (tscan_path K rs (map (fun p => (p, true)) t) nx) as [c1 o1] eqn:ES.
    injection HS as <- <-. apply NoDup_cons_iff in HN as [HN1 HN2].
    cbn [tpush]. rewrite (Heq p) by (left; reflexivity). rewrite EM.
    destruct (IH nx c1 o1 (upd rs0 p hd) ES) as [I1 I2]; auto.
    + intros p' Hp'. apply Hin. right; exact Hp'.
    + rewrite upd_length. exact HL.
    + intros p' Hp'. rewrite rowi_upd by (rewrite HL; apply Hin; left; reflexivity).
      destruct (Nat.eqb_spec p p') as [->|_]; [contradiction|]. apply Heq. right; exact Hp'.
    + split; [exact I1|]. cbn [length]. f_equal. exact I2.
Qed.

Lemma tupdate_path_push (h : heap V) t blk :
  small t -> 1 <= t < branch h -> length (rows h) = branch h ->
  tupdate_path K h t blk = set_rows h (fst (tpush (rows h) (pnodes t) blk)).
Proof.
  intros Hs Ht HL. unfold tupdate_path, path, scatter_indices.
  set (d := Nat.log2 (t + 1)).
  assert (Hd : d < max_depth (branch h)) by (apply depth_lt; lia).
  replace (max_depth (branch h)) with (1 + (d + (max_depth (branch h) - 1 - d))) by lia.
  rewrite !seq_app. cbn [seq app]. cbn [map]. rewrite !map_app.
  rewrite (map_ext_in _ (fun l => (path_index t l, true)) (seq (0 + 1) d)).
  2:{ intros l Hl. apply in_seq in Hl. f_equal. unfold path_mask. rewrite node_depth_log2 by assumption.
      fold d. destruct (Nat.leb_spec l d); [|lia]. destruct (Nat.ltb_spec 0 l); [reflexivity|lia]. }
  rewrite (map_ext_in _ (fun l => (path_index t l, false)) (seq (0 + 1 + d) _)).
  2:{ intros l Hl. apply in_seq in Hl. f_equal. unfold path_mask. rewrite node_depth_log2 by assumption.
      fold d. destruct (Nat.leb_spec l d); [lia|reflexivity]. }
  rewrite (map_ext_in _ (path_index t) (seq (0 + 1) d)).
  2:{ intros l Hl. apply in_seq in Hl. unfold path_mask. rewrite node_depth_log2 by assumption.
      fold d. destruct (Nat.leb_spec l d); [|lia]. destruct (Nat.ltb_spec 0 l); [reflexivity|lia]. }
  rewrite (map_ext_in _ (fun _ => branch h) (seq (0 + 1 + d) _)).
  2:{ intros l Hl. apply in_seq in Hl. unfold path_mask. rewrite node_depth_log2 by assumption.
      fold d. destruct (Nat.leb_spec l d); [lia|]. destruct (Nat.eqb_spec l 0); [lia|reflexivity]. }
  rewrite andb_false_r. cbn [orb Nat.eqb]. cbn [tscan_path]. rewrite tscan_app.
  change (0 + 1) with 1.
  rewrite <- (map_map (path_index t) (fun p => (p, true)) (seq 1 d)).
  change (map (path_index t) (seq 1 d)) with (pnodes t).
  destruct (tscan_path K (rows h) (map (fun p => (p, true)) (pnodes t)) blk) as [c heads] eqn:ES.
  rewrite tscan_false.
  pose proof (pnodes_chain t Hs) as HC.
  destruct (tscan_true (rows h) (pnodes t) blk c heads (rows h) ES) as [P1 P2]; auto.
  { intros p Hp. pose proof (pnodes_bound t p Hs Hp). lia. }
  { apply (chain_NoDup 0). exact HC. }
  rewrite P1. cbn [fst]. f_equal. cbn [combine].
  unfold scatter_rows at 1. cbn [fold_left fst snd].
  rewrite (path_index_0 t Hs). rewrite row_at_in by lia. unfold rowi. rewrite upd_same.
  fold (scatter_rows (rows h) (combine (pnodes t ++ map (fun _ : nat => branch h) (seq (1 + d) (max_depth (branch h) - 1 - d))) (heads ++ map (fun _ : nat => nth 0 (rows h) []) (seq (1 + d) (max_depth (branch h) - 1 - d))))).
  rewrite combine_app' by (symmetry; exact P2). rewrite scatter_app. apply scatter_oob.
  intros [i r] Hp. cbn [fst]. rewrite scatter_length. apply in_combine_l in Hp.
  apply in_map_iff in Hp as (l & <- & _). lia.
Qed.

Lemma theapify_ok h blk :
  1 <= batch h -> length (rows h) = branch h -> RInv (batch h) (hsize h) (rows h) -> small (branch h) ->
  good (batch h) blk -> allfin blk -> below (rowi (rows h) 0) blk ->
  exists rs' ev,
    fst (tinsert_heapify K h blk) = set_rows h rs' /\ length rs' = length (rows h) /\
    RInv (batch h) (hsize h + (if snd (tinsert_heapify K h blk) then 1 else 0)) rs' /\
    (forall d : row, below (rowi (rows h) 0) d -> below (rowi rs' 0) d) /\ allfin (rowi rs' 0) /\
    Permutation (concat rs' ++ ev) (concat (rows h) ++ blk) /\
    below (rowi rs' 0) ev /\ good (batch h) ev /\
    (if is_full h then allfin ev else allinf ev) /\
    snd (tinsert_heapify K h blk) = negb (is_full h) /\
    (is_full h = true -> exists e, In e ev /\ forall x, In x (concat rs') -> ile x e).
Proof.
  intros HB HL HR Hsm Hblk Hfin Hbel.
  destruct HR as [HG Hn HF HE HO].
  assert (Hroot : allfin (rowi (rows h) 0)).
  { apply (below_fin _ blk); auto; [apply (good_nonempty (batch h)); assumption|]. apply HG; lia. }
  unfold tinsert_heapify. cbn [fst snd].
  destruct (Nat.ltb_spec (insert_target h) (branch h)) as [Ht|Ht].
  2:{ exfalso. unfold insert_target, is_full in Ht.
      destruct (Nat.leb_spec (branch h - 1) (hsize h)).
      - pose proof (argmax_bound (map last_key (rows h))) as HA. rewrite map_length in HA.
        assert (map last_key (rows h) <> []) by (destruct (rows h); [cbn [length] in *; lia|discriminate]).
        specialize (HA H0). lia.
      - lia. }
  assert (Hst : small (insert_target h)) by (unfold small in *; lia).
  destruct (Nat.eqb_spec (insert_target h) 0) as [E0|E0].
  - (* root only: the heap is full *)
    assert (Efull : is_full h = true).
    { unfold insert_target in E0. destruct (is_full h); [reflexivity|lia]. }
    rewrite Efull. cbn [andb negb]. unfold tupdate_root_only. rewrite row_at_in by lia.
    destruct (tsplit K 2 (rowi (rows h) 0) blk) as [lo hi] eqn:EM0. cbn [fst].
    pose proof (HG 0 ltac:(lia)) as (G1 & G2 & G3). pose proof Hblk as (G4 & G5 & G6).
    pose proof (tsplit_SP _ _ _ _ _ EM0 G2 G5) as EM.
    pose proof (sp_spec _ _ _ _ EM) as (M1 & M2 & M3 & M4).
    pose proof (sp_parts _ _ _ _ EM) as (M5 & M6 & M7).
    pose proof (sp_nonn _ _ _ _ EM G3 G6) as (M8 & M9).
    pose proof (sp_allfin _ _ _ _ EM Hroot Hfin) as (F1 & F2).
    assert (Glo : good (batch h) lo) by (repeat split; [lia|assumption|assumption]).
    assert (Ghi : good (batch h) hi) by (repeat split; [lia|assumption|assumption]).
    assert (Hfull : hsize h = branch h - 1) by (unfold is_full in Efull; apply Nat.leb_le in Efull; lia).
    assert (E00 : rowi (upd (rows h) 0 lo) 0 = lo) by (rewrite rowi_upd by lia; reflexivity).
    assert (Eoo : forall i, 1 <= i -> rowi (upd (rows h) 0 lo) i = rowi (rows h) i).
    { intros i Hi. rewrite rowi_upd by lia. destruct (Nat.eqb_spec 0 i); [lia|reflexivity]. }
    exists (upd (rows h) 0 lo), hi. rewrite Nat.add_0_r, upd_length, E00.
    split; [reflexivity|]. split; [reflexivity|]. split.
    { constructor.
      - apply goodrows_upd; assumption.
      - rewrite upd_length. lia.
      - intros i Hi. rewrite Eoo by lia. apply HF; lia.
      - intros i Hi. rewrite upd_length in Hi. lia.
      - apply ordered_upd; auto; [lia|lia|]. intros c Hc1 Hc2. eapply sp_below_l; [exact EM|].
        rewrite <- Hc2. apply HO; exact Hc1. }
    split; [intros d Hd; eapply sp_below_l; [exact EM|exact Hd]|]. split; [exact F1|]. split.
    { apply (Permutation_app_inv_r (rowi (rows h) 0)).
      pose proof (concat_swap (rows h) 0 lo ltac:(lia)) as S1.
      transitivity ((concat (upd (rows h) 0 lo) ++ rowi (rows h) 0) ++ hi); [perm|]. rewrite S1.
      transitivity (concat (rows h) ++ (lo ++ hi)); [perm|]. rewrite M1. perm. }
    split; [exact M7|]. split; [exact Ghi|]. split; [exact F2|]. split; [reflexivity|].
    intros _. destruct hi as [|e0 hi'] eqn:Ehi; [cbn [length] in M4; lia|]. rewrite <- Ehi in *.
    assert (Hne : hi <> []) by (rewrite Ehi; discriminate).
    exists (last hi e0). split; [apply last_In; exact Hne|]. intros x Hx.
    apply in_concat in Hx as (r & Hr & Hx). apply (In_nth _ _ []) in Hr as (i & Hi & <-).
    change (nth i (upd (rows h) 0 lo) []) with (rowi (upd (rows h) 0 lo) i) in Hx.
    destruct (Nat.eq_dec i 0) as [->|Hi0].
    { rewrite E00 in Hx. apply (M7 x _ Hx). apply last_In; exact Hne. }
    rewrite Eoo in Hx by lia. rewrite upd_length in Hi.
    pose proof (argmax_max (rows h) i Hi) as HA. unfold insert_target in E0. rewrite Efull in E0. rewrite E0 in HA.
    assert (Hne0 : rowi (rows h) 0 <> []) by (apply (good_nonempty (batch h)); [lia|apply HG; lia]).
    destruct (last_key_In _ Hne0) as (u & Hu & Eu). rewrite <- Eu in HA.
    unfold ile. eapply kle_trans; [apply (last_key_max (rowi (rows h) i)); [apply HG; lia|exact Hx]|].
    eapply kle_trans; [exact HA|].
    assert (Hu' : In u (lo ++ hi)) by (eapply Permutation_in; [symmetry; exact M1|apply in_or_app; left; exact Hu]).
    apply in_app_or in Hu' as [Hu'|Hu'].
    + apply (M7 u _ Hu'). apply last_In; exact Hne.
    + apply (sorted_last u hi e0 M6 Hu').
  - rewrite tupdate_path_push by (assumption || lia). cbn [fst].
    destruct (tpush (rows h) (pnodes (insert_target h)) blk) as [rs' ev] eqn:EP. cbn [fst].
    pose proof (pnodes_chain _ Hst) as HC.
    assert (Hin : forall p, In p (pnodes (insert_target h)) -> 1 <= p < length (rows h)).
    { intros p Hp. pose proof (pnodes_bound _ p Hst Hp). lia. }
    pose proof (tpush_spec (batch h) _ HB (rows h) 0 blk rs' ev HC ltac:(intros p Hp; apply Hin; exact Hp) HG HO Hblk Hbel EP)
      as (P1 & P2 & P3 & P4 & P5 & P6 & P7 & P8 & P9).
    exists rs', ev. split; [reflexivity|]. split; [exact P1|].
    assert (Hr0 : rowi rs' 0 = rowi (rows h) 0).
    { apply P6. intros HH. specialize (Hin 0 HH). lia. }
    assert (HB0 : below (rowi rs' 0) ev) by (apply P7; left; reflexivity).
    cbn [andb].
    assert (HH : RInv (batch h) (hsize h + (if negb (is_full h) then 1 else 0)) rs' /\
                 (if is_full h then allfin ev else allinf ev)).
    { destruct (is_full h) eqn:Efull; cbn [negb].
      - (* full *)
        assert (Hfull : hsize h = branch h - 1).
        { unfold is_full in Efull. apply Nat.leb_le in Efull. lia. }
        assert (Hpf : forall p, In p (pnodes (insert_target h)) -> allfin (rowi (rows h) p)).
        { intros p Hp. specialize (Hin p Hp). apply HF. lia. }
        destruct (P8 Hpf Hfin) as [Q1 Q2]. split; [|exact Q2].
        rewrite Nat.add_0_r. constructor; auto; [lia| |].
        + intros i Hi. destruct (in_dec Nat.eq_dec i (pnodes (insert_target h))) as [Hi2|Hi2]; [auto|].
          rewrite P6 by assumption. apply HF; lia.
        + intros i Hi. lia.
      - (* not full *)
        assert (Etgt : insert_target h = hsize h + 1) by (unfold insert_target; rewrite Efull; reflexivity).
        unfold is_full in Efull. apply Nat.leb_gt in Efull. rewrite Etgt in *.
        destruct (pnodes_snoc (hsize h + 1) Hst ltac:(lia)) as (ps & Eps & Hps).
        rewrite Eps in *. rewrite tpush_app in EP.
        destruct (tpush (rows h) ps blk) as [rs1 c1] eqn:EP1.
        assert (HC1 : chain 0 ps).
        { exact (chain_prefix _ _ _ HC). }
        pose proof (tpush_spec (batch h) ps HB (rows h) 0 blk rs1 c1 HC1
          ltac:(intros p Hp; specialize (Hps p Hp); lia) HG HO Hblk Hbel EP1)
          as (R1 & R2 & R3 & R4 & R5 & R6 & R7 & R8 & R9).
        destruct (R8 ltac:(intros p Hp; apply HF; specialize (Hps p Hp); lia) Hfin) as [Q1 Q2].
        cbn [tpush] in EP. destruct (tsplit K (3 + (hsize h + 1)) (rowi rs1 (hsize h + 1)) c1) as [hd nx] eqn:EM0.
        injection EP as E1 E2. subst rs' ev.
        assert (Et : rowi rs1 (hsize h + 1) = rowi (rows h) (hsize h + 1)).
        { apply R6. intros Hq. specialize (Hps _ Hq). lia. }
        assert (Hinf : allinf (rowi rs1 (hsize h + 1))) by (rewrite Et; apply HE; lia).
        pose proof (R2 (hsize h + 1) ltac:(lia)) as (L1 & L2 & L3).
        destruct R4 as (L4 & L5 & L6).
        pose proof (tsplit_SP _ _ _ _ _ EM0 L2 L5) as EM.
        assert (Hcount : length (fin (rowi rs1 (hsize h + 1) ++ c1)) = length (rowi rs1 (hsize h + 1))).
        { rewrite fin_app, (fin_none _ Hinf), (fin_all _ Q2). cbn [app]. lia. }
        pose proof (sp_lo_fin _ _ _ _ EM L3 L6 ltac:(lia)) as F1.
        pose proof (sp_hi_inf _ _ _ _ EM L3 L6 ltac:(lia)) as F2.
        split; [|exact F2]. constructor; auto.
        + rewrite upd_length. lia.
        + intros i Hi. rewrite rowi_upd by lia. destruct (Nat.eqb_spec (hsize h + 1) i) as [Heq|Hne]; [exact F1|].
          destruct (in_dec Nat.eq_dec i ps) as [Hi2|Hi2]; [auto|].
          rewrite R6 by assumption. apply HF; lia.
        + intros i Hi. rewrite upd_length in Hi. rewrite rowi_upd by lia.
          destruct (Nat.eqb_spec (hsize h + 1) i) as [Heq|Hne]; [lia|].
          rewrite R6; [apply HE; lia|]. intros Hq. specialize (Hps _ Hq). lia. }
    destruct HH as [HH1 HH2].
    split; [exact HH1|]. split; [rewrite Hr0; auto|]. split; [rewrite Hr0; exact Hroot|]. split; [exact P5|]. split; [exact HB0|].
    split; [exact P4|]. split; [exact HH2|]. split; [reflexivity|].
    intros Efull. destruct P4 as (Q1 & Q2 & Q3).
    destruct ev as [|e0 ev'] eqn:Eev; [cbn [length] in Q1; lia|]. rewrite <- Eev in *.
    exists (last ev e0). assert (Hne : ev <> []) by (rewrite Eev; discriminate).
    split; [apply last_In; exact Hne|]. intros x Hx.
    apply in_concat in Hx as (r & Hr & Hx). apply (In_nth _ _ []) in Hr as (i & Hi & <-).
    change (nth i rs' []) with (rowi rs' i) in Hx.
    destruct (in_dec Nat.eq_dec i (pnodes (insert_target h))) as [Hip|Hip].
    { apply (P7 i (or_intror Hip) x _ Hx). apply last_In; exact Hne. }
    rewrite P6 in Hx by exact Hip.
    pose proof (argmax_max (rows h) i ltac:(lia)) as HA.
    assert (Et : argmax (map last_key (rows h)) = insert_target h) by (unfold insert_target; rewrite Efull; reflexivity).
    rewrite Et in HA.
    assert (Hne2 : rowi (rows h) (insert_target h) <> []) by (apply (good_nonempty (batch h)); [lia|apply HG; lia]).
    destruct (last_key_In _ Hne2) as (u & Hu & Eu). rewrite <- Eu in HA.
    destruct (pnodes_snoc (insert_target h) Hst ltac:(lia)) as (ps & Eps & _).
    destruct (P9 u) as (e & He1 & He2).
    { right. exists (insert_target h). split; [rewrite Eps; apply in_or_app; right; left; reflexivity|exact Hu]. }
    unfold ile. eapply kle_trans; [apply (last_key_max (rowi (rows h) i)); [apply HG; lia|exact Hx]|].
    eapply kle_trans; [exact HA|]. eapply kle_trans; [exact He2|]. apply (sorted_last e ev e0 Q2 He1).
Qed.

Lemma good_bsort B r : length r = B -> nonn r -> good B (blk_sort K r).
Proof.
  intros H1 H2. repeat split; [rewrite (Permutation_length (proj1 (proj1 HK r))); exact H1|apply (proj1 HK r)|].
  eapply nonn_perm; [symmetry; apply (proj1 HK r)|exact H2].
Qed.

Theorem tinsert_ok h block : Inv h -> length block = batch h -> nonn block ->
  Inv (tinsert K h block) /\ batch (tinsert K h block) = batch h /\ branch (tinsert K h block) = branch h /\
  ins_spec (batch h) (max_size h) (contents h) block (contents (tinsert K h block)).
Proof.
  intros [HB HL HR Hbuf Hrb Hbs Hsm] Hlen Hnn.
  pose proof HR as [HG Hn HF HE HO].
  unfold tinsert. rewrite row_at_in by lia.
  pose proof (good_bsort (batch h) block Hlen Hnn) as (G1 & G2 & G3).
  destruct (tsplit K 0 (rowi (rows h) 0) (blk_sort K block)) as [root blk1] eqn:EM0.
  pose proof (HG 0 ltac:(lia)) as (G4 & G5 & G6).
  pose proof (tsplit_SP _ _ _ _ _ EM0 G5 G2) as EM.
  pose proof (sp_spec _ _ _ _ EM) as (M1 & M2 & M3 & M4).
  pose proof (sp_parts _ _ _ _ EM) as (M5 & M6 & M7).
  pose proof (sp_nonn _ _ _ _ EM G6 G3) as (M8 & M9).
  assert (Groot : good (batch h) root) by (repeat split; [lia|assumption|assumption]).
  assert (Hrb1 : below root (buf h)) by (eapply sp_below_l; eassumption).
  set (rs1 := upd (rows h) 0 root).
  assert (HL1 : length rs1 = length (rows h)) by apply upd_length.
  assert (Hr1 : rowi rs1 0 = root) by (unfold rs1; rewrite rowi_upd by lia; reflexivity).
  assert (Hri : forall i, 1 <= i -> rowi rs1 i = rowi (rows h) i).
  { intros i Hi. unfold rs1. rewrite rowi_upd by lia. destruct (Nat.eqb_spec 0 i); [lia|reflexivity]. }
  assert (HO1 : ordered rs1).
  { apply ordered_upd; auto; [lia|lia|]. intros c Hc1 Hc2. eapply sp_below_l; [exact EM|].
    rewrite <- Hc2. apply HO; exact Hc1. }
  assert (HR1 : RInv (batch h) (hsize h) rs1).
  { constructor; auto.
    - apply goodrows_upd; assumption.
    - lia.
    - intros i Hi. rewrite Hri by lia. apply HF; lia.
    - intros i Hi. rewrite Hri by lia. apply HE; lia. }
  unfold tmerge_buffer. cbn [set_rows buf batch rows hsize branch bsize].
  set (s := merge_at K 1 blk1 (buf h)).
  assert (Ps : Permutation s (blk1 ++ buf h)) by (apply (proj2 HK); [exact M6|apply Hbuf]).
  assert (Ss : sorted s) by (apply (proj2 HK); [exact M6|apply Hbuf]).
  destruct Hbuf as (B1 & B2 & B3).
  assert (Ns : nonn s) by (eapply nonn_perm; [symmetry; exact Ps|apply nonn_app; auto]).
  assert (Ls : length s = 2 * batch h - 1).
  { rewrite (Permutation_length Ps), app_length. lia. }
  assert (Hrs : below root s).
  { eapply below_perm_r; [symmetry; exact Ps|]. apply below_app_r; auto. }
  (* accounting *)
  assert (Hacc : Permutation (contents h ++ fin block) (fin (concat rs1) ++ fin s)).
  { unfold contents. rewrite !fin_app. rewrite (fin_perm _ _ Ps), fin_app.
    destruct (concat_upd (rows h) 0 ltac:(lia)) as [rest Hrest].
    unfold rs1. rewrite (fin_perm _ _ (Hrest root)).
    rewrite <- (upd_same _ (rows h) 0 []) at 1. rewrite (fin_perm _ _ (Hrest (nth 0 (rows h) []))).
    change (nth 0 (rows h) []) with (rowi (rows h) 0).
    pose proof (fin_perm _ _ M1) as M1'. rewrite !fin_app in M1'. rewrite !fin_app.
    rewrite (fin_perm _ _ (proj1 (proj1 HK block))) in M1'.
    transitivity ((fin (rowi (rows h) 0) ++ fin block) ++ fin rest ++ fin (buf h)).
    - rewrite <- !app_assoc. apply Permutation_app_head. rewrite app_assoc. apply Permutation_app_comm.
    - rewrite <- M1'. rewrite <- !app_assoc. apply Permutation_app_head.
      rewrite !app_assoc. apply Permutation_app_tail. apply Permutation_app_comm. }
  assert (Hcount : length (contents h) + length (fin block)
                   = length (fin root) + hsize h * batch h + nfin s).
  { rewrite <- app_length, (Permutation_length Hacc), app_length.
    rewrite (rinv_count _ _ _ HR1), Hr1. rewrite nfin_fin. lia. }
  pose proof (fin_le_length root) as Hfr. pose proof (fin_le_length s) as Hfs.
  rewrite <- nfin_fin in Hfs. unfold max_size.
  destruct (Nat.leb_spec (batch h) (nfin s)) as [Hov|Hov].
  - (* the buffer overflows *)
    set (blk2 := firstn (batch h) s). set (buf2 := skipn (batch h) s).
    assert (Es : blk2 ++ buf2 = s) by apply firstn_skipn.
    assert (L2 : length blk2 = batch h) by (unfold blk2; rewrite firstn_length; lia).
    assert (L3 : length buf2 = batch h - 1) by (unfold buf2; rewrite skipn_length; lia).
    assert (S2 : sorted blk2 /\ sorted buf2 /\ below blk2 buf2) by (apply sorted_app; rewrite Es; exact Ss).
    destruct S2 as (S2 & S3 & S4).
    assert (N2 : nonn blk2 /\ nonn buf2) by (apply nonn_app; rewrite Es; exact Ns).
    assert (F2 : allfin blk2) by (apply sorted_firstn_fin; auto).
    assert (Hb2 : below root blk2 /\ below root buf2) by (apply below_app_r; rewrite Es; exact Hrs).
    set (h2 := MkHeap rs1 buf2 (hsize h) (nfin buf2) (branch h) (batch h)).
    pose proof (theapify_ok h2 blk2) as HH. cbn [h2 rows batch hsize branch] in HH. fold h2 in HH.
    specialize (HH HB ltac:(lia) HR1 Hsm ltac:(repeat split; tauto) F2
                  ltac:(rewrite Hr1; tauto)).
    destruct HH as (rs' & ev & E1 & E2 & E3 & E4 & E4f & E5 & E6 & E7 & E8 & E9 & E10).
    destruct (tinsert_heapify K h2 blk2) as [h3 added] eqn:EI. cbn [fst snd] in *. subst h3.
    cbn [set_rows rows buf hsize bsize branch batch h2] in *.
    split; [|split; [reflexivity|split; [reflexivity|]]].
    + constructor; cbn [rows buf hsize bsize branch batch]; auto; try lia.
      * repeat split; tauto.
      * apply E4. rewrite Hr1. tauto.
    + unfold contents at 2. cbn [rows buf].
      assert (EF : is_full h2 = (branch h - 1 <=? hsize h)) by reflexivity.
      assert (Hacc2 : Permutation (fin (concat rs' ++ buf2) ++ fin ev) (contents h ++ fin block)).
      { rewrite Hacc. rewrite <- Es. rewrite !fin_app.
        pose proof (fin_perm _ _ E5) as E5'. rewrite !fin_app in E5'.
        rewrite (app_assoc (fin (concat rs1))), <- E5'. rewrite <- !app_assoc.
        apply Permutation_app_head. apply Permutation_app_comm. }
      destruct (is_full h2) eqn:Ef; rewrite EF in *.
      * symmetry in EF. apply Nat.leb_le in EF.
        assert (Hrf : allfin root).
        { apply (below_fin _ blk2); [apply (good_nonempty (batch h)); [lia|repeat split; tauto]|tauto|tauto|tauto]. }
        rewrite (fin_all root Hrf) in Hcount.
        assert (Hh : hsize h = branch h - 1) by lia.
        apply (ins_evicts _ _ _ _ _ (rowi rs' 0) (fin (concat (tl rs') ++ buf2)) ev).
        -- rewrite Hcount, Hh. nia.
        -- apply E7.
        -- destruct E3 as [Eg _ _ _ _]. apply (Eg 0). lia.
        -- destruct rs' as [|r0 t]; [cbn [length] in *; lia|]. unfold rowi in E4f |- *. cbn [nth tl concat] in *.
           rewrite <- app_assoc, fin_app, (fin_all r0 E4f). reflexivity.
        -- rewrite <- Hacc2, (fin_all ev E8). reflexivity.
        -- apply below_app_r. split.
           ++ apply (below_sub (rowi rs' 0) (rowi rs' 0) (concat (tl rs') ++ buf2)); auto; [apply fin_sub|].
              apply below_app_r. split; [|apply E4; rewrite Hr1; tauto].
              destruct E3. apply (root_below_rest (batch h)); auto.
           ++ exact E6.
        -- destruct (E10 eq_refl) as (e & He1 & He2).
           exists (fin (concat rs')), (fin buf2), e. split; [rewrite fin_app; reflexivity|].
           split; [pose proof (fin_le_length buf2); lia|]. split; [exact He1|].
           intros x Hx. apply He2. apply fin_sub; exact Hx.
      * symmetry in EF. apply Nat.leb_gt in EF. apply ins_fits.
        -- rewrite Hcount. nia.
        -- rewrite <- Hacc2. rewrite (fin_none ev E8), app_nil_r. reflexivity.
  - (* no overflow *)
    set (k := length s - batch h).
    set (buf2 := firstn k s). set (blk2 := skipn k s).
    assert (Es : buf2 ++ blk2 = s) by apply firstn_skipn.
    assert (L3 : length buf2 = batch h - 1) by (unfold buf2, k; rewrite firstn_length; lia).
    assert (S2 : sorted buf2 /\ sorted blk2 /\ below buf2 blk2) by (apply sorted_app; rewrite Es; exact Ss).
    assert (N2 : nonn buf2 /\ nonn blk2) by (apply nonn_app; rewrite Es; exact Ns).
    assert (I2 : allinf blk2) by (apply sorted_skipn_inf; auto; unfold k; lia).
    assert (Hb2 : below root buf2 /\ below root blk2) by (apply below_app_r; rewrite Es; exact Hrs).
    cbn [rows buf hsize bsize branch batch]. rewrite Nat.add_0_r.
    split; [|split; [reflexivity|split; [reflexivity|]]].
    + constructor; cbn [rows buf hsize bsize branch batch]; auto; try lia.
      * repeat split; tauto.
      * rewrite Hr1. tauto.
    + apply ins_fits.
      * rewrite Hcount. nia.
      * unfold contents at 1. cbn [rows buf]. rewrite Hacc. rewrite <- Es. rewrite !fin_app, (fin_none blk2 I2), app_nil_r.
        reflexivity.
Qed.

Section Sift.
Variable B n : nat.
Variable rs : list row.
Variable bufx : row.
Hypothesis HB : 1 <= B.
Hypothesis Hlen : n + 1 < length rs.
Hypothesis Hgood : goodrows B rs.
Hypothesis Hfull : forall i, 1 <= i <= n -> allfin (rowi rs i).
Hypothesis Hempty : forall i, n < i < length rs -> allinf (rowi rs i).

Lemma tsift_step mu st : max_depth (length rs) * 2 + 1 = mu -> SInv B n rs bufx st -> sift_cond rs st = true ->
  SInv B n rs bufx (tsift_body K mu rs st) /\ length rs - fst (fst (tsift_body K mu rs st)) < length rs - fst (fst st).
Proof.
  intros Hmu HI HC. pose proof (cond_true_child B n rs HB Hlen Hfull Hempty st (s_c _ _ _ _ _ HI) HC) as Hlc.
  destruct st as [[c cur] ups].
  destruct HI as [I1 I2 I3 I4 I5 I6 I7 I8 I9 I10 I11 I12]. cbn [fst snd] in *.
  assert (Hc : c < length rs) by (unfold lc in *; lia).
  set (T := ghost rs (c, cur, ups)) in *.
  assert (HT : length T = length rs) by (unfold T, ghost; rewrite upd_length, scatter_length; reflexivity).
  assert (HTc : rowi T c = cur).
  { unfold T, ghost. rewrite rowi_upd by (rewrite scatter_length; exact Hc). rewrite Nat.eqb_refl. reflexivity. }
  assert (HTb : forall i, lc c <= i -> rowi T i = rowi rs i).
  { intros i Hi. unfold T, ghost. rewrite rowi_upd by (rewrite scatter_length; exact Hc).
    destruct (Nat.eqb_spec c i); [unfold lc in *; lia|]. apply scatter_nth.
    intros p Hp. pose proof (I10 p Hp). lia. }
  cbn [tsift_body].
  rewrite !row_at_in by (unfold lc, rc in *; lia).
  rewrite <- (HTb (lc c)) by lia. rewrite <- (HTb (rc c)) by (unfold lc, rc; lia).
  set (l := rowi T (lc c)). set (r := rowi T (rc c)).
  assert (Gl : good B l) by (apply I3; unfold lc in *; lia).
  assert (Gr : good B r) by (apply I3; unfold lc, rc in *; lia).
  assert (Fl : allfin l) by (apply I4; unfold lc in *; lia).
  destruct I2 as [Gcur Fcur].
  destruct (tsplit K (1 + 2 * c) l r) as [ky kx] eqn:EM01.
  pose proof (tsplit_SP _ _ _ _ _ EM01 (proj1 (proj2 Gl)) (proj1 (proj2 Gr))) as EM1.
  destruct (tsplit K (2 + 2 * c) cur ky) as [kc ky'] eqn:EM02.
  pose proof (sp_spec _ _ _ _ EM1) as (A1 & A2 & A3 & A4).
  pose proof (sp_parts _ _ _ _ EM1) as (A5 & A6 & A7).
  pose proof (sp_nonn _ _ _ _ EM1 (proj2 (proj2 Gl)) (proj2 (proj2 Gr))) as (A8 & A9).
  assert (Gky : good B ky) by (destruct Gl as (? & _); split; [lia|split; assumption]).
  assert (Gkx : good B kx) by (destruct Gr as (? & _); split; [lia|split; assumption]).
  assert (Lr : length l = length r) by (destruct Gl as (? & _), Gr as (? & _); lia).
  assert (Fky : allfin ky).
  { apply (sp_lo_fin l r ky kx EM1); [apply Gl|apply Gr|].
    rewrite fin_app, (fin_all l Fl), app_length. lia. }
  pose proof (tsplit_SP _ _ _ _ _ EM02 (proj1 (proj2 Gcur)) (proj1 (proj2 Gky))) as EM2.
  pose proof (sp_spec _ _ _ _ EM2) as (D1 & D2 & D3 & D4).
  pose proof (sp_parts _ _ _ _ EM2) as (D5 & D6 & D7).
  pose proof (sp_nonn _ _ _ _ EM2 (proj2 (proj2 Gcur)) (proj2 (proj2 Gky))) as (D8 & D9).
  pose proof (sp_allfin _ _ _ _ EM2 Fcur Fky) as (Fkc & Fky').
  assert (Lcy : length cur = length ky) by (destruct Gcur as (? & _), Gky as (? & _); lia).
  assert (Gkc : good B kc) by (destruct Gcur as (? & _); split; [lia|split; assumption]).
  assert (Gky' : good B ky') by (destruct Gky as (? & _); split; [lia|split; assumption]).
  (* choice of x and y *)
  assert (Hxy : exists x y, (if kgt (last_key l) (last_key r) then (lc c, rc c) else (rc c, lc c)) = (x, y) /\
      ((x = lc c /\ y = rc c) \/ (x = rc c /\ y = lc c)) /\ y <= n /\ x < length rs /\
      (forall z, In z (l ++ r) -> kle (fst z) (last_key (rowi T x)) = true) /\
      (1 <= x <= n -> allfin kx) /\ (n < x -> allinf kx)).
  { destruct (Nat.le_gt_cases (rc c) n) as [Hrc|Hrc].
    - assert (Fr : allfin r) by (apply I4; unfold rc in *; lia).
      pose proof (sp_allfin _ _ _ _ EM1 Fl Fr) as [_ Fkx].
      destruct (kgt (last_key l) (last_key r)) eqn:EK.
      + exists (lc c), (rc c). split; [reflexivity|]. split; [auto|]. split; [lia|]. split; [unfold lc in *; lia|].
        split; [|split; [intros _; exact Fkx|unfold lc in *; lia]].
        intros z Hz. apply in_app_or in Hz as [Hz|Hz].
        * apply last_key_max; [apply Gl|exact Hz].
        * eapply kle_trans; [apply last_key_max; [apply Gr|exact Hz]|]. apply kle_false.
          apply kgt_true. exact EK.
      + exists (rc c), (lc c). split; [reflexivity|]. split; [auto|]. split; [unfold lc in *; lia|].
        split; [unfold rc in *; lia|].
        split; [|split; [intros _; exact Fkx|unfold rc in *; lia]].
        intros z Hz. apply in_app_or in Hz as [Hz|Hz].
        * eapply kle_trans; [apply last_key_max; [apply Gl|exact Hz]|]. apply kgt_false. exact EK.
        * apply last_key_max; [apply Gr|exact Hz].
    - assert (Fr : allinf r) by (apply I5; unfold lc, rc in *; lia).
      rewrite (last_key_allinf r Fr). unfold kgt. rewrite kle_PInf. cbn [negb].
      exists (rc c), (lc c). split; [reflexivity|]. split; [auto|]. split; [lia|]. split; [unfold lc, rc in *; lia|].
      split; [|split; [lia|]].
      + intros z Hz. change (rowi T (rc c)) with r. rewrite (last_key_allinf r Fr). apply kle_PInf.
      + intros _. apply (sp_hi_inf l r ky kx EM1); [apply Gl|apply Gr|].
        rewrite fin_app, (fin_none r Fr), app_nil_r, (fin_all l Fl). lia. }
  destruct Hxy as (x & y & Exy & Hcase & Hy & Hx & Hmax & Hkx1 & Hkx2). rewrite Exy.
  assert (Hxc : par x = c /\ par y = c /\ x <> y /\ x <> c /\ y <> c /\ 1 <= x /\ 1 <= y /\ lc c <= x /\ lc c <= y).
  { pose proof (par_lc c). pose proof (par_rc c). unfold lc, rc in *. destruct Hcase as [[-> ->]|[-> ->]]; repeat split; auto; lia. }
  destruct Hxc as (Px & Py & Nxy & Nxc & Nyc & X1 & Y1 & X2 & Y2).
  (* update list *)
  destruct I12 as (k & K1 & K2).
  assert (Kd : k + 1 < max_depth (length rs)).
  { unfold max_depth. apply (Nat.pow_lt_mono_r_iff 2); [lia|].
    pose proof (Nat.log2_log2_up_spec (length rs + 1) ltac:(lia)) as [_ HH].
    rewrite Nat.add_1_r, Nat.pow_succ_r'. unfold lc in *. lia. }
  unfold write_update at 2.
  destruct (Nat.ltb_spec (length ups) mu) as [_|]; [|lia].
  unfold write_update. rewrite app_length. cbn [length].
  destruct (Nat.ltb_spec (length ups + 1) mu) as [_|]; [|lia].
  rewrite <- app_assoc. cbn [app].
  set (ups' := ups ++ [(c, kc); (x, kx)]).
  set (T1 := upd T c kc). set (T2 := upd T1 x kx). set (T3 := upd T2 y ky').
  assert (EG : ghost rs (y, ky', ups') = T3).
  { unfold T3, T2, T1, T, ghost, ups'. rewrite scatter_app. unfold scatter_rows at 1. cbn [fold_left fst snd].
    rewrite upd_upd. reflexivity. }
  assert (L1 : length T1 = length rs) by (unfold T1; rewrite upd_length; exact HT).
  assert (L2 : length T2 = length rs) by (unfold T2; rewrite upd_length; exact L1).
  assert (L3 : length T3 = length rs) by (unfold T3; rewrite upd_length; exact L2).
  assert (R3 : forall i, rowi T3 i = if y =? i then ky' else if x =? i then kx else if c =? i then kc else rowi T i).
  { intros i. unfold T3. rewrite rowi_upd by lia. unfold T2. rewrite rowi_upd by lia.
    unfold T1. rewrite rowi_upd by lia. reflexivity. }
  assert (R3y : rowi T3 y = ky') by (rewrite R3, Nat.eqb_refl; reflexivity).
  assert (R3x : rowi T3 x = kx).
  { rewrite R3. destruct (Nat.eqb_spec y x); [congruence|]. rewrite Nat.eqb_refl. reflexivity. }
  assert (R3c : rowi T3 c = kc).
  { rewrite R3. destruct (Nat.eqb_spec y c); [congruence|]. destruct (Nat.eqb_spec x c); [congruence|].
    rewrite Nat.eqb_refl. reflexivity. }
  assert (R3o : forall i, i <> y -> i <> x -> i <> c -> rowi T3 i = rowi T i).
  { intros i H1 H2 H3. rewrite R3. destruct (Nat.eqb_spec y i); [congruence|].
    destruct (Nat.eqb_spec x i); [congruence|]. destruct (Nat.eqb_spec c i); [congruence|reflexivity]. }
  assert (Hchild : forall j, 1 <= j -> par j = c -> j = x \/ j = y).
  { intros j Hj1 Hj2. pose proof (par_cases c j Hj1 Hj2). destruct Hcase as [[-> ->]|[-> ->]]; tauto. }
  (* kc is below ky (old), and ky is below y's children *)
  assert (Hkckx : below kc kx).
  { eapply sp_below_r; [exact EM2|exact Lcy|exact A7]. }
  assert (Hyrow : rowi T y = l \/ rowi T y = r) by (destruct Hcase as [[_ ->]|[_ ->]]; auto).
  assert (Hgc : forall j, 1 <= j < length rs -> par j = y -> below kc (rowi T j)).
  { intros j Hj Pj. eapply sp_below_r; [exact EM2|exact Lcy|].
    pose proof (I6 j Hj ltac:(lia)) as Hb. rewrite Pj in Hb.
    destruct Hyrow as [E|E]; rewrite E in Hb.
    - eapply sp_below_l; [exact EM1|exact Hb].
    - eapply sp_below_r; [exact EM1|exact Lr|exact Hb]. }
  split.
  2:{ cbn [fst snd]. unfold lc in *. lia. }
  constructor; cbn [fst snd]; rewrite ?EG.
  - exact Hy.
  - split; assumption.
  - intros i Hi. rewrite R3. destruct (y =? i); [exact Gky'|]. destruct (x =? i); [exact Gkx|].
    destruct (c =? i); [exact Gkc|]. apply I3. lia.
  - intros i Hi. rewrite R3. destruct (y =? i); [exact Fky'|].
    destruct (Nat.eqb_spec x i) as [E|E]; [subst i; apply Hkx1; exact Hi|].
    destruct (c =? i); [exact Fkc|]. apply I4; exact Hi.
  - intros i Hi. rewrite R3. destruct (Nat.eqb_spec y i) as [E|E]; [lia|].
    destruct (Nat.eqb_spec x i) as [E2|E2]; [subst i; apply Hkx2; lia|].
    destruct (Nat.eqb_spec c i) as [E3|E3]; [lia|]. apply I5; exact Hi.
  - intros j Hj Pj. pose proof (par_lt j ltac:(lia)) as Plt.
    destruct (Nat.eq_dec (par j) c) as [Ec|Ec].
    + rewrite Ec, R3c. destruct (Hchild j ltac:(lia) Ec) as [-> | ->].
      * rewrite R3x. exact Hkckx.
      * rewrite R3y. exact D7.
    + assert (Hjx : j <> x) by congruence. assert (Hjy : j <> y) by congruence.
      destruct (Nat.eq_dec (par j) x) as [Ex|Ex].
      * rewrite Ex, R3x. assert (Hjc : j <> c) by (unfold lc in *; lia).
        rewrite R3o by assumption. pose proof (I6 j Hj Ec) as Hb. rewrite Ex in Hb.
        intros z w Hz Hw. unfold ile.
        assert (Hz' : In z (l ++ r)).
        { eapply Permutation_in; [exact A1|]. apply in_or_app; right; exact Hz. }
        eapply kle_trans; [apply Hmax; exact Hz'|].
        assert (Hne : rowi T x <> []) by (apply (good_nonempty B); [exact HB|apply I3; lia]).
        destruct (last_key_In (rowi T x) Hne) as (u & Hu & <-). exact (Hb u w Hu Hw).
      * rewrite (R3o (par j)) by assumption.
        destruct (Nat.eq_dec j c) as [->|Hjc].
        -- rewrite R3c. pose proof (I6 c ltac:(lia) ltac:(lia)) as Hb. rewrite HTc in Hb.
           assert (Hl : below (rowi T (par c)) l) by (apply I7; [lia| |apply par_lc]; unfold lc in *; lia).
           assert (Hr : below (rowi T (par c)) r) by (apply I7; [lia| |apply par_rc]; unfold lc, rc in *; lia).
           pose proof (sp_above _ _ _ _ _ EM1 Hl Hr) as [Hky _].
           exact (proj1 (sp_above _ _ _ _ _ EM2 Hb Hky)).
        -- rewrite (R3o j) by assumption. apply I6; assumption.
  - intros _ j Hj Pj. rewrite Py, R3c. pose proof (par_lt j ltac:(lia)).
    rewrite R3o; [apply Hgc; assumption| | |].
    + lia.
    + intros ->. congruence.
    + unfold lc in *; lia.
  - rewrite <- I8.
    assert (Hs : Permutation (concat T3 ++ rowi T2 y ++ rowi T1 x ++ rowi T c) (concat T ++ ky' ++ kx ++ kc)).
    { pose proof (concat_swap T c kc ltac:(lia)) as S1. fold T1 in S1.
      pose proof (concat_swap T1 x kx ltac:(lia)) as S2. fold T2 in S2.
      pose proof (concat_swap T2 y ky' ltac:(lia)) as S3. fold T3 in S3.
      exact (perm_chain _ _ _ _ _ _ _ (perm_chain _ _ _ _ _ _ _ S1 S2) S3). }
    assert (E1 : rowi T1 x = rowi T x).
    { unfold T1. rewrite rowi_upd by lia. destruct (Nat.eqb_spec c x); [congruence|reflexivity]. }
    assert (E2 : rowi T2 y = rowi T y).
    { unfold T2. rewrite rowi_upd by lia. destruct (Nat.eqb_spec x y); [congruence|].
      unfold T1. rewrite rowi_upd by lia. destruct (Nat.eqb_spec c y); [congruence|reflexivity]. }
    rewrite E1, E2, HTc in Hs.
    assert (Hin : Permutation (rowi T y ++ rowi T x ++ cur) (ky' ++ kx ++ kc)).
    { transitivity ((l ++ r) ++ cur).
      - rewrite app_assoc. apply Permutation_app_tail.
        destruct Hcase as [[-> ->]|[-> ->]]; fold l; fold r; [apply Permutation_app_comm|reflexivity].
      - rewrite <- A1. rewrite <- app_assoc, (Permutation_app_comm kx cur), app_assoc.
        rewrite (Permutation_app_comm ky cur), <- D1. rewrite <- app_assoc.
        rewrite (Permutation_app_comm kc (ky' ++ kx)), <- app_assoc. reflexivity. }
    rewrite Hin in Hs. apply Permutation_app_inv_r in Hs. exact Hs.
  - destruct (Nat.eq_dec c 0) as [E|E].
    + rewrite E in *. rewrite R3c. eapply sp_below_l; [exact EM2|]. rewrite <- HTc. exact I9.
    + rewrite R3o by lia. exact I9.
  - intros p Hp. unfold ups' in Hp. apply in_app_or in Hp as [Hp|[<-|[<-|[]]]]; cbn [fst].
    + pose proof (I10 p Hp) as (J1 & J2 & J3). unfold lc in *. repeat split; lia.
    + unfold lc in *; repeat split; lia.
    + repeat split; try lia. unfold lc in *. destruct Hcase as [[-> ->]|[-> ->]]; unfold lc, rc in *; lia.
  - unfold ups'. rewrite map_app. cbn [map fst].
    assert (Hnot : forall q, In q (map fst ups) -> q < lc c /\ q <> c).
    { intros q Hq. apply in_map_iff in Hq as (p & <- & Hp). pose proof (I10 p Hp). tauto. }
    clear -I11 Hnot X2 Nxc. induction (map fst ups) as [|q t IH]; cbn [app].
    + constructor; [intros [E|[]]; congruence|]. constructor; [intros []|constructor].
    + apply NoDup_cons_iff in I11 as [J1 J2]. constructor.
      * intros HH. apply in_app_or in HH as [HH|[HH|[HH|[]]]]; [contradiction| |];
          pose proof (Hnot q (or_introl eq_refl)); lia.
      * apply IH; [exact J2|]. intros q' Hq'. apply Hnot. right; exact Hq'.
  - exists (k + 1). unfold ups'. rewrite app_length. cbn [length]. split; [lia|].
    rewrite Nat.add_1_r, Nat.pow_succ_r'. unfold lc in *. lia.
Qed.

End Sift.

Lemma tdel_heapify_ok h : Inv h -> 1 <= hsize h ->
  exists h', tdelete_heapify K h = Some h' /\ Inv h' /\ batch h' = batch h /\ branch h' = branch h /\
    Permutation (contents h) (rowi (rows h) 0 ++ contents h').
Proof.
  intros [HB HL HR Hbuf Hrb Hbs Hsm] Hn1. pose proof HR as [HG Hn HF HE HO].
  unfold tdelete_heapify. rewrite row_at_in by lia.
  set (lr := rowi (rows h) (hsize h)).
  assert (Glr : good (batch h) lr) by (apply HG; lia).
  assert (Flr : allfin lr) by (apply HF; lia).
  destruct (tsplit K 0 lr (buf h)) as [root buf'] eqn:EM0.
  pose proof (tsplit_SP _ _ _ _ _ EM0 (proj1 (proj2 Glr)) (proj1 (proj2 Hbuf))) as EM.
  pose proof (sp_spec _ _ _ _ EM) as (M1 & M2 & M3 & M4).
  pose proof (sp_parts _ _ _ _ EM) as (M5 & M6 & M7).
  pose proof (sp_nonn _ _ _ _ EM (proj2 (proj2 Glr)) (proj2 (proj2 Hbuf))) as (M8 & M9).
  assert (Froot : allfin root).
  { apply (sp_lo_fin _ _ _ _ EM); [apply Glr|apply Hbuf|]. rewrite fin_app, (fin_all lr Flr), app_length. lia. }
  assert (Groot : good (batch h) root) by (destruct Glr as (? & _); split; [lia|split; assumption]).
  assert (Gbuf' : good (batch h - 1) buf') by (destruct Hbuf as (? & _); split; [lia|split; assumption]).
  set (rs1 := upd (rows h) (hsize h) (clear_keys lr)).
  set (rs := upd rs1 0 root).
  assert (L1 : length rs1 = length (rows h)) by apply upd_length.
  assert (L2 : length rs = length (rows h)) by (unfold rs; rewrite upd_length; exact L1).
  assert (R : forall i, rowi rs i = if 0 =? i then root else if hsize h =? i then clear_keys lr else rowi (rows h) i).
  { intros i. unfold rs. rewrite rowi_upd by lia. unfold rs1. rewrite rowi_upd by lia. reflexivity. }
  assert (Ro : forall i, i <> 0 -> i <> hsize h -> rowi rs i = rowi (rows h) i).
  { intros i H1 H2. rewrite R. destruct (Nat.eqb_spec 0 i); [congruence|]. destruct (Nat.eqb_spec (hsize h) i); [congruence|reflexivity]. }
  assert (R0 : rowi rs 0 = root) by (rewrite R; reflexivity).
  assert (Gclear : good (batch h) (clear_keys lr)).
  { split; [rewrite clear_length; apply Glr|]. split; [apply sorted_allinf, allinf_clear|apply allinf_nonn, allinf_clear]. }
  assert (Hgood : goodrows (batch h) rs).
  { apply goodrows_upd; [|exact Groot]. apply goodrows_upd; assumption. }
  assert (Hfull : forall i, 1 <= i <= hsize h - 1 -> allfin (rowi rs i)).
  { intros i Hi. rewrite Ro by lia. apply HF; lia. }
  assert (Hempty : forall i, hsize h - 1 < i < length rs -> allinf (rowi rs i)).
  { intros i Hi. rewrite R. destruct (Nat.eqb_spec 0 i); [lia|].
    destruct (Nat.eqb_spec (hsize h) i); [apply allinf_clear|]. apply HE; lia. }
  assert (HI0 : SInv (batch h) (hsize h - 1) rs buf' (0, root, [])).
  { assert (EG : ghost rs (0, root, []) = rs).
    { unfold ghost, scatter_rows. cbn [fold_left]. rewrite <- R0. unfold rowi. apply upd_same. }
    constructor; rewrite ?EG; cbn [fst snd]; auto; try lia.
    - intros i Hi Hp. pose proof (par_lt i ltac:(lia)) as Hlt.
      destruct (Nat.eq_dec i (hsize h)) as [->|Hne].
      + apply below_allinf. apply Hempty; lia.
      + destruct (Nat.eq_dec (par i) (hsize h)) as [E|E].
        * apply below_allinf. apply Hempty; lia.
        * rewrite !Ro by lia. apply HO; lia.
    - rewrite R0. exact M7.
    - intros p [].
    - constructor.
    - exists 0. split; [reflexivity|cbn [Nat.pow]; lia]. }
  rewrite <- HL, <- L2.
  destruct (while_total (SInv (batch h) (hsize h - 1) rs buf') (fun st => length rs - fst (fst st))
             (sift_cond rs) (tsift_body K (max_depth (length rs) * 2 + 1) rs)
             ltac:(intros st Hst Hcnd; apply (tsift_step (batch h) (hsize h - 1) rs buf'); auto; lia)
             (length rs) (0, root, []) HI0 ltac:(cbn [fst]; lia)) as (st & EW & HI & HC).
  rewrite EW.
  assert (HRI : RInv (batch h) (hsize h - 1) (ghost rs st)).
  { apply (sift_done (batch h) (hsize h - 1) rs buf'); auto; lia. }
  destruct st as [[c cur] ups].
  pose proof HI as [I1 I2 I3 I4 I5 I6 I7 I8 I9 I10 I11 I12]. cbn [fst snd] in *.
  destruct I12 as (k & K1 & K2).
  assert (Kd : k < max_depth (length rs)).
  { unfold max_depth. apply (Nat.pow_lt_mono_r_iff 2); [lia|].
    pose proof (Nat.log2_log2_up_spec (length rs + 1) ltac:(lia)) as [_ HH]. lia. }
  unfold write_update. destruct (Nat.ltb_spec (length ups) (max_depth (length rs) * 2 + 1)) as [_|]; [|lia].
  assert (EG : scatter_rows rs (ups ++ [(c, cur)]) = ghost rs (c, cur, ups)).
  { rewrite scatter_app. reflexivity. }
  rewrite EG. set (T := ghost rs (c, cur, ups)) in *.
  assert (HT : length T = length (rows h)) by (unfold T, ghost; rewrite upd_length, scatter_length; exact L2).
  eexists. split; [reflexivity|]. split; [|split; [reflexivity|split; [cbn [branch]; lia|]]].
  - constructor; cbn [rows buf hsize bsize branch batch]; auto; try lia.
    + rewrite Hbs. rewrite !nfin_fin.
      pose proof (Permutation_length (fin_perm _ _ M1)) as HH. rewrite !fin_app, !app_length in HH.
      rewrite (fin_all root Froot), (fin_all lr Flr) in HH. lia.
    + unfold small in *. lia.
  - unfold contents. cbn [rows buf]. rewrite !fin_app. rewrite (fin_perm _ _ I8).
    assert (Hs : Permutation (concat rs ++ rowi rs1 0 ++ rowi (rows h) (hsize h)) (concat (rows h) ++ root ++ clear_keys lr)).
    { pose proof (concat_swap (rows h) (hsize h) (clear_keys lr) ltac:(lia)) as S1. fold rs1 in S1.
      pose proof (concat_swap rs1 0 root ltac:(lia)) as S2. fold rs in S2.
      exact (perm_chain _ _ _ _ _ _ _ S1 S2). }
    assert (E1 : rowi rs1 0 = rowi (rows h) 0).
    { unfold rs1. rewrite rowi_upd by lia. destruct (Nat.eqb_spec (hsize h) 0); [lia|reflexivity]. }
    rewrite E1 in Hs. fold lr in Hs. apply fin_perm in Hs. rewrite !fin_app in Hs.
    rewrite (fin_none (clear_keys lr)), app_nil_r in Hs by apply allinf_clear.
    pose proof (rinv_root_full _ _ _ HB HR Hn1) as Fr0.
    rewrite (fin_all _ Fr0) in Hs.
    apply (Permutation_app_inv_r (fin root)).
    transitivity (rowi (rows h) 0 ++ fin (concat rs) ++ fin lr ++ fin (buf h)).
    + transitivity ((fin (concat (rows h)) ++ fin root) ++ fin (buf h)); [perm|]. rewrite <- Hs. perm.
    + pose proof (fin_perm _ _ M1) as M1'. rewrite !fin_app in M1'.
      transitivity (rowi (rows h) 0 ++ fin (concat rs) ++ (fin root ++ fin buf')).
      * do 2 apply Permutation_app_head. symmetry. exact M1'.
      * perm.
Qed.

Theorem tdelete_ok h : Inv h ->
  exists h' out, tdelete_mins K h = Some (h', out) /\ Inv h' /\ batch h' = batch h /\ branch h' = branch h /\
    del_spec (batch h) (contents h) out (contents h').
Proof.
  intros HI. pose proof HI as [HB HL HR Hbuf Hrb Hbs Hsm]. pose proof HR as [HG Hn HF HE HO].
  unfold tdelete_mins. rewrite row_at_in by lia.
  assert (HbR : below (rowi (rows h) 0) (concat (tl (rows h)) ++ buf h)).
  { apply below_app_r. split; [|exact Hrb]. apply (root_below_rest (batch h)); assumption. }
  assert (HcR : contents h = fin (rowi (rows h) 0) ++ fin (concat (tl (rows h)) ++ buf h)).
  { rewrite contents_root by lia. rewrite fin_app. reflexivity. }
  destruct (Nat.eqb_spec (hsize h) 0) as [E|E].
  - unfold tmake_empty. rewrite row_at_in by lia.
    destruct (tsplit K 0 (clear_keys (rowi (rows h) 0)) (buf h)) as [root buf'] eqn:EM0.
    pose proof (tsplit_SP _ _ _ _ _ EM0 (sorted_allinf _ (allinf_clear _)) (proj1 (proj2 Hbuf))) as EM.
    pose proof (sp_spec _ _ _ _ EM) as (M1 & M2 & M3 & M4). rewrite clear_length in M3.
    pose proof (sp_parts _ _ _ _ EM) as (M5 & M6 & M7).
    pose proof (HG 0 ltac:(lia)) as (G1 & G2 & G3). destruct Hbuf as (B1 & B2 & B3).
    pose proof (sp_nonn _ _ _ _ EM (allinf_nonn _ (allinf_clear _)) B3) as (M8 & M9).
    assert (Ibuf : allinf buf').
    { apply (sp_hi_inf _ _ _ _ EM (allinf_nonn _ (allinf_clear _)) B3).
      rewrite fin_app, (fin_none (clear_keys _)), clear_length by apply allinf_clear. cbn [app].
      pose proof (fin_le_length (buf h)). lia. }
    assert (Hempty : forall i, 1 <= i < length (rows h) -> allinf (rowi (rows h) i)) by (intros i Hi; apply HE; lia).
    eexists. exists (rowi (rows h) 0). split; [reflexivity|]. split; [|split; [reflexivity|split; [reflexivity|]]].
    + constructor; cbn [rows buf hsize bsize branch batch]; auto.
      * rewrite upd_length. exact HL.
      * constructor.
        -- apply goodrows_upd; [exact HG|]. split; [lia|split; assumption].
        -- rewrite upd_length. exact Hn.
        -- intros i Hi. lia.
        -- intros i Hi. rewrite upd_length in Hi. rewrite rowi_upd by lia.
           destruct (Nat.eqb_spec 0 i); [lia|]. apply Hempty; lia.
        -- apply ordered_upd; auto; [lia|lia|]. intros c Hc _. apply below_allinf. apply Hempty; lia.
      * split; [lia|split; assumption].
      * rewrite rowi_upd by lia. exact M7.
      * rewrite nfin_fin, (fin_none buf' Ibuf). reflexivity.
    + assert (Hrest : fin (concat (tl (rows h))) = []).
      { apply fin_none. intros x Hx. apply In_concat_tl in Hx as (i & Hi & Hx). exact (Hempty i Hi x Hx). }
      apply (del_out _ _ _ (concat (tl (rows h)) ++ buf h)); auto.
      * apply HG; lia.
      * unfold contents. cbn [rows buf]. destruct (rows h) as [|r0 t]; [cbn [length] in *; lia|].
        cbn [upd concat tl] in *. rewrite !fin_app, Hrest, (fin_none buf' Ibuf), !app_nil_r. cbn [app].
        pose proof (fin_perm _ _ M1) as M1'. rewrite !fin_app in M1'.
        rewrite (fin_none buf' Ibuf), (fin_none (clear_keys _)), app_nil_r in M1' by apply allinf_clear. exact M1'.
      * rewrite HcR. reflexivity.
  - destruct (tdel_heapify_ok h HI ltac:(lia)) as (h' & E1 & E2 & E3 & E4 & E5).
    rewrite E1. exists h', (rowi (rows h) 0). split; [reflexivity|]. split; [exact E2|]. split; [exact E3|]. split; [exact E4|].
    pose proof (rinv_root_full _ _ _ HB HR ltac:(lia)) as Fr0.
    apply (del_out _ _ _ (concat (tl (rows h)) ++ buf h)); auto.
    + apply HG; lia.
    + rewrite HcR in E5. rewrite (fin_all _ Fr0) in E5. apply Permutation_app_inv_l in E5. symmetry. exact E5.
    + rewrite HcR. reflexivity.
Qed.

End H.
