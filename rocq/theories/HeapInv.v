(** * HeapInv.v — the invariant, and insert preserves it. *)
From Verif Require Import Jax KeyModel SortProofs HeapModel HeapSpec HeapProofs HeapInsert.

Section H.
Context {V : Type}.
Notation item := (key * V)%type.
Notation row := (list item).
Implicit Types r a b lo hi s carry c : list (key * V).
Implicit Types rs T : list (list (key * V)).
Implicit Types h : heap V.

Record RInv (B n : nat) rs : Prop := {
  r_good : goodrows B rs;
  r_n : n < length rs;
  r_full : forall i, 1 <= i <= n -> allfin (rowi rs i);
  r_empty : forall i, n < i < length rs -> allinf (rowi rs i);
  r_ord : ordered rs }.

Record Inv h : Prop := {
  v_B : 1 <= batch h;
  v_len : length (rows h) = branch h;
  v_rows : RInv (batch h) (hsize h) (rows h);
  v_buf : good (batch h - 1) (buf h);
  v_rb : below (rowi (rows h) 0) (buf h);
  v_bs : bsize h = nfin (buf h);
  v_small : small (branch h) }.

Lemma good_nonempty B r : 1 <= B -> good B r -> r <> [].
Proof. intros HB (H & _) E. subst r. cbn [length] in H. lia. Qed.

Lemma ordered_root B rs : 1 <= B -> goodrows B rs -> ordered rs ->
  forall i, 1 <= i < length rs -> below (rowi rs 0) (rowi rs i).
Proof.
  intros HB HG HO i. induction (lt_wf i) as [i _ IH]. intros Hi.
  pose proof (par_lt i ltac:(lia)) as Hp. destruct (Nat.eq_dec (par i) 0) as [E|E].
  - rewrite <- E. apply HO; lia.
  - apply (below_trans _ (rowi rs (par i))).
    + apply (good_nonempty B); [exact HB|]. apply HG; lia.
    + apply IH; lia.
    + apply HO; lia.
Qed.

Lemma below_fin a b : b <> [] -> below a b -> nonn a -> allfin b -> allfin a.
Proof.
  intros Hb HB HN HF x Hx. destruct b as [|y b]; [congruence|].
  specialize (HB x y Hx (or_introl eq_refl)). specialize (HF y (or_introl eq_refl)).
  specialize (HN x Hx). unfold ile in HB. destruct (fst x), (fst y); simpl in *; congruence.
Qed.

Lemma fin_concat_count B n rs : (forall i, i < length rs -> length (rowi rs i) = B) ->
  n <= length rs -> (forall i, i < n -> allfin (rowi rs i)) ->
  (forall i, n <= i < length rs -> allinf (rowi rs i)) ->
  length (fin (concat rs)) = n * B.
Proof.
  revert n. induction rs as [|r t IH]; intros n HL Hn HF HI.
  - cbn [length] in Hn. replace n with 0 by lia. reflexivity.
  - cbn [concat]. rewrite fin_app, app_length. cbn [length] in *. destruct n as [|n].
    + rewrite (fin_none r) by (apply (HI 0); lia). cbn [length].
      apply (IH 0); [intros i Hi; apply (HL (S i)); lia|lia|intros i Hi; lia|].
      intros i Hi. apply (HI (S i)); lia.
    + rewrite (fin_all r) by (apply (HF 0); lia). rewrite (IH n).
      * pose proof (HL 0 ltac:(lia)) as H0. unfold rowi in H0. cbn [nth] in H0. lia.
      * intros i Hi. apply (HL (S i)); lia.
      * lia.
      * intros i Hi. apply (HF (S i)); lia.
      * intros i Hi. apply (HI (S i)); lia.
Qed.

Lemma rinv_count B n rs : RInv B n rs ->
  length (fin (concat rs)) = length (fin (rowi rs 0)) + n * B.
Proof.
  intros [HG Hn HF HE HO]. destruct rs as [|r t]; [cbn [length] in Hn; lia|].
  cbn [concat]. rewrite fin_app, app_length. f_equal.
  cbn [length] in *. apply fin_concat_count.
  - intros i Hi. apply (HG (S i)). cbn [length]. lia.
  - lia.
  - intros i Hi. apply (HF (S i)); lia.
  - intros i Hi. apply (HE (S i)); lia.
Qed.

Lemma rinv_root_full B n rs : 1 <= B -> RInv B n rs -> 1 <= n -> allfin (rowi rs 0).
Proof.
  intros HB [HG Hn HF HE HO] H1. apply (below_fin _ (rowi rs 1)).
  - apply (good_nonempty B); [exact HB|]. apply HG; lia.
  - apply (ordered_root B); auto; lia.
  - apply HG; lia.
  - apply HF; lia.
Qed.

Lemma contents_root h : 1 <= length (rows h) ->
  contents h = fin (rowi (rows h) 0) ++ fin (concat (tl (rows h))) ++ fin (buf h).
Proof.
  unfold contents. destruct (rows h) as [|r t]; cbn [length]; intros H; [lia|].
  cbn [concat tl]. unfold rowi. cbn [nth]. rewrite <- app_assoc, !fin_app. reflexivity.
Qed.

Lemma In_concat_tl rs x : In x (concat (tl rs)) -> exists i, 1 <= i < length rs /\ In x (rowi rs i).
Proof.
  destruct rs as [|r t]; cbn [tl concat]; [intros []|]. intros H.
  apply in_concat in H as (r' & Hr' & Hx). apply (In_nth t r' []) in Hr' as (i & Hi & <-).
  exists (S i). cbn [length]. split; [lia|exact Hx].
Qed.

Lemma root_below_rest B rs : 1 <= B -> goodrows B rs -> ordered rs ->
  below (rowi rs 0) (concat (tl rs)).
Proof.
  intros HB HG HO x y Hx Hy. apply In_concat_tl in Hy as (i & Hi & Hy).
  exact (ordered_root B rs HB HG HO i Hi x y Hx Hy).
Qed.

Lemma below_sub a a' b b' : (forall x, In x a' -> In x a) -> (forall x, In x b' -> In x b) ->
  below a b -> below a' b'.
Proof. intros H1 H2 H x y Hx Hy. apply H; auto. Qed.
Lemma fin_sub a x : In x (fin a) -> In x a.
Proof. intros H. apply fin_In in H. tauto. Qed.

Lemma msplit_sorted_id a b : sorted a -> sorted b -> below a b -> msplit a b = (a, b).
Proof.
  intros Ha Hb Hab. unfold msplit. rewrite ssort_id by (apply sorted_app; auto).
  rewrite firstn_app, skipn_app, Nat.sub_diag, firstn_all, skipn_all.
  cbn [firstn skipn]. rewrite app_nil_r. reflexivity.
Qed.

Lemma argmax_from_bound i best bk l : best < i -> argmax_from i best bk l < i + length l.
Proof.
  revert i best bk. induction l as [|k t IH]; intros i best bk H; cbn [argmax_from length]; [lia|].
  destruct (kgt k bk).
  - specialize (IH (S i) i k ltac:(lia)). lia.
  - specialize (IH (S i) best bk ltac:(lia)). lia.
Qed.
Lemma argmax_bound l : l <> [] -> argmax l < length l.
Proof.
  destruct l as [|k t]; [congruence|]. intros _. cbn [argmax length].
  pose proof (argmax_from_bound 1 0 k t ltac:(lia)). lia.
Qed.

Lemma last_map_fst r (d : item) : r <> [] -> last_key r = fst (last r d).
Proof.
  unfold last_key. induction r as [|x t IH]; intros H; [congruence|].
  destruct t as [|y t]; [reflexivity|]. change (last (map fst (y :: t)) PInf = fst (last (y :: t) d)).
  apply IH. discriminate.
Qed.
Lemma last_key_In r : r <> [] -> exists x, In x r /\ fst x = last_key r.
Proof.
  intros H. destruct r as [|x0 t]; [congruence|].
  exists (last (x0 :: t) x0). split; [apply last_In; discriminate|].
  symmetry. apply last_map_fst. discriminate.
Qed.
Lemma last_key_max r x : sorted r -> In x r -> kle (fst x) (last_key r) = true.
Proof.
  intros HS Hx. assert (Hr : r <> []) by (intros ->; destruct Hx).
  rewrite (last_map_fst r x Hr). apply (sorted_last x r x HS Hx).
Qed.

Lemma argmax_from_max i best bk l (f : nat -> key) :
  best < i -> f best = bk -> (forall j, j < i -> kle (f j) bk = true) ->
  (forall j, j < length l -> f (i + j) = nth j l PInf) ->
  let m := argmax_from i best bk l in
  (forall j, j < i + length l -> kle (f j) (f m) = true).
Proof.
  revert i best bk. induction l as [|k t IH]; intros i best bk Hb Ef Hmax Hf; cbn [argmax_from length].
  - intros j Hj. rewrite Ef. apply Hmax. lia.
  - assert (Ek : f i = k) by (rewrite <- (Nat.add_0_r i); apply (Hf 0); cbn [length]; lia).
    assert (Hf' : forall j, j < length t -> f (S i + j) = nth j t PInf).
    { intros j Hj. replace (S i + j) with (i + S j) by lia. apply (Hf (S j)). cbn [length]; lia. }
    destruct (kgt k bk) eqn:E.
    + intros j Hj. apply (IH (S i) i k); auto; [|lia].
      intros j' Hj'. destruct (Nat.eq_dec j' i) as [->|]; [rewrite Ek; apply kle_refl|].
      eapply kle_trans; [apply Hmax; lia|]. apply kle_false, kgt_true. exact E.
    + intros j Hj. apply (IH (S i) best bk); auto; [|lia].
      intros j' Hj'. destruct (Nat.eq_dec j' i) as [->|]; [rewrite Ek; apply kgt_false; exact E|].
      apply Hmax; lia.
Qed.
Lemma argmax_max rs i : i < length rs ->
  kle (last_key (rowi rs i)) (last_key (rowi rs (argmax (map last_key rs)))) = true.
Proof.
  destruct rs as [|r t]; cbn [length map argmax]; intros Hi; [lia|].
  apply (argmax_from_max 1 0 (last_key r) (map last_key t) (fun i => last_key (rowi (r :: t) i))); auto.
  - intros j Hj. replace j with 0 by lia. apply kle_refl.
  - intros j Hj. cbn [Nat.add]. unfold rowi. cbn [nth].
    change PInf with (last_key (@nil item)) at 1. rewrite map_nth. reflexivity.
  - rewrite map_length. lia.
Qed.

Lemma chain_prefix ps qs : forall q, chain q (ps ++ qs) -> chain q ps.
Proof.
  induction ps as [|p t IH]; intros q HC; [exact I|].
  cbn [app chain] in *. destruct HC as (H1 & H2 & H3). split; [assumption|]. split; [assumption|].
  apply IH; assumption.
Qed.

(** insert_heapify: [blk] all finite, above the root. *)
Lemma heapify_ok h blk :
  1 <= batch h -> length (rows h) = branch h -> RInv (batch h) (hsize h) (rows h) -> small (branch h) ->
  good (batch h) blk -> allfin blk -> below (rowi (rows h) 0) blk ->
  exists rs' ev,
    fst (insert_heapify h blk) = set_rows h rs' /\ length rs' = length (rows h) /\
    RInv (batch h) (hsize h + (if snd (insert_heapify h blk) then 1 else 0)) rs' /\
    rowi rs' 0 = rowi (rows h) 0 /\
    Permutation (concat rs' ++ ev) (concat (rows h) ++ blk) /\
    below (rowi rs' 0) ev /\ good (batch h) ev /\
    (if is_full h then allfin ev else allinf ev) /\
    snd (insert_heapify h blk) = negb (is_full h) /\
    (is_full h = true -> exists e, In e ev /\ forall x, In x (concat rs') -> ile x e).
Proof.
  intros HB HL HR Hsm Hblk Hfin Hbel.
  destruct HR as [HG Hn HF HE HO].
  assert (Hroot : allfin (rowi (rows h) 0)).
  { apply (below_fin _ blk); auto; [apply (good_nonempty (batch h)); assumption|]. apply HG; lia. }
  unfold insert_heapify. cbn [fst snd].
  destruct (Nat.ltb_spec (insert_target h) (branch h)) as [Ht|Ht].
  2:{ exfalso. unfold insert_target, is_full in Ht.
      destruct (Nat.leb_spec (branch h - 1) (hsize h)).
      - pose proof (argmax_bound (map last_key (rows h))) as HA. rewrite map_length in HA.
        assert (map last_key (rows h) <> []) by (destruct (rows h); [cbn [length] in *; lia|discriminate]).
        specialize (HA H0). lia.
      - lia. }
  assert (Hst : small (insert_target h)) by (unfold small in *; lia).
  destruct (Nat.eqb_spec (insert_target h) 0) as [E0|E0].
  - (* root only: the heap is full *)
    assert (Efull : is_full h = true).
    { unfold insert_target in E0. destruct (is_full h); [reflexivity|lia]. }
    rewrite Efull. cbn [andb negb]. exists (rows h), blk.
    unfold update_root_only. rewrite row_at_in by lia.
    rewrite msplit_sorted_id; [|apply HG; lia|apply Hblk|exact Hbel].
    cbn [fst]. unfold rowi at 1. rewrite upd_same. rewrite Nat.add_0_r.
    split; [reflexivity|]. split; [reflexivity|].
    split; [constructor; assumption|]. split; [reflexivity|]. split; [reflexivity|].
    split; [exact Hbel|]. split; [exact Hblk|]. split; [exact Hfin|]. split; [reflexivity|].
    intros _. destruct blk as [|e t] eqn:Eb; [destruct Hblk as (Hz & _); cbn [length] in Hz; lia|].
    exists e. split; [left; reflexivity|]. intros x Hx.
    apply in_concat in Hx as (r & Hr & Hx). apply (In_nth _ _ []) in Hr as (i & Hi & <-).
    change (nth i (rows h) []) with (rowi (rows h) i) in Hx.
    pose proof (argmax_max (rows h) i Hi) as HA. unfold insert_target in E0. rewrite Efull in E0. rewrite E0 in HA.
    assert (Hne : rowi (rows h) 0 <> []) by (apply (good_nonempty (batch h)); [lia|apply HG; lia]).
    destruct (last_key_In _ Hne) as (u & Hu & Eu). rewrite <- Eu in HA.
    unfold ile. eapply kle_trans; [apply (last_key_max (rowi (rows h) i)); [apply HG; lia|exact Hx]|].
    eapply kle_trans; [exact HA|]. exact (Hbel u e Hu (or_introl eq_refl)).
  - rewrite update_path_push by (assumption || lia). cbn [fst].
    destruct (push (rows h) (pnodes (insert_target h)) blk) as [rs' ev] eqn:EP. cbn [fst].
    pose proof (pnodes_chain _ Hst) as HC.
    assert (Hin : forall p, In p (pnodes (insert_target h)) -> 1 <= p < length (rows h)).
    { intros p Hp. pose proof (pnodes_bound _ p Hst Hp). lia. }
    pose proof (push_spec (batch h) _ HB (rows h) 0 blk rs' ev HC ltac:(intros p Hp; apply Hin; exact Hp) HG HO Hblk Hbel EP)
      as (P1 & P2 & P3 & P4 & P5 & P6 & P7 & P8 & P9).
    exists rs', ev. split; [reflexivity|]. split; [exact P1|].
    assert (Hr0 : rowi rs' 0 = rowi (rows h) 0).
    { apply P6. intros HH. specialize (Hin 0 HH). lia. }
    assert (HB0 : below (rowi rs' 0) ev) by (apply P7; left; reflexivity).
    cbn [andb].
    assert (HH : RInv (batch h) (hsize h + (if negb (is_full h) then 1 else 0)) rs' /\
                 (if is_full h then allfin ev else allinf ev)).
    { destruct (is_full h) eqn:Efull; cbn [negb].
      - (* full *)
        assert (Hfull : hsize h = branch h - 1).
        { unfold is_full in Efull. apply Nat.leb_le in Efull. lia. }
        assert (Hpf : forall p, In p (pnodes (insert_target h)) -> allfin (rowi (rows h) p)).
        { intros p Hp. specialize (Hin p Hp). apply HF. lia. }
        destruct (P8 Hpf Hfin) as [Q1 Q2]. split; [|exact Q2].
        rewrite Nat.add_0_r. constructor; auto; [lia| |].
        + intros i Hi. destruct (in_dec Nat.eq_dec i (pnodes (insert_target h))) as [Hi2|Hi2]; [auto|].
          rewrite P6 by assumption. apply HF; lia.
        + intros i Hi. lia.
      - (* not full *)
        assert (Etgt : insert_target h = hsize h + 1) by (unfold insert_target; rewrite Efull; reflexivity).
        unfold is_full in Efull. apply Nat.leb_gt in Efull. rewrite Etgt in *.
        destruct (pnodes_snoc (hsize h + 1) Hst ltac:(lia)) as (ps & Eps & Hps).
        rewrite Eps in *. rewrite push_app in EP.
        destruct (push (rows h) ps blk) as [rs1 c1] eqn:EP1.
        assert (HC1 : chain 0 ps).
        { exact (chain_prefix _ _ _ HC). }
        pose proof (push_spec (batch h) ps HB (rows h) 0 blk rs1 c1 HC1
          ltac:(intros p Hp; specialize (Hps p Hp); lia) HG HO Hblk Hbel EP1)
          as (R1 & R2 & R3 & R4 & R5 & R6 & R7 & R8 & R9).
        destruct (R8 ltac:(intros p Hp; apply HF; specialize (Hps p Hp); lia) Hfin) as [Q1 Q2].
        cbn [push] in EP. destruct (msplit (rowi rs1 (hsize h + 1)) c1) as [hd nx] eqn:EM.
        injection EP as E1 E2. subst rs' ev.
        assert (Et : rowi rs1 (hsize h + 1) = rowi (rows h) (hsize h + 1)).
        { apply R6. intros Hq. specialize (Hps _ Hq). lia. }
        assert (Hinf : allinf (rowi rs1 (hsize h + 1))) by (rewrite Et; apply HE; lia).
        pose proof (R2 (hsize h + 1) ltac:(lia)) as (L1 & L2 & L3).
        destruct R4 as (L4 & L5 & L6).
        assert (Hcount : length (fin (rowi rs1 (hsize h + 1) ++ c1)) = length (rowi rs1 (hsize h + 1))).
        { rewrite fin_app, (fin_none _ Hinf), (fin_all _ Q2). cbn [app]. lia. }
        pose proof (msplit_lo_fin _ _ _ _ EM L3 L6 ltac:(lia)) as F1.
        pose proof (msplit_hi_inf _ _ _ _ EM L3 L6 ltac:(lia)) as F2.
        split; [|exact F2]. constructor; auto.
        + rewrite upd_length. lia.
        + intros i Hi. rewrite rowi_upd by lia. destruct (Nat.eqb_spec (hsize h + 1) i) as [Heq|Hne]; [exact F1|].
          destruct (in_dec Nat.eq_dec i ps) as [Hi2|Hi2]; [auto|].
          rewrite R6 by assumption. apply HF; lia.
        + intros i Hi. rewrite upd_length in Hi. rewrite rowi_upd by lia.
          destruct (Nat.eqb_spec (hsize h + 1) i) as [Heq|Hne]; [lia|].
          rewrite R6; [apply HE; lia|]. intros Hq. specialize (Hps _ Hq). lia. }
    destruct HH as [HH1 HH2].
    split; [exact HH1|]. split; [exact Hr0|]. split; [exact P5|]. split; [exact HB0|].
    split; [exact P4|]. split; [exact HH2|]. split; [reflexivity|].
    intros Efull. destruct P4 as (Q1 & Q2 & Q3).
    destruct ev as [|e0 ev'] eqn:Eev; [cbn [length] in Q1; lia|]. rewrite <- Eev in *.
    exists (last ev e0). assert (Hne : ev <> []) by (rewrite Eev; discriminate).
    split; [apply last_In; exact Hne|]. intros x Hx.
    apply in_concat in Hx as (r & Hr & Hx). apply (In_nth _ _ []) in Hr as (i & Hi & <-).
    change (nth i rs' []) with (rowi rs' i) in Hx.
    destruct (in_dec Nat.eq_dec i (pnodes (insert_target h))) as [Hip|Hip].
    { apply (P7 i (or_intror Hip) x _ Hx). apply last_In; exact Hne. }
    rewrite P6 in Hx by exact Hip.
    pose proof (argmax_max (rows h) i ltac:(lia)) as HA.
    assert (Et : argmax (map last_key (rows h)) = insert_target h) by (unfold insert_target; rewrite Efull; reflexivity).
    rewrite Et in HA.
    assert (Hne2 : rowi (rows h) (insert_target h) <> []) by (apply (good_nonempty (batch h)); [lia|apply HG; lia]).
    destruct (last_key_In _ Hne2) as (u & Hu & Eu). rewrite <- Eu in HA.
    destruct (pnodes_snoc (insert_target h) Hst ltac:(lia)) as (ps & Eps & _).
    destruct (P9 u) as (e & He1 & He2).
    { right. exists (insert_target h). split; [rewrite Eps; apply in_or_app; right; left; reflexivity|exact Hu]. }
    unfold ile. eapply kle_trans; [apply (last_key_max (rowi (rows h) i)); [apply HG; lia|exact Hx]|].
    eapply kle_trans; [exact HA|]. eapply kle_trans; [exact He2|]. apply (sorted_last e ev e0 Q2 He1).
Qed.

Lemma good_ssort B r : length r = B -> nonn r -> good B (ssort r).
Proof.
  intros H1 H2. repeat split; [rewrite ssort_length; exact H1|apply ssort_sorted|].
  eapply nonn_perm; [symmetry; apply ssort_perm|exact H2].
Qed.

Lemma upd0 rs r r' : upd (r :: rs) 0 r' = r' :: rs. Proof. reflexivity. Qed.

Theorem insert_ok h block : Inv h -> length block = batch h -> nonn block ->
  Inv (insert h block) /\ batch (insert h block) = batch h /\ branch (insert h block) = branch h /\
  ins_spec (batch h) (max_size h) (contents h) block (contents (insert h block)).
Proof.
  intros [HB HL HR Hbuf Hrb Hbs Hsm] Hlen Hnn.
  pose proof HR as [HG Hn HF HE HO].
  unfold insert. rewrite row_at_in by lia.
  pose proof (good_ssort (batch h) block Hlen Hnn) as (G1 & G2 & G3).
  destruct (msplit (rowi (rows h) 0) (ssort block)) as [root blk1] eqn:EM.
  pose proof (HG 0 ltac:(lia)) as (G4 & G5 & G6).
  pose proof (msplit_spec _ _ _ _ EM) as (M1 & M2 & M3 & M4).
  pose proof (msplit_parts _ _ _ _ EM) as (M5 & M6 & M7).
  pose proof (msplit_nonn _ _ _ _ EM G6 G3) as (M8 & M9).
  assert (Groot : good (batch h) root) by (repeat split; [lia|assumption|assumption]).
  assert (Hrb1 : below root (buf h)) by (eapply msplit_below_l; eassumption).
  set (rs1 := upd (rows h) 0 root).
  assert (HL1 : length rs1 = length (rows h)) by apply upd_length.
  assert (Hr1 : rowi rs1 0 = root) by (unfold rs1; rewrite rowi_upd by lia; reflexivity).
  assert (Hri : forall i, 1 <= i -> rowi rs1 i = rowi (rows h) i).
  { intros i Hi. unfold rs1. rewrite rowi_upd by lia. destruct (Nat.eqb_spec 0 i); [lia|reflexivity]. }
  assert (HO1 : ordered rs1).
  { apply ordered_upd; auto; [lia|lia|]. intros c Hc1 Hc2. eapply msplit_below_l; [exact EM|].
    rewrite <- Hc2. apply HO; exact Hc1. }
  assert (HR1 : RInv (batch h) (hsize h) rs1).
  { constructor; auto.
    - apply goodrows_upd; assumption.
    - lia.
    - intros i Hi. rewrite Hri by lia. apply HF; lia.
    - intros i Hi. rewrite Hri by lia. apply HE; lia. }
  unfold merge_buffer. cbn [set_rows buf batch rows hsize branch bsize].
  set (s := ssort (blk1 ++ buf h)).
  assert (Ps : Permutation s (blk1 ++ buf h)) by apply ssort_perm.
  assert (Ss : sorted s) by apply ssort_sorted.
  destruct Hbuf as (B1 & B2 & B3).
  assert (Ns : nonn s) by (eapply nonn_perm; [symmetry; exact Ps|apply nonn_app; auto]).
  assert (Ls : length s = 2 * batch h - 1).
  { rewrite (Permutation_length Ps), app_length. lia. }
  assert (Hrs : below root s).
  { eapply below_perm_r; [symmetry; exact Ps|]. apply below_app_r; auto. }
  (* accounting *)
  assert (Hacc : Permutation (contents h ++ fin block) (fin (concat rs1) ++ fin s)).
  { unfold contents. rewrite !fin_app. rewrite (fin_perm _ _ Ps), fin_app.
    destruct (concat_upd (rows h) 0 ltac:(lia)) as [rest Hrest].
    unfold rs1. rewrite (fin_perm _ _ (Hrest root)).
    rewrite <- (upd_same _ (rows h) 0 []) at 1. rewrite (fin_perm _ _ (Hrest (nth 0 (rows h) []))).
    change (nth 0 (rows h) []) with (rowi (rows h) 0).
    pose proof (fin_perm _ _ M1) as M1'. rewrite !fin_app in M1'. rewrite !fin_app.
    rewrite (fin_perm _ _ (ssort_perm block)) in M1'.
    transitivity ((fin (rowi (rows h) 0) ++ fin block) ++ fin rest ++ fin (buf h)).
    - rewrite <- !app_assoc. apply Permutation_app_head. rewrite app_assoc. apply Permutation_app_comm.
    - rewrite <- M1'. rewrite <- !app_assoc. apply Permutation_app_head.
      rewrite !app_assoc. apply Permutation_app_tail. apply Permutation_app_comm. }
  assert (Hcount : length (contents h) + length (fin block)
                   = length (fin root) + hsize h * batch h + nfin s).
  { rewrite <- app_length, (Permutation_length Hacc), app_length.
    rewrite (rinv_count _ _ _ HR1), Hr1. rewrite nfin_fin. lia. }
  pose proof (fin_le_length root) as Hfr. pose proof (fin_le_length s) as Hfs.
  rewrite <- nfin_fin in Hfs. unfold max_size.
  destruct (Nat.leb_spec (batch h) (nfin s)) as [Hov|Hov].
  - (* the buffer overflows *)
    set (blk2 := firstn (batch h) s). set (buf2 := skipn (batch h) s).
    assert (Es : blk2 ++ buf2 = s) by apply firstn_skipn.
    assert (L2 : length blk2 = batch h) by (unfold blk2; rewrite firstn_length; lia).
    assert (L3 : length buf2 = batch h - 1) by (unfold buf2; rewrite skipn_length; lia).
    assert (S2 : sorted blk2 /\ sorted buf2 /\ below blk2 buf2) by (apply sorted_app; rewrite Es; exact Ss).
    destruct S2 as (S2 & S3 & S4).
    assert (N2 : nonn blk2 /\ nonn buf2) by (apply nonn_app; rewrite Es; exact Ns).
    assert (F2 : allfin blk2) by (apply sorted_firstn_fin; auto).
    assert (Hb2 : below root blk2 /\ below root buf2) by (apply below_app_r; rewrite Es; exact Hrs).
    set (h2 := MkHeap rs1 buf2 (hsize h) (nfin buf2) (branch h) (batch h)).
    pose proof (heapify_ok h2 blk2) as HH. cbn [h2 rows batch hsize branch] in HH. fold h2 in HH.
    specialize (HH HB ltac:(lia) HR1 Hsm ltac:(repeat split; tauto) F2
                  ltac:(rewrite Hr1; tauto)).
    destruct HH as (rs' & ev & E1 & E2 & E3 & E4 & E5 & E6 & E7 & E8 & E9 & E10).
    destruct (insert_heapify h2 blk2) as [h3 added] eqn:EI. cbn [fst snd] in *. subst h3.
    cbn [set_rows rows buf hsize bsize branch batch h2] in *.
    split; [|split; [reflexivity|split; [reflexivity|]]].
    + constructor; cbn [rows buf hsize bsize branch batch]; auto; try lia.
      * repeat split; tauto.
      * rewrite E4, Hr1. tauto.
    + unfold contents at 2. cbn [rows buf].
      assert (EF : is_full h2 = (branch h - 1 <=? hsize h)) by reflexivity.
      assert (Hacc2 : Permutation (fin (concat rs' ++ buf2) ++ fin ev) (contents h ++ fin block)).
      { rewrite Hacc. rewrite <- Es. rewrite !fin_app.
        pose proof (fin_perm _ _ E5) as E5'. rewrite !fin_app in E5'.
        rewrite (app_assoc (fin (concat rs1))), <- E5'. rewrite <- !app_assoc.
        apply Permutation_app_head. apply Permutation_app_comm. }
      destruct (is_full h2) eqn:Ef; rewrite EF in *.
      * symmetry in EF. apply Nat.leb_le in EF.
        assert (Hrf : allfin root).
        { apply (below_fin _ blk2); [apply (good_nonempty (batch h)); [lia|repeat split; tauto]|tauto|tauto|tauto]. }
        rewrite (fin_all root Hrf) in Hcount.
        assert (Hh : hsize h = branch h - 1) by lia.
        apply (ins_evicts _ _ _ _ _ root (fin (concat (tl rs') ++ buf2)) ev).
        -- rewrite Hcount, Hh. nia.
        -- apply E7.
        -- apply Groot.
        -- destruct rs' as [|r0 t]; [cbn [length] in *; lia|]. unfold rowi in E4 at 1. cbn [nth] in E4.
           subst r0. cbn [tl concat]. rewrite <- app_assoc, fin_app, Hr1, (fin_all root Hrf). reflexivity.
        -- rewrite <- Hacc2, (fin_all ev E8). reflexivity.
        -- apply below_app_r. split.
           ++ apply (below_sub root root (concat (tl rs') ++ buf2)); auto; [apply fin_sub|].
              apply below_app_r. split; [|tauto].
              rewrite <- Hr1, <- E4. destruct E3. apply (root_below_rest (batch h)); auto.
           ++ rewrite <- Hr1, <- E4. exact E6.
        -- destruct (E10 eq_refl) as (e & He1 & He2).
           exists (fin (concat rs')), (fin buf2), e. split; [rewrite fin_app; reflexivity|].
           split; [pose proof (fin_le_length buf2); lia|]. split; [exact He1|].
           intros x Hx. apply He2. apply fin_sub; exact Hx.
      * symmetry in EF. apply Nat.leb_gt in EF. apply ins_fits.
        -- rewrite Hcount. nia.
        -- rewrite <- Hacc2. rewrite (fin_none ev E8), app_nil_r. reflexivity.
  - (* no overflow *)
    set (k := length s - batch h).
    set (buf2 := firstn k s). set (blk2 := skipn k s).
    assert (Es : buf2 ++ blk2 = s) by apply firstn_skipn.
    assert (L3 : length buf2 = batch h - 1) by (unfold buf2, k; rewrite firstn_length; lia).
    assert (S2 : sorted buf2 /\ sorted blk2 /\ below buf2 blk2) by (apply sorted_app; rewrite Es; exact Ss).
    assert (N2 : nonn buf2 /\ nonn blk2) by (apply nonn_app; rewrite Es; exact Ns).
    assert (I2 : allinf blk2) by (apply sorted_skipn_inf; auto; unfold k; lia).
    assert (Hb2 : below root buf2 /\ below root blk2) by (apply below_app_r; rewrite Es; exact Hrs).
    cbn [rows buf hsize bsize branch batch]. rewrite Nat.add_0_r.
    split; [|split; [reflexivity|split; [reflexivity|]]].
    + constructor; cbn [rows buf hsize bsize branch batch]; auto; try lia.
      * repeat split; tauto.
      * rewrite Hr1. tauto.
    + apply ins_fits.
      * rewrite Hcount. nia.
      * unfold contents at 1. cbn [rows buf]. rewrite Hacc. rewrite <- Es. rewrite !fin_app, (fin_none blk2 I2), app_nil_r.
        reflexivity.
Qed.
End H.
