(** * QueueAgree.v — a back end that merges sorted blocks of sound values like the stable
      sort makes the queue of TieModel.v behave exactly as if its merges WERE the stable
      sort; if its block sort is the stable one too, exactly like HeapModel.v. *)
From Verif Require Import Jax KeyModel SortProofs HeapModel HeapSpec HeapProofs HeapInv TieModel.

Section Agree.
Context {V : Type} (P : V -> Prop) (B : nat).
Notation item := (key * V)%type.
Notation row := (list item).
Implicit Types r a b carry : list (key * V).

Definition vals_ok r : Prop := Forall (fun x => P (snd x)) r.
Definition okrow (n : nat) r : Prop := length r = n /\ sorted r /\ vals_ok r.
(** merges are asked for with a first block of [B] slots and a second of [B] or [B - 1] *)
Definition agrees (k : impl V) : Prop :=
  (forall r, Permutation (blk_sort k r) r /\ sorted (blk_sort k r)) /\
  forall s a b n, okrow B a -> okrow n b -> n = B \/ n = B - 1 -> merge_at k s a b = ssort (a ++ b).
(** the same block sort with stable merges *)
Definition ref (s : row -> row) : impl V := MkImpl s (fun _ a b => ssort (a ++ b)).
Definition okheap (h : heap V) : Prop :=
  Forall (okrow B) (rows h) /\ rows h <> [] /\ okrow (B - 1) (buf h) /\ batch h = B.

Lemma vals_perm r r' : Permutation r r' -> vals_ok r -> vals_ok r'.
Proof. intros H. unfold vals_ok. rewrite !Forall_forall. intros K x Hx. apply K. now apply (Permutation_in _ (Permutation_sym H)). Qed.
Lemma ok_sort n r : length r = n -> vals_ok r -> okrow n (ssort r).
Proof.
  intros HL HV. split; [|split].
  - rewrite (Permutation_length (ssort_perm r)). exact HL.
  - apply ssort_sorted.
  - apply (vals_perm r); [symmetry; apply ssort_perm|exact HV].
Qed.
Lemma ok_firstn n m r : okrow n r -> m <= n -> okrow m (firstn m r).
Proof.
  intros (H1 & H2 & H3) Hm. rewrite <- (firstn_skipn m r) in H2, H3. apply sorted_app in H2. apply Forall_app in H3.
  split; [rewrite firstn_length; lia|]. split; tauto.
Qed.
Lemma ok_skipn n m r : okrow n r -> m <= n -> okrow (n - m) (skipn m r).
Proof.
  intros (H1 & H2 & H3) Hm. rewrite <- (firstn_skipn m r) in H2, H3. apply sorted_app in H2. apply Forall_app in H3.
  split; [rewrite skipn_length; lia|]. split; tauto.
Qed.
Lemma ok_merge n m a b : okrow n a -> okrow m b -> okrow (n + m) (ssort (a ++ b)).
Proof.
  intros (A1 & A2 & A3) (B1 & B2 & B3). apply ok_sort; [rewrite app_length; lia|]. apply Forall_app. now split.
Qed.
Lemma ok_msplit n m a b lo hi : okrow n a -> okrow m b -> msplit a b = (lo, hi) -> okrow n lo /\ okrow m hi.
Proof.
  intros HA HB. unfold msplit. intros E. injection E as <- <-. pose proof (ok_merge n m a b HA HB) as HM.
  destruct HA as [HL _]. rewrite HL. split; [apply (ok_firstn (n + m)); [exact HM|lia]|].
  replace m with (n + m - n) at 1 by lia. apply ok_skipn; [exact HM|lia].
Qed.
Lemma row_ok rs i : rs <> [] -> Forall (okrow B) rs -> okrow B (row_at rs i).
Proof. intros HN H. unfold row_at. rewrite Forall_forall in H. apply H, nth_In. destruct rs; [congruence|]. cbn [length]. lia. Qed.
Lemma ok_upd rs i r : Forall (okrow B) rs -> okrow B r -> Forall (okrow B) (upd rs i r).
Proof.
  intros H Hr. apply Forall_forall. intros x Hx. apply (In_nth _ _ []) in Hx as (j & Hj & <-). rewrite upd_length in Hj.
  destruct (Nat.eq_dec i j) as [->|Hij].
  - rewrite nth_upd_eq by exact Hj. exact Hr.
  - rewrite nth_upd_neq by exact Hij. rewrite Forall_forall in H. apply H, nth_In, Hj.
Qed.
Lemma upd_ne {A} (l : list A) i x : l <> [] -> upd l i x <> [].
Proof. intros H E. apply H. apply length_zero_iff_nil. rewrite <- (upd_length l i x), E. reflexivity. Qed.
Lemma ok_scatter ups : forall rs, Forall (okrow B) rs -> rs <> [] -> Forall (fun p => okrow B (snd p)) ups ->
  Forall (okrow B) (scatter_rows rs ups) /\ scatter_rows rs ups <> [].
Proof.
  induction ups as [|[i r] t IH]; intros rs H HN HU; [split; assumption|]. unfold scatter_rows. cbn [fold_left fst snd].
  inversion HU; subst. apply IH; [apply ok_upd; assumption|apply upd_ne; exact HN|assumption].
Qed.
Lemma ok_clear n r : okrow n r -> okrow n (clear_keys r).
Proof.
  intros (H1 & _ & H3). unfold clear_keys. split; [now rewrite map_length|]. split.
  - clear. unfold sorted. induction r as [|x r IH]; [constructor|]. cbn [map]. constructor; [exact IH|].
    apply Forall_forall. intros y Hy. apply in_map_iff in Hy as (z & <- & _). reflexivity.
  - unfold vals_ok in *. rewrite Forall_forall in *. intros x Hx. apply in_map_iff in Hx as (y & <- & Hy). cbn [snd]. auto.
Qed.

Section Op.
Variable k : impl V.
Hypothesis HK : agrees k.

Lemma split_agree s a b n : okrow B a -> okrow n b -> n = B \/ n = B - 1 -> tsplit k s a b = msplit a b.
Proof. intros HA HB Hn. unfold tsplit, msplit. rewrite (proj2 HK s a b n HA HB Hn). reflexivity. Qed.

Lemma scan_agree rs xs : rs <> [] -> Forall (okrow B) rs -> forall carry, okrow B carry ->
  tscan_path k rs xs carry = scan_path rs xs carry /\
  Forall (okrow B) (snd (scan_path rs xs carry)).
Proof.
  intros HN HR. induction xs as [|[i m] t IH]; intros carry HC; [split; [reflexivity|constructor]|]. cbn [tscan_path scan_path]. destruct m.
  - rewrite (split_agree (3 + i) (row_at rs i) carry B) by (auto using row_ok).
    destruct (msplit (row_at rs i) carry) as [hd nx] eqn:EM. destruct (ok_msplit B B _ _ _ _ (row_ok rs i HN HR) HC EM) as [H1 H2].
    destruct (IH nx H2) as [I1 I2]. rewrite I1. destruct (scan_path rs t nx) as [c out]. split; [reflexivity|]. constructor; assumption.
  - destruct (IH carry HC) as [I1 I2]. rewrite I1. destruct (scan_path rs t carry) as [c out]. split; [reflexivity|].
    constructor; [apply row_ok; assumption|assumption].
Qed.

Lemma buffer_agree h blk : okheap h -> okrow B blk -> 1 <= B ->
  tmerge_buffer k h blk = merge_buffer h blk /\
  okheap (fst (fst (merge_buffer h blk))) /\ okrow B (snd (fst (merge_buffer h blk))).
Proof.
  intros (H1 & H2 & H3 & H4) HB HP. unfold tmerge_buffer, merge_buffer.
  rewrite (proj2 HK 1 blk (buf h) (B - 1) HB H3 (or_intror eq_refl)). pose proof (ok_merge B (B - 1) blk (buf h) HB H3) as HM.
  rewrite H4. set (s := ssort (blk ++ buf h)) in *. destruct (B <=? nfin s).
  - split; [reflexivity|]. cbn [fst snd]. split.
    + split; [exact H1|]. split; [exact H2|]. split; [|reflexivity]. cbn [buf]. replace (B - 1) with (B + (B - 1) - B) by lia. apply ok_skipn; [exact HM|lia].
    + apply (ok_firstn (B + (B - 1))); [exact HM|lia].
  - split; [reflexivity|]. cbn [fst snd]. destruct HM as [HL HM']. rewrite HL. replace (B + (B - 1) - B) with (B - 1) by lia. split.
    + split; [exact H1|]. split; [exact H2|]. split; [|reflexivity]. cbn [buf]. apply (ok_firstn (B + (B - 1))); [now split|lia].
    + replace B with (B + (B - 1) - (B - 1)) at 1 by lia. apply ok_skipn; [now split|lia].
Qed.

Lemma set_rows_ok h rs : okheap h -> Forall (okrow B) rs -> rs <> [] -> okheap (set_rows h rs).
Proof. intros (H1 & H2 & H3 & H4) HR HN. split; [exact HR|]. split; [exact HN|]. split; [exact H3|exact H4]. Qed.

Lemma heapify_agree h blk : okheap h -> okrow B blk ->
  tinsert_heapify k h blk = insert_heapify h blk /\ okheap (fst (insert_heapify h blk)).
Proof.
  intros HH HB. pose proof HH as (H1 & H2 & H3 & H4). unfold tinsert_heapify, insert_heapify. cbv zeta.
  destruct (insert_target h <? branch h); [|split; [reflexivity|exact HH]]. cbn [fst].
  destruct (insert_target h =? 0).
  - unfold tupdate_root_only, update_root_only. rewrite (split_agree 2 (row_at (rows h) 0) blk B) by (auto using row_ok). split; [reflexivity|].
    destruct (msplit (row_at (rows h) 0) blk) as [lo hi] eqn:EM. destruct (ok_msplit B B _ _ _ _ (row_ok _ 0 H2 H1) HB EM) as [L1 L2].
    apply set_rows_ok; [exact HH|apply ok_upd; assumption|apply upd_ne; exact H2].
  - unfold tupdate_path, update_path. destruct (scan_agree (rows h) (path (branch h) (insert_target h)) H2 H1 blk HB) as [E1 E2]. rewrite E1.
    split; [reflexivity|]. destruct (scan_path (rows h) (path (branch h) (insert_target h)) blk) as [c heads]. cbn [snd] in E2.
    assert (HU : Forall (fun p : nat * row => okrow B (snd p)) (combine (scatter_indices h (insert_target h)) heads)).
    { apply Forall_forall. intros [i r] Hp. apply in_combine_r in Hp. rewrite Forall_forall in E2. exact (E2 r Hp). }
    destruct (ok_scatter _ (rows h) H1 H2 HU) as [S1 S2]. apply set_rows_ok; assumption.
Qed.

(** HeapModel.insert with another block sort *)
Definition insert_with (srt : row -> row) (h : heap V) (block : row) : heap V :=
  let '(root, blk1) := msplit (row_at (rows h) 0) (srt block) in
  let h1 := set_rows h (upd (rows h) 0 root) in
  let '(h2, blk2, ovf) := merge_buffer h1 blk1 in
  let '(h3, added) := if ovf then insert_heapify h2 blk2 else (h2, false) in
  MkHeap (rows h3) (buf h3) (hsize h3 + (if added then 1 else 0)) (bsize h3) (branch h3) (batch h3).
Lemma ref_scan srt rs xs : forall carry, tscan_path (ref srt) rs xs carry = scan_path rs xs carry.
Proof.
  induction xs as [|[i m] t IH]; intros carry; [reflexivity|]. cbn [tscan_path scan_path]. destruct m; [|rewrite IH; reflexivity].
  change (tsplit (ref srt) (3 + i) (row_at rs i) carry) with (msplit (row_at rs i) carry).
  destruct (msplit (row_at rs i) carry) as [hd nx]. rewrite IH. reflexivity.
Qed.
Lemma ref_insert srt h b : tinsert (ref srt) h b = insert_with srt h b.
Proof.
  unfold tinsert, insert_with.
  change (tsplit (ref srt) 0 (row_at (rows h) 0) (blk_sort (ref srt) b)) with (msplit (row_at (rows h) 0) (srt b)).
  destruct (msplit (row_at (rows h) 0) (srt b)) as [root blk1].
  change (tmerge_buffer (ref srt)) with (@merge_buffer V).
  destruct (merge_buffer (set_rows h (upd (rows h) 0 root)) blk1) as [[h2 blk2] ovf].
  assert (E : tinsert_heapify (ref srt) h2 blk2 = insert_heapify h2 blk2).
  { unfold tinsert_heapify, insert_heapify, tupdate_path, update_path. rewrite ref_scan. reflexivity. }
  rewrite E. reflexivity.
Qed.
Lemma insert_agree h block : okheap h -> length block = B -> vals_ok block -> 1 <= B ->
  tinsert k h block = tinsert (ref (blk_sort k)) h block /\ okheap (tinsert (ref (blk_sort k)) h block).
Proof.
  intros HH HL HV HP. pose proof HH as (H1 & H2 & H3 & H4). rewrite ref_insert. unfold tinsert, insert_with.
  assert (HB : okrow B (blk_sort k block)).
  { destruct (proj1 HK block) as [K1 K2]. split; [rewrite (Permutation_length K1); exact HL|]. split; [exact K2|].
    apply (vals_perm block); [symmetry; exact K1|exact HV]. }
  rewrite (split_agree 0 (row_at (rows h) 0) (blk_sort k block) B) by (auto using row_ok).
  destruct (msplit (row_at (rows h) 0) (blk_sort k block)) as [root blk1] eqn:EM. destruct (ok_msplit B B _ _ _ _ (row_ok _ 0 H2 H1) HB EM) as [L1 L2].
  assert (HH1 : okheap (set_rows h (upd (rows h) 0 root))) by (apply set_rows_ok; [exact HH|apply ok_upd; assumption|apply upd_ne; exact H2]).
  destruct (buffer_agree _ blk1 HH1 L2 HP) as (E1 & O1 & O2). rewrite E1.
  destruct (merge_buffer (set_rows h (upd (rows h) 0 root)) blk1) as [[h2 blk2] ovf]. cbn [fst snd] in O1, O2. destruct ovf.
  - destruct (heapify_agree h2 blk2 O1 O2) as [E2 O3]. rewrite E2. destruct (insert_heapify h2 blk2) as [h3 added]. cbn [fst] in O3.
    split; [reflexivity|]. destruct O3 as (P1 & P2 & P3 & P4). split; [exact P1|]. split; [exact P2|]. split; [exact P3|exact P4].
  - split; [reflexivity|]. destruct O1 as (P1 & P2 & P3 & P4). split; [exact P1|]. split; [exact P2|]. split; [exact P3|exact P4].
Qed.

Lemma write_ok mu (ups : list (nat * row)) i r : Forall (fun p => okrow B (snd p)) ups -> okrow B r ->
  Forall (fun p => okrow B (snd p)) (write_update mu ups i r).
Proof. intros H Hr. unfold write_update. destruct (length ups <? mu); [|exact H]. apply Forall_app. split; [exact H|]. constructor; [exact Hr|constructor]. Qed.
Definition okstate (s : @sstate V) : Prop := let '(c, cur, ups) := s in okrow B cur /\ Forall (fun p => okrow B (snd p)) ups.
Lemma sift_agree rs mu s : rs <> [] -> Forall (okrow B) rs -> okstate s ->
  tsift_body k mu rs s = sift_body mu rs s /\ okstate (sift_body mu rs s).
Proof.
  intros HN HR. destruct s as [[c cur] ups]. intros [HC HU]. unfold tsift_body, sift_body.
  set (l := row_at rs (lc c)). set (r := row_at rs (rc c)). assert (HL : okrow B l) by (apply row_ok; assumption). assert (HRr : okrow B r) by (apply row_ok; assumption).
  destruct (if kgt (last_key l) (last_key r) then (lc c, rc c) else (rc c, lc c)) as [x y].
  rewrite (split_agree (1 + 2 * c) l r B) by auto. destruct (msplit l r) as [ky kx] eqn:E1. destruct (ok_msplit B B _ _ _ _ HL HRr E1) as [K1 K2].
  rewrite (split_agree (2 + 2 * c) cur ky B) by auto. destruct (msplit cur ky) as [kc ky'] eqn:E2. destruct (ok_msplit B B _ _ _ _ HC K1 E2) as [K3 K4].
  split; [reflexivity|]. split; [exact K4|]. apply write_ok; [apply write_ok; assumption|exact K2].
Qed.
Lemma while_agree rs mu n : rs <> [] -> Forall (okrow B) rs -> forall s, okstate s ->
  while n (sift_cond rs) (tsift_body k mu rs) s = while n (sift_cond rs) (sift_body mu rs) s /\
  (forall s', while n (sift_cond rs) (sift_body mu rs) s = Some s' -> okstate s').
Proof.
  intros HN HR. induction n as [|n IH]; intros s HS; cbn [while]; destruct (sift_cond rs s).
  - split; [reflexivity|discriminate].
  - split; [reflexivity|]. intros s' E. injection E as <-. exact HS.
  - destruct (sift_agree rs mu s HN HR HS) as [E1 E2]. rewrite E1. apply IH. exact E2.
  - split; [reflexivity|]. intros s' E. injection E as <-. exact HS.
Qed.
Lemma delete_agree h : okheap h ->
  tdelete_mins k h = delete_mins h /\ (forall h' out, delete_mins h = Some (h', out) -> okheap h').
Proof.
  intros HH. pose proof HH as (H1 & H2 & H3 & H4). unfold tdelete_mins, delete_mins. destruct (hsize h =? 0).
  - unfold tmake_empty, make_empty. pose proof (ok_clear B _ (row_ok _ 0 H2 H1)) as HC.
    rewrite (split_agree 0 (clear_keys (row_at (rows h) 0)) (buf h) (B - 1)) by auto.
    destruct (msplit (clear_keys (row_at (rows h) 0)) (buf h)) as [root buf'] eqn:EM. destruct (ok_msplit B (B - 1) _ _ _ _ HC H3 EM) as [L1 L2].
    split; [reflexivity|]. intros h' out E. assert (h' = MkHeap (upd (rows h) 0 root) buf' (hsize h) 0 (branch h) (batch h)) as -> by congruence.
    split; [apply ok_upd; assumption|]. split; [apply upd_ne; exact H2|]. split; [exact L2|exact H4].
  - unfold tdelete_heapify, delete_heapify. cbv zeta. pose proof (row_ok (rows h) (hsize h) H2 H1) as HL.
    rewrite (split_agree 0 (row_at (rows h) (hsize h)) (buf h) (B - 1)) by auto.
    destruct (msplit (row_at (rows h) (hsize h)) (buf h)) as [root buf'] eqn:EM. destruct (ok_msplit B (B - 1) _ _ _ _ HL H3 EM) as [L1 L2].
    set (rs := upd (upd (rows h) (hsize h) (clear_keys (row_at (rows h) (hsize h)))) 0 root).
    assert (HR : Forall (okrow B) rs) by (unfold rs; apply ok_upd; [apply ok_upd; [exact H1|apply ok_clear; exact HL]|exact L1]).
    assert (HN : rs <> []) by (unfold rs; apply upd_ne, upd_ne; exact H2).
    set (mu := max_depth (branch h) * 2 + 1).
    destruct (while_agree rs mu (branch h) HN HR (0, root, [])) as [W1 W2]; [split; [exact L1|constructor]|]. rewrite W1.
    destruct (while (branch h) (sift_cond rs) (sift_body mu rs) (0, root, [])) as [[[c cur] ups]|]; [|split; [reflexivity|discriminate]].
    split; [reflexivity|]. destruct (W2 _ eq_refl) as [C1 C2]. intros h' out E.
    assert (h' = MkHeap (scatter_rows rs (write_update mu ups c cur)) buf' (hsize h - 1) (bsize h) (branch h) (batch h)) as -> by congruence.
    destruct (ok_scatter (write_update mu ups c cur) rs HR HN (write_ok mu ups c cur C2 C1)) as [S1 S2].
    split; [exact S1|]. split; [exact S2|]. split; [exact L2|exact H4].
Qed.
End Op.

(** blocks of [B] items with sound values *)
Definition op_ok (o : op V) : Prop := match o with Ins block => length block = B /\ vals_ok block | Del => True end.
Theorem run_agree : 1 <= B -> forall (calls : list (impl V * op V)) h, okheap h ->
  Forall (fun c => agrees (fst c) /\ op_ok (snd c)) calls ->
  trun h calls = trun h (map (fun c => (ref (blk_sort (fst c)), snd c)) calls).
Proof.
  intros HP. induction calls as [|[k [block|]] t IH]; intros h HH HC; [reflexivity| |]; inversion HC as [|? ? [HK HO] HT]; subst; cbn [fst snd] in HK, HO;
    cbn [map trun fst snd].
  - destruct HO as [HL HV]. destruct (insert_agree k HK h block HH HL HV HP) as [E O]. rewrite E, IH by assumption. reflexivity.
  - destruct (delete_agree k HK h HH) as [E O]. rewrite E. change (tdelete_mins (ref (blk_sort k)) h) with (delete_mins h).
    destruct (delete_mins h) as [[h' out]|]; [|reflexivity]. rewrite IH; [reflexivity|exact (O _ _ eq_refl)|assumption].
Qed.
Lemma build_ok dv total : 1 <= B -> 1 <= total -> P dv -> okheap (build dv total B).
Proof.
  intros HB HT HD. assert (HR : forall n, okrow n (repeat (PInf, dv) n)).
  { intros n. split; [apply repeat_length|]. split.
    - unfold sorted. induction n as [|n IH]; [constructor|]. cbn [repeat]. constructor; [exact IH|]. apply Forall_forall. intros y Hy. apply repeat_spec in Hy. subst y. reflexivity.
    - apply Forall_forall. intros x Hx. apply repeat_spec in Hx. subst x. exact HD. }
  unfold build. set (br := if total mod B =? 0 then total / B else total / B + 1). assert (1 <= br).
  { unfold br. destruct (Nat.eqb_spec (total mod B) 0) as [E|E]; [|lia]. pose proof (Nat.div_mod total B ltac:(lia)) as D. rewrite E, Nat.add_0_r in D.
    destruct (total / B); [rewrite Nat.mul_0_r in D; lia|lia]. }
  split; [|split; [|split; [apply HR|reflexivity]]]; cbn [rows].
  - apply Forall_forall. intros r Hr. apply repeat_spec in Hr. subst r. apply HR.
  - destruct br; [lia|discriminate].
Qed.
End Agree.
