(** * TieKeys.v — erasing the values turns the queue over any lawful back end into the
      stable queue of HeapModel.v on keys alone. *)
From Verif Require Import Jax KeyModel SortProofs HeapModel HeapSpec HeapProofs HeapInsert HeapInv HeapDelete TieModel TieProofs.

Lemma sorted_unit_unique : forall l1 l2 : list (key * unit),
  sorted l1 -> sorted l2 -> Permutation l1 l2 -> l1 = l2.
Proof.
  induction l1 as [|x t IH]; intros l2 H1 H2 HP.
  - apply Permutation_nil in HP. congruence.
  - destruct l2 as [|y u]; [symmetry in HP; apply Permutation_nil in HP; discriminate|].
    pose proof H1 as H1'. pose proof H2 as H2'.
    apply sorted_cons in H1 as [A1 A2]. apply sorted_cons in H2 as [B1 B2].
    assert (E : x = y).
    { assert (Hx : In x (y :: u)) by (eapply Permutation_in; [exact HP|left; reflexivity]).
      assert (Hy : In y (x :: t)) by (eapply Permutation_in; [symmetry; exact HP|left; reflexivity]).
      destruct Hx as [Hx|Hx]; [congruence|]. destruct Hy as [Hy|Hy]; [congruence|].
      pose proof (kle_antisym _ _ (A1 y Hy) (B1 x Hx)) as E. destruct x as [kx []], y as [ky []]. cbn [fst] in E. congruence. }
    subst y. f_equal. apply IH; auto. apply (Permutation_cons_inv HP).
Qed.

Section E.
Context {V : Type}.
Notation item := (key * V)%type.
Notation row := (list item).
Implicit Types r a b carry : list (key * V).
Implicit Types rs : list (list (key * V)).
Implicit Types h : heap V.

Definition er1 (p : item) : key * unit := (fst p, tt).
Definition kmap (r : row) : list (key * unit) := map er1 r.
Definition erh (h : heap V) : heap unit :=
  MkHeap (map kmap (rows h)) (kmap (buf h)) (hsize h) (bsize h) (branch h) (batch h).

Lemma sorted_kmap r : sorted r -> sorted (kmap r).
Proof.
  induction r as [|x t IH]; intros H; [constructor|]. apply sorted_cons in H as [H1 H2].
  apply sorted_cons. split; [|apply IH; exact H2].
  intros y Hy. apply in_map_iff in Hy as (z & <- & Hz). exact (H1 z Hz).
Qed.
Lemma kmap_ssort (m : row) r : Permutation m r -> sorted m -> kmap m = ssort (kmap r).
Proof.
  intros HP HS. apply sorted_unit_unique; [apply sorted_kmap; exact HS|apply ssort_sorted|].
  rewrite ssort_perm. apply Permutation_map. exact HP.
Qed.
Lemma kmap_length r : length (kmap r) = length r. Proof. apply map_length. Qed.
Lemma kmap_firstn n r : firstn n (kmap r) = kmap (firstn n r). Proof. apply firstn_map. Qed.
Lemma kmap_skipn n r : skipn n (kmap r) = kmap (skipn n r). Proof. apply skipn_map. Qed.
Lemma kmap_app a b : kmap (a ++ b) = kmap a ++ kmap b. Proof. apply map_app. Qed.
Lemma kmap_fst r : map fst (kmap r) = map fst r.
Proof. unfold kmap. rewrite map_map. reflexivity. Qed.
Lemma kmap_last r : last_key (kmap r) = last_key r. Proof. unfold last_key. rewrite kmap_fst. reflexivity. Qed.
Lemma kmap_first r : first_key (kmap r) = first_key r. Proof. unfold first_key. rewrite kmap_fst. reflexivity. Qed.
Lemma kmap_nfin r : nfin (kmap r) = nfin r.
Proof.
  unfold nfin, kmap. induction r as [|x t IH]; [reflexivity|]. cbn [map filter]. change (fst (er1 x)) with (fst x).
  destruct (finite (fst x)); cbn [length]; rewrite IH; reflexivity.
Qed.
Lemma kmap_clear r : kmap (clear_keys r) = clear_keys (kmap r).
Proof. unfold kmap, clear_keys. rewrite !map_map. apply map_ext. intros x. reflexivity. Qed.
Lemma row_at_er rs i : row_at (map kmap rs) i = kmap (row_at rs i).
Proof. unfold row_at. rewrite map_length. change (@nil (key * unit)) with (kmap []). apply map_nth. Qed.
Lemma upd_er rs i r : upd (map kmap rs) i (kmap r) = map kmap (upd rs i r).
Proof. revert i. induction rs as [|x t IH]; intros [|i]; cbn [map upd]; try reflexivity. f_equal. apply IH. Qed.
Definition erup (p : nat * row) : nat * list (key * unit) := (fst p, kmap (snd p)).
Lemma scatter_er rs u : scatter_rows (map kmap rs) (map erup u) = map kmap (scatter_rows rs u).
Proof.
  unfold scatter_rows. revert rs. induction u as [|p t IH]; intros rs; cbn [map fold_left]; [reflexivity|].
  unfold erup at 2 3. cbn [fst snd]. rewrite upd_er. apply IH.
Qed.
Lemma combine_er (idx : list nat) (hs : list row) : combine idx (map kmap hs) = map erup (combine idx hs).
Proof.
  revert hs. induction idx as [|i t IH]; intros [|x hs]; cbn [map combine]; try reflexivity. f_equal. apply IH.
Qed.
Lemma last_keys_er rs : map last_key (map kmap rs) = map last_key rs.
Proof. rewrite map_map. apply map_ext. intros r. apply kmap_last. Qed.

Definition allsorted rs := forall i, sorted (row_at rs i).
Lemma allsorted_In rs : (forall r, In r rs -> sorted r) -> allsorted rs.
Proof.
  intros H i. unfold row_at. destruct (Nat.lt_ge_cases (Nat.min i (length rs - 1)) (length rs)) as [HL|HL].
  - apply H. apply nth_In. exact HL.
  - rewrite nth_overflow by exact HL. constructor.
Qed.

Variable K : impl V.
Hypothesis HK : lawful K.

Lemma tsplit_er n a b : sorted a -> sorted b ->
  msplit (kmap a) (kmap b) = (kmap (fst (tsplit K n a b)), kmap (snd (tsplit K n a b))) /\
  sorted (fst (tsplit K n a b)) /\ sorted (snd (tsplit K n a b)).
Proof.
  intros Ha Hb. destruct (tsplit K n a b) as [lo hi] eqn:E.
  pose proof (tsplit_SP K HK n a b lo hi E Ha Hb) as HS. pose proof (sp_parts _ _ _ _ HS) as (H1 & H2 & _).
  cbn [fst snd]. split; [|split; assumption].
  unfold tsplit in E. injection E as <- <-. destruct (proj2 HK n a b Ha Hb) as [P1 P2].
  unfold msplit. rewrite <- kmap_app, <- (kmap_ssort _ _ P1 P2), kmap_length.
  unfold kmap. rewrite firstn_map, skipn_map. reflexivity.
Qed.

Lemma tscan_er rs xs : allsorted rs -> forall carry, sorted carry ->
  scan_path (map kmap rs) xs (kmap carry) =
  (kmap (fst (tscan_path K rs xs carry)), map kmap (snd (tscan_path K rs xs carry))).
Proof.
  intros HA. induction xs as [|[i m] t IH]; intros carry Hc; cbn [scan_path tscan_path]; [reflexivity|].
  rewrite row_at_er. destruct m.
  - destruct (tsplit_er (3 + i) (row_at rs i) carry (HA i) Hc) as (E & S1 & S2). rewrite E.
    destruct (tsplit K (3 + i) (row_at rs i) carry) as [hd nx]. cbn [fst snd] in *.
    rewrite (IH nx S2). destruct (tscan_path K rs t nx) as [c o]. reflexivity.
  - rewrite (IH carry Hc). destruct (tscan_path K rs t carry) as [c o]. reflexivity.
Qed.

Lemma theapify_er h blk : allsorted (rows h) -> sorted blk ->
  insert_heapify (erh h) (kmap blk) = (erh (fst (tinsert_heapify K h blk)), snd (tinsert_heapify K h blk)).
Proof.
  intros HA Hb. unfold insert_heapify, tinsert_heapify. cbn [fst snd].
  change (is_full (erh h)) with (is_full h). change (branch (erh h)) with (branch h).
  assert (Et : insert_target (erh h) = insert_target h).
  { unfold insert_target. change (is_full (erh h)) with (is_full h). cbn [erh rows hsize]. rewrite last_keys_er. reflexivity. }
  rewrite Et. f_equal. destruct (insert_target h <? branch h); [|reflexivity].
  destruct (insert_target h =? 0).
  - unfold update_root_only, tupdate_root_only. cbn [erh rows]. rewrite row_at_er.
    destruct (tsplit_er 2 (row_at (rows h) 0) blk (HA 0) Hb) as (E & _ & _). rewrite E. cbn [fst].
    rewrite upd_er. reflexivity.
  - unfold update_path, tupdate_path. cbn [erh rows branch].
    rewrite (tscan_er (rows h) (path (branch h) (insert_target h)) HA blk Hb).
    destruct (tscan_path K (rows h) (path (branch h) (insert_target h)) blk) as [c hs]. cbn [fst snd].
    change (scatter_indices (erh h) (insert_target h)) with (scatter_indices h (insert_target h)).
    rewrite combine_er, scatter_er. reflexivity.
Qed.

Lemma tinsert_er h block : allsorted (rows h) -> sorted (buf h) ->
  insert (erh h) (kmap block) = erh (tinsert K h block).
Proof.
  intros HA HS. unfold insert, tinsert. destruct (proj1 HK block) as [P0 S0].
  rewrite <- (kmap_ssort _ _ P0 S0). cbn [erh rows]. rewrite row_at_er.
  destruct (tsplit_er 0 (row_at (rows h) 0) (blk_sort K block) (HA 0) S0) as (E & S1 & S2). rewrite E.
  destruct (tsplit K 0 (row_at (rows h) 0) (blk_sort K block)) as [root blk1]. cbn [fst snd] in *.
  rewrite upd_er. unfold merge_buffer, tmerge_buffer. cbn [set_rows erh rows buf batch hsize bsize branch].
  destruct (proj2 HK 1 blk1 (buf h) S2 HS) as [P1 S3].
  rewrite <- kmap_app, <- (kmap_ssort _ _ P1 S3), kmap_nfin.
  set (s := merge_at K 1 blk1 (buf h)) in *. rewrite kmap_length.
  rewrite !kmap_firstn, !kmap_skipn.
  assert (HA1 : allsorted (upd (rows h) 0 root)).
  { intros i. unfold row_at. rewrite upd_length.
    change (nth ?j (upd (rows h) 0 root) []) with (rowi (upd (rows h) 0 root) j).
    destruct (Nat.lt_ge_cases 0 (length (rows h))) as [HL|HL].
    - rewrite rowi_upd by exact HL. destruct (0 =? _); [exact S1|]. apply (HA i).
    - rewrite upd_oob by exact HL. apply (HA i). }
  destruct (batch h <=? nfin s).
  - rewrite kmap_nfin. set (h2 := MkHeap (upd (rows h) 0 root) (skipn (batch h) s) (hsize h) (nfin (skipn (batch h) s)) (branch h) (batch h)).
    change (MkHeap (map kmap (upd (rows h) 0 root)) (kmap (skipn (batch h) s)) (hsize h) (nfin (skipn (batch h) s)) (branch h) (batch h))
      with (erh h2).
    assert (S4 : sorted (firstn (batch h) s)).
    { rewrite <- (firstn_skipn (batch h) s) in S3. apply sorted_app in S3. tauto. }
    rewrite (theapify_er h2 (firstn (batch h) s) HA1 S4).
    destruct (tinsert_heapify K h2 (firstn (batch h) s)) as [h3 added]. reflexivity.
  - rewrite kmap_nfin. reflexivity.
Qed.

Definition erst (s : @sstate V) : @sstate unit := let '(c, cur, ups) := s in (c, kmap cur, map erup ups).
Lemma while_er (A C : Type) (f : A -> C) (P : A -> Prop) (c1 : A -> bool) (b1 : A -> A) (c2 : C -> bool) (b2 : C -> C) :
  (forall s, P s -> c2 (f s) = c1 s /\ b2 (f s) = f (b1 s) /\ P (b1 s)) ->
  forall fuel s, P s -> while fuel c2 b2 (f s) = option_map f (while fuel c1 b1 s).
Proof.
  intros H. induction fuel as [|n IH]; intros s Hs; cbn [while]; destruct (H s Hs) as (H1 & H2 & H3); rewrite H1;
    destruct (c1 s); try reflexivity. rewrite H2. apply IH. exact H3.
Qed.
Lemma write_er mu ups i r : write_update mu (map erup ups) i (kmap r) = map erup (write_update mu ups i r).
Proof. unfold write_update. rewrite map_length. destruct (length ups <? mu); [rewrite map_app|]; reflexivity. Qed.

Lemma tsift_er mu rs s : allsorted rs -> sorted (snd (fst s)) ->
  sift_cond (map kmap rs) (erst s) = sift_cond rs s /\
  sift_body mu (map kmap rs) (erst s) = erst (tsift_body K mu rs s) /\
  sorted (snd (fst (tsift_body K mu rs s))).
Proof.
  destruct s as [[c cur] ups]. cbn [fst snd]. intros HA Hc.
  cbn [erst sift_cond sift_body tsift_body]. rewrite !row_at_er, !kmap_first, !kmap_last. split; [reflexivity|].
  destruct (tsplit_er (1 + 2 * c) (row_at rs (lc c)) (row_at rs (rc c)) (HA _) (HA _)) as (E1 & S1 & S2). rewrite E1.
  destruct (tsplit K (1 + 2 * c) (row_at rs (lc c)) (row_at rs (rc c))) as [ky kx]. cbn [fst snd] in *.
  destruct (tsplit_er (2 + 2 * c) cur ky Hc S1) as (E2 & S3 & S4). rewrite E2.
  destruct (tsplit K (2 + 2 * c) cur ky) as [kc ky']. cbn [fst snd] in *.
  destruct (kgt (last_key (row_at rs (lc c))) (last_key (row_at rs (rc c)))); cbn [erst fst snd];
    rewrite !write_er; auto.
Qed.

Lemma tdelete_er h : allsorted (rows h) -> sorted (buf h) ->
  delete_mins (erh h) = option_map (fun p => (erh (fst p), kmap (snd p))) (tdelete_mins K h).
Proof.
  intros HA HS. unfold delete_mins, tdelete_mins. cbn [erh hsize rows]. rewrite row_at_er.
  destruct (hsize h =? 0).
  - unfold make_empty, tmake_empty. cbn [erh rows buf hsize bsize branch batch]. rewrite row_at_er, <- kmap_clear.
    destruct (tsplit_er 0 (clear_keys (row_at (rows h) 0)) (buf h)) as (E & _ & _); [apply sorted_allinf, allinf_clear|exact HS|].
    rewrite E. destruct (tsplit K 0 (clear_keys (row_at (rows h) 0)) (buf h)) as [root buf']. cbn [fst snd option_map].
    rewrite upd_er. reflexivity.
  - unfold delete_heapify, tdelete_heapify. cbn [erh rows buf hsize bsize branch batch]. rewrite row_at_er.
    set (lr := row_at (rows h) (hsize h)).
    destruct (tsplit_er 0 lr (buf h) (HA _) HS) as (E & S1 & S2). rewrite E.
    destruct (tsplit K 0 lr (buf h)) as [root buf']. cbn [fst snd] in *.
    rewrite <- kmap_clear, !upd_er.
    set (rs := upd (upd (rows h) (hsize h) (clear_keys lr)) 0 root).
    assert (HA' : allsorted rs).
    { assert (HU : forall l i r, allsorted l -> sorted r -> allsorted (upd l i r)).
      { intros l i r Hl Hr j. unfold row_at. rewrite upd_length.
        change (nth ?q (upd l i r) []) with (rowi (upd l i r) q).
        destruct (Nat.lt_ge_cases i (length l)) as [HL|HL].
        - rewrite rowi_upd by exact HL. destruct (i =? _); [exact Hr|]. apply (Hl j).
        - rewrite upd_oob by exact HL. apply (Hl j). }
      apply HU; [|exact S1]. apply HU; [exact HA|]. apply sorted_allinf, allinf_clear. }
    set (mu := max_depth (branch h) * 2 + 1).
    change (0, kmap root, []) with (erst (0, root, [])).
    rewrite (while_er _ _ erst (fun s => sorted (snd (fst s))) (sift_cond rs) (tsift_body K mu rs)
              (sift_cond (map kmap rs)) (sift_body mu (map kmap rs))); [| |exact S1].
    2:{ intros s Hs. apply (tsift_er mu rs s HA' Hs). }
    destruct (while (branch h) (sift_cond rs) (tsift_body K mu rs) (0, root, [])) as [[[c cur] ups]|]; [|reflexivity].
    cbn [option_map erst fst snd]. rewrite write_er, scatter_er. reflexivity.
Qed.
End E.

Lemma size_er (V : Type) (h : heap V) : size (erh h) = size h.
Proof. unfold size. cbn [erh hsize rows bsize batch]. rewrite row_at_er, kmap_nfin. reflexivity. Qed.
Lemma build_er (V : Type) (dv : V) total B : erh (build dv total B) = build tt total B.
Proof.
  unfold build, erh. cbn [rows buf hsize bsize branch batch]. f_equal.
  - induction (if total mod B =? 0 then total / B else total / B + 1) as [|n IH]; [reflexivity|].
    cbn [repeat map]. f_equal; [|exact IH]. unfold kmap. clear. induction B as [|n IH]; [reflexivity|]. cbn [repeat map]. f_equal. exact IH.
  - unfold kmap. induction (B - 1) as [|n IH]; [reflexivity|]. cbn [repeat map]. f_equal. exact IH.
Qed.
