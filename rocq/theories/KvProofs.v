(** * KvProofs.v — however the values are cut, the fused merge moves them whole. *)
From Verif Require Import Jax KeyModel SortProofs MergeModel MergeProofs KvModel.

(** ** The kernel is natural in its payload *)
Section Natural.
Context {W W' : Type} (g : W -> W') (a b : list key) (smin smax : key) (fa fb : nat -> W).
Notation lift := (map (fun p : key * W => (fst p, g (snd p)))).
Lemma run_block_map n : forall i j, run_block a b (fun i => g (fa i)) (fun j => g (fb j)) n i j = lift (run_block a b fa fb n i j).
Proof.
  induction n as [|n IH]; intros i j; [reflexivity|]. cbn [run_block map]. rewrite (IH (S i) j), (IH i (S j)). f_equal.
  - unfold step_out. destruct (take_a a b i j); reflexivity.
  - destruct (take_a a b i j); reflexivity.
Qed.
Lemma run_grid_map bs : run_grid a b smin smax (fun i => g (fa i)) (fun j => g (fb j)) bs = option_map lift (run_grid a b smin smax fa fb bs).
Proof.
  unfold run_grid. set (k := seq 0 _). clearbody k.
  assert (H : mapM (run_program a b smin smax (fun i => g (fa i)) (fun j => g (fb j)) bs) k =
              option_map (map (lift)) (mapM (run_program a b smin smax fa fb bs) k)).
  { induction k as [|x k IH]; [reflexivity|]. cbn [mapM]. rewrite IH. unfold run_program at 1 3.
    destruct (partition_at a b smin smax (x * bs)) as [[i j]|]; [|reflexivity]. rewrite run_block_map.
    destruct (mapM (run_program a b smin smax fa fb bs) k); reflexivity. }
  rewrite H. destruct (mapM (run_program a b smin smax fa fb bs) k) as [bl|]; [|reflexivity]. cbn [option_map]. rewrite <- concat_map, firstn_map. reflexivity.
Qed.
End Natural.

(** ** Powers of two *)
Lemma shards_sum fuel : forall rem, rem <= fuel -> list_sum (shards fuel rem) = rem.
Proof.
  induction fuel as [|f IH]; intros rem H; [cbn; lia|]. cbn [shards]. destruct (Nat.eqb_spec rem 0) as [->|Hr]; [reflexivity|].
  unfold bit_length. destruct (Nat.eqb_spec rem 0); [contradiction|]. replace (S (Nat.log2 rem) - 1) with (Nat.log2 rem) by lia.
  pose proof (Nat.log2_spec rem ltac:(lia)) as [H1 H2]. set (p := 2 ^ Nat.log2 rem) in *.
  assert (1 <= p) by (unfold p; apply Nat.le_succ_l, Nat.neq_0_lt_0, Nat.pow_nonzero; discriminate).
  cbv zeta. change (list_sum (p :: shards f (rem - p))) with (p + list_sum (shards f (rem - p))). rewrite IH; lia.
Qed.
Lemma shards_pow fuel : forall rem w, In w (shards fuel rem) -> exists k, w = 2 ^ k.
Proof.
  induction fuel as [|f IH]; intros rem w H; [destruct H|]. cbn [shards] in H. destruct (rem =? 0); [destruct H|].
  destruct H as [<-|H]; [eexists; reflexivity|]. exact (IH _ _ H).
Qed.
Lemma next_pow2_spec v : exists k, next_pow2 v = 2 ^ k /\ v <= 2 ^ k /\ (forall m, v <= 2 ^ m -> 2 ^ k <= 2 ^ m).
Proof.
  unfold next_pow2. destruct (Nat.leb_spec v 1) as [H|H].
  - exists 0. split; [reflexivity|]. split; [cbn; lia|]. intros m _. apply Nat.pow_le_mono_r; lia.
  - unfold bit_length. destruct (Nat.eqb_spec (v - 1) 0); [lia|]. exists (S (Nat.log2 (v - 1))). split; [reflexivity|].
    pose proof (Nat.log2_spec (v - 1) ltac:(lia)) as [H1 H2]. split; [lia|]. intros m Hm. apply Nat.pow_le_mono_r; [discriminate|].
    apply Nat.le_succ_l. apply (Nat.pow_lt_mono_r_iff 2); [lia|]. lia.
Qed.

Section Kv.
Context {E : Type} (zero : E).
Notation array := (list (list E)).
Notation value := (list (list E)).

(** ** One leaf *)
(** what one row becomes *)
Fixpoint cut_row (ws : list nat) (start : nat) (r : list E) : list (list E) :=
  match ws with [] => [] | w :: t => firstn w (skipn start r) :: cut_row t (start + w) r end.
Definition piece (l : layout) (r : list E) : list (list E) :=
  match l with
  | LScalar s => map (fun i => [nth i r zero]) (seq 0 s)
  | LShard ws => cut_row ws 0 r
  | LPad size p => [r ++ repeat zero (p - size)]
  end.
Lemma cut_row_len ws : forall start r, length (cut_row ws start r) = length ws.
Proof. induction ws as [|w t IH]; intros start r; [reflexivity|]. cbn [cut_row length]. now rewrite IH. Qed.
Lemma cut_len ws : forall start (rows : array), length (cut ws start rows) = length ws.
Proof. induction ws as [|w t IH]; intros start r; [reflexivity|]. cbn [cut length]. now rewrite IH. Qed.
Lemma piece_len l r : length (piece l r) = ncols l.
Proof. destruct l; cbn [piece ncols]; [now rewrite map_length, seq_length|apply cut_row_len|reflexivity]. Qed.
Lemma cols_len l rows : length (pack_cols zero l rows) = ncols l.
Proof. destruct l; cbn [pack_cols ncols]; [now rewrite map_length, seq_length|apply cut_len|reflexivity]. Qed.
Lemma nth_map_in {A B} (f : A -> B) (l : list A) i dA dB : i < length l -> nth i (map f l) dB = f (nth i l dA).
Proof. intros H. rewrite (nth_indep _ dB (f dA)) by (now rewrite map_length). apply map_nth. Qed.
Lemma cut_row_at ws : forall start (rows : array) i, i < length rows ->
  map (fun col => nth i col []) (cut ws start rows) = cut_row ws start (nth i rows []).
Proof.
  induction ws as [|w t IH]; intros start rows i H; [reflexivity|]. cbn [cut cut_row map]. rewrite IH by exact H. f_equal.
  rewrite (nth_map_in _ rows i []) by exact H. reflexivity.
Qed.
Lemma cols_row l rows i : i < length rows -> map (fun col => nth i col []) (pack_cols zero l rows) = piece l (nth i rows []).
Proof.
  intros H. destruct l as [s|ws|size p]; cbn [pack_cols piece].
  - rewrite map_map. apply map_ext. intros k. rewrite (nth_map_in _ rows i []) by exact H. reflexivity.
  - apply cut_row_at. exact H.
  - cbn [map]. rewrite (nth_map_in _ rows i []) by exact H. reflexivity.
Qed.
Lemma cols_rows l rows c : In c (pack_cols zero l rows) -> length c = length rows.
Proof.
  destruct l as [s|ws|size p]; cbn [pack_cols].
  - intros H. apply in_map_iff in H as (k & <- & _). apply map_length.
  - generalize 0 at 1. induction ws as [|w t IH]; intros st H; [destruct H|]. cbn [cut] in H. destruct H as [<-|H]; [apply map_length|]. exact (IH _ H).
  - intros [<-|[]]. apply map_length.
Qed.
Lemma cut_row_concat ws : forall start r, length r = start + list_sum ws -> concat (cut_row ws start r) = skipn start r.
Proof.
  induction ws as [|w t IH]; intros start r H.
  - cbn [cut_row concat list_sum fold_right] in *. rewrite skipn_all2 by lia. reflexivity.
  - change (list_sum (w :: t)) with (w + list_sum t) in H. cbn [cut_row concat]. rewrite IH by lia.
    rewrite <- (firstn_skipn w (skipn start r)) at 2. f_equal. rewrite skipn_skipn. f_equal. lia.
Qed.
Lemma scalars_concat (r : list E) : concat (map (fun i => [nth i r zero]) (seq 0 (length r))) = r.
Proof.
  assert (H : forall s (f : nat -> E), concat (map (fun i => [f i]) s) = map f s) by (intros s f; induction s as [|x s IH]; [reflexivity|]; cbn [map concat app]; now rewrite IH).
  rewrite (H _ (fun i => nth i r zero)). apply nth_ext with (d := zero) (d' := zero); [now rewrite map_length, seq_length|].
  intros i Hi. rewrite map_length, seq_length in Hi. rewrite (nth_map_in _ (seq 0 (length r)) i 0) by (now rewrite seq_length). now rewrite seq_nth.
Qed.
Definition layout_size (l : layout) : nat := match l with LScalar s => s | LShard ws => list_sum ws | LPad s _ => s end.
Lemma restore_cols l rows : Forall (fun r => length r = layout_size l) rows ->
  restore l (length rows) (pack_cols zero l rows) = rows.
Proof.
  intros H. assert (HJ : forall l0, l0 = l -> (forall r, length r = layout_size l -> concat (piece l r) = r) -> join (length rows) (pack_cols zero l rows) = rows).
  { intros l0 _ HC. unfold join. apply nth_ext with (d := []) (d' := []); [now rewrite map_length, seq_length|].
    intros i Hi. rewrite map_length, seq_length in Hi. rewrite (nth_map_in _ (seq 0 (length rows)) i 0) by (now rewrite seq_length).
    rewrite seq_nth by exact Hi. cbn [Nat.add]. rewrite cols_row by exact Hi. apply HC. rewrite Forall_forall in H. apply H, nth_In, Hi. }
  destruct l as [s|ws|size p]; cbn [restore].
  - apply (HJ _ eq_refl). intros r Hr. cbn [piece layout_size] in *. rewrite <- Hr. apply scalars_concat.
  - apply (HJ _ eq_refl). intros r Hr. cbn [piece layout_size] in *. rewrite cut_row_concat by exact Hr. reflexivity.
  - cbn [pack_cols nth layout_size] in *. destruct (Nat.eqb_spec p size) as [->|Hp].
    + rewrite Nat.sub_diag. rewrite <- (map_id rows) at 2. apply map_ext. intros r. apply app_nil_r.
    + rewrite map_map. rewrite <- (map_id rows) at 2. apply map_ext_in. intros r Hr. rewrite Forall_forall in H. rewrite <- (H r Hr).
      rewrite firstn_app, Nat.sub_diag, firstn_O, app_nil_r. apply firstn_all.
Qed.
Lemma layout_of_size pk smax s : layout_size (layout_of pk smax s) = s.
Proof. unfold layout_of. destruct pk; [destruct (is_pow2 s); [|destruct (s <=? smax)]|..]; cbn [layout_size]; try reflexivity; apply shards_sum; lia. Qed.

(** ** All leaves *)
Fixpoint prow (ls : list layout) (v : value) : list (list E) :=
  match ls with [] => [] | l :: t => piece l (hd [] v) ++ prow t (tl v) end.
Lemma pack_all_row ls : forall (vals : list value) i, i < length vals ->
  map (fun arr => nth i arr []) (pack_all zero ls vals) = prow ls (nth i vals []).
Proof.
  induction ls as [|l t IH]; intros vals i H; [reflexivity|]. cbn [pack_all prow]. rewrite map_app, cols_row by (now rewrite map_length).
  rewrite IH by (now rewrite map_length). rewrite !(nth_map_in _ vals i []) by exact H. reflexivity.
Qed.
Lemma pack_all_len ls : forall (vals : list value) v, length (prow ls v) = length (pack_all zero ls vals).
Proof. induction ls as [|l t IH]; intros vals v; [reflexivity|]. cbn [pack_all prow]. rewrite !app_length, piece_len, cols_len. f_equal. apply IH. Qed.
Lemma pack_all_rows ls : forall (vals : list value) c, In c (pack_all zero ls vals) -> length c = length vals.
Proof.
  induction ls as [|l t IH]; intros vals c H; [destruct H|]. cbn [pack_all] in H. apply in_app_or in H as [H|H].
  - apply cols_rows in H. now rewrite map_length in H.
  - apply IH in H. now rewrite map_length in H.
Qed.
(** the columns the kernel writes are the packed form of the merged values *)
Lemma columns_packed ls (vals : list value) :
  map (fun c => map (fun v => nth c (prow ls v) []) vals) (seq 0 (length (pack_all zero ls vals))) = pack_all zero ls vals.
Proof.
  apply nth_ext with (d := []) (d' := []); [now rewrite map_length, seq_length|]. intros c Hc. rewrite map_length, seq_length in Hc.
  rewrite (nth_map_in _ (seq 0 (length (pack_all zero ls vals))) c 0) by (now rewrite seq_length). rewrite seq_nth by exact Hc. cbn [Nat.add].
  pose proof (pack_all_rows ls vals _ (nth_In _ [] Hc)) as HL.
  apply nth_ext with (d := []) (d' := []); [now rewrite map_length, HL|]. intros i Hi. rewrite map_length in Hi.
  rewrite (nth_map_in _ vals i []) by exact Hi. rewrite <- pack_all_row by exact Hi.
  rewrite (nth_map_in _ (pack_all zero ls vals) c []) by exact Hc. reflexivity.
Qed.
(** a value with the leaves of the class *)
Definition fits (sizes : list nat) (v : value) : Prop := map (@length E) v = sizes.
Lemma restore_packed ls : forall vals : list value, Forall (fits (map layout_size ls)) vals ->
  rows_of (length vals) (restore_all ls (length vals) (pack_all zero ls vals)) = vals.
Proof.
  assert (K : forall vals : list value, Forall (fits (map layout_size ls)) vals ->
     restore_all ls (length vals) (pack_all zero ls vals) = map (fun k => map (fun v => nth k v []) vals) (seq 0 (length ls))).
  { induction ls as [|l t IH]; intros vals H; [reflexivity|]. cbn [restore_all pack_all length seq map].
    assert (HF : Forall (fun r => length r = layout_size l) (map (hd []) vals) /\ Forall (fits (map layout_size t)) (map (@tl _) vals)).
    { split; apply Forall_forall; intros r Hr; apply in_map_iff in Hr as (v & <- & Hv); rewrite Forall_forall in H; specialize (H v Hv);
        unfold fits in *; cbn [map] in H; (destruct v as [|x v]; [discriminate|]); cbn [map hd tl] in *; congruence. }
    destruct HF as [H1 H2]. rewrite <- (cols_len l (map (hd []) vals)) at 1. rewrite firstn_app, Nat.sub_diag, firstn_O, app_nil_r, firstn_all.
    rewrite <- (map_length (hd []) vals) at 1. rewrite restore_cols by exact H1.
    rewrite <- (cols_len l (map (hd []) vals)). rewrite skipn_app, Nat.sub_diag, skipn_all, skipn_O, app_nil_l.
    rewrite <- (map_length (@tl _) vals) at 1. rewrite IH by exact H2. f_equal.
    - apply map_ext. intros v. destruct v; reflexivity.
    - rewrite <- seq_shift, map_map. apply map_ext. intros k. rewrite map_map. apply map_ext. intros v. destruct v; [destruct k|]; reflexivity. }
  intros vals H. rewrite K by exact H. unfold rows_of. apply nth_ext with (d := []) (d' := []); [now rewrite map_length, seq_length|].
  intros i Hi. rewrite map_length, seq_length in Hi. rewrite (nth_map_in _ (seq 0 (length vals)) i 0) by (now rewrite seq_length).
  rewrite seq_nth by exact Hi. cbn [Nat.add]. rewrite map_map.
  rewrite Forall_forall in H. pose proof (H _ (nth_In vals [] Hi)) as HV. unfold fits in HV.
  assert (HL : length (nth i vals []) = length ls) by (rewrite <- (map_length layout_size ls), <- HV, map_length; reflexivity).
  rewrite <- HL. apply nth_ext with (d := []) (d' := []); [now rewrite map_length, seq_length|].
  intros k Hk. rewrite map_length, seq_length in Hk. rewrite (nth_map_in _ (seq 0 (length (nth i vals []))) k 0) by (now rewrite seq_length).
  rewrite seq_nth by exact Hk. cbn [Nat.add]. rewrite (nth_map_in _ vals i []) by exact Hi. reflexivity.
Qed.

(** ** The fused merge *)
Lemma combine_fst_snd {A B} (l : list (A * B)) : combine (map fst l) (map snd l) = l.
Proof. induction l as [|[x y] l IH]; [reflexivity|]. cbn [map combine fst snd]. now rewrite IH. Qed.
Lemma layout_sizes pk smax sizes : map layout_size (map (layout_of pk smax) sizes) = sizes.
Proof. rewrite map_map. rewrite <- (map_id sizes) at 2. apply map_ext. intros s. apply layout_of_size. Qed.
Theorem fused_whole smin smax bs pk scalar_max sizes ak (av : list value) bk bv :
  StronglySorted (fun x y => kle x y = true) ak -> StronglySorted (fun x y => kle x y = true) bk ->
  length ak = length av -> length bk = length bv -> 0 < length ak -> 0 < length bk -> 0 < bs ->
  Forall (fits sizes) av -> Forall (fits sizes) bv ->
  forallb layout_ok (map (layout_of pk scalar_max) sizes) = true ->
  merge_fused zero smin smax bs pk scalar_max sizes ak av bk bv = Some (ssort (combine ak av ++ combine bk bv)).
Proof.
  intros Sa Sb La Lb Na Nb Hbs Fa Fb HO. unfold merge_fused. rewrite HO. cbv zeta.
  set (ls := map (layout_of pk scalar_max) sizes) in *.
  destruct (Nat.eqb_spec (length ak + length bk) 0) as [H0|_]; [lia|].
  assert (EX : run_grid ak bk smin smax
                 (fun i => map (fun arr => nth (Nat.min i (length ak - 1)) arr []) (pack_all zero ls av))
                 (fun j => map (fun arr => nth (Nat.min j (length bk - 1)) arr []) (pack_all zero ls bv)) bs =
               option_map (map (fun p => (fst p, prow ls (snd p)))) (merge_parallel_kv [] smin smax bs ak av bk bv)).
  { unfold merge_parallel_kv. destruct (Nat.eqb_spec (length ak + length bk) 0) as [H0|_]; [lia|].
    rewrite <- run_grid_map. unfold run_grid. f_equal.
    assert (HB : forall x i j, run_block ak bk (fun i => map (fun arr => nth (Nat.min i (length ak - 1)) arr []) (pack_all zero ls av))
                 (fun j => map (fun arr => nth (Nat.min j (length bk - 1)) arr []) (pack_all zero ls bv)) x i j =
              run_block ak bk (fun i => prow ls (nth (Nat.min i (length ak - 1)) av []))
                 (fun j => prow ls (nth (Nat.min j (length bk - 1)) bv [])) x i j).
    { induction x as [|x IH]; intros i j; [reflexivity|]. cbn [run_block]. rewrite (IH (S i) j), (IH i (S j)). f_equal.
      unfold step_out. destruct (take_a ak bk i j); f_equal; apply pack_all_row; lia. }
    generalize (seq 0 ((length ak + length bk + bs - 1) / bs)). intros k. induction k as [|x k IH]; [reflexivity|]. cbn [mapM]. rewrite IH.
    unfold run_program at 1 3. destruct (partition_at ak bk smin smax (x * bs)) as [[i j]|]; [|reflexivity]. now rewrite HB. }
  rewrite EX, (merge_kv_pairs [] smin smax bs ak av bk bv Sa Sb La Lb Na Nb Hbs). cbn [option_map]. clear EX.
  set (R := ssort (combine ak av ++ combine bk bv)).
  assert (FR : Forall (fits (map layout_size ls)) (map snd R)).
  { unfold ls. rewrite layout_sizes. apply Forall_forall. intros v Hv. apply in_map_iff in Hv as ([k v'] & E0 & HI). cbn [snd] in E0. subst v'.
    apply (Permutation_in _ (ssort_perm _)) in HI. rewrite Forall_forall in Fa, Fb.
    apply in_app_or in HI as [HI|HI]; apply in_combine_r in HI; auto. }
  f_equal. rewrite !map_map. cbn [fst]. rewrite map_length.
  assert (HOuts : map (fun c => map (fun kv => nth c (snd kv) []) (map (fun p => (fst p, prow ls (snd p))) R)) (seq 0 (length (pack_all zero ls av))) =
                  pack_all zero ls (map snd R)).
  { rewrite <- (columns_packed ls (map snd R)). rewrite <- (pack_all_len ls (map snd R) []), (pack_all_len ls av []).
    apply map_ext. intros c. rewrite !map_map. reflexivity. }
  rewrite HOuts. rewrite <- (map_length snd R). rewrite restore_packed by exact FR. apply combine_fst_snd.
Qed.
End Kv.
