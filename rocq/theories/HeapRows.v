(** * HeapRows.v — the array operations of the batched priority queue, row by row: each
      function of HeapArrays.v on a key array and a value instance is the function of
      HeapModel.v on the list of (key, value) pairs. *)
From Coq Require Import String.
From Verif Require Import KeyModel SortProofs MergeModel MergeProofs PropMerge HeapModel HeapProofs.
From Verif Require Import Jax StructModel ArrayModel ArrayFacts ShapeModel PropShape RowsModel RowsLift PropRows PropRows2 PropRows3.
From Verif Require Import SoaModel PropSoa PropSoa2 HeapArrays.

Lemma combine_fst_snd {A B} (l : list (A * B)) : combine (map fst l) (map snd l) = l.
Proof. induction l as [|[a b] l IH]; [reflexivity|]. cbn. now rewrite IH. Qed.
Lemma map_fst_combine {A B} (a : list A) (b : list B) : length a = length b -> map fst (combine a b) = a.
Proof. revert b. induction a as [|x a IH]; intros [|y b] H; cbn in *; try discriminate; [reflexivity|]. f_equal. apply IH. lia. Qed.
Lemma map_snd_combine {A B} (a : list A) (b : list B) : length a = length b -> map snd (combine a b) = b.
Proof. revert b. induction a as [|x a IH]; intros [|y b] H; cbn in *; try discriminate; [reflexivity|]. f_equal. apply IH. lia. Qed.
Lemma clamp_nat i d : d <> 0 -> clamp_index (Z.of_nat i) d = Nat.min i (d - 1).
Proof. intros Hd. unfold clamp_index. cbn zeta. destruct (Z.ltb_spec (Z.of_nat i) 0); [lia|]. lia. Qed.
Lemma norm_nat i n : norm_index (Z.of_nat i) n = if i <? n then Some i else None.
Proof.
  destruct (Nat.ltb_spec i n).
  - apply norm_index_norm. unfold norm_idx. destruct (Z.ltb_spec (Z.of_nat i) 0); lia.
  - destruct (norm_index (Z.of_nat i) n) as [k|] eqn:E; [|reflexivity]. apply norm_index_norm in E. unfold norm_idx in E. destruct (Z.ltb_spec (Z.of_nat i) 0); lia.
Qed.
Lemma list_eq {A} (l1 l2 : list A) n : length l1 = n -> length l2 = n -> (forall i d, i < n -> nth i l1 d = nth i l2 d) -> l1 = l2.
Proof. intros H1 H2 H. destruct l1 as [|x l1]; [destruct l2; [reflexivity|cbn in *; lia]|]. apply (nth_ext_len _ _ x); [congruence|]. intros i Hi. apply H. lia. Qed.

(** ** Sequences of rows *)
Definition grid (n m : nat) (o : obj) : list (list obj) := map (fun i => map (fun j => elem [i; j] o) (seq 0 m)) (seq 0 n).
Lemma grid_length n m o : length (grid n m o) = n.
Proof. unfold grid. now rewrite map_length, seq_length. Qed.
Lemma grid_nth n m o i d : i < n -> nth i (grid n m o) d = map (fun j => elem [i; j] o) (seq 0 m).
Proof. intros H. unfold grid. rewrite (nth_map_any _ (seq 0 n) i 0) by (now rewrite seq_length). now rewrite seq_nth. Qed.
Lemma grid_row_length n m o r : In r (grid n m o) -> length r = m.
Proof. unfold grid. rewrite in_map_iff. intros (i & <- & _). now rewrite map_length, seq_length. Qed.
Lemma rows_map m o (f : nat -> obj) : (forall j, j < m -> elem [j] o = f j) -> rows m o = map f (seq 0 m).
Proof. intros H. unfold rows. apply map_ext_in. intros j Hj. apply in_seq in Hj. apply H. lia. Qed.

Section R.
Variable c : class.

Lemma o_row_spec n m o i : batched c [n; m] o -> n <> 0 ->
  exists r, o_row i o = Some r /\ batched c [m] r /\ rows m r = nth (Nat.min i (n - 1)) (grid n m o) [].
Proof.
  intros HB Hn. destruct (C41_index_array c n [m] o (iscal (Z.of_nat i)) HB Hn) as [r [E1 [E2 E3]]]. exists r. split; [exact E1|]. split; [exact E2|].
  rewrite grid_nth by lia. apply rows_map. intros j Hj. specialize (E3 [] [j] inb_nil). cbn [app] in E3. rewrite E3 by (apply inb_cons; split; [exact Hj|apply inb_nil]).
  unfold iscal, get. cbn. now rewrite clamp_nat.
Qed.
Lemma get_ivec l j : j < length l -> get (ivec l) [j] = nth j l 0%Z.
Proof. intros H. unfold get, ivec. cbn. f_equal. lia. Qed.
Lemma o_rows_at_spec n o is d : batched c [n] o -> n <> 0 ->
  exists r, o_rows_at is o = Some r /\ batched c [length is] r /\ rows (length is) r = map (fun i => nth (Nat.min i (n - 1)) (rows n o) d) is.
Proof.
  intros HB Hn. destruct (C41_index_array c n [] o (ivec (map Z.of_nat is)) HB Hn) as [r [E1 [E2 E3]]]. exists r. cbn [ivec ashape app] in E2. rewrite map_length in E2. split; [exact E1|]. split; [exact E2|].
  apply (list_eq _ _ (length is)); [now rewrite rows_length|now rewrite map_length|]. intros j d0 Hj. rewrite rows_nth by exact Hj.
  rewrite (nth_map_any _ is j 0) by exact Hj. rewrite rows_nth by lia.
  specialize (E3 [j] []). cbn [app] in E3. rewrite E3; [|cbn [ivec ashape]; rewrite map_length; apply inb_cons; split; [exact Hj|apply inb_nil]|apply inb_nil].
  rewrite get_ivec by (now rewrite map_length). rewrite (nth_map_any _ is j 0) by exact Hj. now rewrite clamp_nat.
Qed.
Lemma o_rows_at_grid n m o is : batched c [n; m] o -> n <> 0 ->
  exists r, o_rows_at is o = Some r /\ batched c [length is; m] r /\ grid (length is) m r = map (fun i => nth (Nat.min i (n - 1)) (grid n m o) []) is.
Proof.
  intros HB Hn. destruct (C41_index_array c n [m] o (ivec (map Z.of_nat is)) HB Hn) as [r [E1 [E2 E3]]]. exists r. cbn [ivec ashape app] in E2. rewrite map_length in E2. split; [exact E1|]. split; [exact E2|].
  apply (list_eq _ _ (length is)); [now rewrite grid_length|now rewrite map_length|]. intros l d0 Hl. rewrite grid_nth by exact Hl.
  rewrite (nth_map_any _ is l 0) by exact Hl. rewrite grid_nth by lia. apply map_ext_in. intros j Hj. apply in_seq in Hj.
  specialize (E3 [l] [j]). cbn [app] in E3. rewrite E3; [|cbn [ivec ashape]; rewrite map_length; apply inb_cons; split; [exact Hl|apply inb_nil]|apply inb_cons; split; [lia|apply inb_nil]].
  rewrite get_ivec by (now rewrite map_length). rewrite (nth_map_any _ is l 0) by exact Hl. now rewrite clamp_nat.
Qed.
Lemma o_set_spec n m o i v : batched c [n; m] o -> batched c [m] v ->
  batched c [n; m] (obj_at_set (iscal (Z.of_nat i)) o v) /\ grid n m (obj_at_set (iscal (Z.of_nat i)) o v) = Jax.upd (grid n m o) i (rows m v).
Proof.
  intros HB HV. destruct (C45_at_set_array c n [m] o (iscal (Z.of_nat i)) v HB) as [E1 E2]; [reflexivity|exact HV|]. split; [exact E1|].
  apply (list_eq _ _ n); [apply grid_length|now rewrite Jax.upd_length, grid_length|]. intros l d Hl. rewrite grid_nth by exact Hl. rewrite Jax.nth_upd, grid_length.
  assert (K : forall j, j < m -> elem [l; j] (obj_at_set (iscal (Z.of_nat i)) o v) = if l =? i then elem [j] v else elem [l; j] o).
  { intros j Hj. specialize (E2 l [j] Hl). cbn [iscal adata last_hit] in E2. rewrite norm_nat in E2.
    assert (HJ : inb [j] [m]) by (apply inb_cons; split; [exact Hj|apply inb_nil]). specialize (E2 HJ).
    destruct (Nat.ltb_spec i n).
    - destruct (Nat.eqb_spec i l) as [E|E].
      + subst l. rewrite Nat.eqb_refl. destruct E2 as [_ E2]. exact E2.
      + destruct (Nat.eqb_spec l i); [lia|]. exact E2.
    - destruct (Nat.eqb_spec l i); [lia|]. exact E2. }
  destruct (Nat.eqb_spec i l) as [E|E]; cbn [andb].
  - subst l. destruct (Nat.ltb_spec i n); [|lia]. unfold rows. apply map_ext_in. intros j Hj. apply in_seq in Hj. rewrite K by lia. now rewrite Nat.eqb_refl.
  - rewrite grid_nth by exact Hl. apply map_ext_in. intros j Hj. apply in_seq in Hj. rewrite K by lia. destruct (Nat.eqb_spec l i); [lia|reflexivity].
Qed.

(** slices [start:stop] that select [len] rows from [st] on *)
Lemma o_slice_spec d o start stop st len : batched c [d] o -> slice_indices start stop 1 d = (Z.of_nat st, 1%Z, len) -> st + len <= d ->
  exists r, o_slice start stop o = Some r /\ batched c [len] r /\ rows len r = firstn len (skipn st (rows d o)).
Proof.
  intros [HC HB] ES HL.
  assert (HR : rowwise1 (a_pyslice start stop) [d] [len] (fun b => Some [st + hd 0 b]) nofill).
  { split.
    - intros b Hb. destruct b as [|i b]; [inversion Hb|]. apply inb_cons in Hb. destruct Hb as [Hi Hb]. cbn [hd]. apply inb_cons. split; [lia|apply inb_nil].
    - intros a J Hs Hw. unfold a_pyslice. rewrite Hs. cbn [app]. rewrite ES. unfold a_index. rewrite Hs. cbn [index_shape app].
      eexists. split; [reflexivity|]. split; [reflexivity|]. split; [reflexivity|]. split; [apply build_wfa|].
      intros b t Hb Ht. destruct b as [|i b]; [inversion Hb|]. apply inb_cons in Hb. destruct Hb as [Hi Hb]. inversion Hb; subst. cbn [app hd].
      rewrite get_build by (apply inb_cons; split; [exact Hi|exact Ht]). cbn [index_src app]. f_equal. f_equal. lia. }
  destruct (lift_one _ _ _ _ _ c o HR HC HB) as [r [E [E1 [E2 E3]]]]. exists r. split; [exact E|]. split; [split; assumption|].
  apply (list_eq _ _ len); [apply rows_length|rewrite firstn_length, skipn_length, rows_length; lia|]. intros i d0 Hi. rewrite rows_nth by exact Hi.
  rewrite nth_firstn by exact Hi. rewrite nth_skipn, rows_nth by lia. rewrite E3 by (apply inb_cons; split; [exact Hi|apply inb_nil]). reflexivity.
Qed.
Lemma slice_to n d : n <= d -> slice_indices None (Some (Z.of_nat n)) 1 d = (Z.of_nat 0, 1%Z, n).
Proof. intros H. unfold slice_indices. cbn [Z.ltb Z.compare]. cbn zeta. destruct (Z.ltb_spec (Z.of_nat n) 0); [lia|]. rewrite Z.div_1_r. f_equal. lia. Qed.
Lemma slice_from n d : n <= d -> slice_indices (Some (Z.of_nat n)) None 1 d = (Z.of_nat n, 1%Z, d - n).
Proof. intros H. unfold slice_indices. cbn [Z.ltb Z.compare]. cbn zeta. destruct (Z.ltb_spec (Z.of_nat n) 0); [lia|]. rewrite Z.div_1_r. f_equal; [f_equal|]; lia. Qed.
Lemma slice_last n d : 1 <= n <= d -> slice_indices (Some (- Z.of_nat n)%Z) None 1 d = (Z.of_nat (d - n), 1%Z, n).
Proof. intros H. unfold slice_indices. cbn [Z.ltb Z.compare]. cbn zeta. destruct (Z.ltb_spec (- Z.of_nat n) 0); [|lia]. rewrite Z.div_1_r. f_equal; [f_equal|]; lia. Qed.
Lemma slice_but_last n d : 1 <= n <= d -> slice_indices None (Some (- Z.of_nat n)%Z) 1 d = (Z.of_nat 0, 1%Z, d - n).
Proof. intros H. unfold slice_indices. cbn [Z.ltb Z.compare]. cbn zeta. destruct (Z.ltb_spec (- Z.of_nat n) 0); [|lia]. rewrite Z.div_1_r. f_equal; lia. Qed.

(** ** Selecting rows of two instances *)
Definition cond_of (bl : list bool) (n : nat) : array := MkArr DBool ([length bl] ++ repeat 1 n) (map Z.b2z bl).
Lemma prod_ones n : prod (repeat 1 n) = 1.
Proof. induction n as [|n IH]; [reflexivity|]. cbn [repeat]. unfold prod in *. cbn [fold_right]. lia. Qed.
Lemma rowwise_select bl : let k := length bl in
  rowwise (on_two (select_leaf (bools bl))) [[k]; [k]] [k] (fun b => Some (if nth (hd 0 b) bl false then 0 else 1, b)) nofill.
Proof.
  intros k.
  assert (HW : forall I0, rowwise_on (fun J => J = I0) (leaf_where (cond_of bl (length I0))) [[k]; [k]] [k] (fun b => Some (if nth (hd 0 b) bl false then 0 else 1, b)) nofill).
  { intros I0. apply (rowwise_where _ (cond_of bl (length I0)) [k] (fun b => nth (hd 0 b) bl false)).
    - intros J ->. unfold ndim, cond_of. cbn [ashape]. rewrite !app_length, repeat_length, Nat.sub_diag, skipn_O. split; [|cbn [length]; lia]. now apply bcast_ok_parts.
    - intros J b t -> Hb Ht. unfold cond_of at 2. cbn [ashape]. rewrite bcast_src_parts; [|exact Hb|now apply inb_length].
      destruct b as [|i b]; [inversion Hb|]. apply inb_cons in Hb. destruct Hb as [Hi Hb]. inversion Hb; subst. cbn [hd app].
      unfold get, cond_of. cbn [ashape adata app]. cbn [ravel]. rewrite ravel_zeros, prod_ones.
      replace (i * 1 + 0) with i by lia. rewrite (nth_map_any _ bl i false) by exact Hi. destruct (nth i bl false); reflexivity. }
  split; [apply (HW [])|]. intros dt J l _ HA. pose proof HA as HA0. inversion HA as [|a B0 l1 Bs1 [A1 [A2 A3]] HA1]; subst. inversion HA1 as [|b V0 l2 Bs2 [V1 [V2 V3]] HA2]; subst. inversion HA2; subst.
  cbn [on_two]. unfold select_leaf.
  assert (EC : (if 1 <? ndim a then a_reshape (hd 0 (ashape (bools bl)) :: repeat 1 (ndim a - 1)) (bools bl) else Some (bools bl)) = Some (cond_of bl (length J))).
  { unfold ndim. rewrite A2. cbn [app length]. cbn [bools ashape hd]. destruct (Nat.ltb_spec 1 (S (length J))).
    - replace (S (length J) - 1) with (length J) by lia. unfold a_reshape. cbn [bools ashape adtype adata].
      replace (prod (length bl :: repeat 1 (length J))) with (length bl) by (unfold prod at 1; cbn [fold_right]; change (fold_right Nat.mul 1 (repeat 1 (length J))) with (prod (repeat 1 (length J))); rewrite prod_ones; lia).
      replace (prod [length bl]) with (length bl) by (unfold prod; cbn [fold_right]; lia). rewrite Nat.eqb_refl. reflexivity.
    - assert (length J = 0) by lia. destruct J; [reflexivity|discriminate]. }
  rewrite EC. destruct (HW J) as [_ H2]. exact (H2 (adtype a) J [a; b] eq_refl HA0).
Qed.

(** [_gather_sorted_values] reads rows of the two blocks *)
Variable cat : bool.
Hypothesis HN : c <> CNil.
Hypothesis HS : solid c.
Lemma leading_spec n R o : batched c (n :: R) o -> leading o = Some n.
Proof. intros [HC HB]. unfold leading. destruct (proj2 first_leaf_both c o (n :: R) HN HS HC HB) as [a [J [E1 E2]]]. rewrite E1, E2. reflexivity. Qed.
Lemma gather_sorted_spec n m av bv idx d : batched c [n] av -> batched c [m] bv -> (forall i, In i idx -> i < n + m) -> n + m <> 0 ->
  exists r, gather_sorted c cat av bv idx = Some r /\ batched c [length idx] r /\ rows (length idx) r = gather_select d (rows n av) (rows m bv) idx.
Proof.
  intros HA HB HI Hnm. unfold gather_sorted. destruct cat.
  - destruct (C41_concat c [n] 0 [n; m] [av; bv] HN HS) as [o [E1 [E2 [E3 _]]]]; [cbn; lia|cbn; lia|repeat constructor; [apply HA|apply HA|apply HB|apply HB]|].
    change (Z.of_nat 0) with 0%Z in E1. rewrite E1. cbn [firstn skipn ArrayModel.upd app] in E2. change (list_sum [n; m]) with (n + (m + 0)) in E2. rewrite Nat.add_0_r in E2.
    destruct (o_rows_at_spec (n + m) o idx d E2 Hnm) as [r [R1 [R2 R3]]]. exists r. split; [exact R1|]. split; [exact R2|]. rewrite R3.
    rewrite C06_value_reorder_modes_agree by (rewrite !rows_length; exact HI). unfold gather_concat. apply map_ext_in. intros i Hi. specialize (HI i Hi).
    replace (Nat.min i (n + m - 1)) with i by lia. rewrite rows_nth by exact HI.
    destruct (Nat.lt_ge_cases i n) as [Hlt|Hge].
    + rewrite app_nth1 by (now rewrite rows_length). rewrite rows_nth by exact Hlt. specialize (E3 0 [i]). cbn in E3. apply E3; [lia|]. apply inb_cons; split; [exact Hlt|apply inb_nil].
    + rewrite app_nth2 by (rewrite rows_length; lia). rewrite rows_length, rows_nth by lia. specialize (E3 1 [i - n]). cbn in E3. rewrite Nat.add_0_r in E3. replace (n + (i - n)) with i in E3 by lia. apply E3; [lia|]. apply inb_cons; split; [lia|apply inb_nil].
  - rewrite (leading_spec n [] av HA), (leading_spec m [] bv HB). unfold gather_select. rewrite !rows_length.
    destruct (Nat.eqb_spec n 0) as [Hn|Hn].
    { destruct (o_rows_at_spec m bv idx d HB ltac:(lia)) as [r [R1 [R2 R3]]]. exists r. split; [exact R1|]. split; [exact R2|]. rewrite R3. apply map_ext_in. intros i Hi. specialize (HI i Hi). f_equal. lia. }
    destruct (Nat.eqb_spec m 0) as [Hm|Hm].
    { destruct (o_rows_at_spec n av idx d HA ltac:(lia)) as [r [R1 [R2 R3]]]. exists r. split; [exact R1|]. split; [exact R2|]. rewrite R3. apply map_ext_in. intros i Hi. specialize (HI i Hi). f_equal. lia. }
    destruct (o_rows_at_spec n av (map (fun i => Nat.min i (n - 1)) idx) d HA Hn) as [va [A1 [A2 A3]]]. destruct (o_rows_at_spec m bv (map (fun i => Nat.min (i - n) (m - 1)) idx) d HB Hm) as [vb [B1 [B2 B3]]].
    rewrite A1, B1. rewrite !map_length in *. set (bl := map (fun i => i <? n) idx).
    assert (HL : length bl = length idx) by (unfold bl; now rewrite map_length).
    pose proof (rowwise_select bl) as HR. cbn zeta in HR. rewrite HL in HR.
    destruct (lift_many _ _ _ _ _ c [va; vb] HR) as [r [R1 [R2 [R3 R4]]]]; [discriminate|repeat constructor; [apply A2|apply A2|apply B2|apply B2]|].
    exists r. split; [exact R1|]. split; [split; assumption|].
    apply (list_eq _ _ (length idx)); [apply rows_length|now rewrite map_length|]. intros i d0 Hi. rewrite rows_nth by exact Hi. rewrite (nth_map_any _ idx i 0) by exact Hi.
    rewrite R4 by (apply inb_cons; split; [exact Hi|apply inb_nil]). cbn [hd]. unfold bl. rewrite (nth_map_any _ idx i 0) by exact Hi.
    destruct (nth i idx 0 <? n); cbn [nth].
    + rewrite <- (rows_nth (length idx) va i d Hi), A3, map_map. rewrite (nth_map_any _ idx i 0) by exact Hi. f_equal. lia.
    + rewrite <- (rows_nth (length idx) vb i d Hi), B3, map_map. rewrite (nth_map_any _ idx i 0) by exact Hi. f_equal. lia.
Qed.

(** ** Keys and values of a block represent a list of pairs *)
Definition repr (n : nat) (k : list key) (v : obj) (l : list (key * obj)) : Prop := length k = n /\ batched c [n] v /\ combine k (rows n v) = l.
Lemma repr_fst n k v l : repr n k v l -> map fst l = k.
Proof. intros [H1 [_ <-]]. apply map_fst_combine. now rewrite rows_length. Qed.
Lemma repr_snd n k v l : repr n k v l -> map snd l = rows n v.
Proof. intros [H1 [_ <-]]. apply map_snd_combine. now rewrite rows_length. Qed.
Lemma repr_length n k v l : repr n k v l -> length l = n.
Proof. intros H. rewrite <- (map_length fst), (repr_fst _ _ _ _ H). apply H. Qed.
Lemma repr_intro n k v l : batched c [n] v -> length l = n -> map fst l = k -> map snd l = rows n v -> repr n k v l.
Proof. intros HB HL <- E. split; [now rewrite map_length|]. split; [exact HB|]. rewrite <- E. apply combine_fst_snd. Qed.
Lemma sort_idx_range (ak bk : list key) i : In i (map snd (merge_sort_idx ak bk)) -> i < length ak + length bk.
Proof.
  intros Hi. unfold merge_sort_idx in Hi.
  assert (Hi2 : In i (map snd (combine (ak ++ bk) (seq 0 (length ak + length bk))))) by (eapply Permutation_in; [|exact Hi]; apply Permutation_map, SortProofs.ssort_perm).
  rewrite map_snd_combine in Hi2 by (rewrite app_length, seq_length; reflexivity). apply in_seq in Hi2. lia.
Qed.
Lemma sort_idx_length (ak bk : list key) : length (merge_sort_idx ak bk) = length ak + length bk.
Proof. unfold merge_sort_idx. rewrite ssort_length, combine_length, app_length, seq_length. lia. Qed.
(** the merged block as a whole *)
Lemma merged_spec n m ak av bk bv a b : repr n ak av a -> repr m bk bv b -> n + m <> 0 ->
  exists sv, gather_sorted c cat av bv (map snd (merge_sort_idx ak bk)) = Some sv /\ repr (n + m) (map fst (merge_sort_idx ak bk)) sv (ssort (a ++ b)).
Proof.
  intros HA HB Hnm. pose proof HA as [A1 [A2 A3]]. pose proof HB as [B1 [B2 B3]].
  destruct (gather_sorted_spec n m av bv (map snd (merge_sort_idx ak bk)) ONil A2 B2) as [sv [S1 [S2 S3]]]; [intros i Hi; apply sort_idx_range in Hi; lia|exact Hnm|].
  exists sv. split; [exact S1|]. rewrite map_length, sort_idx_length, A1, B1 in S2, S3.
  pose proof (C06_merge_split_is_stable_sort_of_pairs obj ONil ak (rows n av) bk (rows m bv)) as K. rewrite !rows_length in K. specialize (K A1 B1). cbn zeta in K. rewrite A3, B3, A1 in K. unfold merge_sort_split in K.
  set (s := ssort (a ++ b)) in *. assert (K1 := f_equal (fun p => fst (fst (fst p)) ++ snd (fst p)) K). assert (K2 := f_equal (fun p => snd (fst (fst p)) ++ snd p) K). cbn [fst snd] in K1, K2.
  rewrite A1 in K1, K2. rewrite !firstn_skipn in K1, K2. rewrite <- map_app in K1, K2. rewrite firstn_skipn in K1, K2.
  apply repr_intro; [exact S2| |congruence|].
  - unfold s. rewrite ssort_length, app_length, (repr_length _ _ _ _ HA), (repr_length _ _ _ _ HB). reflexivity.
  - rewrite S3. symmetry. exact K2.
Qed.
Lemma repr_slice n k v l start stop st len : repr n k v l -> slice_indices start stop 1 n = (Z.of_nat st, 1%Z, len) -> st + len <= n ->
  exists r, o_slice start stop v = Some r /\ repr len (firstn len (skipn st k)) r (firstn len (skipn st l)).
Proof.
  intros H ES HL. pose proof H as [H1 [H2 H3]]. destruct (o_slice_spec n v start stop st len H2 ES HL) as [r [R1 [R2 R3]]]. exists r. split; [exact R1|].
  apply repr_intro; [exact R2|rewrite firstn_length, skipn_length, (repr_length _ _ _ _ H); lia|now rewrite <- firstn_map, <- skipn_map, (repr_fst _ _ _ _ H)|now rewrite <- firstn_map, <- skipn_map, (repr_snd _ _ _ _ H)].
Qed.
Lemma firstn_all_le {A} n (l : list A) : length l <= n -> firstn n l = l.
Proof. apply firstn_all2. Qed.
Lemma msplit_spec n m ak av bk bv a b : repr n ak av a -> repr m bk bv b -> n + m <> 0 ->
  exists lk lv hk hv, msplit_o c cat ak av bk bv = Some (lk, lv, hk, hv) /\ repr n lk lv (fst (msplit a b)) /\ repr m hk hv (snd (msplit a b)).
Proof.
  intros HA HB Hnm. destruct (merged_spec n m ak av bk bv a b HA HB Hnm) as [sv [E1 E2]]. pose proof HA as [A1 _].
  destruct (repr_slice _ _ _ _ None (Some (Z.of_nat n)) 0 n E2 (slice_to n (n + m) ltac:(lia)) ltac:(lia)) as [lo [L1 L2]].
  destruct (repr_slice _ _ _ _ (Some (Z.of_nat n)) None n (n + m - n) E2 (slice_from n (n + m) ltac:(lia)) ltac:(lia)) as [hi [H1 H2]].
  unfold msplit_o. rewrite E1, A1, L1, H1. do 4 eexists. split; [reflexivity|]. unfold msplit. rewrite (repr_length _ _ _ _ HA). cbn [fst snd]. rewrite !skipn_O in L2. split; [exact L2|].
  replace (n + m - n) with m in H2 by lia. rewrite !firstn_all_le in H2; [exact H2| |].
  - rewrite skipn_length, (repr_length _ _ _ _ E2). lia.
  - rewrite skipn_length, map_length, sort_idx_length. destruct HB as [-> _]. lia.
Qed.
Lemma sort_spec n k v l : repr n k v l -> n <> 0 -> exists k' v', sort_o k v = Some (k', v') /\ repr n k' v' (ssort l).
Proof.
  intros H Hn. pose proof H as [H1 [H2 H3]]. unfold sort_o. set (s := ssort (combine k (seq 0 (length k)))).
  assert (LS : length s = n) by (unfold s; rewrite ssort_length, combine_length, seq_length; lia).
  destruct (o_rows_at_spec n v (map snd s) ONil H2 Hn) as [r [R1 [R2 R3]]]. rewrite R1. do 2 eexists. split; [reflexivity|]. rewrite map_length, LS in R2, R3.
  pose proof (sort_arrays_pairs ONil k (rows n v)) as K. rewrite rows_length in K. specialize (K H1). unfold sort_arrays in K. fold s in K. rewrite H3 in K.
  assert (K1 := f_equal fst K). assert (K2 := f_equal snd K). cbn [fst snd] in K1, K2.
  apply repr_intro; [exact R2|rewrite ssort_length; now apply (repr_length _ _ _ _ H)|congruence|]. rewrite R3, <- K2. apply map_ext_in. intros i Hi.
  assert (Hi2 : In i (map snd (combine k (seq 0 (length k))))) by (eapply Permutation_in; [|exact Hi]; apply Permutation_map, SortProofs.ssort_perm).
  rewrite map_snd_combine in Hi2 by (now rewrite seq_length). apply in_seq in Hi2. f_equal. lia.
Qed.
End R.
