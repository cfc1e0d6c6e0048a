(** * HeapSim2.v — simulation of the calls: insert, delete_mins, size, build. *)
From Coq Require Import String.
From Verif Require Import KeyModel SortProofs MergeModel MergeProofs HeapModel HeapProofs.
From Verif Require Import Jax StructModel ArrayModel ArrayFacts ShapeModel PropShape RowsModel RowsLift PropRows PropRows2 PropRows3.
From Verif Require Import SoaModel PropSoa PropSoa2 HeapArrays HeapRows HeapSim.

Section S.
Variables (c : class) (cat : bool).
Hypothesis HN : c <> CNil.
Hypothesis HS : solid c.
Notation repr := (repr c).
Notation repr2 := (repr2 c).

(** the arrays of [h] hold the pairs of [H] *)
Record sim (h : aheap) (H : heap obj) : Prop := {
  sim_batch : batch_size h = HeapModel.batch H;
  sim_branch : branch_size h = HeapModel.branch H;
  sim_hsize : heap_size h = hsize H;
  sim_bsize : buffer_size h = bsize H;
  sim_B : 1 <= batch_size h;
  sim_N : 1 <= branch_size h;
  sim_store : repr2 (branch_size h) (batch_size h) (key_store h) (val_store h) (HeapModel.rows H);
  sim_buffer : repr (batch_size h - 1) (key_buffer h) (val_buffer h) (buf H) }.

Lemma repr_fin n k v l : repr n k v l -> kfin k = nfin l.
Proof. intros H. now rewrite nfin_keys, (repr_fst _ _ _ _ _ H). Qed.
Lemma sim_set_stores h H ks vs rs : sim h H -> repr2 (branch_size h) (batch_size h) ks vs rs -> sim (set_stores h ks vs) (set_rows H rs).
Proof. intros [A1 A2 A3 A4 A5 A6 A7 A8] HR. constructor; assumption. Qed.

Lemma size_sim h H : sim h H -> size_o h = size H.
Proof.
  intros [A1 A2 A3 A4 A5 A6 A7 A8]. unfold size_o, size. rewrite A3, A4, A1. destruct (hsize H =? 0); [|reflexivity]. f_equal. f_equal. f_equal.
  destruct (repr2_row c _ _ _ _ _ 0 A7 ltac:(lia)) as [r [_ R]]. exact (repr_fin _ _ _ _ R).
Qed.

Lemma merge_buffer_sim h H bk bv blk : sim h H -> repr (batch_size h) bk bv blk ->
  exists h' k v, merge_buffer_o c cat h bk bv = Some (h', k, v, snd (merge_buffer H blk)) /\
    sim h' (fst (fst (merge_buffer H blk))) /\ repr (batch_size h) k v (snd (fst (merge_buffer H blk))) /\ batch_size h' = batch_size h /\ branch_size h' = branch_size h.
Proof.
  intros HSm HR. pose proof HSm as [A1 A2 A3 A4 A5 A6 A7 A8]. set (n := batch_size h) in *.
  destruct (merged_spec c cat HN HS n (n - 1) bk bv (key_buffer h) (val_buffer h) blk (buf H) HR A8 ltac:(lia)) as [val [E1 E2]].
  unfold merge_buffer_o. fold n. rewrite E1. unfold merge_buffer. rewrite <- A1. fold n. rewrite (repr_fin _ _ _ _ E2).
  pose proof (repr_length _ _ _ _ _ E2) as LS. set (s := ssort (blk ++ buf H)) in *. set (sk := map fst (merge_sort_idx bk (key_buffer h))) in *.
  assert (LK : length sk = n + (n - 1)) by apply E2.
  destruct (n <=? nfin s).
  - destruct (repr_slice _ _ _ _ _ None (Some (Z.of_nat n)) 0 n E2 (slice_to n (n + (n - 1)) ltac:(lia)) ltac:(lia)) as [v1 [L1 L2]].
    destruct (repr_slice _ _ _ _ _ (Some (Z.of_nat n)) None n (n - 1) E2) as [v2 [H1 H2]]; [rewrite slice_from by lia; replace (n + (n - 1) - n) with (n - 1) by lia; reflexivity|lia|].
    rewrite L1, H1. rewrite !skipn_O in L2. rewrite !firstn_all_le in H2 by (rewrite skipn_length; lia). do 3 eexists. split; [reflexivity|]. cbn [fst snd]. split; [|split; [exact L2|split; reflexivity]].
    constructor; cbn [set_buffers batch_size branch_size heap_size buffer_size key_store val_store key_buffer val_buffer HeapModel.batch HeapModel.branch hsize bsize HeapModel.rows buf]; try assumption; try reflexivity. exact (repr_fin _ _ _ _ H2).
  - destruct (repr_slice _ _ _ _ _ (Some (- Z.of_nat n)%Z) None (n - 1) n E2) as [v1 [L1 L2]]; [rewrite slice_last by lia; replace (n + (n - 1) - n) with (n - 1) by lia; reflexivity|lia|].
    destruct (repr_slice _ _ _ _ _ None (Some (- Z.of_nat n)%Z) 0 (n - 1) E2) as [v2 [H1 H2]]; [rewrite slice_but_last by lia; replace (n + (n - 1) - n) with (n - 1) by lia; reflexivity|lia|].
    rewrite L1, H1. rewrite LK, LS. replace (n + (n - 1) - n) with (n - 1) by lia. rewrite !skipn_O in H2. rewrite !firstn_all_le in L2 by (rewrite skipn_length; lia).
    do 3 eexists. split; [reflexivity|]. cbn [fst snd]. split; [|split; [exact L2|split; reflexivity]].
    constructor; cbn [set_buffers batch_size branch_size heap_size buffer_size key_store val_store key_buffer val_buffer HeapModel.batch HeapModel.branch hsize bsize HeapModel.rows buf]; try assumption; try reflexivity. exact (repr_fin _ _ _ _ H2).
Qed.

(** one row of a gathered path *)
Lemma path_row_spec L m pv l : batched c [L; m] pv -> l < L -> exists r, obj_index [IInt (Z.of_nat l)] pv = Some r /\ batched c [m] r /\ rows m r = nth l (grid L m pv) [].
Proof.
  intros HB Hl. destruct (C41_index c [L; m] pv [IInt (Z.of_nat l)] HB) as [r [B' [E1 [E2 [E3 E4]]]]]; [cbn [index_ok]; split; [lia|exact I]|].
  cbn [index_shape] in E2. destruct (Nat.eqb_spec L 0) in E2; [lia|]. assert (EB : B' = [m]) by congruence. subst B'. exists r. split; [exact E1|]. split; [exact E3|].
  rewrite grid_nth by exact Hl. apply rows_map. intros j Hj. destruct (E4 [j]) as [_ E5]; [apply inb_cons; split; [exact Hj|apply inb_nil]|]. rewrite E5. cbn [index_src]. rewrite clamp_nat by lia. replace (Nat.min l (L - 1)) with l by lia. reflexivity.
Qed.
Definition safe (x : nat * bool) : nat := if snd x then fst x else 0.
Lemma scan_spec m ks rs pv : 1 <= m -> forall xs l ck cv carry,
  (forall j, j < length xs -> exists r, obj_index [IInt (Z.of_nat (l + j))] pv = Some r /\ repr m (krow ks (safe (nth j xs (0, false)))) r (row_at rs (safe (nth j xs (0, false))))) ->
  repr m ck cv carry ->
  exists hk os, scan_o c cat pv l (map (fun x => krow ks (safe x)) xs) (map snd xs) ck cv = Some (hk, os) /\
    length hk = length xs /\ length os = length xs /\ length (snd (scan_path rs xs carry)) = length xs /\
    forall j, j < length xs -> repr m (nth j hk []) (nth j os ONil) (nth j (snd (scan_path rs xs carry)) []).
Proof.
  intros Hm. induction xs as [|[i b] xs IH]; intros l ck cv carry HP HR.
  - exists [], []. split; [reflexivity|]. split; [reflexivity|]. split; [reflexivity|]. split; [reflexivity|]. intros j Hj. cbn [length] in Hj. lia.
  - cbn [map scan_o snd]. destruct (HP 0) as [nv [N1 N2]]; [cbn [length]; lia|]. rewrite Nat.add_0_r in N1. cbn [nth] in N2. rewrite N1. cbn [scan_path].
    assert (HP' : forall j, j < length xs -> exists r, obj_index [IInt (Z.of_nat (S l + j))] pv = Some r /\ repr m (krow ks (safe (nth j xs (0, false)))) r (row_at rs (safe (nth j xs (0, false))))).
    { intros j Hj. destruct (HP (S j)) as [r [R1 R2]]; [cbn [length]; lia|]. exists r. split; [now replace (S l + j) with (l + S j) by lia|exact R2]. }
    change (if b then i else 0) with (safe (i, b)). destruct b.
    + destruct (msplit_spec c cat HN HS m m _ _ _ _ _ _ N2 HR ltac:(lia)) as (hk & hv & xk & xv & M1 & M2 & M3). rewrite M1.
      destruct (msplit (row_at rs (safe (i, true))) carry) as [head next] eqn:EM. cbn [fst snd] in M2, M3.
      destruct (IH (S l) xk xv next HP' M3) as (ks' & os & I1 & I2 & I3 & I4 & I5). rewrite I1. exists (hk :: ks'), (hv :: os). split; [reflexivity|].
      destruct (scan_path rs xs next) as [c' out]. cbn [snd length] in *. split; [lia|]. split; [lia|]. split; [lia|]. intros [|j] Hj; cbn [nth]; [exact M2|apply I5; lia].
    + destruct (IH (S l) ck cv carry HP' HR) as (ks' & os & I1 & I2 & I3 & I4 & I5). rewrite I1. exists (krow ks (safe (i, false)) :: ks'), (nv :: os). split; [reflexivity|].
      destruct (scan_path rs xs carry) as [c' out]. cbn [snd length] in *. split; [lia|]. split; [lia|]. split; [lia|]. intros [|j] Hj; cbn [nth]; [exact N2|apply I5; lia].
Qed.
Lemma stack_spec L m hk os outs : 0 < L -> length hk = L -> length os = L -> length outs = L -> (forall j, j < L -> repr m (nth j hk []) (nth j os ONil) (nth j outs [])) ->
  exists v, tree_mapn (a_stack 0) os = Some v /\ repr2 L m hk v outs.
Proof.
  intros HL H1 H2 H3 HR. pose proof (rowwise_stack [m] L 0 HL ltac:(cbn; lia)) as HW. change (Z.of_nat 0) with 0%Z in HW.
  assert (HF : Forall2 (fun o B => conforms c o /\ has_batch B c o) os (repeat [m] L)).
  { assert (HA : Forall (fun o => batched c [m] o) os).
    { apply Forall_forall. intros o Ho. apply (In_nth _ _ ONil) in Ho. destruct Ho as (j & Hj & <-). apply HR. lia. }
    clear - HA H2. revert L H2. induction HA as [|o os Ho _ IH]; intros L HL; cbn [length] in HL; subst L; cbn [repeat]; constructor; [exact Ho|]. now apply IH. }
  destruct (lift_many _ _ _ _ _ c os HW) as [v [E1 [E2 [E3 E4]]]]; [destruct L; [lia|discriminate]|exact HF|].
  exists v. split; [exact E1|]. cbn [ArrayModel.insert firstn skipn app] in E3, E4. split; [exact H1|]. split; [intros i Hi; now apply HR|]. split; [split; assumption|].
  apply (list_eq _ _ L); [rewrite zip2_length by (rewrite grid_length; exact H1); exact H1|exact H3|]. intros i d Hi.
  assert (HZ : length (zip2 hk (grid L m v)) = L) by (rewrite zip2_length by (rewrite grid_length; exact H1); exact H1).
  rewrite (nth_indep _ d []) by lia. rewrite (nth_indep outs d []) by lia. rewrite zip2_nth by (now rewrite grid_length). destruct (HR i Hi) as (_ & _ & R3). rewrite <- R3. f_equal.
  rewrite grid_nth by exact Hi. symmetry. apply rows_map. intros j Hj. symmetry. rewrite E4 by (apply inb_cons; split; [exact Hi|apply inb_cons; split; [exact Hj|apply inb_nil]]). reflexivity.
Qed.
Lemma max_depth_pos br : 1 <= br -> 1 <= max_depth br.
Proof. intros H. unfold max_depth. pose proof (Nat.log2_up_le_mono 2 (br + 1) ltac:(lia)). cbn in *. lia. Qed.
Lemma update_path_sim h H t bk bv blk : sim h H -> repr (batch_size h) bk bv blk ->
  exists h', update_path_o c cat h t bk bv = Some h' /\ sim h' (update_path H t blk).
Proof.
  intros HSm HR. pose proof HSm as [A1 A2 A3 A4 A5 A6 A7 A8]. set (n := branch_size h) in *. set (m := batch_size h) in *. set (L := max_depth n).
  assert (HL : 1 <= L) by (unfold L; now apply max_depth_pos).
  unfold update_path_o. fold n. fold L. set (xs := path n t).
  assert (EX : path (HeapModel.branch H) t = xs) by (unfold xs; now rewrite A2).
  assert (LX : length xs = L) by (unfold xs, path; rewrite map_length, seq_length; reflexivity).
  assert (ES : map (fun l => if path_mask t l && (0 <? l) then path_index t l else 0) (seq 0 L) = map safe xs) by (unfold xs, path; rewrite map_map; reflexivity).
  assert (EK : map (krow (key_store h)) (map safe xs) = map (fun x => krow (key_store h) (safe x)) xs) by apply map_map.
  assert (EM : map (fun l => path_mask t l && (0 <? l)) (seq 0 L) = map snd xs) by (unfold xs, path; rewrite map_map; reflexivity).
  rewrite ES, EK, EM. pose proof A7 as (K1 & K2 & K3 & K4).
  destruct (o_rows_at_grid c n m (val_store h) (map safe xs) K3 ltac:(lia)) as [pv [P1 [P2 P3]]]. rewrite P1. rewrite map_length, LX in P2, P3.
  destruct (scan_spec m (key_store h) (HeapModel.rows H) pv A5 xs 0 bk bv blk) as (hk & os & S1 & S2 & S3 & S4 & S5); [|exact HR|].
  { intros j Hj. rewrite LX in Hj. cbn [Nat.add]. destruct (path_row_spec L m pv j P2 Hj) as [r [R1 [R2 R3]]]. exists r. split; [exact R1|].
    set (x := nth j xs (0, false)). unfold krow, row_at. rewrite (repr2_length _ _ _ _ _ _ A7), K1. split; [apply K2; lia|]. split; [exact R2|].
    rewrite R3, P3. rewrite map_map. rewrite (nth_map_any _ xs j (0, false)) by lia. symmetry. now apply (repr2_nth c n m). }
  rewrite S1. rewrite LX in *. destruct (stack_spec L m hk os _ ltac:(lia) S2 S3 S4 S5) as [hv [V1 V2]]. rewrite V1.
  set (idx := map _ (seq 0 L)). assert (LI : length idx = L) by (unfold idx; now rewrite map_length, seq_length).
  destruct (repr2_scatter c n m L idx _ _ _ _ _ _ A7 V2 LI) as [vs [W1 W2]]. rewrite W1. eexists. split; [reflexivity|].
  unfold update_path. rewrite EX. destruct (scan_path (HeapModel.rows H) xs blk) as [c' heads]. cbn [snd] in *.
  apply sim_set_stores; [exact HSm|]. assert (EI : scatter_indices H t = idx) by (unfold scatter_indices, idx, L; rewrite <- A2; reflexivity). rewrite EI. exact W2.
Qed.
Lemma update_root_sim h H bk bv blk : sim h H -> repr (batch_size h) bk bv blk ->
  exists h', update_root_only_o c cat h bk bv = Some h' /\ sim h' (update_root_only H blk).
Proof.
  intros HSm HR. pose proof HSm as [A1 A2 A3 A4 A5 A6 A7 A8]. unfold update_root_only_o. destruct (repr2_row c _ _ _ _ _ 0 A7 ltac:(lia)) as [r [R1 R2]]. rewrite R1.
  destruct (msplit_spec c cat HN HS _ _ _ _ _ _ _ _ R2 HR ltac:(lia)) as (hk & hv & xk & xv & M1 & M2 & M3). rewrite M1. eexists. split; [reflexivity|].
  apply sim_set_stores; [exact HSm|]. change 0%Z with (Z.of_nat 0). now apply repr2_set.
Qed.
Lemma last_keys n m ks vs rs : repr2 n m ks vs rs -> map (fun r => last r PInf) ks = map last_key rs.
Proof.
  intros H. pose proof H as (H1 & H2 & H3 & H4). apply (list_eq _ _ n); [now rewrite map_length|rewrite map_length; now apply (repr2_length c n m ks vs)|]. intros i d Hi.
  rewrite (nth_map_any _ ks i []) by lia. rewrite (nth_map_any _ rs i []) by (rewrite (repr2_length c n m ks vs rs H); lia). unfold last_key. rewrite (repr2_nth c n m ks vs rs i H), map_fst_combine; [reflexivity|].
  rewrite H2, grid_nth, map_length, seq_length by exact Hi. reflexivity.
Qed.
Lemma is_full_sim h H : sim h H -> is_full_o h = is_full H.
Proof. intros [A1 A2 A3 A4 A5 A6 A7 A8]. unfold is_full_o, is_full. now rewrite A2, A3. Qed.
Lemma insert_heapify_sim h H bk bv blk : sim h H -> repr (batch_size h) bk bv blk ->
  exists h', insert_heapify_o c cat h bk bv = Some (h', snd (insert_heapify H blk)) /\ sim h' (fst (insert_heapify H blk)).
Proof.
  intros HSm HR. pose proof HSm as [A1 A2 A3 A4 A5 A6 A7 A8]. unfold insert_heapify_o, insert_heapify. cbn [fst snd].
  assert (ET : insert_target_o h = insert_target H) by (unfold insert_target_o, insert_target; now rewrite (is_full_sim h H HSm), (last_keys _ _ _ _ _ A7), A3).
  rewrite ET, (is_full_sim h H HSm), A2. destruct (insert_target H <? HeapModel.branch H).
  - destruct (insert_target H =? 0).
    + destruct (update_root_sim h H bk bv blk HSm HR) as [h' [E1 E2]]. rewrite E1. eauto.
    + destruct (update_path_sim h H (insert_target H) bk bv blk HSm HR) as [h' [E1 E2]]. rewrite E1. eauto.
  - eauto.
Qed.
(** insert *)
Lemma insert_sim h H k v block : sim h H -> repr (batch_size h) k v block -> exists h', insert_o c cat h k v = Some h' /\ sim h' (HeapModel.insert H block).
Proof.
  intros HSm HR. pose proof HSm as [A1 A2 A3 A4 A5 A6 A7 A8]. unfold insert_o, HeapModel.insert.
  destruct (sort_spec c _ _ _ _ HR ltac:(lia)) as (k0 & v0 & S1 & S2). rewrite S1.
  destruct (repr2_row c _ _ _ _ _ 0 A7 ltac:(lia)) as [r [R1 R2]]. rewrite R1.
  destruct (msplit_spec c cat HN HS _ _ _ _ _ _ _ _ R2 S2 ltac:(lia)) as (rk & rv & k1 & v1 & M1 & M2 & M3). rewrite M1.
  destruct (msplit (row_at (HeapModel.rows H) 0) (ssort block)) as [root blk1]. cbn [fst snd] in M2, M3.
  assert (H1 : sim (set_stores h (Jax.upd (key_store h) 0 rk) (obj_at_set (iscal 0) (val_store h) rv)) (set_rows H (Jax.upd (HeapModel.rows H) 0 root))).
  { apply sim_set_stores; [exact HSm|]. change 0%Z with (Z.of_nat 0). now apply repr2_set. }
  destruct (merge_buffer_sim _ _ k1 v1 blk1 H1 M3) as (h2 & k2 & v2 & B1 & B2 & B3 & B4 & B5). rewrite B1.
  destruct (merge_buffer (set_rows H (Jax.upd (HeapModel.rows H) 0 root)) blk1) as [[H2 blk2] ovf]. cbn [fst snd] in *.
  assert (K : exists h3, (if ovf then insert_heapify_o c cat h2 k2 v2 else Some (h2, false)) = Some (h3, snd (if ovf then insert_heapify H2 blk2 else (H2, false))) /\ sim h3 (fst (if ovf then insert_heapify H2 blk2 else (H2, false)))).
  { destruct ovf; [|exists h2; split; [reflexivity|exact B2]]. apply insert_heapify_sim; [exact B2|]. rewrite B4. exact B3. }
  destruct K as [h3 [K1 K2]]. rewrite K1. destruct (if ovf then insert_heapify H2 blk2 else (H2, false)) as [H3 added]. cbn [fst snd] in *. eexists. split; [reflexivity|].
  destruct K2 as [C1 C2 C3 C4 C5 C6 C7 C8]. constructor; cbn [set_heap_size batch_size branch_size heap_size buffer_size key_store val_store key_buffer val_buffer HeapModel.batch HeapModel.branch hsize bsize HeapModel.rows buf]; congruence || assumption.
Qed.
End S.
