(** * HeapSim3.v — simulation of delete_mins and of whole histories. *)
From Coq Require Import String.
From Verif Require Import KeyModel SortProofs MergeModel MergeProofs HeapModel HeapProofs.
From Verif Require Import Jax StructModel ArrayModel ArrayFacts ShapeModel PropShape RowsModel RowsLift PropRows PropRows2 PropRows3.
From Verif Require Import SoaModel PropSoa PropSoa2 HeapArrays HeapRows HeapSim HeapSim2.

Section S.
Variables (c : class) (cat : bool).
Hypothesis HN : c <> CNil.
Hypothesis HS : solid c.
Notation repr := (repr c).
Notation repr2 := (repr2 c).
Notation sim := (sim c).

(** ** The update buffers of the sift-down hold the list of row updates *)
Record usim (mu m : nat) (b : ubuf) (ups : list (nat * list (key * obj))) : Prop := {
  us_len : length ups = Nat.min (u_pos b) mu;
  us_idx : length (u_idx b) = mu;
  us_mask : u_mask b = map (fun i => i <? length ups) (seq 0 mu);
  us_fst : forall j, j < length ups -> nth j (u_idx b) 0 = fst (nth j ups (0, []));
  us_keys : length (u_keys b) = mu;
  us_klen : forall j, j < mu -> length (nth j (u_keys b) []) = m;
  us_vals : batched c [mu; m] (u_vals b);
  us_snd : forall j, j < length ups -> combine (nth j (u_keys b) []) (nth j (grid mu m (u_vals b)) []) = snd (nth j ups (0, [])) }.
Lemma u_set_spec n m o i v : batched c [n; m] o -> batched c [m] v ->
  exists o', tree_mapn (on_two (fun buf leaf => a_at_set (iscal (Z.of_nat i)) leaf buf)) [o; v] = Some o' /\ batched c [n; m] o' /\ grid n m o' = Jax.upd (grid n m o) i (rows m v).
Proof.
  intros HB HV. destruct (o_set_spec c n m o i v HB HV) as [E1 E2].
  destruct (lift_many _ _ _ _ _ c [o; v] (rowwise_at_set n [m] (iscal (Z.of_nat i)) eq_refl)) as [o' [F1 _]]; [discriminate|repeat constructor; [apply HB|apply HB|apply HV|apply HV]|].
  exists o'. split; [exact F1|]. cbn [tree_mapn] in F1. apply (proj2 (set_each_tmap _)) in F1. change (obj_at_set (iscal (Z.of_nat i)) o v = o') in F1. subst o'. split; assumption.
Qed.
Lemma upd_mask (n mu : nat) : n < mu -> Jax.upd (map (fun i => i <? n) (seq 0 mu)) n true = map (fun i => i <? S n) (seq 0 mu).
Proof.
  intros H. apply (nth_ext_len _ _ false); [now rewrite Jax.upd_length, !map_length|]. intros i Hi. rewrite Jax.upd_length, map_length, seq_length in Hi.
  rewrite Jax.nth_upd, map_length, seq_length. rewrite !(nth_map_any _ (seq 0 mu) i 0) by (now rewrite seq_length). rewrite seq_nth by exact Hi. cbn [Nat.add].
  destruct (Nat.eqb_spec n i), (Nat.ltb_spec n mu); cbn [andb]; try lia; destruct (Nat.ltb_spec i n), (Nat.ltb_spec i (S n)); try reflexivity; lia.
Qed.
Lemma write_sim mu m b ups i k v r : usim mu m b ups -> repr m k v r ->
  exists b', write_update_o b i k v = Some b' /\ usim mu m b' (write_update mu ups i r).
Proof.
  intros [U1 U2 U3 U4 U5 U6 U7 U8] (R1 & R2 & R3). destruct (u_set_spec mu m (u_vals b) (u_pos b) v U7 R2) as [vs [E1 [E2 E3]]].
  unfold write_update_o. rewrite E1. eexists. split; [reflexivity|]. unfold write_update. destruct (Nat.ltb_spec (length ups) mu) as [Hl|Hl].
  - assert (HP : u_pos b = length ups) by lia. rewrite HP in *.
    constructor; cbn [u_idx u_keys u_vals u_mask u_pos]; rewrite ?app_length; cbn [length].
    + lia.
    + now rewrite Jax.upd_length.
    + rewrite U3, upd_mask by exact Hl. now replace (length ups + 1) with (S (length ups)) by lia.
    + intros j Hj. rewrite Jax.nth_upd, U2. destruct (Nat.eqb_spec (length ups) j) as [E|E]; cbn [andb].
      * subst j. destruct (Nat.ltb_spec (length ups) mu); [|lia]. rewrite app_nth2, Nat.sub_diag by lia. reflexivity.
      * rewrite app_nth1 by lia. apply U4. lia.
    + now rewrite Jax.upd_length.
    + intros j Hj. rewrite Jax.nth_upd. destruct (_ && _); [exact R1|auto].
    + exact E2.
    + intros j Hj. rewrite E3, !Jax.nth_upd, U5, grid_length. destruct (Nat.eqb_spec (length ups) j) as [E|E]; cbn [andb].
      * subst j. destruct (Nat.ltb_spec (length ups) mu); [|lia]. rewrite app_nth2, Nat.sub_diag by lia. exact R3.
      * rewrite app_nth1 by lia. apply U8. lia.
  - constructor; cbn [u_idx u_keys u_vals u_mask u_pos].
    + lia.
    + now rewrite Jax.upd_length.
    + rewrite Jax.upd_oob; [exact U3|]. rewrite U3, map_length, seq_length. lia.
    + intros j Hj. rewrite Jax.upd_oob by lia. auto.
    + now rewrite Jax.upd_length.
    + intros j Hj. rewrite Jax.upd_oob by lia. auto.
    + exact E2.
    + intros j Hj. rewrite E3, !Jax.upd_oob by (rewrite ?grid_length; lia). auto.
Qed.
Lemma init_sim mu h n : 0 < mu -> batched c [n; batch_size h] (val_store h) -> exists b, init_buffers mu h = Some b /\ usim mu (batch_size h) b [].
Proof.
  intros Hm [HC HB]. unfold init_buffers. set (m := batch_size h) in *.
  assert (HR : rowwise1 (fun leaf => match ashape leaf with [] => None | _ :: s => Some (full (adtype leaf) (mu :: s) 0%Z) end) [n; m] [mu; m] (fun _ => None) nofill).
  { split; [intros; exact I|]. intros a J Hs Hw. rewrite Hs. cbn [app]. eexists. split; [reflexivity|]. split; [reflexivity|]. split; [reflexivity|].
    split; [unfold wfa, full; cbn [adata ashape]; apply repeat_length|]. intros b t Hb Ht. unfold nofill, get, full. cbn [ashape adata]. apply nth_repeat. }
  destruct (lift_one _ _ _ _ _ c _ HR HC HB) as [v [E1 [E2 [E3 _]]]]. rewrite E1. eexists. split; [reflexivity|].
  constructor; cbn [u_idx u_keys u_vals u_mask u_pos length]; try (intros; lia).
  - now rewrite repeat_length.
  - clear. generalize 0 at 2. induction mu as [|k IH]; intros s; [reflexivity|]. cbn [repeat seq map]. f_equal. apply IH.
  - now rewrite repeat_length.
  - intros j Hj. rewrite (nth_indep _ _ (repeat (Fin 0) m)) by (now rewrite repeat_length). rewrite nth_repeat. apply repeat_length.
  - split; assumption.
Qed.

(** ** The sift-down loop *)
Section Sift.
Variables (n m mu : nat) (ks : list (list key)) (vs : obj) (rs : list (list (key * obj))).
Hypothesis HR : repr2 n m ks vs rs.
Hypothesis Hn : n <> 0.
Hypothesis Hm : 1 <= m.
Definition dsim (s : dstate) (t : sstate) : Prop :=
  let '(i, ck, cv, b) := s in let '(j, cur, ups) := t in i = j /\ repr m ck cv cur /\ usim mu m b ups.
Lemma krow_keys i : krow ks i = map fst (row_at rs i).
Proof. destruct (repr2_row c _ _ _ _ _ i HR Hn) as [r [_ R]]. symmetry. exact (repr_fst _ _ _ _ _ R). Qed.
Lemma sift_cond_sim s t : dsim s t -> sift_cond_o ks s = sift_cond rs t.
Proof.
  destruct s as [[[i ck] cv] b], t as [[j cur] ups]. intros [-> [H _]]. unfold sift_cond_o, sift_cond, first_key, last_key. rewrite <- !krow_keys. now rewrite (repr_fst _ _ _ _ _ H).
Qed.
Lemma sift_body_sim s t : dsim s t -> exists s', sift_body_o c cat ks vs s = Some s' /\ dsim s' (sift_body mu rs t).
Proof.
  destruct s as [[[i ck] cv] b], t as [[j cur] ups]. intros [-> [H HU]]. unfold sift_body_o, sift_body.
  destruct (repr2_row c _ _ _ _ _ (lc j) HR Hn) as [lv [L1 L2]]. destruct (repr2_row c _ _ _ _ _ (rc j) HR Hn) as [rv [R1 R2]]. rewrite L1, R1.
  unfold last_key at 1 2. rewrite <- !krow_keys. destruct (if kgt _ _ then _ else _) as [x y].
  destruct (msplit_spec c cat HN HS _ _ _ _ _ _ _ _ L2 R2 ltac:(lia)) as (ky & vy & kx & vx & M1 & M2 & M3). rewrite M1.
  destruct (msplit (row_at rs (lc j)) (row_at rs (rc j))) as [py px]. cbn [fst snd] in M2, M3.
  destruct (msplit_spec c cat HN HS _ _ _ _ _ _ _ _ H M2 ltac:(lia)) as (kc & vc & ky' & vy' & N1 & N2 & N3). rewrite N1.
  destruct (msplit cur py) as [pc py']. cbn [fst snd] in N2, N3.
  destruct (write_sim mu m b ups j kc vc pc HU N2) as [b1 [W1 W2]]. rewrite W1.
  destruct (write_sim mu m b1 _ x kx vx px W2 M3) as [b2 [X1 X2]]. rewrite X1. eexists. split; [reflexivity|]. split; [reflexivity|]. split; assumption.
Qed.
Lemma while_sim f : forall s t t', dsim s t -> while f (sift_cond rs) (sift_body mu rs) t = Some t' ->
  exists s', while_o f (sift_cond_o ks) (sift_body_o c cat ks vs) s = Some s' /\ dsim s' t'.
Proof.
  induction f as [|f IH]; intros s t t' HD HW; cbn [while while_o] in *; rewrite (sift_cond_sim s t HD); destruct (sift_cond rs t).
  - discriminate.
  - assert (t' = t) by congruence. subst. eauto.
  - destruct (sift_body_sim s t HD) as [s1 [E1 E2]]. rewrite E1. exact (IH _ _ _ E2 HW).
  - assert (t' = t) by congruence. subst. eauto.
Qed.
End Sift.

(** the masked buffers scattered = the updates scattered *)
Lemma fold_oob (l : list (nat * list (key * obj))) : forall x : list (list (key * obj)), (forall p, In p l -> length x <= fst p) -> scatter_rows x l = x.
Proof.
  unfold scatter_rows. induction l as [|p l IH]; intros x H; cbn [fold_left]; [reflexivity|]. rewrite Jax.upd_oob by (apply H; now left). apply IH. intros q Hq. apply H. now right.
Qed.
Lemma scatter_app (x : list (list (key * obj))) a b : scatter_rows x (a ++ b) = scatter_rows (scatter_rows x a) b.
Proof. unfold scatter_rows. apply fold_left_app. Qed.
Lemma scatter_length (x : list (list (key * obj))) a : length (scatter_rows x a) = length x.
Proof. apply fold_upd_length. Qed.
Lemma masked_scatter n m mu b ups rs : usim mu m b ups -> length rs = n ->
  scatter_rows rs (combine (map (fun p : bool * nat => if fst p then snd p else n) (combine (u_mask b) (u_idx b))) (zip2 (u_keys b) (grid mu m (u_vals b)))) = scatter_rows rs ups.
Proof.
  intros [U1 U2 U3 U4 U5 U6 U7 U8] HL. set (idx := map _ _). set (z := zip2 _ _). set (k := length ups) in *.
  assert (LM : length (u_mask b) = mu) by (rewrite U3, map_length, seq_length; reflexivity).
  assert (LI : length idx = mu) by (unfold idx; rewrite map_length, combine_length; lia).
  assert (LZ : length z = mu) by (unfold z; rewrite zip2_length; rewrite ?grid_length; exact U5).
  assert (NI : forall j, j < mu -> nth j idx 0 = if j <? k then nth j (u_idx b) 0 else n).
  { intros j Hj. unfold idx. rewrite (nth_map_any _ (combine (u_mask b) (u_idx b)) j (false, 0)) by (rewrite combine_length; lia). rewrite combine_nth by lia. cbn [fst snd]. rewrite U3.
    rewrite (nth_map_any _ (seq 0 mu) j 0) by (now rewrite seq_length). rewrite seq_nth by exact Hj. reflexivity. }
  assert (NZ : forall j, nth j z [] = combine (nth j (u_keys b) []) (nth j (grid mu m (u_vals b)) [])) by (intros j; unfold z; apply zip2_nth; now rewrite grid_length).
  assert (LC : length (combine idx z) = mu) by (rewrite combine_length; lia).
  rewrite <- (firstn_skipn k (combine idx z)), scatter_app.
  assert (E1 : firstn k (combine idx z) = ups).
  { apply (nth_ext_len _ _ (0, [])); [rewrite firstn_length; unfold k; lia|]. intros j Hj. rewrite firstn_length in Hj. rewrite nth_firstn by lia. rewrite combine_nth by lia. rewrite NI, NZ by lia.
    destruct (Nat.ltb_spec j k); [|lia]. rewrite U4, U8 by exact H. now destruct (nth j ups (0, [])). }
  rewrite E1. apply fold_oob. intros p Hp. rewrite scatter_length, HL. apply (In_nth _ _ (0, [])) in Hp. destruct Hp as (j & Hj & <-). rewrite skipn_length in Hj. rewrite nth_skipn, combine_nth by lia. cbn [fst].
  rewrite NI by lia. destruct (Nat.ltb_spec (k + j) k); lia.
Qed.

(** ** delete_mins *)
Lemma delete_heapify_sim h H H' : sim h H -> hsize H < HeapModel.branch H -> delete_heapify H = Some H' -> exists h', delete_heapify_o c cat h = Some h' /\ sim h' H'.
Proof.
  intros HSm Hlast HD. pose proof HSm as [A1 A2 A3 A4 A5 A6 A7 A8]. unfold delete_heapify in HD. unfold delete_heapify_o. rewrite A3. rewrite <- A2 in *. set (n := branch_size h) in *. set (m := batch_size h) in *.
  destruct (repr2_row c _ _ _ _ _ (hsize H) A7 ltac:(lia)) as [lv [L1 L2]]. rewrite L1.
  destruct (msplit_spec c cat HN HS _ _ _ _ _ _ _ _ L2 A8 ltac:(lia)) as (rk & rv & kb & vb & M1 & M2 & M3). rewrite M1.
  destruct (msplit (row_at (HeapModel.rows H) (hsize H)) (buf H)) as [root buf']. cbn [fst snd] in M2, M3.
  pose proof (repr2_clear c n m _ _ _ (hsize H) A7 Hlast) as C1. pose proof (repr2_set c n m _ _ _ 0 rk rv root C1 M2) as C2. change (Z.of_nat 0) with 0%Z in C2.
  set (ks := Jax.upd (Jax.upd (key_store h) _ _) 0 rk) in *. set (vs := obj_at_set (iscal 0) (val_store h) rv) in *. set (rs := Jax.upd (Jax.upd (HeapModel.rows H) _ _) 0 root) in *.
  set (mu := max_depth n * 2 + 1) in *.
  destruct (init_sim mu (set_stores h ks vs) n) as [b0 [I1 I2]]; [unfold mu; lia|apply C2|]. rewrite I1. change (batch_size (set_stores h ks vs)) with m in I2.
  destruct (while n (sift_cond rs) (sift_body mu rs) (0, root, [])) as [[[i cur] ups]|] eqn:EW; [|discriminate].
  destruct (while_sim n m mu ks vs rs C2 ltac:(lia) A5 n (0, rk, rv, b0) (0, root, []) (i, cur, ups)) as [[[[i' ck] cv] b] [W1 [W2 [W3 W4]]]]; [split; [reflexivity|]; split; assumption|exact EW|].
  rewrite W1. subst i'. destruct (write_sim mu m b ups i ck cv cur W4 W3) as [b' [X1 X2]]. rewrite X1.
  assert (EH : H' = MkHeap (scatter_rows rs (write_update mu ups i cur)) buf' (hsize H - 1) (bsize H) (HeapModel.branch H) (HeapModel.batch H)) by congruence.
  set (idx := map (fun p : bool * nat => if fst p then snd p else n) (combine (u_mask b') (u_idx b'))).
  pose proof X2 as [U1 U2 U3 U4 U5 U6 U7 U8].
  assert (RB : repr2 mu m (u_keys b') (u_vals b') (zip2 (u_keys b') (grid mu m (u_vals b')))) by (split; [exact U5|]; split; [exact U6|]; split; [exact U7|reflexivity]).
  assert (LI : length idx = mu) by (unfold idx; rewrite map_length, combine_length, U3, map_length, seq_length; lia).
  destruct (repr2_scatter c n m mu idx _ _ _ _ _ _ C2 RB LI) as [vs' [S1 S2]]. rewrite S1. eexists. split; [reflexivity|]. subst H'.
  assert (ES := masked_scatter n m mu b' _ rs X2 (repr2_length c n m _ _ _ C2)). fold idx in ES. rewrite ES in S2.
  constructor; cbn [batch_size branch_size heap_size buffer_size key_store val_store key_buffer val_buffer HeapModel.batch HeapModel.branch hsize bsize HeapModel.rows buf]; try assumption; try reflexivity.
Qed.
Lemma make_empty_sim h H : sim h H -> exists h', make_empty_o c cat h = Some h' /\ sim h' (make_empty H).
Proof.
  intros HSm. pose proof HSm as [A1 A2 A3 A4 A5 A6 A7 A8]. unfold make_empty_o, make_empty. destruct (repr2_row c _ _ _ _ _ 0 A7 ltac:(lia)) as [r [R1 R2]]. rewrite R1.
  assert (R3 : repr (batch_size h) (repeat PInf (length (krow (key_store h) 0))) r (clear_keys (row_at (HeapModel.rows H) 0))).
  { destruct R2 as (Q1 & Q2 & Q3). split; [now rewrite repeat_length|]. split; [exact Q2|]. rewrite <- Q3. symmetry. apply clear_combine. now rewrite rows_length. }
  destruct (msplit_spec c cat HN HS _ _ _ _ _ _ _ _ R3 A8 ltac:(lia)) as (rk & rv & kb & vb & M1 & M2 & M3). rewrite M1.
  destruct (msplit (clear_keys (row_at (HeapModel.rows H) 0)) (buf H)) as [root buf']. cbn [fst snd] in M2, M3. eexists. split; [reflexivity|].
  constructor; cbn [batch_size branch_size heap_size buffer_size key_store val_store key_buffer val_buffer HeapModel.batch HeapModel.branch hsize bsize HeapModel.rows buf]; try assumption; try reflexivity.
  change 0%Z with (Z.of_nat 0). now apply repr2_set.
Qed.
Lemma delete_mins_sim h H H' out : sim h H -> hsize H < HeapModel.branch H -> delete_mins H = Some (H', out) ->
  exists h' mk mv, delete_mins_o c cat h = Some (h', mk, mv) /\ sim h' H' /\ repr (batch_size h) mk mv out.
Proof.
  intros HSm Hl HD. pose proof HSm as [A1 A2 A3 A4 A5 A6 A7 A8]. unfold delete_mins in HD. unfold delete_mins_o. rewrite A3. destruct (repr2_row c _ _ _ _ _ 0 A7 ltac:(lia)) as [r [R1 R2]]. rewrite R1.
  destruct (hsize H =? 0).
  - destruct (make_empty_sim h H HSm) as [h' [E1 E2]]. rewrite E1. assert (H' = make_empty H) by congruence. assert (out = row_at (HeapModel.rows H) 0) by congruence. subst. do 3 eexists. split; [reflexivity|]. split; assumption.
  - destruct (delete_heapify H) as [H1|] eqn:EH; [|discriminate]. assert (H' = H1) by congruence. assert (out = row_at (HeapModel.rows H) 0) by congruence. subst.
    destruct (delete_heapify_sim h H H1 HSm Hl EH) as [h' [E1 E2]]. rewrite E1. do 3 eexists. split; [reflexivity|]. split; assumption.
Qed.
(** ** build *)
Lemma combine_repeat {A B} (a : A) (b : B) n : combine (repeat a n) (repeat b n) = repeat (a, b) n.
Proof. induction n as [|n IH]; [reflexivity|]. cbn [repeat combine]. now rewrite IH. Qed.
Lemma zip2_repeat (k : list key) (v : list obj) n : zip2 (repeat k n) (repeat v n) = repeat (combine k v) n.
Proof. unfold zip2. rewrite combine_repeat. induction n as [|n IH]; [reflexivity|]. cbn [repeat map fst snd]. now rewrite IH. Qed.
Lemma default_grid n m : grid n m (default_obj [n; m] c) = repeat (repeat (default_obj [] c) m) n.
Proof.
  apply (list_eq _ _ n); [apply grid_length|apply repeat_length|]. intros i d Hi. rewrite grid_nth by exact Hi. rewrite (nth_indep _ d (repeat (default_obj [] c) m)) by (now rewrite repeat_length). rewrite nth_repeat.
  apply (list_eq _ _ m); [now rewrite map_length, seq_length|apply repeat_length|]. intros j d0 Hj. rewrite (nth_map_any _ (seq 0 m) j 0) by (now rewrite seq_length). rewrite seq_nth by exact Hj.
  rewrite (nth_indep _ d0 (default_obj [] c)) by (now rewrite repeat_length). rewrite nth_repeat. apply C41_default_elem. apply inb_cons; split; [exact Hi|apply inb_cons; split; [lia|apply inb_nil]].
Qed.
Lemma build_sim total B : 1 <= B -> 1 <= total -> sim (build_o c total B) (HeapModel.build (default_obj [] c) total B).
Proof.
  intros HB Ht. unfold build_o, HeapModel.build. set (br := if total mod B =? 0 then total / B else total / B + 1).
  assert (Hbr : 1 <= br).
  { unfold br. pose proof (Nat.div_mod total B ltac:(lia)). destruct (Nat.eqb_spec (total mod B) 0); [|lia]. destruct (total / B); [lia|lia]. }
  constructor; cbn [batch_size branch_size heap_size buffer_size key_store val_store key_buffer val_buffer HeapModel.batch HeapModel.branch hsize bsize HeapModel.rows buf]; try lia; try reflexivity.
  - split; [apply repeat_length|]. split; [|split; [apply default_both|]].
    + intros i Hi. rewrite (nth_indep _ _ (repeat PInf B)) by (now rewrite repeat_length). rewrite nth_repeat. apply repeat_length.
    + rewrite default_grid, zip2_repeat, combine_repeat. reflexivity.
  - destruct (C45_default_rows c (B - 1)) as [D1 D2]. split; [apply repeat_length|]. split; [exact D1|]. rewrite D2. apply combine_repeat.
Qed.
End S.
