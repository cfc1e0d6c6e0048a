(** * HeapSim.v — the priority queue on arrays simulates the one on (key, value) pairs. *)
From Coq Require Import String.
From Verif Require Import KeyModel SortProofs MergeModel MergeProofs HeapModel HeapProofs.
From Verif Require Import Jax StructModel ArrayModel ArrayFacts ShapeModel PropShape RowsModel RowsLift PropRows PropRows2 PropRows3.
From Verif Require Import SoaModel PropSoa PropSoa2 HeapArrays HeapRows.

Definition zip2 (ks : list (list key)) (g : list (list obj)) : list (list (key * obj)) := map (fun p => combine (fst p) (snd p)) (combine ks g).
Lemma zip2_length ks g : length ks = length g -> length (zip2 ks g) = length ks.
Proof. intros H. unfold zip2. rewrite map_length, combine_length. lia. Qed.
Lemma zip2_nth ks g i : length ks = length g -> nth i (zip2 ks g) [] = combine (nth i ks []) (nth i g []).
Proof.
  intros H. destruct (Nat.lt_ge_cases i (length ks)) as [Hi|Hi].
  - unfold zip2. rewrite (nth_map_any _ (combine ks g) i ([], [])) by (rewrite combine_length; lia). rewrite combine_nth by exact H. reflexivity.
  - rewrite !nth_overflow; [reflexivity| | |]; rewrite ?zip2_length; lia.
Qed.
Lemma zip2_upd ks g i k v : length ks = length g -> zip2 (Jax.upd ks i k) (Jax.upd g i v) = Jax.upd (zip2 ks g) i (combine k v).
Proof.
  intros H. apply (nth_ext_len _ _ []); [rewrite Jax.upd_length, !zip2_length by (now rewrite ?Jax.upd_length); apply Jax.upd_length|].
  intros j Hj. rewrite zip2_nth by (now rewrite !Jax.upd_length). rewrite !Jax.nth_upd, zip2_length, zip2_nth, <- H by exact H. destruct (_ && _); reflexivity.
Qed.
Lemma zip2_fold idx : forall ks g kk gg, length ks = length g -> length kk = length gg -> length kk = length idx ->
  zip2 (fold_left (fun acc p => Jax.upd acc (fst p) (snd p)) (combine idx kk) ks) (fold_left (fun acc p => Jax.upd acc (fst p) (snd p)) (combine idx gg) g) =
  scatter_rows (zip2 ks g) (combine idx (zip2 kk gg)).
Proof.
  unfold scatter_rows. induction idx as [|i idx IH]; intros ks g [|k kk] [|v gg] H1 H2 H3; cbn [length] in *; try lia; [reflexivity|].
  change (zip2 (k :: kk) (v :: gg)) with (combine k v :: zip2 kk gg). cbn [combine fold_left fst snd]. rewrite IH by (rewrite ?Jax.upd_length; lia). now rewrite zip2_upd.
Qed.
Lemma jsets_upd {A} (is : list nat) : forall (l : list A) vs, jsets l (map Z.of_nat is) vs = fold_left (fun acc p => Jax.upd acc (fst p) (snd p)) (combine is vs) l.
Proof.
  induction is as [|i is IH]; intros l vs; [reflexivity|]. destruct vs as [|v vs]; [reflexivity|]. cbn [map combine fold_left fst snd].
  change (jsets l (Z.of_nat i :: map Z.of_nat is) (v :: vs)) with (jsets (jset l (Z.of_nat i) v) (map Z.of_nat is) vs). rewrite IH. f_equal.
  destruct (Nat.lt_ge_cases i (length l)); [rewrite jset_in, Nat2Z.id by lia; reflexivity|rewrite jset_oob, Jax.upd_oob by lia; reflexivity].
Qed.
Lemma nfin_keys (l : list (key * obj)) : nfin l = kfin (map fst l).
Proof. unfold nfin, kfin. induction l as [|[k v] l IH]; [reflexivity|]. cbn [filter map fst]. destruct (finite k); cbn [length]; congruence. Qed.
Lemma clear_combine (k : list key) : forall (v : list obj), length k = length v -> clear_keys (combine k v) = combine (repeat PInf (length k)) v.
Proof. induction k as [|x k IH]; intros [|y v] H; cbn in *; try discriminate; [reflexivity|]. f_equal. apply IH. lia. Qed.

Section S.
Variables (c : class) (cat : bool).
Hypothesis HN : c <> CNil.
Hypothesis HS : solid c.
Notation repr := (repr c).

Definition repr2 (n m : nat) (ks : list (list key)) (vs : obj) (rs : list (list (key * obj))) : Prop :=
  length ks = n /\ (forall i, i < n -> length (nth i ks []) = m) /\ batched c [n; m] vs /\ zip2 ks (grid n m vs) = rs.
Lemma repr2_length n m ks vs rs : repr2 n m ks vs rs -> length rs = n.
Proof. intros (H1 & _ & _ & <-). rewrite zip2_length; [exact H1|now rewrite grid_length]. Qed.
Lemma repr2_nth n m ks vs rs i : repr2 n m ks vs rs -> nth i rs [] = combine (nth i ks []) (nth i (grid n m vs) []).
Proof. intros (H1 & _ & _ & <-). apply zip2_nth. now rewrite grid_length. Qed.
Lemma repr2_row n m ks vs rs i : repr2 n m ks vs rs -> n <> 0 ->
  exists r, o_row i vs = Some r /\ repr m (krow ks i) r (row_at rs i).
Proof.
  intros H Hn. pose proof H as (H1 & H2 & H3 & _). destruct (o_row_spec c n m vs i H3 Hn) as [r [E1 [E2 E3]]]. exists r. split; [exact E1|].
  unfold krow, row_at. rewrite (repr2_length _ _ _ _ _ H), H1. split; [apply H2; lia|]. split; [exact E2|]. rewrite E3. symmetry. now apply (repr2_nth n m).
Qed.
Lemma repr2_set n m ks vs rs i k v l : repr2 n m ks vs rs -> repr m k v l -> repr2 n m (Jax.upd ks i k) (obj_at_set (iscal (Z.of_nat i)) vs v) (Jax.upd rs i l).
Proof.
  intros (H1 & H2 & H3 & H4) (L1 & L2 & L3). destruct (o_set_spec c n m vs i v H3 L2) as [E1 E2]. split; [now rewrite Jax.upd_length|]. split.
  - intros j Hj. rewrite Jax.nth_upd. destruct (_ && _); auto.
  - split; [exact E1|]. rewrite E2, zip2_upd by (now rewrite grid_length). congruence.
Qed.
Lemma repr2_clear n m ks vs rs i : repr2 n m ks vs rs -> i < n ->
  repr2 n m (Jax.upd ks i (repeat PInf (length (krow ks i)))) vs (Jax.upd rs i (clear_keys (row_at rs i))).
Proof.
  intros H Hi. pose proof H as (H1 & H2 & H3 & H4). unfold krow, row_at. rewrite (repr2_length _ _ _ _ _ H), H1. replace (Nat.min i (n - 1)) with i by lia.
  split; [now rewrite Jax.upd_length|]. split.
  - intros j Hj. rewrite Jax.nth_upd. destruct (_ && _); [rewrite repeat_length|]; auto.
  - split; [exact H3|]. rewrite (repr2_nth _ _ _ _ _ i H). rewrite clear_combine.
    +
      rewrite <- H4. rewrite <- (zip2_upd _ _ i) by (now rewrite grid_length). f_equal. apply (nth_ext_len _ _ []); [now rewrite Jax.upd_length|].
      intros j Hj. rewrite Jax.nth_upd. destruct (Nat.eqb_spec i j); [subst; destruct (_ <? _); reflexivity|reflexivity].
    + rewrite H2, grid_nth, map_length, seq_length by exact Hi. reflexivity.
Qed.
Lemma o_scatter_spec n m k idx vs uv : batched c [n; m] vs -> batched c [k; m] uv -> length idx = k ->
  exists vs', o_scatter_rows idx vs uv = Some vs' /\ batched c [n; m] vs' /\
    grid n m vs' = fold_left (fun acc p => Jax.upd acc (fst p) (snd p)) (combine idx (grid k m uv)) (grid n m vs).
Proof.
  intros [HC HB] [HCu HBu] HL. unfold o_scatter_rows.
  pose proof (rowwise_at_set n [m] (ivec (map Z.of_nat idx)) ltac:(unfold wfa, ivec, prod; cbn [ashape adata fold_right]; lia)) as HR. cbn [ivec ashape app] in HR. rewrite map_length, HL in HR.
  assert (EXT : forall dt I l, row_args dt I l [[n; m]; [k; m]] ->
            two (fun a v => a_at_set (ivec (map Z.of_nat idx)) v a) l = on_two (fun a u => a_scatter_rows (map Z.of_nat idx) u a) l).
  { intros dt J l HA. inversion HA as [|a B0 l1 Bs1 [A1 [A2 A3]] HA1]; subst. inversion HA1 as [|w V0 l2 Bs2 [V1 [V2 V3]] HA2]; subst. inversion HA2; subst. cbn [two on_two].
    unfold a_scatter_rows. rewrite A2, V2. cbn [app]. rewrite map_length, Nat.eqb_refl, shape_eqb_refl. cbn [andb]. f_equal. f_equal. rewrite map_map. apply map_ext. intros z.
    destruct (Z.ltb_spec (Z.of_nat z) 0); [lia|reflexivity]. }
  destruct (lift_many _ _ _ _ _ c [vs; uv] (rowwise_ext _ _ _ _ _ _ EXT HR)) as [o [E1 [E2 [E3 E4]]]]; [discriminate|repeat constructor; assumption|].
  exists o. split; [exact E1|]. split; [split; assumption|]. rewrite <- jsets_upd.
  apply (list_eq _ _ n); [apply grid_length|now rewrite jsets_length, grid_length|]. intros i d Hi. rewrite grid_nth by exact Hi.
  rewrite jsets_last by (rewrite ?map_length, ?grid_length; lia). rewrite grid_length.
  destruct (last_hit n (map Z.of_nat idx) i) as [j|] eqn:E.
  - pose proof (last_hit_lt _ _ _ _ E) as Hj. rewrite map_length, HL in Hj. rewrite grid_nth by exact Hj. apply map_ext_in. intros q Hq. apply in_seq in Hq.
    rewrite E4 by (apply inb_cons; split; [exact Hi|apply inb_cons; split; [lia|apply inb_nil]]). unfold set_src. cbn [ivec adata ashape hd tl]. rewrite E. cbn [nth unravel].
    f_equal. unfold prod. cbn [fold_right app]. now rewrite Nat.div_1_r.
  - rewrite grid_nth by exact Hi. apply map_ext_in. intros q Hq. apply in_seq in Hq.
    rewrite E4 by (apply inb_cons; split; [exact Hi|apply inb_cons; split; [lia|apply inb_nil]]). unfold set_src. cbn [ivec adata ashape hd tl]. rewrite E. reflexivity.
Qed.
Lemma fold_upd_length {A} (l : list (nat * A)) : forall (x : list A), length (fold_left (fun acc p => Jax.upd acc (fst p) (snd p)) l x) = length x.
Proof. induction l as [|p l IH]; intros x; cbn [fold_left]; [reflexivity|]. now rewrite IH, Jax.upd_length. Qed.
Lemma fold_upd_rows (l : list (nat * list key)) m n : forall x, length x = n -> (forall p, In p l -> length (snd p) = m) -> (forall i, i < n -> length (nth i x []) = m) ->
  forall i, i < n -> length (nth i (fold_left (fun acc p => Jax.upd acc (fst p) (snd p)) l x) []) = m.
Proof.
  induction l as [|p l IH]; intros x HL HP HX i Hi; cbn [fold_left]; [auto|]. apply IH; [now rewrite Jax.upd_length|intros q Hq; apply HP; now right| |exact Hi].
  intros j Hj. rewrite Jax.nth_upd. destruct (_ && _); [apply HP; now left|auto].
Qed.
Lemma repr2_scatter n m k idx ks vs rs kk uv us : repr2 n m ks vs rs -> repr2 k m kk uv us -> length idx = k ->
  exists vs', o_scatter_rows idx vs uv = Some vs' /\ repr2 n m (scatter_keys ks idx kk) vs' (scatter_rows rs (combine idx us)).
Proof.
  intros (H1 & H2 & H3 & H4) (K1 & K2 & K3 & K4) HL. destruct (o_scatter_spec n m k idx vs uv H3 K3 HL) as [vs' [E1 [E2 E3]]]. exists vs'. split; [exact E1|].
  split; [unfold scatter_keys; now rewrite fold_upd_length|]. split; [|split; [exact E2|]].
  - unfold scatter_keys. apply fold_upd_rows; [exact H1| |exact H2]. intros [i r] Hp. apply in_combine_r in Hp. cbn [snd]. apply (In_nth _ _ []) in Hp. destruct Hp as (j & Hj & <-). apply K2. lia.
  - rewrite E3. unfold scatter_keys. rewrite zip2_fold by (rewrite ?grid_length; lia). now rewrite H4, K4.
Qed.
End S.
