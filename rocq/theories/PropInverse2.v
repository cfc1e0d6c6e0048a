(** * PropInverse2.v — property C60 (second part): reshape, expand/squeeze, split/concat,
    stack/index, pad/slice, set/get, take. *)
From Coq Require Import String.
From Verif Require Import Jax StructModel ArrayModel ArrayFacts ShapeModel PropShape RowsModel RowsLift PropRows PropRows2 PropRows3 EqModel RowsModel2 PropRows5 PropInverse.

(** ** expand_dims and squeeze *)
Theorem C60_squeeze_expand : forall c B o k, batched c B o -> k <= length B -> obind (obj_expand_dims (Z.of_nat k) o) (obj_squeeze (Z.of_nat k)) = Some o.
Proof.
  intros c B o k HB Hk. destruct (C41_expand_dims c B o k HB Hk) as (o1 & E1 & B1 & F1). destruct (C41_squeeze c B o1 k B1 Hk) as (o2 & E2 & B2 & F2). rewrite E1. cbn [obind]. rewrite E2. f_equal.
  apply (ext c B); [exact B2|exact HB|]. intros b Hb. now rewrite (F2 b Hb), (F1 b Hb).
Qed.
Theorem C60_expand_squeeze : forall c B o k, batched c (insert k 1 B) o -> k <= length B -> obind (obj_squeeze (Z.of_nat k) o) (obj_expand_dims (Z.of_nat k)) = Some o.
Proof.
  intros c B o k HB Hk. destruct (C41_squeeze c B o k HB Hk) as (o1 & E1 & B1 & F1). destruct (C41_expand_dims c B o1 k B1 Hk) as (o2 & E2 & B2 & F2). rewrite E1. cbn [obind]. rewrite E2. f_equal.
  apply (ext c _ _ _ B2 HB). intros b Hb. destruct (inb_insert_inv k 1 b B Hk Hb) as [H1 H2]. pose proof (inb_length _ _ Hb) as LB. rewrite insert_length in LB. rewrite <- (insert_remove k b 0) by lia. replace (nth k b 0) with 0 by lia.
  now rewrite (F2 _ H2), (F1 _ H2).
Qed.

(** ** reshape and flatten *)
Theorem C60_reshape_reshape : forall c B B1 B2 o, c <> CNil -> solid c -> batched c B o -> B <> [] -> B1 <> [] -> prod B1 = prod B -> prod B2 = prod B ->
  exists o', obj_reshape c (map Z.of_nat B2) o = Some o' /\ obind (obj_reshape c (map Z.of_nat B1) o) (obj_reshape c (map Z.of_nat B2)) = Some o'.
Proof.
  intros c B B1 B2 o HN HS HB N0 N1 P1 P2. destruct (C41_reshape_succeeds c B o B1 HN HS HB N0 P1) as (o1 & E1 & K1 & F1). destruct (C41_reshape_succeeds c B1 o1 B2 HN HS K1 N1) as (o2 & E2 & K2 & F2); [congruence|].
  destruct (C41_reshape_succeeds c B o B2 HN HS HB N0 P2) as (o3 & E3 & K3 & F3). exists o3. split; [exact E3|]. rewrite E1. cbn [obind]. rewrite E2. f_equal. apply (ext c B2); [exact K2|exact K3|]. intros b Hb.
  pose proof (ravel_lt _ _ Hb) as HR. rewrite (F2 b Hb), (F3 b Hb). rewrite F1 by (apply unravel_inb; lia). now rewrite ravel_unravel by lia.
Qed.
Theorem C60_reshape_same : forall c B o, c <> CNil -> solid c -> batched c B o -> B <> [] -> obj_reshape c (map Z.of_nat B) o = Some o.
Proof.
  intros c B o HN HS HB N0. destruct (C41_reshape_succeeds c B o B HN HS HB N0 eq_refl) as (o1 & E1 & K1 & F1). rewrite E1. f_equal. apply (ext c B); [exact K1|exact HB|]. intros b Hb. now rewrite (F1 b Hb), unravel_ravel.
Qed.
Theorem C60_reshape_back : forall c B B1 o, c <> CNil -> solid c -> batched c B o -> B <> [] -> B1 <> [] -> prod B1 = prod B ->
  obind (obj_reshape c (map Z.of_nat B1) o) (obj_reshape c (map Z.of_nat B)) = Some o.
Proof. intros c B B1 o HN HS HB N0 N1 P1. destruct (C60_reshape_reshape c B B1 B o HN HS HB N0 N1 P1 eq_refl) as (o' & E1 & E2). rewrite E2, <- E1. now apply C60_reshape_same. Qed.
Theorem C60_unflatten : forall c B o, c <> CNil -> solid c -> batched c B o -> B <> [] -> obind (obj_flatten c o) (obj_reshape c (map Z.of_nat B)) = Some o.
Proof.
  intros c B o HN HS HB N0. destruct (C41_flatten c B o HN HS HB N0) as (o1 & E1 & K1 & F1). destruct (C41_reshape_succeeds c _ o1 B HN HS K1) as (o2 & E2 & K2 & F2); [discriminate|unfold prod; cbn; lia|]. rewrite E1. cbn [obind]. rewrite E2. f_equal.
  apply (ext c B); [exact K2|exact HB|]. intros b Hb. pose proof (ravel_lt _ _ Hb) as HR. rewrite (F2 b Hb). rewrite <- (F1 b Hb). f_equal. pose proof (unravel_ravel [prod B] [ravel B b]) as U. replace (ravel [prod B] [ravel B b]) with (ravel B b) in U by (cbn; lia). apply U. constructor; [exact HR|constructor].
Qed.

(** ** split and concat *)
(** the pieces of [split] follow each other and cover the axis *)
Definition contiguous (d : nat) (ps : list (nat * nat)) : Prop :=
  (forall i, i < length ps -> fst (nth i ps (0, 0)) = list_sum (firstn i (map snd ps))) /\ list_sum (map snd ps) = d.
Lemma list_sum_app l m : list_sum (l ++ m) = list_sum l + list_sum m.
Proof. induction l as [|x l IH]; [reflexivity|]. change (x + list_sum (l ++ m) = x + list_sum l + list_sum m). lia. Qed.
Lemma list_sum_repeat x n : list_sum (repeat x n) = n * x.
Proof. induction n as [|n IH]; [reflexivity|]. change (x + list_sum (repeat x n) = S n * x). lia. Qed.
Lemma firstn_repeat {X} (x : X) n k : firstn k (repeat x n) = repeat x (Nat.min k n).
Proof. revert k. induction n as [|n IH]; intros [|k]; try reflexivity. cbn. now rewrite IH. Qed.
Lemma cut_equal d n ps : cut_points d (inl n) = Some ps -> contiguous d ps /\ length ps = n.
Proof.
  unfold cut_points. destruct (Nat.eqb_spec n 0); [discriminate|]. cbn [orb]. destruct (Nat.eqb_spec (d mod n) 0) as [Em|]; [|discriminate]. cbn [negb]. intros E. assert (EQ : ps = map (fun i => (i * (d / n), d / n)) (seq 0 n)) by congruence. clear E.
  assert (HS : map snd ps = repeat (d / n) n). { rewrite EQ, map_map. cbn [snd]. generalize (d / n). intros e. clear. generalize 0. induction n as [|n IH]; intros s; [reflexivity|]. cbn [seq map repeat]. now rewrite IH. }
  assert (HL : length ps = n) by (rewrite EQ, map_length; apply seq_length). split; [split|exact HL].
  - intros i Hi. rewrite HS, firstn_repeat, list_sum_repeat. replace (Nat.min i n) with i by lia. rewrite EQ. rewrite (nth_map_any _ (seq 0 n) i 0) by (rewrite seq_length; lia). rewrite seq_nth by lia. reflexivity.
  - rewrite HS, list_sum_repeat. pose proof (Nat.div_mod d n ltac:(lia)). lia.
Qed.
Lemma cut_sorted_aux d : forall pts x, Sorted le (x :: pts) -> (forall y, In y pts -> y <= d) -> x <= d ->
  let ps := map (fun p => (fst p, snd p - fst p)) (combine (x :: pts) (pts ++ [d])) in
  length ps = S (length pts) /\ (forall i, i < length ps -> fst (nth i ps (0, 0)) = x + list_sum (firstn i (map snd ps))) /\ x + list_sum (map snd ps) = d.
Proof.
  induction pts as [|y pts IH]; intros x HS HB Hx ps.
  - cbn. split; [reflexivity|]. split; [|lia]. intros [|i] Hi; cbn in *; lia.
  - apply Sorted_inv in HS. destruct HS as [HS HR]. inversion HR as [|? ? Hxy]; subst. destruct (IH y HS (fun z Hz => HB z (or_intror Hz)) (HB y (or_introl eq_refl))) as (L & F & S).
    set (ps' := map (fun p => (fst p, snd p - fst p)) (combine (y :: pts) (pts ++ [d]))) in *. assert (EP : ps = (x, y - x) :: ps') by reflexivity. rewrite EP. cbn [length map snd]. split; [cbn [length] in L; lia|]. split.
    + intros [|i] Hi; [cbn; lia|]. cbn [nth firstn]. rewrite F by (cbn [length] in Hi; lia). change (y + list_sum (firstn i (map snd ps')) = x + ((y - x) + list_sum (firstn i (map snd ps')))). lia.
    + change (x + ((y - x) + list_sum (map snd ps')) = d). lia.
Qed.
Lemma sorted_min d cuts : Sorted le cuts -> Sorted le (map (Nat.min d) cuts).
Proof.
  induction cuts as [|x l IH]; intros H; [constructor|]. apply Sorted_inv in H. destruct H as [H1 H2]. cbn [map]. constructor; [now apply IH|]. destruct l as [|y l]; [constructor|]. inversion H2; subst. constructor. lia.
Qed.
Lemma cut_sorted d cuts ps : Sorted le cuts -> cut_points d (inr cuts) = Some ps -> contiguous d ps /\ length ps = S (length cuts).
Proof.
  intros HS E. unfold cut_points in E. assert (EQ : ps = map (fun p => (fst p, snd p - fst p)) (combine (0 :: map (Nat.min d) cuts) (map (Nat.min d) cuts ++ [d]))) by congruence. clear E.
  assert (HD : forall y, In y (map (Nat.min d) cuts) -> y <= d) by (intros y Hy; apply in_map_iff in Hy; destruct Hy as (z & <- & _); lia).
  destruct (cut_sorted_aux d (map (Nat.min d) cuts) 0) as (L & F & S); [constructor; [now apply sorted_min|]|exact HD|lia|].
  - destruct (map (Nat.min d) cuts); constructor. lia.
  - rewrite <- EQ in *. rewrite map_length in L. split; [split; assumption|exact L].
Qed.
(** cutting at increasing positions, or in equal parts, and joining again changes nothing *)
Theorem C60_concat_split : forall c B o k how l, c <> CNil -> solid c -> batched c B o -> k < length B ->
  match how with inl _ => True | inr cuts => Sorted le cuts end ->
  obj_split how (Z.of_nat k) o = Some l -> obj_concat c (Z.of_nat k) l = Some o.
Proof.
  intros c B o k how l HN HS HB Hk HO ES.
  assert (EC : exists ps, cut_points (nth k B 0) how = Some ps).
  { destruct (cut_points (nth k B 0) how) as [ps|] eqn:E; [eauto|]. exfalso. unfold obj_split in ES. destruct HB as [HC HB]. destruct (proj2 first_leaf_both c o B HN HS HC HB) as (a & J & EF & EA). rewrite EF in ES.
    unfold a_split, ndim in ES. rewrite EA, app_length, norm_axis_pos in ES by lia. rewrite app_nth1 in ES by lia. rewrite E in ES. discriminate. }
  destruct EC as (ps & EC). destruct (C41_split c B o k how ps HN HS HB Hk EC) as (l' & E1 & L1 & F1). rewrite ES in E1. injection E1 as <-.
  assert (CT : contiguous (nth k B 0) ps /\ 1 <= length ps).
  { destruct how as [n|cuts]; [destruct (cut_equal _ _ _ EC) as [H1 H2]; split; [exact H1|]; unfold cut_points in EC; destruct (Nat.eqb_spec n 0); [discriminate|lia]|destruct (cut_sorted _ _ _ HO EC) as [H1 H2]; split; [exact H1|lia]]. }
  destruct CT as ((CF & CS) & C1). destruct l as [|o1 [|o2 l]]; [cbn in L1; lia| |].
  - destruct ps as [|p [|? ?]]; cbn in L1; try lia. cbn [obj_concat]. f_equal. destruct (F1 0 ltac:(cbn; lia)) as [K1 K2]. cbn [nth] in K1, K2. specialize (CF 0 ltac:(cbn; lia)). cbn in CF, CS. rewrite Nat.add_0_r in CS. rewrite CS, upd_same in K1 by exact Hk.
    apply (ext c B); [exact K1|exact HB|]. intros b Hb. rewrite K2 by (rewrite CS, upd_same by exact Hk; exact Hb). rewrite CF. cbn [Nat.add]. rewrite upd_same; [reflexivity|rewrite (inb_length _ _ Hb); exact Hk].
  - set (os := o1 :: o2 :: l) in *.
    assert (FA : Forall2 (fun (o : obj) (n : nat) => batched c (upd k n B) o) os (map snd ps)).
    { clear - L1 F1. revert F1. generalize os L1. intros os0 HL F1. assert (HL2 : length os0 = length (map snd ps)) by (now rewrite map_length). clear HL.
      assert (G : forall i, i < length os0 -> batched c (upd k (nth i (map snd ps) 0) B) (nth i os0 ONil)).
      { intros i Hi. rewrite map_length in HL2. rewrite (nth_map_any snd ps i (0, 0)) by lia. apply F1. lia. }
      clear F1. revert HL2 G. generalize (map snd ps). induction os0 as [|x os0 IH]; intros [|n ns] HL G; cbn in HL; try lia; [constructor|]. constructor; [apply (G 0); cbn; lia|]. apply IH; [lia|]. intros i Hi. apply (G (S i)). cbn. lia. }
    destruct (C41_concat c B k (map snd ps) os HN HS) as (o' & E2 & B2 & F2 & F3); [rewrite map_length, <- L1; cbn; lia|exact Hk|exact FA|]. rewrite E2. f_equal. rewrite CS, upd_same in B2 by exact Hk. rewrite CS, upd_same in F3 by exact Hk.
    apply (ext c B); [exact B2|exact HB|]. intros b' Hb'. destruct (F3 b' Hb') as (j & b & Hj & Hb & ->). rewrite (F2 j b Hj Hb). rewrite L1 in Hj. rewrite (nth_map_any snd ps j (0, 0)) in Hb by exact Hj. destruct (F1 j Hj) as [_ K2]. rewrite (K2 b Hb). now rewrite CF.
Qed.
(** joining and cutting where the parts meet gives the parts back *)
Definition seams (ns : list nat) : list nat := map (fun i => list_sum (firstn i ns)) (seq 1 (length ns - 1)).
Lemma firstn_sum_le i ns : list_sum (firstn i ns) <= list_sum ns.
Proof. rewrite <- (firstn_skipn i ns) at 2. rewrite list_sum_app. lia. Qed.
Lemma list_eq_nth {X} (d : X) (l m : list X) : length l = length m -> (forall i, i < length l -> nth i l d = nth i m d) -> l = m.
Proof. intros HL H. now apply (nth_ext l m d d). Qed.
Lemma sum_S i ns : i < length ns -> list_sum (firstn (S i) ns) = list_sum (firstn i ns) + nth i ns 0.
Proof. revert i. induction ns as [|n ns IH]; intros [|i] Hi; cbn in Hi; try lia; [cbn; lia|]. cbn [firstn nth]. change (n + list_sum (firstn (S i) ns) = n + list_sum (firstn i ns) + nth i ns 0). rewrite IH by lia. lia. Qed.
Lemma seams_cut ns : ns <> [] -> cut_points (list_sum ns) (inr (seams ns)) = Some (map (fun i => (list_sum (firstn i ns), nth i ns 0)) (seq 0 (length ns))).
Proof.
  intros HN. assert (H0 : 0 < length ns) by (destruct ns; [congruence|cbn; lia]). unfold cut_points. f_equal.
  assert (EM : map (Nat.min (list_sum ns)) (seams ns) = seams ns). { unfold seams. rewrite map_map. apply map_ext. intros i. pose proof (firstn_sum_le i ns). lia. }
  rewrite EM. assert (LS : length (seams ns) = length ns - 1) by (unfold seams; rewrite map_length; apply seq_length).
  apply (list_eq_nth (0, 0)); [rewrite !map_length, combine_length, seq_length, app_length; cbn [length]; lia|]. intros i Hi. rewrite map_length, combine_length, app_length in Hi. cbn [length] in Hi.
  rewrite (nth_map_any _ (combine _ _) i (0, 0)) by (rewrite combine_length, app_length; cbn [length]; lia). rewrite combine_nth by (rewrite app_length; cbn [length]; lia). cbn [fst snd].
  rewrite (nth_map_any _ (seq 0 (length ns)) i 0) by (rewrite seq_length; lia). rewrite seq_nth by lia. cbn [Nat.add].
  assert (A1 : nth i (0 :: seams ns) 0 = list_sum (firstn i ns)).
  { destruct i as [|i]; [reflexivity|]. cbn [nth]. unfold seams. rewrite (nth_map_any _ _ i 0) by (rewrite seq_length; lia). now rewrite seq_nth by lia. }
  assert (A2 : nth i (seams ns ++ [list_sum ns]) 0 = list_sum (firstn (S i) ns)).
  { destruct (Nat.lt_ge_cases i (length (seams ns))) as [L|L].
    - rewrite app_nth1 by exact L. unfold seams. rewrite (nth_map_any _ _ i 0) by (rewrite seq_length; lia). now rewrite seq_nth by lia.
    - rewrite app_nth2 by exact L. replace (i - length (seams ns)) with 0 by lia. cbn [nth]. now rewrite firstn_all2 by lia. }
  rewrite A1, A2, sum_S by lia. f_equal. lia.
Qed.
Theorem C60_split_concat : forall c B k ns os, c <> CNil -> solid c -> 2 <= length ns -> k < length B -> Forall2 (fun o n => batched c (upd k n B) o) os ns ->
  obind (obj_concat c (Z.of_nat k) os) (obj_split (inr (seams ns)) (Z.of_nat k)) = Some os.
Proof.
  intros c B k ns os HN HS H2 Hk HF. pose proof (Forall2_len _ _ _ HF) as HL. destruct (C41_concat c B k ns os HN HS H2 Hk HF) as (o' & E1 & B1 & F1 & F2). rewrite E1. cbn [obind].
  assert (NN : ns <> []) by (intros ->; cbn in H2; lia). destruct (C41_split c _ o' k (inr (seams ns)) (map (fun i => (list_sum (firstn i ns), nth i ns 0)) (seq 0 (length ns))) HN HS B1) as (l & E2 & L2 & F3); [now rewrite upd_length|rewrite nth_upd, Nat.eqb_refl by exact Hk; exact (seams_cut ns NN)|].
  rewrite E2. f_equal. rewrite map_length, seq_length in L2. rewrite map_length, seq_length in F3. apply (list_eq_nth ONil); [congruence|]. intros i Hi. destruct (F3 i ltac:(lia)) as [K1 K2]. rewrite (nth_map_any _ (seq 0 (length ns)) i 0) in K1, K2 by (rewrite seq_length; lia). rewrite seq_nth in K1, K2 by lia. cbn [Nat.add fst snd] in K1, K2. rewrite upd_upd in K1, K2.
  apply (ext c (upd k (nth i ns 0) B)); [exact K1|apply (Forall2_nth _ _ _ i ONil 0 HF); lia|]. intros b Hb. rewrite (K2 b Hb). apply (F1 i b); [lia|exact Hb].
Qed.

(** ** stack and indexing *)
(** position [j] on axis [k], everything on the axes before it *)
Definition at_axis (k j : nat) (B : list nat) : list index_item := map (fun d => ISlice 0 1 d) (firstn k B) ++ [IInt (Z.of_nat j)].
Lemma at_axis_spec k j n B : k <= length B -> j < n ->
  index_ok (at_axis k j B) (insert k n B) /\ index_shape (at_axis k j B) (insert k n B) = Some B /\ forall b, inb b B -> index_src (at_axis k j B) (insert k n B) b = insert k j b.
Proof.
  intros Hk Hj. revert B Hk. induction k as [|k IH]; intros B Hk.
  - unfold at_axis, insert. cbn [firstn map app skipn]. split; [cbn [index_ok]; split; [lia|exact I]|]. split; [cbn [index_shape]; destruct (Nat.eqb_spec n 0); [lia|reflexivity]|]. intros b Hb. cbn [index_src]. f_equal. unfold clamp_index. destruct (Z.ltb_spec (Z.of_nat j) 0); [lia|]. lia.
  - destruct B as [|d B]; [cbn in Hk; lia|]. destruct (IH B ltac:(cbn in Hk; lia)) as (I1 & I2 & I3). change (at_axis (S k) j (d :: B)) with (ISlice 0 1 d :: at_axis k j B). change (insert (S k) n (d :: B)) with (d :: insert k n B).
    split; [cbn [index_ok]; split; [intros i Hi; lia|exact I1]|]. split; [cbn [index_shape]; rewrite I2; reflexivity|]. intros b Hb. inversion Hb as [|i e b0 B0 Hi Hb0]; subst. cbn [index_src]. rewrite (I3 b0 Hb0). change (insert (S k) j (i :: b0)) with (i :: insert k j b0). f_equal. lia.
Qed.
Lemma index_at_axis c B n k j o : batched c (insert k n B) o -> k <= length B -> j < n ->
  exists o', obj_index (at_axis k j B) o = Some o' /\ batched c B o' /\ forall b, inb b B -> elem b o' = elem (insert k j b) o.
Proof.
  intros HB Hk Hj. destruct (at_axis_spec k j n B Hk Hj) as (I1 & I2 & I3). destruct (C41_index c _ o (at_axis k j B) HB I1) as (o' & B' & E1 & E2 & K & F). rewrite I2 in E2. injection E2 as <-. exists o'. split; [exact E1|]. split; [exact K|].
  intros b Hb. rewrite (proj2 (F b Hb)). now rewrite I3.
Qed.
Theorem C60_index_stack : forall c B os k j, c <> CNil -> solid c -> 2 <= length os -> (forall o, In o os -> batched c B o) -> k <= length B -> j < length os ->
  obind (obj_stack c (Z.of_nat k) os) (obj_index (at_axis k j B)) = nth_error os j.
Proof.
  intros c B os k j HN HS H2 HB Hk Hj. destruct (C41_stack c B os k HN HS H2 HB Hk) as (o' & E1 & B1 & F1). rewrite E1. cbn [obind]. destruct (index_at_axis c B (length os) k j o' B1 Hk Hj) as (q & E2 & B2 & F2). rewrite E2.
  rewrite (nth_error_nth' os ONil Hj). f_equal. apply (ext c B); [exact B2|apply HB, nth_In; exact Hj|]. intros b Hb. rewrite (F2 b Hb). now apply F1.
Qed.
Theorem C60_stack_index : forall c B n k o, c <> CNil -> solid c -> 2 <= n -> batched c (insert k n B) o -> k <= length B ->
  obind (sequence (map (fun j => obj_index (at_axis k j B) o) (seq 0 n))) (obj_stack c (Z.of_nat k)) = Some o.
Proof.
  intros c B n k o HN HS Hn HB Hk. destruct (sequence_all (map (fun j => obj_index (at_axis k j B) o) (seq 0 n)) (fun j q => batched c B q /\ forall b, inb b B -> elem b q = elem (insert k j b) o)) as (os & E & L & F).
  - intros j Hj. rewrite map_length, seq_length in Hj. rewrite (nth_map_any _ (seq 0 n) j 0) by (now rewrite seq_length). rewrite seq_nth by exact Hj. cbn [Nat.add]. destruct (index_at_axis c B n k j o HB Hk Hj) as (q & E2 & B2 & F2). exists q. auto.
  - rewrite map_length, seq_length in L, F. rewrite E. cbn [obind]. destruct (C41_stack c B os k HN HS) as (o' & E1 & B1 & F1); [lia| |exact Hk|].
    { intros q Hq. apply (In_nth _ _ ONil) in Hq. destruct Hq as (j & Hj & <-). apply (F j ONil). lia. }
    rewrite E1. f_equal. rewrite L in B1. apply (ext c _ _ _ B1 HB). intros b Hb. destruct (inb_insert_inv k n b B Hk Hb) as [H1 H2]. pose proof (inb_length _ _ Hb) as LB. rewrite insert_length in LB. rewrite <- (insert_remove k b 0) by lia.
    rewrite (F1 (nth k b 0) _ ltac:(lia) H2). now apply (F (nth k b 0) ONil).
Qed.

(** ** reading and writing a box: [x[s1:s1+l1, ...]] and [x.at[...].set(v)] *)
Definition box_index (box : list (nat * nat)) : list index_item := map (fun p => ISlice (Z.of_nat (fst p)) 1 (snd p)) box.
Definition box_pos (box : list (nat * nat)) (b : list nat) : list nat := map (fun q => fst q + fst (snd q)) (combine b box) ++ skipn (length box) b.
Lemma box_index_spec box : forall B, box_ok box B ->
  index_ok (box_index box) B /\ index_shape (box_index box) B = Some (box_shape box B) /\ (forall b, inb b (box_shape box B) -> index_src (box_index box) B b = box_pos box b) /\
  (forall b, inb b (box_shape box B) -> inb (box_pos box b) B /\ in_box box (box_pos box b) = true /\ offset box (box_pos box b) = b) /\
  (forall b, inb b B -> in_box box b = true -> box_pos box (offset box b) = b).
Proof.
  unfold box_index, box_shape, box_pos, offset, in_box. induction box as [|[s l] box IH]; intros B [HL HF].
  - cbn [map length skipn app]. split; [exact I|]. split; [destruct B; reflexivity|]. assert (C0 : forall b : list nat, combine b (@nil (nat * nat)) = []) by (intros [|? ?]; reflexivity). split; [intros b Hb; rewrite C0; cbn; destruct B; reflexivity|]. split; [intros b Hb; repeat (rewrite C0; cbn [map app forallb]); auto|]. intros b Hb _. repeat (rewrite C0; cbn [map app]). reflexivity.
  - destruct B as [|d B]; [cbn in HL; lia|]. cbn [length firstn] in HF. inversion HF as [|? ? ? ? H1 HF']; subst. cbn [fst snd] in H1. destruct (IH B) as (I1 & I2 & I3 & I4 & I5); [split; [cbn in HL; lia|exact HF']|]. cbn [map length skipn fst snd].
    split; [cbn [index_ok]; split; [intros i Hi; lia|exact I1]|]. split; [cbn [index_shape]; rewrite I2; reflexivity|].
    split; [|split].
    + intros b Hb. inversion Hb as [|i e b0 B0 Hi Hb0]; subst. cbn [index_src combine map app fst snd skipn]. rewrite (I3 b0 Hb0). f_equal. lia.
    + intros b Hb. inversion Hb as [|i e b0 B0 Hi Hb0]; subst. cbn [combine map app fst snd skipn]. destruct (I4 b0 Hb0) as (J1 & J2 & J3). split; [apply inb_cons; split; [lia|exact J1]|]. cbn [combine forallb fst snd map app skipn]. rewrite J2, J3. split; [|f_equal; lia].
      rewrite andb_true_r. apply andb_true_iff. split; [apply Nat.leb_le; lia|apply Nat.ltb_lt; lia].
    + intros b Hb E. inversion Hb as [|i e b0 B0 Hi Hb0]; subst. cbn [combine forallb fst snd] in E. apply andb_true_iff in E. destruct E as [E0 E]. apply andb_true_iff in E0. destruct E0 as [E1 E2]. apply Nat.leb_le in E1. apply Nat.ltb_lt in E2.
      cbn [combine map app fst snd skipn]. rewrite (I5 b0 Hb0 E). f_equal. lia.
Qed.
Lemma get_box c B box o : batched c B o -> box_ok box B ->
  exists v, obj_index (box_index box) o = Some v /\ batched c (box_shape box B) v /\ forall b, inb b (box_shape box B) -> elem b v = elem (box_pos box b) o.
Proof.
  intros HB HK. destruct (box_index_spec box B HK) as (I1 & I2 & I3 & I4 & I5). destruct (C41_index c B o (box_index box) HB I1) as (v & B' & E1 & E2 & K & F). rewrite I2 in E2. injection E2 as <-. exists v. split; [exact E1|]. split; [exact K|].
  intros b Hb. rewrite (proj2 (F b Hb)). now rewrite I3.
Qed.
(** what was written is read back *)
Theorem C60_get_set : forall c B o box v, batched c B o -> box_ok box B -> batched c (box_shape box B) v -> obj_index (box_index box) (set_box box o v) = Some v.
Proof.
  intros c B o box v HB HK HV. destruct (C41_at_set c B o box _ v HB HK HV eq_refl) as (B1 & F1 & F2). destruct (get_box c B box _ B1 HK) as (w & E & K & F). rewrite E. f_equal. apply (ext c _ _ _ K HV). intros b Hb.
  destruct (box_index_spec box B HK) as (_ & _ & _ & I4 & _). destruct (I4 b Hb) as (J1 & J2 & J3). rewrite (F b Hb). rewrite (proj2 (F1 _ J1 J2)). now rewrite J3.
Qed.
(** writing back what is there changes nothing *)
Theorem C60_set_get : forall c B o box, batched c B o -> box_ok box B -> exists v, obj_index (box_index box) o = Some v /\ set_box box o v = o.
Proof.
  intros c B o box HB HK. destruct (get_box c B box o HB HK) as (v & E & K & F). exists v. split; [exact E|]. destruct (C41_at_set c B o box _ v HB HK K eq_refl) as (B1 & F1 & F2). apply (ext c B); [exact B1|exact HB|]. intros b Hb.
  destruct (in_box box b) eqn:EB; [|now apply F2]. destruct (F1 b Hb EB) as [J1 ->]. rewrite (F _ J1). destruct (box_index_spec box B HK) as (_ & _ & _ & _ & I5). now rewrite (I5 b Hb EB).
Qed.
(** of two writes to one box the second stays *)
Theorem C60_set_set : forall c B o box v w, batched c B o -> box_ok box B -> batched c (box_shape box B) v -> batched c (box_shape box B) w ->
  set_box box (set_box box o v) w = set_box box o w.
Proof.
  intros c B o box v w HB HK HV HW. destruct (C41_at_set c B o box _ v HB HK HV eq_refl) as (B1 & _ & F1). destruct (C41_at_set c B _ box _ w B1 HK HW eq_refl) as (B2 & F2 & F3). destruct (C41_at_set c B o box _ w HB HK HW eq_refl) as (B4 & F4 & F5).
  apply (ext c B); [exact B2|exact B4|]. intros b Hb. destruct (in_box box b) eqn:EB; [now rewrite (proj2 (F2 b Hb EB)), (proj2 (F4 b Hb EB))|]. now rewrite (F3 b Hb EB), (F1 b Hb EB), (F5 b Hb EB).
Qed.
(** writes to boxes without a common position can be exchanged *)
Theorem C60_set_commute : forall c B o box box' v w, batched c B o -> box_ok box B -> box_ok box' B -> batched c (box_shape box B) v -> batched c (box_shape box' B) w ->
  (forall b, inb b B -> in_box box b = true -> in_box box' b = false) ->
  set_box box' (set_box box o v) w = set_box box (set_box box' o w) v.
Proof.
  intros c B o box box' v w HB HK HK' HV HW HD. destruct (C41_at_set c B o box _ v HB HK HV eq_refl) as (B1 & F1 & G1). destruct (C41_at_set c B _ box' _ w B1 HK' HW eq_refl) as (B2 & F2 & G2).
  destruct (C41_at_set c B o box' _ w HB HK' HW eq_refl) as (B3 & F3 & G3). destruct (C41_at_set c B _ box _ v B3 HK HV eq_refl) as (B4 & F4 & G4).
  apply (ext c B); [exact B2|exact B4|]. intros b Hb. destruct (in_box box b) eqn:E1.
  - rewrite (G2 b Hb (HD b Hb E1)), (proj2 (F1 b Hb E1)), (proj2 (F4 b Hb E1)). reflexivity.
  - destruct (in_box box' b) eqn:E2; [now rewrite (proj2 (F2 b Hb E2)), (G4 b Hb E1), (proj2 (F3 b Hb E2))|]. now rewrite (G2 b Hb E2), (G1 b Hb E1), (G4 b Hb E1), (G3 b Hb E2).
Qed.
(** slicing the padding away restores the instance *)
Theorem C60_pad_slice : forall c B o pads, c <> CNil -> solid c -> batched c B o -> B <> [] -> length pads = length B ->
  obind (obj_pad c pads o) (obj_index (box_index (pad_box B pads))) = Some o.
Proof.
  intros c B o pads HN HS HB N0 HL. destruct (C41_pad c B o pads HN HS HB N0 HL) as (o1 & E1 & B1 & F1 & _). rewrite E1. cbn [obind]. destruct (pad_box_ok B pads HL) as [PK PS]. destruct (get_box c _ (pad_box B pads) o1 B1 PK) as (v & E2 & B2 & F2). rewrite E2. f_equal. rewrite PS in B2, F2.
  apply (ext c B); [exact B2|exact HB|]. intros b Hb. rewrite (F2 b Hb), <- (F1 b Hb). f_equal. unfold box_pos, pad_box, shifted. clear - Hb HL. revert pads HL. induction Hb as [|i d b B Hi Hb IH]; intros [|p pads] HL; cbn in HL; try lia; [reflexivity|]. cbn [combine map fst snd length skipn app]. f_equal. apply IH. lia.
Qed.

(** ** take *)
Lemma take_row c B o k dt js : batched c B o -> k < length B -> (forall j, In j js -> j < nth k B 0) ->
  exists o', obj_take (MkArr dt [length js] (map Z.of_nat js)) (Z.of_nat k) o = Some o' /\ batched c (upd k (length js) B) o' /\
    forall b, inb b (upd k (length js) B) -> elem b o' = elem (upd k (nth (nth k b 0) js 0) b) o.
Proof.
  intros HB Hk HJ. assert (HE : 0 < nth k B 0 \/ prod [length js] = 0) by (destruct js as [|j js']; [right; reflexivity|left; specialize (HJ j (or_introl eq_refl)); lia]). destruct (C41_take c B o (MkArr dt [length js] (map Z.of_nat js)) k HB Hk HE) as (o' & E1 & B1 & F1). exists o'. split; [exact E1|]. cbn [ashape] in B1, F1. cbn [app] in B1. rewrite <- upd_eq in B1 by exact Hk. split; [exact B1|]. intros b Hb.
  pose proof (inb_length _ _ Hb) as LB. rewrite upd_length in LB. pose proof Hb as Hb'. rewrite upd_eq in Hb' by exact Hk.
  assert (SP : b = firstn k b ++ [nth k b 0] ++ skipn (S k) b) by (rewrite <- (firstn_skipn k b) at 1; rewrite (skipn_cons_nth k b 0) by lia; reflexivity).
  assert (H3 : inb (firstn k b) (firstn k B) /\ nth k b 0 < length js /\ inb (skipn (S k) b) (skipn (S k) B)).
  { rewrite SP in Hb'. apply inb_app in Hb'; [|rewrite !firstn_length; lia]. destruct Hb' as [Q1 Q2]. apply inb_cons in Q2. tauto. }
  destruct H3 as (Q1 & Q2 & Q3). rewrite SP at 1. rewrite (F1 _ [nth k b 0] _ Q1) by (first [exact Q3|constructor; [exact Q2|constructor]]).
  assert (G : get (MkArr dt [length js] (map Z.of_nat js)) [nth k b 0] = Z.of_nat (nth (nth k b 0) js 0)).
  { unfold get. cbn [ashape adata ravel]. rewrite prod_cons || idtac. unfold ravel, prod. cbn. rewrite Nat.mul_1_r, Nat.add_0_r. rewrite (nth_map_any Z.of_nat js _ 0) by exact Q2. reflexivity. }
  rewrite G. assert (HN : nth (nth k b 0) js 0 < nth k B 0) by (apply HJ, nth_In; exact Q2). unfold norm_index. rewrite norm_axis_pos by exact HN. now rewrite <- upd_eq by lia.
Qed.
(** taking twice is taking the taken positions; the inverse permutation restores the instance *)
Theorem C60_take_take : forall c B o k dt dt' dt'' js is, batched c B o -> k < length B -> (forall j, In j js -> j < nth k B 0) -> (forall i, In i is -> i < length js) ->
  exists o', obj_take (MkArr dt'' [length is] (map (fun i => Z.of_nat (nth i js 0)) is)) (Z.of_nat k) o = Some o' /\
    obind (obj_take (MkArr dt [length js] (map Z.of_nat js)) (Z.of_nat k) o) (obj_take (MkArr dt' [length is] (map Z.of_nat is)) (Z.of_nat k)) = Some o'.
Proof.
  intros c B o k dt dt' dt'' js is HB Hk HJ HI. destruct (take_row c B o k dt js HB Hk HJ) as (o1 & E1 & B1 & F1). destruct (take_row c _ o1 k dt' is B1) as (o2 & E2 & B2 & F2); [now rewrite upd_length|rewrite nth_upd, Nat.eqb_refl by exact Hk; exact HI|].
  destruct (take_row c B o k dt'' (map (fun i => nth i js 0) is) HB Hk) as (o3 & E3 & B3 & F3).
  { intros j Hj. apply in_map_iff in Hj. destruct Hj as (i & <- & Hi). apply HJ, nth_In. now apply HI. }
  rewrite map_length, map_map in E3. rewrite map_length in B3, F3. exists o3. split; [exact E3|]. rewrite E1. cbn [obind]. rewrite E2. f_equal. rewrite upd_upd in B2, F2. apply (ext c _ _ _ B2 B3). intros b Hb. pose proof (inb_length _ _ Hb) as LB. rewrite upd_length in LB.
  pose proof (inb_nth _ _ k Hb) as HN. rewrite upd_length, nth_upd, Nat.eqb_refl in HN by exact Hk. specialize (HN Hk). rewrite (F2 b Hb), (F3 b Hb). rewrite F1.
  - rewrite upd_upd, nth_upd, Nat.eqb_refl by lia. rewrite (nth_map_any _ is _ 0) by exact HN. reflexivity.
  - apply (inb_upd k _ (length is)); [exact Hk|exact Hb|]. apply HI, nth_In. exact HN.
Qed.
Theorem C60_take_back : forall c B o k dt dt' js is, batched c B o -> k < length B -> (forall j, In j js -> j < nth k B 0) -> (forall i, In i is -> i < length js) ->
  length is = nth k B 0 -> (forall m, m < nth k B 0 -> nth (nth m is 0) js 0 = m) ->
  obind (obj_take (MkArr dt [length js] (map Z.of_nat js)) (Z.of_nat k) o) (obj_take (MkArr dt' [length is] (map Z.of_nat is)) (Z.of_nat k)) = Some o.
Proof.
  intros c B o k dt dt' js is HB Hk HJ HI HL HV. destruct (C60_take_take c B o k dt dt' dt js is HB Hk HJ HI) as (o' & E1 & E2). rewrite E2. f_equal.
  assert (EQ : map (fun i => Z.of_nat (nth i js 0)) is = map Z.of_nat (seq 0 (length is))).
  { apply (list_eq_nth 0%Z); [rewrite !map_length, seq_length; reflexivity|]. intros m Hm. rewrite map_length in Hm. rewrite (nth_map_any _ is m 0) by exact Hm. rewrite (nth_map_any _ (seq 0 (length is)) m 0) by (now rewrite seq_length). rewrite seq_nth by exact Hm. rewrite HV by lia. reflexivity. }
  rewrite EQ in E1. replace [length is] with [length (seq 0 (length is))] in E1 by (now rewrite seq_length). destruct (take_row c B o k dt (seq 0 (length is)) HB Hk) as (o3 & E3 & B3 & F3); [intros j Hj; apply in_seq in Hj; lia|]. rewrite E1 in E3. injection E3 as <-. rewrite seq_length, HL, upd_same in B3, F3 by exact Hk.
  apply (ext c B); [exact B3|exact HB|]. intros b Hb. rewrite (F3 b Hb). pose proof (inb_nth _ _ k Hb Hk). rewrite seq_nth by lia. cbn [Nat.add]. now rewrite upd_same by (rewrite (inb_length _ _ Hb); exact Hk).
Qed.

(** ** The hypotheses are met by a 2 x 3 batch with a vector field; the operations are not trivial *)
From Verif Require Import PropRows4 PropRows6.
Lemma grid_batched : batched cell [2; 3] grid.
Proof. exact (proj1 C52_moveaxis_negative_refuted). Qed.
Example C60_flip_moves : exists o', obj_flip 1 grid = Some o' /\ elem [0; 0] o' = elem [0; 2] grid /\ o' <> grid /\ obind (obj_flip 1 grid) (obj_flip 1) = Some grid.
Proof. eexists. split; [reflexivity|]. split; [reflexivity|]. split; [discriminate|]. apply (C60_flip_twice cell [2; 3] grid 1 grid_batched). cbn. lia. Qed.
Example C60_rot90_moves : exists o', obj_rot90 1 (0, 1)%Z grid = Some o' /\ batched cell [3; 2] o' /\ obind (obj_rot90 1 (0, 1)%Z grid) (obj_rot90 3 (0, 1)%Z) = Some grid.
Proof.
  destruct (C60_rot90_rot90 cell [2; 3] grid 1 3 0 1 grid_batched) as (o' & E1 & E2); try (cbn; lia). pose proof (C60_rot90_full cell [2; 3] grid 4 0 1 grid_batched ltac:(cbn; lia) ltac:(cbn; lia) ltac:(lia) eq_refl) as E3. change (1 + 3)%Z with 4%Z in E1. rewrite E3 in E1. injection E1 as <-.
  eexists. split; [reflexivity|]. split; [split; cbn; unfold wfa; cbn; auto 10|exact E2].
Qed.
Example C60_transpose_moves : exists o', obj_transpose cell None grid = Some o' /\ o' <> grid /\ obind (obj_transpose cell None grid) (obj_transpose cell None) = Some grid.
Proof. destruct cell_solid as [H1 H2]. eexists. split; [reflexivity|]. split; [discriminate|]. exact (C60_reverse_axes_twice cell [2; 3] grid H1 H2 grid_batched). Qed.
Example C60_split_parts : exists l, obj_split (inr [1; 1]) 1 grid = Some l /\ length l = 3 /\ obj_concat cell 1 l = Some grid.
Proof.
  destruct cell_solid as [H1 H2]. eexists. split; [reflexivity|]. split; [reflexivity|]. refine (C60_concat_split cell [2; 3] grid 1 (inr [1; 1]) _ H1 H2 grid_batched _ _ eq_refl); [cbn; lia|]. repeat constructor.
Qed.
Example C60_concat_parts : obind (obj_concat cell 0 [cell2 1; cell2 5; cell2 7]) (obj_split (inr (seams [2; 2; 2])) 0) = Some [cell2 1; cell2 5; cell2 7] /\ seams [2; 2; 2] = [2; 4].
Proof.
  destruct cell_solid as [H1 H2]. split; [|reflexivity]. apply (C60_split_concat cell [2] 0 [2; 2; 2] [cell2 1; cell2 5; cell2 7] H1 H2); [cbn; lia|cbn; lia|]. repeat (constructor; [exact (cell2_batched _)|]). constructor.
Qed.
Example C60_stack_parts : obind (obj_stack cell 1 [cell2 1; cell2 5]) (obj_index (at_axis 1 1 [2])) = Some (cell2 5) /\ at_axis 1 1 [2] = [ISlice 0 1 2; IInt 1].
Proof.
  destruct cell_solid as [H1 H2]. split; [|reflexivity]. refine (C60_index_stack cell [2] [cell2 1; cell2 5] 1 1 H1 H2 _ _ _ _); [cbn; lia| |cbn; lia|cbn; lia]. intros o [<-|[<-|[]]]; apply cell2_batched.
Qed.
Example C60_take_perm : obind (obj_take (MkArr (DInt 32) [3] [2; 0; 1]%Z) 1 grid) (obj_take (MkArr (DInt 32) [3] [1; 2; 0]%Z) 1) = Some grid.
Proof.
  apply (C60_take_back cell [2; 3] grid 1 (DInt 32) (DInt 32) [2; 0; 1] [1; 2; 0] grid_batched); [cbn; lia| | |reflexivity|].
  - intros j H. cbn in *. intuition lia.
  - intros j H. cbn in *. intuition lia.
  - intros m Hm. cbn in Hm. destruct m as [|[|[|m]]]; try reflexivity. lia.
Qed.
(** cut positions out of order: the pieces overlap, joining them gives a larger batch *)
Theorem C60_split_unsorted_refuted : exists l o', obj_split (inr [2; 1]) 1 grid = Some l /\ obj_concat cell 1 l = Some o' /\ batched cell [2; 4] o'.
Proof. eexists. eexists. split; [reflexivity|]. split; [reflexivity|]. split; cbn; unfold wfa; cbn; auto 10. Qed.
Print Assumptions C60_moveaxis_back.
Print Assumptions C60_rot90_rot90.
Print Assumptions C60_concat_split.
Print Assumptions C60_take_back.
