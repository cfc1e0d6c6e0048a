(** * PropSplit2.v — C62, continued: priority queue, FIFO queue and stack. *)
From Verif Require Import Jax KeyModel SortProofs HeapModel HeapSpec HeapProofs HeapInsert HeapInv HeapDelete PropHeap.
From Verif Require QueueModel QueueSpec QueueProofs.

(** ** Priority queue *)
Section Keys.
(** a sorted list of keys is determined by its elements *)
Lemma keys_unique (a : list key) : forall b, StronglySorted KLe a -> StronglySorted KLe b -> Permutation a b -> a = b.
Proof.
  induction a as [|x a IH]; intros b HA HB HP.
  - apply Permutation_nil in HP. now subst.
  - destruct b as [|y b]; [symmetry in HP; apply Permutation_nil in HP; discriminate|].
    inversion HA as [|? ? SA FA]; subst. inversion HB as [|? ? SB FB]; subst. rewrite Forall_forall in FA, FB.
    assert (E : x = y).
    { assert (X : In x (y :: b)) by (eapply Permutation_in; [exact HP|now left]).
      assert (Y : In y (x :: a)) by (eapply Permutation_in; [symmetry; exact HP|now left]).
      destruct X as [X|X]; [now subst|]. destruct Y as [Y|Y]; [now subst|]. apply kle_antisym; [apply FA; exact Y|apply FB; exact X]. }
    subst y. f_equal. apply IH; [exact SA|exact SB|]. eapply Permutation_cons_inv; exact HP.
Qed.
Lemma sorted_keys {V} (l : list (key * V)) : sorted l -> StronglySorted KLe (map fst l).
Proof.
  induction 1 as [|x l HS IH HF]; cbn [map]; constructor; [exact IH|]. rewrite Forall_forall in *. intros k Hk.
  apply in_map_iff in Hk as (y & <- & Hy). apply (HF y Hy).
Qed.
(** the returned keys are determined by the keys of the bag *)
Lemma del_keys {V1 V2} B (bag1 out1 bag1' : list (key * V1)) (bag2 out2 bag2' : list (key * V2)) :
  Permutation (map fst bag1) (map fst bag2) -> del_spec B bag1 out1 bag1' -> del_spec B bag2 out2 bag2' ->
  map fst out1 = map fst out2 /\ Permutation (map fst bag1') (map fst bag2').
Proof.
  intros HP (r1 & p1 & -> & L1 & N1 & I1 & S1 & P1 & B1) (r2 & p2 & -> & L2 & N2 & I2 & S2 & P2 & B2).
  assert (EL : length bag1 = length bag2) by (rewrite <- (map_length fst bag1), <- (map_length fst bag2); apply Permutation_length, HP).
  assert (G : forall V (r s : list (key * V)) bag, sorted r -> Permutation bag (r ++ s) -> below r s -> exists ks, StronglySorted KLe (map fst r ++ ks) /\ Permutation (map fst bag) (map fst r ++ ks) /\ Permutation ks (map fst s)).
  { intros V r s bag HS HQ HB. exists (map fst (ssort s)). rewrite <- map_app. split; [|split].
    - apply sorted_keys, sorted_app. split; [exact HS|]. split; [apply ssort_sorted|]. eapply below_perm_r; [symmetry; apply ssort_perm|exact HB].
    - apply Permutation_map. rewrite HQ. apply Permutation_app_head. symmetry. apply ssort_perm.
    - apply Permutation_map, ssort_perm. }
  destruct (G _ _ _ _ S1 P1 B1) as (k1 & T1 & Q1 & R1). destruct (G _ _ _ _ S2 P2 B2) as (k2 & T2 & Q2 & R2).
  assert (E : map fst r1 ++ k1 = map fst r2 ++ k2) by (apply keys_unique; [exact T1|exact T2|]; rewrite <- Q1, <- Q2; exact HP).
  assert (EN : length (map fst r1) = length (map fst r2)) by (rewrite !map_length; lia).
  assert (E1 : map fst r1 = map fst r2 /\ k1 = k2).
  { split.
    - pose proof (f_equal (firstn (length (map fst r1))) E) as X. rewrite !firstn_app, EN, Nat.sub_diag, <- EN, firstn_all, EN, firstn_all in X. cbn [firstn] in X. rewrite !app_nil_r in X. exact X.
    - pose proof (f_equal (skipn (length (map fst r1))) E) as X. rewrite !skipn_app, EN, Nat.sub_diag, <- EN, skipn_all, EN, skipn_all in X. cbn [skipn app] in X. exact X. }
  destruct E1 as [E1 E2]. split.
  - rewrite !map_app, E1. f_equal. rewrite app_length in L1, L2.
    assert (PI : forall V (p : list (key * V)), (forall x, In x p -> fst x = PInf) -> map fst p = repeat PInf (length p)).
    { intros V p HI. induction p as [|x p IH]; [reflexivity|]. cbn [map length repeat]. rewrite HI by now left. f_equal. apply IH. intros y Hy. apply HI. now right. }
    rewrite (PI _ p1 I1), (PI _ p2 I2). f_equal. lia.
  - rewrite <- R1, <- R2, E2. reflexivity.
Qed.
End Keys.

(** A program is a list of phases: store some blocks, in any number of calls, or take
    the next batch. *)
Inductive phase (V : Type) := Put (blocks : list (list (key * V))) | Take.
Arguments Put {V}. Arguments Take {V}.
(** running it: after each phase the caller sees the returned block (for [Take]) and
    [queue.size] *)
Fixpoint serve {V} (h : heap V) (ps : list (phase V)) : option (heap V * list (list (key * V) * Z)) :=
  match ps with
  | [] => Some (h, [])
  | Put blocks :: t =>
      let h' := fold_left insert blocks h in
      match serve h' t with Some (hf, obs) => Some (hf, ([], size h') :: obs) | None => None end
  | Take :: t =>
      match delete_mins h with
      | None => None
      | Some (h', out) => match serve h' t with Some (hf, obs) => Some (hf, (out, size h') :: obs) | None => None end
      end
  end.
(** what the phases store: the pairs with a finite key *)
Definition stored {V} (blocks : list (list (key * V))) : list (key * V) := fin (concat blocks).
Definition legal_phase {V} (B : nat) (p : phase V) : Prop :=
  match p with Put blocks => Forall (fun b => legal B (Ins b)) blocks | Take => True end.
(** no phase overflows a queue of capacity [cap] that holds [n] pairs *)
Fixpoint fits {V} (cap B n : nat) (ps : list (phase V)) : Prop :=
  match ps with
  | [] => True
  | Put blocks :: t => n + length (stored blocks) < cap + B /\ fits cap B (n + length (stored blocks)) t
  | Take :: t => fits cap B (n - B) t
  end.
(** the same work, split differently *)
Inductive same_keys {V1 V2} : phase V1 -> phase V2 -> Prop :=
  | sk_put b1 b2 : Permutation (map fst (stored b1)) (map fst (stored b2)) -> same_keys (Put b1) (Put b2)
  | sk_take : same_keys Take Take.
Inductive same_pairs {V} : phase V -> phase V -> Prop :=
  | sp_put b1 b2 : Permutation (stored b1) (stored b2) -> same_pairs (Put b1) (Put b2)
  | sp_take : same_pairs Take Take.
Definition keys_seen {V} (o : list (key * V) * Z) : list key * Z := (map fst (fst o), snd o).
Definition pairs_seen {V} (o : list (key * V) * Z) : list (key * V) * Z := (fin (fst o), snd o).

Section Heap.
Lemma put_ok {V} (blocks : list (list (key * V))) : forall h, Inv h -> fits32 h -> Forall (fun b => legal (batch h) (Ins b)) blocks ->
  length (contents h) + length (stored blocks) < max_size h + batch h ->
  let h' := fold_left insert blocks h in
  Inv h' /\ fits32 h' /\ batch h' = batch h /\ branch h' = branch h /\ Permutation (contents h') (contents h ++ stored blocks).
Proof.
  induction blocks as [|b t IH]; intros h HI H32 HF HL h'.
  - unfold h', stored. cbn [fold_left concat]. unfold fin. cbn [filter]. rewrite app_nil_r. auto.
  - unfold h'. cbn [fold_left]. inversion HF as [|? ? [Hl Hn] HF']; subst. destruct (insert_ok h b HI Hl Hn) as (J1 & J2 & J3 & J4).
    unfold stored in *. cbn [concat] in *. rewrite fin_app in *. rewrite app_length in HL.
    destruct J4 as [_ HP|low rest ev Hc _ _ _ _ _ _]; [|lia].
    destruct (IH (insert h b)) as (K1 & K2 & K3 & K4 & K5); try assumption.
    + unfold fits32 in *. rewrite J2, J3. exact H32.
    + rewrite J2. exact HF'.
    + unfold max_size in *. rewrite J2, J3, (Permutation_length HP), app_length. lia.
    + split; [exact K1|]. split; [exact K2|]. split; [congruence|]. split; [congruence|]. rewrite K5, HP, app_assoc. reflexivity.
Qed.
Lemma del_length {V} B (bag out bag' : list (key * V)) : del_spec B bag out bag' -> length bag' = length bag - B.
Proof. intros (r & p & _ & _ & N1 & _ & _ & P1 & _). rewrite (Permutation_length P1), app_length in *. lia. Qed.

Lemma same_ok {V1 V2} ps1 : forall ps2 (h1 : heap V1) (h2 : heap V2), Inv h1 -> fits32 h1 -> Inv h2 -> fits32 h2 -> batch h1 = batch h2 ->
  Permutation (map fst (contents h1)) (map fst (contents h2)) -> Forall2 same_keys ps1 ps2 ->
  Forall (legal_phase (batch h1)) ps1 -> Forall (legal_phase (batch h1)) ps2 ->
  fits (max_size h1) (batch h1) (length (contents h1)) ps1 -> fits (max_size h2) (batch h1) (length (contents h2)) ps2 ->
  exists h1' o1 h2' o2, serve h1 ps1 = Some (h1', o1) /\ serve h2 ps2 = Some (h2', o2) /\
    map keys_seen o1 = map keys_seen o2 /\ Permutation (map fst (contents h1')) (map fst (contents h2')).
Proof.
  induction ps1 as [|p1 ps1 IH]; intros ps2 h1 h2 I1 F1 I2 F2 HB HP HS L1 L2 G1 G2; inversion HS as [|? p2 ? ps2' HS1 HS2]; subst.
  - exists h1, [], h2, []. cbn [serve]. auto.
  - inversion L1 as [|? ? LL1 LR1]; subst. inversion L2 as [|? ? LL2 LR2]; subst.
    assert (EL : length (contents h1) = length (contents h2)) by (rewrite <- (map_length fst (contents h1)), <- (map_length fst (contents h2)); apply Permutation_length, HP).
    destruct HS1 as [b1 b2 HQ|]; cbn [fits serve legal_phase] in *.
    + destruct G1 as [G1 G1']. destruct G2 as [G2 G2'].
      destruct (put_ok b1 h1 I1 F1 LL1 G1) as (X1 & X2 & X3 & X4 & X5).
      rewrite HB in LL2, G2. destruct (put_ok b2 h2 I2 F2 LL2 G2) as (Y1 & Y2 & Y3 & Y4 & Y5).
      destruct (IH ps2' (fold_left insert b1 h1) (fold_left insert b2 h2) X1 X2 Y1 Y2) as (h1' & o1 & h2' & o2 & S1 & S2 & E & E'); try assumption.
      * congruence.
      * rewrite (Permutation_map fst X5), (Permutation_map fst Y5), !map_app, HP, HQ. reflexivity.
      * rewrite X3. exact LR1.
      * rewrite X3. exact LR2.
      * unfold max_size in *. rewrite X3, X4, (Permutation_length X5), app_length. exact G1'.
      * unfold max_size in *. rewrite X3, Y3, Y4, (Permutation_length Y5), app_length. exact G2'.
      * rewrite S1, S2. do 4 eexists. split; [reflexivity|]. split; [reflexivity|]. split; [|exact E']. cbn [map]. f_equal; [|exact E]. unfold keys_seen. cbn [fst snd map]. f_equal.
        rewrite (size_ok _ X1 X2), (size_ok _ Y1 Y2), (Permutation_length X5), (Permutation_length Y5), !app_length. rewrite EL. do 2 f_equal.
        rewrite <- (map_length fst (stored b1)), <- (map_length fst (stored b2)). apply Permutation_length, HQ.
    + destruct (delete_ok h1 I1) as (g1 & out1 & D1 & X1 & X2 & X3 & X4). destruct (delete_ok h2 I2) as (g2 & out2 & D2 & Y1 & Y2 & Y3 & Y4). rewrite D1, D2.
      rewrite <- HB in Y4. destruct (del_keys _ _ _ _ _ _ _ HP X4 Y4) as [E1 E2]. pose proof (del_length _ _ _ _ X4) as N1. pose proof (del_length _ _ _ _ Y4) as N2.
      assert (F1' : fits32 g1) by (unfold fits32 in *; rewrite X2, X3; exact F1). assert (F2' : fits32 g2) by (unfold fits32 in *; rewrite Y2, Y3; exact F2).
      destruct (IH ps2' g1 g2 X1 F1' Y1 F2') as (h1' & o1 & h2' & o2 & S1 & S2 & E & E'); try assumption.
      * congruence.
      * rewrite X2. exact LR1.
      * rewrite X2. exact LR2.
      * unfold max_size in *. rewrite X2, X3, N1. exact G1.
      * unfold max_size in *. rewrite X2, Y2, Y3, N2. exact G2.
      * rewrite S1, S2. do 4 eexists. split; [reflexivity|]. split; [reflexivity|]. split; [|exact E']. cbn [map]. f_equal; [|exact E]. unfold keys_seen. cbn [fst snd]. f_equal; [exact E1|].
        rewrite (size_ok _ X1 F1'), (size_ok _ Y1 F2'), N1, N2, EL. reflexivity.
Qed.
End Heap.

(** same keys between two removals, however they are split into insert calls, blocks,
    padding and order, in queues of any capacities: the same keys come out, and the same
    sizes are read *)
Theorem C62_heap_same : forall (V1 V2 : Type) total1 total2 B (dv1 : V1) (dv2 : V2) ps1 ps2,
  params_ok total1 B -> params_ok total2 B ->
  let h1 := build dv1 total1 B in let h2 := build dv2 total2 B in
  Forall (legal_phase B) ps1 -> Forall (legal_phase B) ps2 -> Forall2 same_keys ps1 ps2 ->
  fits (max_size h1) B 0 ps1 -> fits (max_size h2) B 0 ps2 ->
  exists h1' o1 h2' o2, serve h1 ps1 = Some (h1', o1) /\ serve h2 ps2 = Some (h2', o2) /\
    map keys_seen o1 = map keys_seen o2.
Proof.
  intros V1 V2 n1 n2 B dv1 dv2 ps1 ps2 P1 P2 h1 h2 L1 L2 HS G1 G2. pose proof P1 as (HB & Ht1 & _). pose proof P2 as (_ & Ht2 & _).
  destruct (build_fits dv1 n1 B P1) as [F1 M1]. destruct (build_fits dv2 n2 B P2) as [F2 M2].
  destruct (build_ok dv1 n1 B HB Ht1 M1) as (I1 & C1 & E1 & _). destruct (build_ok dv2 n2 B HB Ht2 M2) as (I2 & C2 & E2 & _).
  destruct (same_ok ps1 ps2 h1 h2 I1 F1 I2 F2) as (h1' & o1 & h2' & o2 & S1 & S2 & E & _); unfold h1, h2 in *.
  - congruence.
  - rewrite C1, C2. reflexivity.
  - exact HS.
  - rewrite E1. exact L1.
  - rewrite E1. exact L2.
  - rewrite C1, E1. exact G1.
  - rewrite C2, E1. exact G2.
  - exists h1', o1, h2', o2. auto.
Qed.
Print Assumptions C62_heap_same.

Section Pairs.
Context {V : Type}.
Lemma pair_of_key (bag r1 : list (key * V)) : NoDup (map fst bag) -> forall r2, (forall x, In x r1 -> In x bag) -> (forall x, In x r2 -> In x bag) ->
  map fst r1 = map fst r2 -> r1 = r2.
Proof.
  intros ND. induction r1 as [|[k v] r1 IH]; intros [|[k' v'] r2] H1 H2 E; cbn [map fst] in E; try discriminate; [reflexivity|].
  injection E as <- E. f_equal.
  - f_equal. assert (X : In (k, v) bag) by (apply H1; now left). assert (Y : In (k, v') bag) by (apply H2; now left). clear -ND X Y.
    induction bag as [|[a b] l IH]; [destruct X|]. cbn [map fst] in ND. inversion ND as [|? ? HN HD]; subst.
    assert (K : forall w, In (a, w) l -> False) by (intros w HK; apply HN; apply in_map_iff; exists (a, w); auto).
    destruct X as [X|X], Y as [Y|Y]; [congruence|injection X as -> ->; destruct (K _ Y)|injection Y as -> ->; destruct (K _ X)|auto].
  - apply IH; [intros x Hx; apply H1; now right|intros x Hx; apply H2; now right|exact E].
Qed.
Lemma fin_keys (r : list (key * V)) : map fst (fin r) = filter finite (map fst r).
Proof. unfold fin. induction r as [|x r IH]; [reflexivity|]. cbn [filter map]. destruct (finite (fst x)); cbn [map]; now rewrite IH. Qed.
Lemma del_pairs B (bag1 out1 bag1' bag2 out2 bag2' : list (key * V)) : Permutation bag1 bag2 -> NoDup (map fst bag1) -> (forall x, In x bag1 -> finite (fst x) = true) ->
  del_spec B bag1 out1 bag1' -> del_spec B bag2 out2 bag2' -> fin out1 = fin out2 /\ Permutation bag1' bag2' /\ Permutation bag1 (fin out1 ++ bag1').
Proof.
  intros HP ND HF D1 D2. destruct (del_keys B bag1 out1 bag1' bag2 out2 bag2' (Permutation_map fst HP) D1 D2) as [E _].
  assert (G : forall bag out bag' : list (key * V), (forall x, In x bag -> finite (fst x) = true) -> del_spec B bag out bag' -> Permutation bag (fin out ++ bag')).
  { intros bag out bag' HF' (r & p & -> & _ & _ & HI & _ & HQ & _). rewrite fin_app. rewrite (fin_all r), (fin_none p), app_nil_r; [exact HQ| |].
    - intros x Hx. rewrite (HI x Hx). reflexivity.
    - intros x Hx. apply HF'. eapply Permutation_in; [symmetry; exact HQ|]. apply in_or_app. now left. }
  assert (HF2 : forall x, In x bag2 -> finite (fst x) = true) by (intros x Hx; apply HF; eapply Permutation_in; [symmetry; exact HP|exact Hx]).
  pose proof (G _ _ _ HF D1) as Q1. pose proof (G _ _ _ HF2 D2) as Q2.
  assert (EF : fin out1 = fin out2).
  { apply (pair_of_key bag1 _ ND).
    - intros x Hx. eapply Permutation_in; [symmetry; exact Q1|]. apply in_or_app. now left.
    - intros x Hx. eapply Permutation_in; [symmetry; exact HP|]. eapply Permutation_in; [symmetry; exact Q2|]. apply in_or_app. now left.
    - rewrite !fin_keys, E. reflexivity. }
  split; [exact EF|]. split; [|exact Q1]. apply Permutation_app_inv_l with (l := fin out1). rewrite <- Q1, EF, <- Q2. exact HP.
Qed.
(** every pair the program stores *)
Definition puts (ps : list (phase V)) : list (key * V) :=
  concat (map (fun p => match p with Put blocks => stored blocks | Take => [] end) ps).
Lemma contents_finite (h : heap V) x : In x (contents h) -> finite (fst x) = true.
Proof. unfold contents, fin. intros H. apply filter_In in H. apply H. Qed.

Lemma nodup_app_l {A} (a b : list A) : NoDup (a ++ b) -> NoDup a.
Proof. induction a as [|x a IH]; cbn [app]; intros H; [constructor|]. inversion H; subst. constructor; [intros HI; apply H2, in_or_app; now left|auto]. Qed.
Lemma nodup_app_r {A} (a b : list A) : NoDup (a ++ b) -> NoDup b.
Proof. induction a as [|x a IH]; cbn [app]; intros H; [exact H|]. inversion H; subst. auto. Qed.

Lemma same_pairs_ok ps1 : forall ps2 (h1 h2 : heap V), Inv h1 -> fits32 h1 -> Inv h2 -> fits32 h2 -> batch h1 = batch h2 ->
  Permutation (contents h1) (contents h2) -> NoDup (map fst (contents h1 ++ puts ps1)) -> Forall2 same_pairs ps1 ps2 ->
  Forall (legal_phase (batch h1)) ps1 -> Forall (legal_phase (batch h1)) ps2 ->
  fits (max_size h1) (batch h1) (length (contents h1)) ps1 -> fits (max_size h2) (batch h1) (length (contents h2)) ps2 ->
  exists h1' o1 h2' o2, serve h1 ps1 = Some (h1', o1) /\ serve h2 ps2 = Some (h2', o2) /\
    map pairs_seen o1 = map pairs_seen o2 /\ Permutation (contents h1') (contents h2').
Proof.
  induction ps1 as [|p1 ps1 IH]; intros ps2 h1 h2 I1 F1 I2 F2 HB HP ND HS L1 L2 G1 G2; inversion HS as [|? p2 ? ps2' HS1 HS2]; subst.
  - exists h1, [], h2, []. cbn [serve]. auto.
  - inversion L1 as [|? ? LL1 LR1]; subst. inversion L2 as [|? ? LL2 LR2]; subst.
    pose proof (Permutation_length HP) as EL.
    destruct HS1 as [b1 b2 HQ|]; cbn [fits serve legal_phase] in *.
    + destruct G1 as [G1 G1']. destruct G2 as [G2 G2'].
      destruct (put_ok b1 h1 I1 F1 LL1 G1) as (X1 & X2 & X3 & X4 & X5).
      rewrite HB in LL2, G2. destruct (put_ok b2 h2 I2 F2 LL2 G2) as (Y1 & Y2 & Y3 & Y4 & Y5).
      destruct (IH ps2' (fold_left insert b1 h1) (fold_left insert b2 h2) X1 X2 Y1 Y2) as (h1' & o1 & h2' & o2 & S1 & S2 & E & E'); try assumption.
      * congruence.
      * rewrite X5, Y5, HP, HQ. reflexivity.
      * eapply Permutation_NoDup; [|exact ND]. apply Permutation_map. rewrite X5. unfold puts. cbn [map concat]. rewrite app_assoc. reflexivity.
      * rewrite X3. exact LR1.
      * rewrite X3. exact LR2.
      * unfold max_size in *. rewrite X3, X4, (Permutation_length X5), app_length. exact G1'.
      * unfold max_size in *. rewrite X3, Y3, Y4, (Permutation_length Y5), app_length. exact G2'.
      * rewrite S1, S2. do 4 eexists. split; [reflexivity|]. split; [reflexivity|]. split; [|exact E']. cbn [map]. f_equal; [|exact E]. unfold pairs_seen. cbn [fst snd]. f_equal.
        rewrite (size_ok _ X1 X2), (size_ok _ Y1 Y2), (Permutation_length X5), (Permutation_length Y5), !app_length, EL, (Permutation_length HQ). reflexivity.
    + destruct (delete_ok h1 I1) as (g1 & out1 & D1 & X1 & X2 & X3 & X4). destruct (delete_ok h2 I2) as (g2 & out2 & D2 & Y1 & Y2 & Y3 & Y4). rewrite D1, D2.
      rewrite <- HB in Y4.
      assert (ND1 : NoDup (map fst (contents h1))) by (rewrite map_app in ND; eapply nodup_app_l; exact ND).
      destruct (del_pairs _ _ _ _ _ _ _ HP ND1 (contents_finite h1) X4 Y4) as (E1 & E2 & E3). pose proof (del_length _ _ _ _ X4) as N1. pose proof (del_length _ _ _ _ Y4) as N2.
      assert (F1' : fits32 g1) by (unfold fits32 in *; rewrite X2, X3; exact F1). assert (F2' : fits32 g2) by (unfold fits32 in *; rewrite Y2, Y3; exact F2).
      destruct (IH ps2' g1 g2 X1 F1' Y1 F2') as (h1' & o1 & h2' & o2 & S1 & S2 & E & E'); try assumption.
      * congruence.
      * apply (nodup_app_r (map fst (fin out1))). rewrite <- map_app, app_assoc. eapply Permutation_NoDup; [|exact ND]. apply Permutation_map. rewrite E3. reflexivity.
      * rewrite X2. exact LR1.
      * rewrite X2. exact LR2.
      * unfold max_size in *. rewrite X2, X3, N1. exact G1.
      * unfold max_size in *. rewrite X2, Y2, Y3, N2. exact G2.
      * rewrite S1, S2. do 4 eexists. split; [reflexivity|]. split; [reflexivity|]. split; [|exact E']. cbn [map]. f_equal; [|exact E]. unfold pairs_seen. cbn [fst snd]. f_equal; [exact E1|].
        rewrite (size_ok _ X1 F1'), (size_ok _ Y1 F2'), N1, N2, EL. reflexivity.
Qed.
End Pairs.

(** with distinct keys, the same pairs come out, in the same order *)
Theorem C62_heap_same_pairs : forall (V : Type) total1 total2 B (dv1 dv2 : V) ps1 ps2,
  params_ok total1 B -> params_ok total2 B ->
  let h1 := build dv1 total1 B in let h2 := build dv2 total2 B in
  Forall (legal_phase B) ps1 -> Forall (legal_phase B) ps2 -> Forall2 same_pairs ps1 ps2 -> NoDup (map fst (puts ps1)) ->
  fits (max_size h1) B 0 ps1 -> fits (max_size h2) B 0 ps2 ->
  exists h1' o1 h2' o2, serve h1 ps1 = Some (h1', o1) /\ serve h2 ps2 = Some (h2', o2) /\
    map pairs_seen o1 = map pairs_seen o2.
Proof.
  intros V n1 n2 B dv1 dv2 ps1 ps2 P1 P2 h1 h2 L1 L2 HS ND G1 G2. pose proof P1 as (HB & Ht1 & _). pose proof P2 as (_ & Ht2 & _).
  destruct (build_fits dv1 n1 B P1) as [F1 M1]. destruct (build_fits dv2 n2 B P2) as [F2 M2].
  destruct (build_ok dv1 n1 B HB Ht1 M1) as (I1 & C1 & E1 & _). destruct (build_ok dv2 n2 B HB Ht2 M2) as (I2 & C2 & E2 & _).
  destruct (same_pairs_ok ps1 ps2 h1 h2 I1 F1 I2 F2) as (h1' & o1 & h2' & o2 & S1 & S2 & E & _); unfold h1, h2 in *.
  - congruence.
  - rewrite C1, C2. reflexivity.
  - rewrite C1. exact ND.
  - exact HS.
  - rewrite E1. exact L1.
  - rewrite E1. exact L2.
  - rewrite C1, E1. exact G1.
  - rewrite C2, E1. exact G2.
  - exists h1', o1, h2', o2. auto.
Qed.
Print Assumptions C62_heap_same_pairs.
(** with equal keys the values may differ: ties are broken by the history *)
Theorem C62_heap_ties_refuted : exists ps1 ps2 : list (phase Z),
  Forall2 same_pairs ps1 ps2 /\ Forall (legal_phase 2) ps1 /\ Forall (legal_phase 2) ps2 /\
  let h := build 0%Z 4 2 in
  fits (max_size h) 2 0 ps1 /\ fits (max_size h) 2 0 ps2 /\
  exists h1 o1 h2 o2, serve h ps1 = Some (h1, o1) /\ serve h ps2 = Some (h2, o2) /\ map pairs_seen o1 <> map pairs_seen o2.
Proof.
  exists [Put [[(Fin 5, 1%Z); (Fin 5, 2%Z)]]; Take], [Put [[(Fin 5, 2%Z); (Fin 5, 1%Z)]]; Take].
  split; [constructor; [constructor; apply perm_swap|constructor; constructor]|].
  assert (L : forall a b : Z, legal_phase 2 (Put [[(Fin 5, a); (Fin 5, b)]])).
  { intros a b. constructor; [|constructor]. split; [reflexivity|]. intros x [<-|[<-|[]]]; discriminate. }
  split; [constructor; [apply L|constructor; [exact Logic.I|constructor]]|]. split; [constructor; [apply L|constructor; [exact Logic.I|constructor]]|].
  cbv zeta. split; [vm_compute; repeat split; lia|]. split; [vm_compute; repeat split; lia|].
  do 4 eexists. split; [vm_compute; reflexivity|]. split; [vm_compute; reflexivity|]. vm_compute. discriminate.
Qed.
Print Assumptions C62_heap_ties_refuted.

(** ** Queue and stack *)
Section QS.
Import QueueModel QueueSpec QueueProofs.
Context {V : Type} (dflt : V).
Lemma seq_from n m : seq n m = map (fun k => n + k) (seq 0 m).
Proof.
  induction n as [|n IH]; [rewrite map_ext with (g := fun k => k) by reflexivity; symmetry; apply map_id|].
  rewrite <- seq_shift, IH, map_map. apply map_ext. reflexivity.
Qed.
Lemma arange_app n m : arange (n + m) = arange n ++ map (fun k => Z.of_nat n + k)%Z (arange m).
Proof.
  unfold arange. rewrite seq_app, map_app. f_equal. cbn [plus]. rewrite (seq_from n m), !map_map. apply map_ext. intros a. lia.
Qed.
Lemma jsets_app (is1 : list Z) : forall (l vs1 : list V) is2 vs2, length is1 = length vs1 ->
  jsets l (is1 ++ is2) (vs1 ++ vs2) = jsets (jsets l is1 vs1) is2 vs2.
Proof.
  induction is1 as [|i is1 IH]; intros l [|v vs1] is2 vs2 HL; cbn [length] in HL; try lia; [reflexivity|].
  cbn [app]. rewrite !jsets_cons. apply IH. lia.
Qed.
Lemma u32_add a b : u32 (u32 a + b) = u32 (a + b).
Proof. unfold u32. apply Zplus_mod_idemp_l. Qed.
Lemma i32_add a b : i32 (u32 a + b) = i32 (a + b).
Proof. unfold i32, u32. rewrite Zplus_mod_idemp_l. reflexivity. Qed.
Lemma arange_length n : length (arange n) = n.
Proof. unfold arange. rewrite map_length. apply seq_length. Qed.
Lemma enqueue_many (q : queue V) xs ys : q_enqueue (q_enqueue q (Many xs)) (Many ys) = q_enqueue q (Many (xs ++ ys)).
Proof.
  unfold q_enqueue. cbn [q_store q_head q_tail]. f_equal.
  - rewrite app_length, arange_app, map_app, jsets_app by (rewrite map_length; apply arange_length). f_equal. rewrite map_map. apply map_ext. intros k. rewrite i32_add. f_equal. lia.
  - rewrite u32_add, app_length. f_equal. lia.
Qed.
Lemma push_many (s : stack V) xs ys : s_push (s_push s (Many xs)) (Many ys) = s_push s (Many (xs ++ ys)).
Proof.
  unfold s_push. cbn [s_store s_size]. f_equal.
  - rewrite app_length, arange_app, map_app, jsets_app by (rewrite map_length; apply arange_length). f_equal. rewrite map_map. apply map_ext. intros k. rewrite i32_add. f_equal. lia.
  - rewrite u32_add, app_length. f_equal. lia.
Qed.
Lemma enqueue_one (q : queue V) a : (0 <= q_tail q < 2 ^ 31)%Z -> q_enqueue q a = q_enqueue q (Many (arg_items a)).
Proof.
  intros H. destruct a as [v|vs]; [|reflexivity]. unfold q_enqueue. cbn [arg_items length]. f_equal. unfold arange. cbn [seq map]. rewrite jsets_cons.
  rewrite i32_small by lia. unfold jsets. cbn [combine fold_left]. f_equal. lia.
Qed.
Lemma push_one (s : stack V) a : (0 <= s_size s < 2 ^ 31)%Z -> s_push s a = s_push s (Many (arg_items a)).
Proof.
  intros H. destruct a as [v|vs]; [|reflexivity]. unfold s_push. cbn [arg_items length]. f_equal. unfold arange. cbn [seq map]. rewrite jsets_cons.
  rewrite i32_small by lia. unfold jsets. cbn [combine fold_left]. f_equal. lia.
Qed.
Lemma peek_items (q : queue V) n : (0 <= q_head q < 2 ^ 31)%Z -> arg_items (q_peek dflt q n) = map (fun k => jget dflt (q_store q) (i32 (q_head q + k))) (arange n).
Proof. intros H. destruct n as [|[|n]]; [reflexivity| |reflexivity]. cbn. rewrite Z.add_0_r, i32_small by lia. reflexivity. Qed.
Lemma arange_down_app n m : arange_down (n + m) = map (fun k => Z.of_nat n + k)%Z (arange_down m) ++ arange_down n.
Proof.
  unfold arange_down. replace (seq 0 (n + m)) with (seq 0 m ++ seq (0 + m) n) by (rewrite <- seq_app; f_equal; lia). rewrite map_app. f_equal.
  - rewrite map_map. apply map_ext_in. intros k Hk. apply in_seq in Hk. lia.
  - rewrite (seq_from (0 + m) n), map_map. apply map_ext. intros k. lia.
Qed.
Lemma top_items (s : stack V) n : (0 <= s_size s < 2 ^ 31)%Z -> (Z.of_nat n <= s_size s)%Z ->
  arg_items (s_peek dflt s n) = map (fun k => jget dflt (s_store s) (i32 (s_size s - k))) (arange_down n).
Proof.
  intros H Hn. destruct n as [|[|n]]; [reflexivity| |reflexivity]. cbn [s_peek arg_items]. unfold arange_down. cbn [seq map Nat.sub].
  rewrite i32_small, u32_small by (unfold U32; lia). reflexivity.
Qed.
End QS.

(** what the caller holds after a history: the items of all replies, in order *)
Import QueueModel.
(** enqueue: two calls are one call with the concatenated batch — whatever the capacity
    (an overflowing part is lost either way); same for push *)
Theorem C62_enqueue_split : forall (V : Type) (q : queue V) (a b : arg V),
  (0 <= q_tail q)%Z -> (q_tail q + Z.of_nat (length (arg_items a)) < 2 ^ 31)%Z ->
  q_enqueue (q_enqueue q a) b = q_enqueue q (Many (arg_items a ++ arg_items b)).
Proof.
  intros V q a b H0 H1. rewrite (enqueue_one q a) by lia. rewrite enqueue_one.
  - apply enqueue_many.
  - unfold q_enqueue. cbn [q_tail]. rewrite u32_small by (unfold U32; lia). lia.
Qed.
Theorem C62_push_split : forall (V : Type) (s : stack V) (a b : arg V),
  (0 <= s_size s)%Z -> (s_size s + Z.of_nat (length (arg_items a)) < 2 ^ 31)%Z ->
  s_push (s_push s a) b = s_push s (Many (arg_items a ++ arg_items b)).
Proof.
  intros V s a b H0 H1. rewrite (push_one s a) by lia. rewrite push_one.
  - apply push_many.
  - unfold s_push. cbn [s_size]. rewrite u32_small by (unfold U32; lia). lia.
Qed.
(** dequeue n, then m: the same state and the same items in the same order as
    dequeue (n + m) *)
Theorem C62_dequeue_split : forall (V : Type) (dflt : V) (q : queue V) (n m : nat),
  (0 <= q_head q)%Z -> (q_head q + Z.of_nat n < 2 ^ 31)%Z ->
  let '(q1, r1) := q_dequeue dflt q n in let '(q2, r2) := q_dequeue dflt q1 m in
  q_dequeue dflt q (n + m) = (q2, snd (q_dequeue dflt q (n + m))) /\
  arg_items (snd (q_dequeue dflt q (n + m))) = arg_items r1 ++ arg_items r2.
Proof.
  intros V dflt q n m H0 H1. unfold q_dequeue. cbn [q_store q_head q_tail snd]. rewrite u32_add. split.
  - do 3 f_equal. lia.
  - rewrite !peek_items by (cbn [q_head]; try rewrite u32_small by (unfold U32; lia); lia). cbn [q_store q_head]. rewrite arange_app, map_app. f_equal. rewrite map_map.
    apply map_ext. intros k. rewrite i32_add. do 2 f_equal. lia.
Qed.
(** pop n, then m: the second batch lies below the first *)
Theorem C62_pop_split : forall (V : Type) (dflt : V) (s : stack V) (n m : nat),
  (s_size s < 2 ^ 31)%Z -> (Z.of_nat (n + m) <= s_size s)%Z ->
  let '(s1, r1) := s_pop dflt s n in let '(s2, r2) := s_pop dflt s1 m in
  fst (s_pop dflt s (n + m)) = s2 /\ arg_items (snd (s_pop dflt s (n + m))) = arg_items r2 ++ arg_items r1.
Proof.
  intros V dflt s n m H0 H1. unfold s_pop. cbn [s_store s_size fst snd]. split.
  - f_equal. rewrite !u32_small; unfold U32; try lia. rewrite u32_small; unfold U32; lia.
  - rewrite !top_items by (cbn [s_size]; try rewrite u32_small by (unfold U32; lia); lia). cbn [s_store s_size]. rewrite arange_down_app, map_app. f_equal. rewrite map_map.
    apply map_ext. intros k. rewrite u32_small by (unfold U32; lia). do 2 f_equal. lia.
Qed.
Print Assumptions C62_enqueue_split.
Print Assumptions C62_push_split.
Print Assumptions C62_dequeue_split.
Print Assumptions C62_pop_split.
