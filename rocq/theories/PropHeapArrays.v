(** * PropHeapArrays.v — property C46: the priority queue whose values are instances stored
      one array per field, separately from the keys, behaves as a queue of (key, instance)
      pairs: a key never parts from its instance, and no field from the others. *)
From Coq Require Import String.
From Verif Require Import KeyModel SortProofs HeapModel HeapSpec HeapProofs HeapInsert HeapInv HeapDelete PropHeap.
From Verif Require Import Jax StructModel ArrayModel ArrayFacts ShapeModel PropShape RowsModel RowsLift PropRows PropRows2 PropRows3.
From Verif Require Import SoaModel PropSoa PropSoa2 HeapArrays HeapRows HeapSim HeapSim2 HeapSim3.

(** ** Specification *)
(** the pairs of a call's key array and value batch *)
Definition pairs (B : nat) (k : list key) (v : obj) : list (key * obj) := combine k (rows B v).
(** legal arguments: batch_size keys, none -inf or NaN, and a value batch of batch_size *)
Definition aop_ok (c : class) (B : nat) (o : aop) : Prop :=
  match o with AIns k v => length k = B /\ batched c [B] v /\ (forall x, In x k -> x <> NInf) | ADel => True end.
Definition op_of (B : nat) (o : aop) : op obj := match o with AIns k v => Ins (pairs B k v) | ADel => Del end.
Definition seen (B : nat) (p : option (list key * obj) * Z) : list (key * obj) * Z :=
  (match fst p with Some (k, v) => pairs B k v | None => [] end, snd p).
(** what the arrays hold, as blocks of pairs *)
Definition held (h : aheap) : heap obj :=
  MkHeap (zip2 (key_store h) (grid (branch_size h) (batch_size h) (val_store h))) (pairs (batch_size h - 1) (key_buffer h) (val_buffer h))
         (heap_size h) (buffer_size h) (branch_size h) (batch_size h).

Lemma sim_held c h H : sim c h H -> held h = H.
Proof.
  intros [A1 A2 A3 A4 A5 A6 (B1 & B2 & B3 & B4) (C1 & C2 & C3)]. unfold held, pairs. rewrite B4, C3, A1, A2, A3, A4. destruct H; reflexivity.
Qed.
Section S.
Variables (c : class) (cat : bool).
Hypothesis HN : c <> CNil.
Hypothesis HS : solid c.
Lemma run_sim ops : forall h H H' obs, sim c h H -> Inv H -> Forall (aop_ok c (HeapModel.batch H)) ops ->
  HeapSpec.run H (map (op_of (HeapModel.batch H)) ops) = Some (H', obs) ->
  exists h' obs', run_o c cat h ops = Some (h', obs') /\ sim c h' H' /\ map (seen (HeapModel.batch H)) obs' = obs /\
    Forall (fun p => match fst p with Some (k, v) => length k = HeapModel.batch H /\ batched c [HeapModel.batch H] v | None => True end) obs'.
Proof.
  induction ops as [|o ops IH]; intros h H H' obs HSm HI HF HR.
  - cbn [map run run_o] in *. assert (H' = H) by congruence. assert (obs = []) by congruence. subst. exists h, []. split; [reflexivity|]. split; [exact HSm|]. split; [reflexivity|constructor].
  - inversion HF as [|? ? Ho HF']; subst. pose proof (sim_batch _ _ _ HSm) as EB. destruct o as [k v|]; cbn [map op_of run run_o] in *.
    + destruct Ho as (O1 & O2 & O3). set (B := HeapModel.batch H) in *.
      assert (RP : repr c (batch_size h) k v (pairs B k v)) by (rewrite EB; split; [exact O1|]; split; [exact O2|reflexivity]).
      destruct (insert_sim c cat HN HS h H k v _ HSm RP) as [h1 [E1 E2]]. rewrite E1.
      assert (LL : length (pairs B k v) = B) by (unfold pairs; rewrite combine_length, rows_length; lia).
      assert (NI : forall x, In x (pairs B k v) -> fst x <> NInf) by (intros [a b] Hx; apply in_combine_l in Hx; now apply O3).
      destruct (insert_ok H (pairs B k v) HI LL NI) as (I1 & I2 & I3 & I4).
      destruct (run (HeapModel.insert H (pairs B k v)) (map (op_of B) ops)) as [[Hf obs1]|] eqn:ER; [|discriminate].
      assert (H' = Hf) by congruence. assert (EO : obs = ([], size (HeapModel.insert H (pairs B k v))) :: obs1) by congruence. subst H' obs.
      fold B in I2. rewrite <- I2 in HF', ER. destruct (IH h1 _ Hf obs1 E2 I1 HF') as (h' & obs' & R1 & R2 & R3 & R4).
      { rewrite I2 in ER |- *. exact ER. }
      rewrite R1. do 2 eexists. split; [reflexivity|]. split; [exact R2|]. rewrite I2 in R3, R4. split; [cbn [map]; rewrite R3; unfold seen at 1; cbn [fst snd]; now rewrite (size_sim c _ _ E2)|]. constructor; [exact I|exact R4].
    + set (B := HeapModel.batch H) in *. destruct (delete_ok H HI) as (H1 & out & D0 & I1 & I2 & I3 & I4). rewrite D0 in HR.
      assert (Hl : hsize H < HeapModel.branch H) by (destruct (inv_wf H HI) as [_ _ _ W _ _]; apply W).
      destruct (delete_mins_sim c cat HN HS h H H1 out HSm Hl D0) as (h1 & mk & mv & E1 & E2 & E3). rewrite E1.
      destruct (run H1 (map (op_of B) ops)) as [[Hf obs1]|] eqn:ER; [|discriminate].
      assert (H' = Hf) by congruence. assert (EO : obs = (out, size H1) :: obs1) by congruence. subst H' obs.
      fold B in I2. rewrite <- I2 in HF', ER. destruct (IH h1 _ Hf obs1 E2 I1 HF') as (h' & obs' & R1 & R2 & R3 & R4).
      { rewrite I2 in ER |- *. exact ER. }
      rewrite R1. do 2 eexists. split; [reflexivity|]. split; [exact R2|]. rewrite I2 in R3, R4. rewrite EB in E3. destruct E3 as (Q1 & Q2 & Q3). split.
      * cbn [map]. rewrite R3. unfold seen at 1. cbn [fst snd]. unfold pairs. rewrite Q3. now rewrite (size_sim c _ _ E2).
      * constructor; [split; assumption|exact R4].
Qed.
End S.

(** every legal history of calls succeeds, and the returned keys with the instances
    returned at the same positions, the reported sizes and the final contents are those of a
    priority queue of (key, instance) pairs *)
Theorem C46_instances_follow_their_keys : forall c concat total B ops, c <> CNil -> solid c -> params_ok total B -> Forall (aop_ok c B) ops ->
  exists h obs, run_o c concat (build_o c total B) ops = Some (h, obs) /\
    pq_trace B (((total + B - 1) / B) * B) [] (map (op_of B) ops) (map (seen B) obs) (contents (held h)) /\
    Forall (fun p => match fst p with Some (k, v) => length k = B /\ batched c [B] v | None => True end) obs.
Proof.
  intros c cat total B ops HN HS HP HF. pose proof HP as (HB & Ht & Hs).
  assert (HL : Forall (legal B) (map (op_of B) ops)).
  { apply Forall_map. eapply Forall_impl; [|exact HF]. intros [k v|] H; [|exact I]. destruct H as (O1 & O2 & O3). cbn [op_of legal]. split; [unfold pairs; rewrite combine_length, rows_length; lia|].
    intros [a b] Hx. apply in_combine_l in Hx. now apply O3. }
  destruct (C10_every_history_refines_the_bag_spec obj total B (default_obj [] c) _ HP HL) as (H & obs & R & T).
  destruct (build_fits (default_obj [] c) total B HP) as [_ Hsm]. destruct (build_ok (default_obj [] c) total B HB Ht Hsm) as (HI & _ & E1 & _).
  destruct (run_sim c cat HN HS ops (build_o c total B) _ H obs (build_sim c total B HB Ht) HI) as (h & obs' & S1 & S2 & S3 & S4); rewrite ?E1; [exact HF|exact R|].
  rewrite E1 in S3, S4. exists h, obs'. split; [exact S1|]. split; [|exact S4]. rewrite S3, (sim_held c h H S2). exact T.
Qed.
Print Assumptions C46_instances_follow_their_keys.
(** and the arrays hold exactly what the model on pairs (C09-C16) holds *)
Theorem C46_arrays_hold_the_pairs : forall c concat total B ops h obs, c <> CNil -> solid c -> params_ok total B -> Forall (aop_ok c B) ops ->
  run_o c concat (build_o c total B) ops = Some (h, obs) ->
  HeapSpec.run (HeapModel.build (default_obj [] c) total B) (map (op_of B) ops) = Some (held h, map (seen B) obs) /\
  well_formed (held h) /\
  batched c [branch_size h; B] (val_store h) /\ batched c [B - 1] (val_buffer h).
Proof.
  intros c cat total B ops h obs HN HS HP HF HR. pose proof HP as (HB & Ht & Hs).
  assert (HL : Forall (legal B) (map (op_of B) ops)).
  { apply Forall_map. eapply Forall_impl; [|exact HF]. intros [k v|] H; [|exact I]. destruct H as (O1 & O2 & O3). cbn [op_of legal]. split; [unfold pairs; rewrite combine_length, rows_length; lia|].
    intros [a b] Hx. apply in_combine_l in Hx. now apply O3. }
  destruct (C10_every_history_refines_the_bag_spec obj total B (default_obj [] c) _ HP HL) as (H & obs1 & R & T).
  destruct (build_fits (default_obj [] c) total B HP) as [_ Hsm]. destruct (build_ok (default_obj [] c) total B HB Ht Hsm) as (HI & _ & E1 & _).
  destruct (run_sim c cat HN HS ops (build_o c total B) _ H obs1 (build_sim c total B HB Ht) HI) as (h' & obs' & S1 & S2 & S3 & S4); rewrite ?E1; [exact HF|exact R|].
  assert (h' = h) by congruence. assert (obs' = obs) by congruence. subst h' obs'. rewrite E1 in S3. rewrite (sim_held c h H S2). rewrite <- S3 in R. split; [exact R|].
  assert (RE : reachable total B (default_obj [] c) H) by (exists (map (op_of B) ops), (map (seen B) obs); split; assumption).
  split; [exact (C09_reachable_queues_are_well_formed obj total B _ H HP RE)|]. destruct (reachable_inv total B _ H HP RE) as (_ & _ & EB & _). destruct S2 as [A1 A2 A3 A4 A5 A6 (B1 & B2 & B3 & B4) (C1 & C2 & C3)].
  rewrite A1, EB in B3, C2. split; assumption.
Qed.
Print Assumptions C46_arrays_hold_the_pairs.

(** ** A batch is determined by its elements *)
Lemma array_eq_sub (a1 a2 : array) B J : adtype a1 = adtype a2 -> ashape a1 = B ++ J -> ashape a2 = B ++ J -> wfa a1 -> wfa a2 ->
  (forall b, inb b B -> sub b a1 = sub b a2) -> a1 = a2.
Proof.
  intros HD S1 S2 W1 W2 HE. assert (HG : forall i, inb i (B ++ J) -> get a1 i = get a2 i).
  { intros i Hi. apply inb_app_inv in Hi. destruct Hi as (b & t & -> & Hb & Ht). specialize (HE b Hb). assert (EG := f_equal (fun x => get x t) HE). cbn beta in EG. unfold sub in EG. rewrite S1, S2 in EG. rewrite (inb_length _ _ Hb) in EG. rewrite skipn_app, skipn_all, Nat.sub_diag in EG. cbn [skipn app] in EG.
    rewrite !get_build in EG by exact Ht. exact EG. }
  destruct a1 as [d1 s1 l1], a2 as [d2 s2 l2]. cbn [adtype ashape] in *. subst d2 s1 s2. f_equal. unfold wfa in *. cbn [adata ashape] in *. apply (nth_ext_len _ _ 0%Z); [congruence|]. intros k Hk. rewrite W1 in Hk.
  specialize (HG (unravel (B ++ J) k) (unravel_inb _ _ Hk)). unfold get in HG. cbn [ashape adata] in HG. now rewrite ravel_unravel in HG.
Qed.
Lemma elem_ext_both B :
  (forall d J v w, conforms_v d v -> has_v (B ++ J) d v -> conforms_v d w -> has_v (B ++ J) d w -> (forall b, inb b B -> elem_v b v = elem_v b w) -> v = w) /\
  (forall c J o q, conforms c o -> has_batch (B ++ J) c o -> conforms c q -> has_batch (B ++ J) c q -> (forall b, inb b B -> elem b o = elem b q) -> o = q).
Proof.
  apply desc_class_ind.
  - intros dt ish bits pb fill J v w C1 B1 C2 B2 HE. destruct v as [a|], w as [a'|]; cbn [conforms_v has_v] in *; try contradiction. destruct C1 as [D1 W1], C2 as [D2 W2]. f_equal.
    apply (array_eq_sub a a' B (J ++ ish)); try assumption; try congruence; try (now rewrite app_assoc). intros b Hb. specialize (HE b Hb). cbn [elem_v] in HE. congruence.
  - intros c0 IH ish J v w C1 B1 C2 B2 HE. destruct v as [|o], w as [|q]; cbn [conforms_v has_v] in *; try contradiction. f_equal. apply (IH (J ++ ish)); try assumption; try (now rewrite app_assoc). intros b Hb. specialize (HE b Hb). cbn [elem_v] in HE. congruence.
  - intros J o q C1 _ C2 _ _. destruct o; [|destruct C1]. destruct q; [reflexivity|destruct C2].
  - intros n d IHd r IHr J o q C1 B1 C2 B2 HE. destruct o as [|m v o]; [destruct C1|]. destruct q as [|m' w q]; [destruct C2|]. cbn [conforms has_batch] in *. destruct C1 as [-> [C1 C1']], C2 as [-> [C2 C2']], B1 as [_ [B1 B1']], B2 as [_ [B2 B2']].
    f_equal; [apply (IHd J); try assumption|apply (IHr J); try assumption]; intros b Hb; specialize (HE b Hb); cbn [elem] in HE; congruence.
Qed.
Theorem C41_extensional : forall c B o q, batched c B o -> batched c B q -> (forall b, inb b B -> elem b o = elem b q) -> o = q.
Proof. intros c B o q [C1 B1] [C2 B2] HE. apply (proj2 (elem_ext_both B) c [] o q); try assumption; now rewrite app_nil_r. Qed.
Print Assumptions C41_extensional.
Lemma rows_ext c n o q : batched c [n] o -> batched c [n] q -> rows n o = rows n q -> o = q.
Proof. intros H1 H2 E. apply (C41_extensional c [n]); [exact H1|exact H2|]. intros b Hb. destruct b as [|i b]; [inversion Hb|]. apply inb_cons in Hb. destruct Hb as [Hi Hb]. inversion Hb; subst. rewrite <- (rows_nth n o i o Hi), <- (rows_nth n q i o Hi). now rewrite E. Qed.
Lemma grid_ext c n m o q : batched c [n; m] o -> batched c [n; m] q -> grid n m o = grid n m q -> o = q.
Proof.
  intros H1 H2 E. apply (C41_extensional c [n; m]); [exact H1|exact H2|]. intros b Hb. destruct b as [|i [|j b]]; [inversion Hb|apply inb_cons in Hb; destruct Hb as [_ Hb]; inversion Hb|]. apply inb_cons in Hb. destruct Hb as [Hi Hb]. apply inb_cons in Hb. destruct Hb as [Hj Hb]. inversion Hb; subst.
  assert (K : nth i (grid n m o) [] = nth i (grid n m q) []) by congruence. rewrite !grid_nth in K by exact Hi. apply (f_equal (fun l => nth j l ONil)) in K.
  rewrite !(nth_map_any _ (seq 0 m) j 0) in K by (now rewrite seq_length). rewrite seq_nth in K by exact Hj. exact K.
Qed.
Lemma sim_inj c h1 h2 H : sim c h1 H -> sim c h2 H -> h1 = h2.
Proof.
  intros [A1 A2 A3 A4 A5 A6 A7 A8] [B1 B2 B3 B4 B5 B6 B7 B8]. rewrite A1, A2 in *. rewrite B1, B2 in *.
  set (n := HeapModel.branch H) in *. set (m := HeapModel.batch H) in *.
  assert (KB : key_buffer h1 = key_buffer h2) by (rewrite <- (repr_fst _ _ _ _ _ A8); exact (repr_fst _ _ _ _ _ B8)).
  assert (VB : val_buffer h1 = val_buffer h2) by (apply (rows_ext c (m - 1)); [apply A8|apply B8|]; rewrite <- (repr_snd _ _ _ _ _ A8); exact (repr_snd _ _ _ _ _ B8)).
  pose proof A7 as (K1 & K2 & K3 & K4). pose proof B7 as (L1 & L2 & L3 & L4).
  assert (NN : forall i, i < n -> nth i (key_store h1) [] = nth i (key_store h2) [] /\ nth i (grid n m (val_store h1)) [] = nth i (grid n m (val_store h2)) []).
  { intros i Hi. pose proof (repr2_nth _ _ _ _ _ _ i A7) as E1. pose proof (repr2_nth _ _ _ _ _ _ i B7) as E2. rewrite E1 in E2.
    assert (G1 : length (nth i (key_store h1) []) = length (nth i (grid n m (val_store h1)) [])) by (rewrite K2, grid_nth, map_length, seq_length by exact Hi; reflexivity).
    assert (G2 : length (nth i (key_store h2) []) = length (nth i (grid n m (val_store h2)) [])) by (rewrite L2, grid_nth, map_length, seq_length by exact Hi; reflexivity).
    split; [rewrite <- (map_fst_combine _ _ G1), <- (map_fst_combine _ _ G2)|rewrite <- (map_snd_combine _ _ G1), <- (map_snd_combine _ _ G2)]; now rewrite E2. }
  assert (KS : key_store h1 = key_store h2) by (apply (nth_ext_len _ _ []); [congruence|]; intros i Hi; apply NN; lia).
  assert (VS : val_store h1 = val_store h2) by (apply (grid_ext c n m); [exact K3|exact L3|]; apply (nth_ext_len _ _ []); [now rewrite !grid_length|]; intros i Hi; rewrite grid_length in Hi; now apply NN).
  destruct h1 as [a1 a2 a3 a4 a5 a6 a7 a8], h2 as [b1 b2 b3 b4 b5 b6 b7 b8]; cbn [key_store val_store key_buffer val_buffer heap_size buffer_size branch_size batch_size] in *. congruence.
Qed.
(** the two values of XTRUCTURE_BGPQ_VALUE_REORDER give the same arrays and the same answers *)
Theorem C46_reorder_modes_agree : forall c total B ops, c <> CNil -> solid c -> params_ok total B -> Forall (aop_ok c B) ops ->
  run_o c true (build_o c total B) ops = run_o c false (build_o c total B) ops.
Proof.
  intros c total B ops HN HS HP HF. pose proof HP as (HB & Ht & Hs).
  destruct (build_fits (default_obj [] c) total B HP) as [_ Hsm]. destruct (build_ok (default_obj [] c) total B HB Ht Hsm) as (HI & _ & E1 & _).
  assert (HL : Forall (legal B) (map (op_of B) ops)).
  { apply Forall_map. eapply Forall_impl; [|exact HF]. intros [k v|] H; [|exact I]. destruct H as (O1 & O2 & O3). cbn [op_of legal]. split; [unfold pairs; rewrite combine_length, rows_length; lia|].
    intros [a b] Hx. apply in_combine_l in Hx. now apply O3. }
  destruct (C10_every_history_refines_the_bag_spec obj total B (default_obj [] c) _ HP HL) as (H & obs1 & R & T).
  destruct (run_sim c true HN HS ops (build_o c total B) _ H obs1 (build_sim c total B HB Ht) HI) as (h & o1 & S1 & S2 & S3 & S4); rewrite ?E1; [exact HF|exact R|].
  destruct (run_sim c false HN HS ops (build_o c total B) _ H obs1 (build_sim c total B HB Ht) HI) as (h' & o2 & T1 & T2 & T3 & T4); rewrite ?E1; [exact HF|exact R|].
  rewrite E1 in *. rewrite S1, T1. f_equal. f_equal; [exact (sim_inj c h h' H S2 T2)|].
  assert (K : forall x y, map (seen B) x = map (seen B) y -> 
     Forall (fun p : option (list key * obj) * Z => match fst p with Some (k, v) => length k = B /\ batched c [B] v | None => True end) x ->
     Forall (fun p : option (list key * obj) * Z => match fst p with Some (k, v) => length k = B /\ batched c [B] v | None => True end) y -> x = y).
  { assert (NB : forall k v, length k = B -> pairs B k v <> []) by (intros k v E E0; apply (f_equal (@length _)) in E0; unfold pairs in E0; rewrite combine_length, rows_length in E0; cbn [length] in E0; lia).
    induction x as [|[r z] x IH]; intros [|[r' z'] y] E F1 F2; cbn [map] in E; try discriminate; [reflexivity|].
    inversion F1 as [|? ? P1 Q1]; subst. inversion F2 as [|? ? P2 Q2]; subst. cbn [fst] in P1, P2.
    assert (E0 : seen B (r, z) = seen B (r', z')) by congruence. assert (ET : map (seen B) x = map (seen B) y) by congruence. unfold seen in E0. cbn [fst snd] in E0.
    assert (EZ : z = z') by congruence. f_equal; [f_equal; [|exact EZ]|now apply IH].
    destruct r as [[k v]|], r' as [[k' v']|]; try reflexivity.
    - destruct P1 as [P1 P1'], P2 as [P2 P2']. assert (EP : pairs B k v = pairs B k' v') by congruence. unfold pairs in EP.
      assert (EK : k = k') by (rewrite <- (map_fst_combine k (rows B v)), <- (map_fst_combine k' (rows B v')), EP by (rewrite rows_length; assumption); reflexivity).
      assert (EV : v = v') by (apply (rows_ext c B); [exact P1'|exact P2'|]; rewrite <- (map_snd_combine k (rows B v)), <- (map_snd_combine k' (rows B v')), EP by (rewrite rows_length; assumption); reflexivity).
      congruence.
    - exfalso. assert (EP : pairs B k v = []) by congruence. exact (NB _ _ (proj1 P1) EP).
    - exfalso. assert (EP : pairs B k' v' = []) by congruence. exact (NB _ _ (proj1 P2) EP). }
  apply K; [congruence|exact S4|exact T4].
Qed.
Print Assumptions C46_reorder_modes_agree.

(** ** make_batched: keys padded with +inf, values with default instances *)
Theorem C46_make_batched : forall c B n k v, c <> CNil -> solid c -> length k = n -> batched c [n] v -> n <= B ->
  exists k' v', make_batched_o c k v B = Some (k', v') /\ length k' = B /\ batched c [B] v' /\
    pairs B k' v' = pairs n k v ++ repeat (PInf, default_obj [] c) (B - n).
Proof.
  intros c B n k v HN HS HL HV Hn. unfold make_batched_o. rewrite HL.
  destruct (C41_pad c [n] v [(0, B - n)] HN HS HV) as [v' [E1 [E2 [E3 E4]]]]; [discriminate|reflexivity|]. rewrite E1. do 2 eexists. split; [reflexivity|].
  cbn [pad_shape combine map fst snd] in E2, E4. replace (n + 0 + (B - n)) with B in E2, E4 by lia.
  split; [rewrite app_length, repeat_length; lia|]. split; [exact E2|]. unfold pairs.
  assert (ER : rows B v' = rows n v ++ repeat (default_obj [] c) (B - n)).
  { apply rows_eq; [rewrite app_length, rows_length, repeat_length; lia|]. intros i d Hi. destruct (Nat.lt_ge_cases i n) as [H|H].
    - rewrite app_nth1 by (now rewrite rows_length). rewrite rows_nth by exact H. specialize (E3 [i]). cbn [shifted combine map fst snd] in E3. rewrite Nat.add_0_r in E3. symmetry. apply E3. apply inb_cons; split; [exact H|apply inb_nil].
    - rewrite app_nth2 by (rewrite rows_length; lia). rewrite rows_length. rewrite (nth_indep _ d (default_obj [] c)) by (rewrite repeat_length; lia). rewrite nth_repeat. symmetry. apply E4; [apply inb_cons; split; [exact Hi|apply inb_nil]|].
      intros s Hs E. destruct s as [|j s]; [inversion Hs|]. apply inb_cons in Hs. destruct Hs as [Hj Hs]. inversion Hs; subst. cbn in E. assert (i = j + 0) by congruence. lia. }
  rewrite ER. clear - HL. assert (LR : length (rows n v) = n) by apply rows_length. revert HL LR. generalize (rows n v). intros l. generalize (B - n). intros q. revert l n. induction k as [|x k IH]; intros [|y l] n HL LR; cbn [length] in *; try lia; cbn [app combine]; [|].
  - clear. induction q; [reflexivity|]. cbn [repeat combine]. now rewrite IHq.
  - f_equal. apply (IH l (n - 1)); lia.
Qed.
Print Assumptions C46_make_batched.

(** ** Example: two inserts and two deletions of a queue of two-field records *)
Definition kf (l : list Z) : list key := map (fun z => Fin z) l.
Example C46_example :
  let ops := [AIns (kf [5; 3]%Z) (cells [2] [50; 30]%Z); AIns (kf [4; 9]%Z) (cells [2] [40; 90]%Z); ADel; AIns (kf [1]%Z ++ [PInf]) (cells [2] [10; 0]%Z); ADel] in
  params_ok 6 2 /\ Forall (aop_ok cell 2) ops /\
  option_map snd (run_o cell false (build_o cell 6 2) ops) =
    Some [(None, 2%Z); (None, 4%Z); (Some (kf [3; 4]%Z, cells [2] [30; 40]%Z), 2%Z); (None, 3%Z); (Some (kf [1; 5]%Z, cells [2] [10; 50]%Z), 1%Z)].
Proof.
  cbn zeta. split; [unfold params_ok; lia|]. split; [|vm_compute; reflexivity].
  repeat apply Forall_cons; try exact I; try apply Forall_nil; cbn [aop_ok]; (split; [reflexivity|split; [split; cbn; auto 10|]]); intros x Hx; cbn in Hx; intuition (subst; discriminate).
Qed.
