(** * PropHeap.v — property theorems C09-C16 (batched priority queue). *)
From Verif Require Import Jax KeyModel SortProofs HeapModel HeapSpec HeapProofs HeapInsert HeapInv HeapDelete.

Section R.
Context {V : Type}.
Notation item := (key * V)%type.
Notation row := (list item).
Implicit Types h : heap V.

Definition fits32 h : Prop := (Z.of_nat (branch h + 1) * Z.of_nat (batch h) <= 2 ^ 31)%Z.

Lemma run_ok ops : forall h, Inv h -> fits32 h -> Forall (legal (batch h)) ops ->
  exists h' obs, run h ops = Some (h', obs) /\ Inv h' /\ fits32 h' /\ batch h' = batch h /\ branch h' = branch h /\
    pq_trace (batch h) (max_size h) (contents h) ops obs (contents h').
Proof.
  induction ops as [|o ops IH]; intros h HI H32 HF.
  - exists h, []. split; [reflexivity|]. split; [exact HI|]. split; [exact H32|].
    split; [reflexivity|]. split; [reflexivity|]. constructor.
  - inversion HF as [|? ? Ho HF']; subst. destruct o as [block|]; cbn [run].
    + destruct Ho as [Hl Hn]. destruct (insert_ok h block HI Hl Hn) as (I1 & I2 & I3 & I4).
      assert (H32' : fits32 (insert h block)) by (unfold fits32 in *; rewrite I2, I3; exact H32).
      rewrite <- I2 in HF'. destruct (IH _ I1 H32' HF') as (h' & obs & E1 & E2 & E3 & E4 & E5 & E6).
      rewrite E1. do 2 eexists. split; [reflexivity|]. split; [exact E2|]. split; [exact E3|].
      split; [congruence|]. split; [congruence|].
      rewrite (size_ok _ I1 H32'). apply (tr_ins _ _ _ _ (contents (insert h block))); [exact I4|].
      unfold max_size in *. rewrite I2, I3 in E6. exact E6.
    + destruct (delete_ok h HI) as (h1 & out & D0 & I1 & I2 & I3 & I4). rewrite D0.
      assert (H32' : fits32 h1) by (unfold fits32 in *; rewrite I2, I3; exact H32).
      rewrite <- I2 in HF'. destruct (IH _ I1 H32' HF') as (h' & obs & E1 & E2 & E3 & E4 & E5 & E6).
      rewrite E1. do 2 eexists. split; [reflexivity|]. split; [exact E2|]. split; [exact E3|].
      split; [congruence|]. split; [congruence|].
      rewrite (size_ok _ I1 H32'). apply (tr_del _ _ _ _ (contents h1)); [exact I4|].
      unfold max_size in *. rewrite I2, I3 in E6. exact E6.
Qed.

(** Parameters accepted by [BGPQ.build] in this model: positive sizes, and
    capacity plus one block below 2^31 slots. *)
Definition params_ok (total B : nat) : Prop :=
  1 <= B /\ 1 <= total /\ (Z.of_nat total + 2 * Z.of_nat B <= 2 ^ 31)%Z.

Lemma build_fits (dv : V) total B : params_ok total B -> fits32 (build dv total B) /\ small total.
Proof.
  intros (HB & Ht & Hs). assert (Hsm : small total) by (unfold small; lia). split; [|exact Hsm].
  destruct (build_ok dv total B HB Ht Hsm) as (_ & _ & E1 & E2).
  unfold fits32. rewrite E1, E2.
  pose proof (Nat.mul_div_le (total + B - 1) B ltac:(lia)). nia.
Qed.

Lemma reachable_inv total B dv h : params_ok total B -> reachable total B dv h ->
  Inv h /\ fits32 h /\ batch h = B /\ branch h = (total + B - 1) / B.
Proof.
  intros HP (ops & obs & HF & HR). pose proof HP as (HB & Ht & Hs).
  destruct (build_fits dv total B HP) as [H32 Hsm].
  destruct (build_ok dv total B HB Ht Hsm) as (HI & _ & E1 & E2).
  rewrite <- E1 in HF. destruct (run_ok ops _ HI H32 HF) as (h' & obs' & R1 & R2 & R3 & R4 & R5 & R6).
  rewrite R1 in HR. injection HR as -> ->. rewrite R4, R5. auto.
Qed.

Lemma inv_wf h : Inv h -> well_formed h.
Proof.
  intros [HB HL HR Hbuf Hrb Hbs Hsm]. pose proof HR as [HG Hn HF HE HO].
  assert (HIn : forall r, In r (rows h) -> good (batch h) r).
  { intros r Hr. apply (In_nth _ _ []) in Hr as (i & Hi & <-). apply HG; exact Hi. }
  constructor.
  - split; [exact HL|]. split; [intros r Hr; apply HIn; exact Hr|apply Hbuf].
  - split; [intros r Hr; apply HIn; exact Hr|apply Hbuf].
  - intros i c Hc Hlt. unfold block_at. change (below (rowi (rows h) i) (rowi (rows h) c)).
    assert (E : par c = i).
    { destruct Hc as [-> | ->].
      - replace (2 * i + 1) with (lc i) by (unfold lc; lia). apply par_lc.
      - replace (2 * i + 2) with (rc i) by (unfold rc; lia). apply par_rc. }
    rewrite <- E. apply HO. lia.
  - split; [lia|]. intros i Hi. apply HF; exact Hi.
  - intros i Hi. apply HE; lia.
  - exact Hrb.
Qed.

Lemma drain_ok k : forall h, Inv h -> fits32 h ->
  exists h' obs, run h (repeat Del k) = Some (h', obs) /\ Inv h' /\ length obs = k /\
    let outs := concat (map (fun o => fin (fst o)) obs) in
    sorted outs /\ Permutation (contents h) (outs ++ contents h') /\ below outs (contents h') /\
    length outs = Nat.min (k * batch h) (length (contents h)).
Proof.
  induction k as [|k IH]; intros h HI H32.
  - exists h, []. cbn [repeat run map concat app length]. split; [reflexivity|]. split; [exact HI|]. split; [reflexivity|].
    split; [constructor|]. split; [reflexivity|]. split; [intros x y []|reflexivity].
  - cbn [repeat run]. destruct (delete_ok h HI) as (h1 & out & D0 & I1 & I2 & I3 & I4). rewrite D0.
    assert (H32' : fits32 h1) by (unfold fits32 in *; rewrite I2, I3; exact H32).
    destruct (IH h1 I1 H32') as (h' & obs & E1 & E2 & E3 & E4 & E5 & E6 & E7). rewrite E1.
    do 2 eexists. split; [reflexivity|]. split; [exact E2|]. split; [cbn [length]; lia|].
    cbn [map concat fst].
    destruct I4 as (ret & pad & P1 & P2 & P3 & P4 & P5 & P6 & P7).
    set (outs := concat (map (fun o => fin (fst o)) obs)) in *.
    assert (Hfin : allfin (ret ++ contents h1)).
    { eapply allfin_perm; [exact P6|]. intros x Hx. unfold contents in Hx. apply fin_In in Hx. tauto. }
    apply allfin_app in Hfin as [Hfr _].
    assert (Eout : fin out = ret).
    { rewrite P1, fin_app, (fin_all ret Hfr), (fin_none pad P4), app_nil_r. reflexivity. }
    rewrite Eout.
    assert (Hb : below ret (outs ++ contents h')) by (eapply below_perm_r; [exact E5|exact P7]).
    apply below_app_r in Hb as [Hb1 Hb2].
    split; [apply sorted_app; auto|]. split; [rewrite P6, E5, app_assoc; reflexivity|].
    split; [apply below_app_l; auto|].
    rewrite app_length, P3, E7, I2. rewrite (Permutation_length P6), app_length in *. lia.
Qed.

Lemma run_app o1 o2 : forall h h1 obs1, run h o1 = Some (h1, obs1) ->
  run h (o1 ++ o2) = match run h1 o2 with Some (h', obs2) => Some (h', obs1 ++ obs2) | None => None end.
Proof.
  induction o1 as [|o t IH]; intros h h1 obs1 H.
  - cbn [run] in H. injection H as <- <-. cbn [app]. destruct (run h o2) as [[h' obs2]|]; reflexivity.
  - destruct o as [block|]; cbn [run app] in *.
    + destruct (run (insert h block) t) as [[h2 obs2]|] eqn:E; [|discriminate]. injection H as <- <-.
      rewrite (IH _ _ _ E). destruct (run h2 o2) as [[h' obs3]|]; reflexivity.
    + destruct (delete_mins h) as [[h0 out]|]; [|discriminate].
      destruct (run h0 t) as [[h2 obs2]|] eqn:E; [|discriminate]. injection H as <- <-.
      rewrite (IH _ _ _ E). destruct (run h2 o2) as [[h' obs3]|]; reflexivity.
Qed.

Lemma trace_inserts B cap (blocks : list row) : forall (bag : row) obs bag',
  length bag + length (fin (concat blocks)) < cap + B ->
  pq_trace B cap bag (map Ins blocks) obs bag' ->
  Permutation bag' (bag ++ fin (concat blocks)) /\
  concat (map (fun o => fin (fst o)) obs) = [].
Proof.
  induction blocks as [|b t IH]; intros bag obs bag' HL HT; inversion HT; subst; cbn [concat map] in *.
  - rewrite app_nil_r. split; reflexivity.
  - rewrite fin_app, app_length in HL.
    match goal with H : ins_spec _ _ _ _ _ |- _ => destruct H as [_ Hp|low rest ev Hc _ _ _ _ _ _]; [|lia] end.
    match goal with H : pq_trace _ _ _ _ _ _ |- _ => apply IH in H as [H1 H2] end.
    + split; [|exact H2]. rewrite H1, Hp, fin_app, app_assoc. reflexivity.
    + rewrite (Permutation_length Hp), app_length. lia.
Qed.
End R.

(** C09: structural invariant of every reachable queue. *)
Theorem C09_reachable_queues_are_well_formed :
  forall (V : Type) (total B : nat) (dv : V) h,
    params_ok total B -> reachable total B dv h -> well_formed h.
Proof. intros V total B dv h HP HR. apply inv_wf. exact (proj1 (reachable_inv total B dv h HP HR)). Qed.
Print Assumptions C09_reachable_queues_are_well_formed.

(** C10-C12 and C14 in one statement: whatever legal operations are called, the calls
    succeed (the sift-down loop terminates) and every returned block and every
    reported size is the one of the bag specification, including overflow. *)
Theorem C10_every_history_refines_the_bag_spec :
  forall (V : Type) (total B : nat) (dv : V) ops,
    params_ok total B -> Forall (legal B) ops ->
    exists h obs, run (build dv total B) ops = Some (h, obs) /\
      pq_trace B (((total + B - 1) / B) * B) [] ops obs (contents h).
Proof.
  intros V total B dv ops HP HF. pose proof HP as (HB & Ht & Hs).
  destruct (build_fits dv total B HP) as [H32 Hsm].
  destruct (build_ok dv total B HB Ht Hsm) as (HI & E0 & E1 & E2).
  rewrite <- E1 in HF. destruct (run_ok ops _ HI H32 HF) as (h & obs & R1 & _ & _ & _ & _ & R2).
  exists h, obs. split; [exact R1|]. unfold max_size in R2. rewrite E0, E1, E2 in R2. exact R2.
Qed.
Print Assumptions C10_every_history_refines_the_bag_spec.

Theorem C10_delete_mins_returns_the_smallest :
  forall (V : Type) (total B : nat) (dv : V) h,
    params_ok total B -> reachable total B dv h ->
    exists h' out, delete_mins h = Some (h', out) /\
      length out = B /\ sorted out /\
      length (fin out) = Nat.min B (length (contents h)) /\
      Permutation (contents h) (fin out ++ contents h') /\
      below (fin out) (contents h').
Proof.
  intros V total B dv h HP HR. destruct (reachable_inv total B dv h HP HR) as (HI & _ & EB & _).
  destruct (delete_ok h HI) as (h' & out & D0 & I1 & I2 & I3 & ret & pad & P1 & P2 & P3 & P4 & P5 & P6 & P7).
  exists h', out. rewrite EB in *. split; [exact D0|]. split; [exact P2|].
  assert (Hfr : allfin ret).
  { assert (Hfin : allfin (ret ++ contents h')).
    { eapply allfin_perm; [exact P6|]. intros x Hx. unfold contents in Hx. apply fin_In in Hx. tauto. }
    apply allfin_app in Hfin. tauto. }
  assert (Eout : fin out = ret) by (rewrite P1, fin_app, (fin_all ret Hfr), (fin_none pad P4), app_nil_r; reflexivity).
  rewrite Eout. split; [|auto].
  rewrite P1. apply sorted_app. split; [exact P5|]. split; [apply sorted_allinf; exact P4|apply below_allinf; exact P4].
Qed.
Print Assumptions C10_delete_mins_returns_the_smallest.

(** C11: nothing is lost while the items fit; the bound is exact (C14). *)
Theorem C11_insert_adds_exactly_the_block :
  forall (V : Type) (total B : nat) (dv : V) h block,
    params_ok total B -> reachable total B dv h ->
    length block = B -> (forall x, In x block -> fst x <> NInf) ->
    length (contents h) + length (fin block) < max_size h + B ->
    Permutation (contents (insert h block)) (contents h ++ fin block).
Proof.
  intros V total B dv h block HP HR Hl Hn Hfit. destruct (reachable_inv total B dv h HP HR) as (HI & _ & EB & _).
  destruct (insert_ok h block HI ltac:(lia) Hn) as (_ & _ & _ & HS). rewrite EB in HS.
  destruct HS as [_ Hp|low rest ev Hc _ _ _ _ _ _]; [exact Hp|lia].
Qed.
Print Assumptions C11_insert_adds_exactly_the_block.

(** C12: the reported size. *)
Theorem C12_size_counts_stored_items :
  forall (V : Type) (total B : nat) (dv : V) h,
    params_ok total B -> reachable total B dv h -> size h = Z.of_nat (length (contents h)).
Proof.
  intros V total B dv h HP HR. destruct (reachable_inv total B dv h HP HR) as (HI & H32 & _).
  apply size_ok; assumption.
Qed.
Print Assumptions C12_size_counts_stored_items.

(** C13: insert blocks, then drain. *)
Theorem C13_draining_sorts :
  forall (V : Type) (total B : nat) (dv : V) blocks k,
    params_ok total B -> Forall (fun b => legal B (Ins b)) blocks ->
    length (fin (concat blocks)) < ((total + B - 1) / B) * B + B ->
    exists h obs, run (build dv total B) (map Ins blocks ++ repeat Del k) = Some (h, obs) /\
      let outs := concat (map (fun o => fin (fst o)) obs) in
      sorted outs /\
      Permutation (fin (concat blocks)) (outs ++ contents h) /\
      length outs = Nat.min (k * B) (length (fin (concat blocks))) /\
      (contents h = [] <-> (length (fin (concat blocks)) + B - 1) / B <= k).
Proof.
  intros V total B dv blocks k HP HF HL. pose proof HP as (HB & Ht & Hs).
  destruct (build_fits dv total B HP) as [H32 Hsm].
  destruct (build_ok dv total B HB Ht Hsm) as (HI & E0 & E1 & E2).
  assert (HF' : Forall (legal (batch (build dv total B))) (map Ins blocks)).
  { rewrite E1. apply Forall_forall. intros o Ho. apply in_map_iff in Ho as (b & <- & Hb).
    rewrite Forall_forall in HF. apply HF; exact Hb. }
  destruct (run_ok _ _ HI H32 HF') as (h1 & obs1 & R1 & I1 & H321 & B1 & B2 & T1).
  unfold max_size in T1. rewrite E0, E1, E2 in T1.
  apply trace_inserts in T1 as [P1 P2]; [|cbn [length]; lia]. cbn [app] in P1.
  destruct (drain_ok k h1 I1 H321) as (h2 & obs2 & R2 & I2 & L2 & S1 & S2 & S3 & S4).
  exists h2, (obs1 ++ obs2). rewrite (run_app _ _ _ _ _ R1), R2. split; [reflexivity|].
  rewrite map_app, concat_app, P2. cbn [app].
  rewrite B1, E1 in S4. rewrite (Permutation_length P1) in S4.
  split; [exact S1|]. split; [rewrite <- P1; exact S2|]. split; [exact S4|].
  pose proof (Permutation_length S2) as HLen. rewrite app_length, (Permutation_length P1) in HLen.
  set (m := length (fin (concat blocks))) in *.
  assert (Hm : length (contents h2) = m - k * B) by lia.
  split.
  - intros E. rewrite E in Hm. cbn [length] in Hm. apply Nat.lt_succ_r, Nat.div_lt_upper_bound; [lia|nia].
  - intros Hk. apply length_zero_iff_nil. rewrite Hm.
    pose proof (Nat.mul_succ_div_gt (m + B - 1) B ltac:(lia)). nia.
Qed.
Print Assumptions C13_draining_sorts.

(** C14: inserting beyond capacity. *)
Theorem C14_eviction :
  forall (V : Type) (total B : nat) (dv : V) h block,
    params_ok total B -> reachable total B dv h ->
    length block = B -> (forall x, In x block -> fst x <> NInf) ->
    max_size h + B <= length (contents h) + length (fin block) ->
    exists low rest ev,
      Permutation (contents (insert h block)) (low ++ rest) /\
      Permutation ((low ++ rest) ++ ev) (contents h ++ fin block) /\
      length ev = B /\ length low = B /\ below low (rest ++ ev) /\
      exists kept late e, Permutation (low ++ rest) (kept ++ late) /\ length late < B /\
        In e ev /\ (forall x, In x kept -> ile x e).
Proof.
  intros V total B dv h block HP HR Hl Hn Hfit. destruct (reachable_inv total B dv h HP HR) as (HI & _ & EB & _).
  destruct (insert_ok h block HI ltac:(lia) Hn) as (_ & _ & _ & HS). rewrite EB in HS.
  destruct HS as [Hc _|low rest ev _ L1 L2 P1 P2 P3 P4]; [lia|].
  exists low, rest, ev. split; [exact P1|]. split; [rewrite <- P1; exact P2|].
  split; [exact L1|]. split; [exact L2|]. split; [exact P3|].
  destruct P4 as (kept & late & e & Q1 & Q2 & Q3 & Q4). exists kept, late, e.
  split; [rewrite <- P1; exact Q1|auto].
Qed.
Print Assumptions C14_eviction.

(** C14: a queue never holds more than max_size + batch_size - 1 items. *)
Theorem C14_size_bound :
  forall (V : Type) (total B : nat) (dv : V) h,
    params_ok total B -> reachable total B dv h -> length (contents h) < max_size h + B.
Proof.
  intros V total B dv h HP HR. destruct (reachable_inv total B dv h HP HR) as (HI & _ & EB & _).
  destruct HI as [HB HL HRI Hbuf Hrb Hbs Hsm]. unfold contents.
  rewrite fin_app, app_length, (rinv_count _ _ _ HRI).
  destruct HRI as [HG Hn _ _ _].
  pose proof (fin_le_length (rowi (rows h) 0)). pose proof (fin_le_length (buf h)).
  destruct (HG 0 ltac:(lia)) as (G1 & _). destruct Hbuf as (B1 & _). unfold max_size. nia.
Qed.
Print Assumptions C14_size_bound.

(** C14: the evicted items need not be the largest ones: here 3 is dropped while 50
    and 60 stay (6 slots in blocks of 2, four full blocks inserted). *)
Definition kv (z : Z) : key * Z := (Fin z, z).
Definition evict_history : list (op Z) :=
  [Ins [kv 0; kv 0]; Ins [kv 1; kv 100]; Ins [kv 50; kv 60]; Ins [kv 2; kv 3]].
Theorem C14_evicted_are_the_largest_refuted :
  params_ok 6 2 /\ Forall (legal 2) evict_history /\
  exists h obs, run (build 0%Z 6 2) evict_history = Some (h, obs) /\
    Permutation (contents h ++ [kv 3; kv 100])
                [kv 0; kv 0; kv 1; kv 100; kv 50; kv 60; kv 2; kv 3] /\
    In (kv 50) (contents h) /\ In (kv 60) (contents h).
Proof.
  split; [unfold params_ok; lia|]. split.
  { repeat constructor; intros x Hx; cbn [In] in Hx; repeat (destruct Hx as [<-|Hx]; [discriminate|]); destruct Hx. }
  eexists. eexists. split; [vm_compute; reflexivity|].
  split; [|vm_compute; tauto].
  unfold contents. cbn [rows buf concat app fin filter fst finite].
  change [kv 0; kv 0; kv 1; kv 100; kv 50; kv 60; kv 2; kv 3]
    with ([kv 0] ++ [kv 0] ++ [kv 1] ++ [kv 100] ++ [kv 50] ++ [kv 60] ++ [kv 2] ++ [kv 3]).
  change (Permutation ([kv 0] ++ [kv 0] ++ [kv 1] ++ [kv 2] ++ [kv 50] ++ [kv 60] ++ [kv 3] ++ [kv 100])
    ([kv 0] ++ [kv 0] ++ [kv 1] ++ [kv 100] ++ [kv 50] ++ [kv 60] ++ [kv 2] ++ [kv 3])).
  perm.
Qed.
Print Assumptions C14_evicted_are_the_largest_refuted.

(** C14: max_size does not bound the size: 7 items in a queue with max_size 6. *)
Theorem C14_size_at_most_max_size_refuted :
  exists h obs, run (build 0%Z 6 2)
    [Ins [kv 0; kv 0]; Ins [kv 1; kv 100]; Ins [kv 50; kv 60]; Ins [kv 2; (PInf, 0%Z)]] = Some (h, obs) /\
    size h = 7%Z /\ max_size h = 6.
Proof. eexists. eexists. split; [vm_compute; reflexivity|]. split; vm_compute; reflexivity. Qed.
Print Assumptions C14_size_at_most_max_size_refuted.

(** C12: keys of -inf are excluded from the claims for a reason: they are stored and
    returned but not counted. *)
Theorem C12_minus_infinity_is_not_counted :
  size (insert (build 0%Z 6 2) [(NInf, 7%Z); kv 1]) = 1%Z /\
  exists h', delete_mins (insert (build 0%Z 6 2) [(NInf, 7%Z); kv 1]) = Some (h', [(NInf, 7%Z); kv 1]).
Proof. split; [vm_compute; reflexivity|]. eexists. vm_compute. reflexivity. Qed.
Print Assumptions C12_minus_infinity_is_not_counted.

(** Non-vacuity for C09-C14: the history above is legal, reaches a full heap, and its
    drained output is as computed. *)
Example heap_nonvacuous :
  params_ok 6 2 /\
  exists h obs, run (build 0%Z 6 2) (evict_history ++ [Del; Ins [kv 9; kv (-4)]; Del; Del; Del; Del]) = Some (h, obs) /\
    obs = [([], 2); ([], 4); ([], 6); ([], 6); ([kv 0; kv 0], 4); ([], 6); ([kv (-4); kv 1], 4);
           ([kv 2; kv 9], 2); ([kv 50; kv 60], 0); ([(PInf, 50); (PInf, 60)], 0)]%Z.
Proof. split; [unfold params_ok; lia|]. eexists. eexists. split; vm_compute; reflexivity. Qed.

(** C15: make_batched. *)
Theorem C15_make_batched_pads :
  forall (V : Type) (dv : V) keys vals B,
    length keys = length vals -> length keys <= B ->
    make_batched dv keys vals B = combine keys vals ++ repeat (PInf, dv) (B - length keys) /\
    length (make_batched dv keys vals B) = B.
Proof.
  intros V dv keys vals B HL HB.
  assert (E : make_batched dv keys vals B = combine keys vals ++ repeat (PInf, dv) (B - length keys)).
  { unfold make_batched. rewrite combine_app' by exact HL. f_equal.
    induction (B - length keys) as [|k IH]; [reflexivity|]. cbn [repeat combine]. f_equal. exact IH. }
  split; [exact E|]. rewrite E, app_length, combine_length, repeat_length. lia.
Qed.
Print Assumptions C15_make_batched_pads.

(** C15: inserting the padded block adds just the given items. *)
Theorem C15_insert_of_padded_block :
  forall (V : Type) (total B : nat) (dv : V) h keys vals,
    params_ok total B -> reachable total B dv h ->
    length keys = length vals -> length keys <= B ->
    (forall k, In k keys -> finite k = true) ->
    length (contents h) + length keys < max_size h + B ->
    Permutation (contents (insert h (make_batched_like dv h keys vals))) (contents h ++ combine keys vals).
Proof.
  intros V total B dv h keys vals HP HR HL HB HF Hfit.
  destruct (reachable_inv total B dv h HP HR) as (HI & _ & EB & _).
  unfold make_batched_like. rewrite EB.
  destruct (C15_make_batched_pads V dv keys vals B HL HB) as [E1 E2].
  assert (Hc : forall x, In x (combine keys vals) -> finite (fst x) = true).
  { intros [k v] Hx. apply in_combine_l in Hx. apply HF; exact Hx. }
  assert (Hr : forall x, In x (repeat (PInf, dv) (B - length keys)) -> fst x = PInf).
  { intros x Hx. apply repeat_spec in Hx. subst x. reflexivity. }
  assert (Ef : fin (make_batched dv keys vals B) = combine keys vals).
  { rewrite E1, fin_app, (fin_all _ Hc), (fin_none _ Hr), app_nil_r. reflexivity. }
  rewrite <- Ef. apply (C11_insert_adds_exactly_the_block V total B dv); auto.
  - rewrite E1. apply nonn_app. split; [apply allfin_nonn; exact Hc|apply allinf_nonn; exact Hr].
  - rewrite Ef, combine_length. lia.
Qed.
Print Assumptions C15_insert_of_padded_block.

Example C15_nonvacuous :
  make_batched 0%Z [Fin 3; Fin 1] [30; 10]%Z 4 = [(Fin 3, 30); (Fin 1, 10); (PInf, 0); (PInf, 0)]%Z.
Proof. reflexivity. Qed.

(** C16: [ancestor a t]: block [a] is [t] or lies on the way from [t] to the root, where
    the parent of block i >= 1 is (i-1)/2. *)
Inductive ancestor (a : nat) : nat -> Prop :=
| anc_self : ancestor a a
| anc_up t : 1 <= t -> ancestor a ((t - 1) / 2) -> ancestor a t.

Lemma anc_path a t : ancestor a t -> small t -> exists l, l <= Nat.log2 (t + 1) /\ path_index t l = a.
Proof.
  intros HA. induction HA as [|t Ht HA IH]; intros Hs.
  - exists (Nat.log2 (a + 1)). split; [lia|]. apply path_index_depth; exact Hs.
  - pose proof (par_lt t Ht) as Hlt. unfold par in Hlt.
    assert (Hs' : small ((t - 1) / 2)) by (unfold small in *; lia).
    destruct (IH Hs') as (l & Hl & El).
    assert (Hd : Nat.log2 (t + 1) = S (Nat.log2 ((t - 1) / 2 + 1))).
    { assert (E : (t - 1) / 2 + 1 = (t + 1) / 2).
      { replace (t + 1) with (t - 1 + 1 * 2) by lia. rewrite Nat.div_add by lia. reflexivity. }
      rewrite E. rewrite <- Nat.div2_div. pose proof (Nat.log2_spec (Nat.div2 (t + 1))) as H1.
      assert (H0 : 0 < Nat.div2 (t + 1)) by (rewrite Nat.div2_div; apply Nat.div_str_pos; lia).
      specialize (H1 H0). apply Nat.log2_unique; [lia|].
      rewrite !Nat.pow_succ_r' in *. pose proof (Nat.div2_odd (t + 1)) as H2.
      destruct (Nat.odd (t + 1)); cbn [Nat.b2n] in H2; lia. }
    exists l. split; [lia|]. rewrite <- El.
    rewrite !path_index_div by assumption. rewrite Hd.
    replace (S (Nat.log2 ((t - 1) / 2 + 1)) - l) with (S (Nat.log2 ((t - 1) / 2 + 1) - l)) by lia.
    rewrite Nat.pow_succ_r'. rewrite <- Nat.div_div by (pose proof (pow2_pos (Nat.log2 ((t - 1) / 2 + 1) - l)); lia).
    f_equal. f_equal. replace (t + 1) with (t - 1 + 1 * 2) by lia. rewrite Nat.div_add by lia. reflexivity.
Qed.

Lemma path_anc t l : small t -> l <= Nat.log2 (t + 1) -> forall k, l + k = Nat.log2 (t + 1) -> ancestor (path_index t l) t.
Proof.
  intros Hs Hl k Hk.
  assert (HG : forall k l', l' + k <= Nat.log2 (t + 1) -> ancestor (path_index t l') (path_index t (l' + k))).
  { clear k Hk. induction k as [|k IH]; intros l' H.
    - rewrite Nat.add_0_r. constructor.
    - pose proof (path_index_parent t (l' + S k) Hs ltac:(lia)) as [H1 H2].
      apply anc_up; [lia|]. rewrite H2. replace (l' + S k - 1) with (l' + k) by lia. apply IH. lia. }
  specialize (HG k l ltac:(lia)). rewrite Hk in HG. rewrite (path_index_depth t Hs) in HG. exact HG.
Qed.

(** C16: the indices visited on insertion are exactly the ancestors of the target; the
    masked-in levels are 0..depth, in root-to-target order, and all levels fit in the
    statically sized path. *)
Theorem C16_path_is_the_ancestor_chain :
  forall br t, (Z.of_nat t < 2 ^ 31)%Z -> t < br ->
    (forall a, ancestor a t <-> exists l, l < max_depth br /\ path_mask t l = true /\ path_index t l = a) /\
    path_index t 0 = 0 /\ path_index t (node_depth t) = t /\
    (forall l, path_mask t (S l) = true ->
       path_index t (S l) = 2 * path_index t l + 1 \/ path_index t (S l) = 2 * path_index t l + 2).
Proof.
  intros br t Hs Hbr. change (small t) in Hs.
  pose proof (node_depth_log2 t Hs) as Hd. pose proof (depth_lt t br Hbr) as Hlt.
  split; [|split; [apply path_index_0; exact Hs|split; [rewrite Hd; apply path_index_depth; exact Hs|]]].
  - intros a. unfold path_mask. rewrite Hd. split.
    + intros HA. destruct (anc_path a t HA Hs) as (l & Hl & El). exists l. split; [lia|]. split; [apply Nat.leb_le; exact Hl|exact El].
    + intros (l & _ & Hl & <-). apply Nat.leb_le in Hl. apply (path_anc t l Hs Hl (Nat.log2 (t + 1) - l)). lia.
  - intros l Hl. unfold path_mask in Hl. rewrite Hd in Hl. apply Nat.leb_le in Hl.
    pose proof (path_index_parent t (S l) Hs ltac:(lia)) as [H1 H2]. replace (S l - 1) with l in H2 by lia.
    destruct (par_cases (path_index t l) (path_index t (S l)) ltac:(lia) H2) as [E|E]; rewrite E; unfold lc, rc; lia.
Qed.
Print Assumptions C16_path_is_the_ancestor_chain.

Lemma path_index_log2 t l : small t -> l <= Nat.log2 (t + 1) -> Nat.log2 (path_index t l + 1) = l.
Proof.
  intros Hs Hl. pose proof (Nat.log2_spec (t + 1) ltac:(lia)) as [H1 H2].
  rewrite path_index_div by assumption. set (d := Nat.log2 (t + 1)) in *.
  assert (HP : 2 ^ d = 2 ^ l * 2 ^ (d - l)) by (rewrite <- Nat.pow_add_r; f_equal; lia).
  pose proof (pow2_pos (d - l)). pose proof (pow2_pos l).
  assert (HA : 2 ^ l <= (t + 1) / 2 ^ (d - l)) by (apply Nat.div_le_lower_bound; nia).
  assert (HB : (t + 1) / 2 ^ (d - l) < 2 ^ S l).
  { apply Nat.div_lt_upper_bound; [lia|]. rewrite Nat.pow_succ_r' in *. nia. }
  apply Nat.log2_unique; lia.
Qed.

(** C16: the helper [_next] walks the same chain: from a proper ancestor of the target
    it moves to that ancestor's child on the way to the target. *)
Theorem C16_next_steps_towards_target :
  forall current target, (Z.of_nat target < 2 ^ 31)%Z ->
    ancestor current target -> current <> target ->
    ancestor (next_index current target) target /\
    (next_index current target = 2 * current + 1 \/ next_index current target = 2 * current + 2).
Proof.
  intros c t Hs HA Hne. change (small t) in Hs.
  destruct (anc_path c t HA Hs) as (l & Hl & El).
  assert (Hlt : l < Nat.log2 (t + 1)).
  { destruct (Nat.eq_dec l (Nat.log2 (t + 1))) as [E|E]; [|lia]. subst l. rewrite (path_index_depth t Hs) in El. congruence. }
  assert (Hct : c <= t).
  { clear -HA. induction HA as [|t Ht HA IH]; [lia|]. pose proof (par_lt t Ht). unfold par in *. lia. }
  assert (Hsc : small c) by (unfold small in *; lia).
  assert (En : next_index c t = path_index t (S l)).
  { unfold next_index, path_index. do 2 f_equal. rewrite node_depth_log2 by exact Hs.
    unfold small in *.
    pose proof (clz32_log2 (c + 1) ltac:(lia) ltac:(lia)) as C1.
    pose proof (clz32_log2 (t + 1) ltac:(lia) ltac:(lia)) as C2.
    pose proof (path_index_log2 t l Hs Hl) as C3. rewrite El in C3. lia. }
  rewrite En. split.
  - apply (path_anc t (S l) Hs ltac:(lia) (Nat.log2 (t + 1) - S l)). lia.
  - pose proof (path_index_parent t (S l) Hs ltac:(lia)) as [H1 H2]. replace (S l - 1) with l in H2 by lia.
    rewrite El in H2.
    destruct (par_cases c (path_index t (S l)) ltac:(lia) H2) as [E|E]; rewrite E; unfold lc, rc; lia.
Qed.
Print Assumptions C16_next_steps_towards_target.

Example C16_nonvacuous :
  map (path_index 11) [0; 1; 2; 3] = [0; 2; 5; 11] /\ node_depth 11 = 3 /\ next_index 2 11 = 5.
Proof. repeat split. Qed.
