(** * PropTies.v — property theorems C68: the priority queue does not depend on how equal
      keys are ordered by the sorting and merging back ends. *)
From Verif Require Import Jax KeyModel SortProofs HeapModel HeapSpec HeapProofs HeapInsert HeapInv HeapDelete PropHeap
  TieModel TieProofs TieKeys.

Section R.
Context {V : Type}.
Notation item := (key * V)%type.
Notation row := (list item).
Implicit Types h : heap V.

(** a call with legal arguments, running on some lawful back end *)
Definition call_ok (B : nat) (c : impl V * op V) : Prop := lawful (fst c) /\ legal B (snd c).

Lemma trun_ok ops : forall h, Inv h -> fits32 h -> Forall (call_ok (batch h)) ops ->
  exists h' obs, trun h ops = Some (h', obs) /\ Inv h' /\ fits32 h' /\ batch h' = batch h /\ branch h' = branch h /\
    pq_trace (batch h) (max_size h) (contents h) (map snd ops) obs (contents h').
Proof.
  induction ops as [|[k o] ops IH]; intros h HI H32 HF.
  - exists h, []. split; [reflexivity|]. split; [exact HI|]. split; [exact H32|].
    split; [reflexivity|]. split; [reflexivity|]. constructor.
  - inversion HF as [|? ? Ho HF']; subst. destruct Ho as [HK Ho]. cbn [fst snd] in *.
    destruct o as [block|]; cbn [trun map snd].
    + destruct Ho as [Hl Hn]. destruct (tinsert_ok k HK h block HI Hl Hn) as (I1 & I2 & I3 & I4).
      assert (H32' : fits32 (tinsert k h block)) by (unfold fits32 in *; rewrite I2, I3; exact H32).
      rewrite <- I2 in HF'. destruct (IH _ I1 H32' HF') as (h' & obs & E1 & E2 & E3 & E4 & E5 & E6).
      rewrite E1. do 2 eexists. split; [reflexivity|]. split; [exact E2|]. split; [exact E3|].
      split; [congruence|]. split; [congruence|].
      rewrite (size_ok _ I1 H32'). apply (tr_ins _ _ _ _ (contents (tinsert k h block))); [exact I4|].
      unfold max_size in *. rewrite I2, I3 in E6. exact E6.
    + destruct (tdelete_ok k HK h HI) as (h1 & out & D0 & I1 & I2 & I3 & I4). rewrite D0.
      assert (H32' : fits32 h1) by (unfold fits32 in *; rewrite I2, I3; exact H32).
      rewrite <- I2 in HF'. destruct (IH _ I1 H32' HF') as (h' & obs & E1 & E2 & E3 & E4 & E5 & E6).
      rewrite E1. do 2 eexists. split; [reflexivity|]. split; [exact E2|]. split; [exact E3|].
      split; [congruence|]. split; [congruence|].
      rewrite (size_ok _ I1 H32'). apply (tr_del _ _ _ _ (contents h1)); [exact I4|].
      unfold max_size in *. rewrite I2, I3 in E6. exact E6.
Qed.

(** the keys of a call, of an observation, of a queue *)
Definition key_call (o : op V) : option (list key) :=
  match o with Ins block => Some (map fst block) | Del => None end.
Definition key_obs (o : row * Z) : list key * Z := (map fst (fst o), snd o).

Definition uop (o : option (list key)) : op unit :=
  match o with Some ks => Ins (map (fun k => (k, tt)) ks) | None => Del end.
Lemma kmap_keys (r : row) : kmap r = map (fun k => (k, tt)) (map fst r).
Proof. unfold kmap. rewrite map_map. reflexivity. Qed.

Lemma inv_allsorted h : Inv h -> allsorted (rows h) /\ sorted (buf h).
Proof.
  intros HI. destruct (inv_wf h HI) as [_ [H1 H2] _ _ _ _]. split; [|exact H2]. apply allsorted_In. exact H1.
Qed.

Lemma trun_er ops : forall h, Inv h -> fits32 h -> Forall (call_ok (batch h)) ops ->
  exists h' obs, trun h ops = Some (h', obs) /\
    run (erh h) (map (fun c => uop (key_call (snd c))) ops) =
      Some (erh h', map (fun o => (kmap (fst o), snd o)) obs).
Proof.
  induction ops as [|[k o] ops IH]; intros h HI H32 HF.
  - exists h, []. split; reflexivity.
  - inversion HF as [|? ? Ho HF']; subst. destruct Ho as [HK Ho]. cbn [fst snd] in *.
    destruct (inv_allsorted h HI) as [A1 A2].
    destruct o as [block|]; cbn [trun map snd key_call uop run].
    + destruct Ho as [Hl Hn]. destruct (tinsert_ok k HK h block HI Hl Hn) as (I1 & I2 & I3 & I4).
      assert (H32' : fits32 (tinsert k h block)) by (unfold fits32 in *; rewrite I2, I3; exact H32).
      rewrite <- I2 in HF'. destruct (IH _ I1 H32' HF') as (h' & obs & E1 & E2).
      rewrite <- kmap_keys, (tinsert_er k HK h block A1 A2), E1, E2, size_er.
      do 2 eexists. split; reflexivity.
    + destruct (tdelete_ok k HK h HI) as (h1 & out & D0 & I1 & I2 & I3 & I4).
      rewrite (tdelete_er k HK h A1 A2), D0. cbn [option_map fst snd].
      assert (H32' : fits32 h1) by (unfold fits32 in *; rewrite I2, I3; exact H32).
      rewrite <- I2 in HF'. destruct (IH _ I1 H32' HF') as (h' & obs & E1 & E2).
      rewrite E1, E2, size_er. do 2 eexists. split; reflexivity.
Qed.

Lemma kmap_obs (obs : list (row * Z)) :
  map (fun o => (map fst (fst o), snd o)) (map (fun o : row * Z => (kmap (fst o), snd o)) obs) = map key_obs obs.
Proof. rewrite map_map. apply map_ext. intros [r z]. unfold key_obs. cbn [fst snd]. rewrite kmap_fst. reflexivity. Qed.
End R.

(** C68: on any lawful back ends (a different one for every call, ties broken in any
    way) every history succeeds and refines the same bag specification as C10-C14. *)
Theorem C68_any_back_end_refines_the_bag_spec :
  forall (V : Type) (total B : nat) (dv : V) (ops : list (impl V * op V)),
    params_ok total B -> Forall (fun c => lawful (fst c) /\ legal B (snd c)) ops ->
    exists h obs, trun (build dv total B) ops = Some (h, obs) /\
      pq_trace B (((total + B - 1) / B) * B) [] (map snd ops) obs (contents h) /\
      well_formed h /\ size h = Z.of_nat (length (contents h)).
Proof.
  intros V total B dv ops HP HF. pose proof HP as (HB & Ht & Hs).
  destruct (build_fits dv total B HP) as [H32 Hsm].
  destruct (build_ok dv total B HB Ht Hsm) as (HI & E0 & E1 & E2).
  assert (HF' : Forall (call_ok (batch (build dv total B))) ops) by (rewrite E1; exact HF).
  destruct (trun_ok ops _ HI H32 HF') as (h & obs & R1 & R2 & R3 & _ & _ & R4).
  exists h, obs. split; [exact R1|]. unfold max_size in R4. rewrite E0, E1, E2 in R4. split; [exact R4|].
  split; [apply inv_wf; exact R2|apply size_ok; assumption].
Qed.
Print Assumptions C68_any_back_end_refines_the_bag_spec.

(** C68: tie-breaking (and the values) never influence a key: two histories with the same
    keys, over possibly different value types and back ends, return the same keys,
    report the same sizes, and store the same keys in the same places. *)
Theorem C68_keys_do_not_depend_on_ties_or_values :
  forall (V W : Type) (total B : nat) (dv : V) (dw : W)
         (ops1 : list (impl V * op V)) (ops2 : list (impl W * op W)),
    params_ok total B ->
    Forall (fun c => lawful (fst c) /\ legal B (snd c)) ops1 ->
    Forall (fun c => lawful (fst c) /\ legal B (snd c)) ops2 ->
    map (fun c => key_call (snd c)) ops1 = map (fun c => key_call (snd c)) ops2 ->
    exists h1 obs1 h2 obs2,
      trun (build dv total B) ops1 = Some (h1, obs1) /\
      trun (build dw total B) ops2 = Some (h2, obs2) /\
      map key_obs obs1 = map key_obs obs2 /\
      map (map fst) (rows h1) = map (map fst) (rows h2) /\
      map fst (buf h1) = map fst (buf h2) /\ hsize h1 = hsize h2 /\ bsize h1 = bsize h2.
Proof.
  intros V W total B dv dw ops1 ops2 HP HF1 HF2 HE. pose proof HP as (HB & Ht & Hs).
  destruct (build_fits dv total B HP) as [H32 Hsm].
  destruct (build_ok dv total B HB Ht Hsm) as (HI & _ & E1 & _).
  destruct (build_fits dw total B HP) as [H32w _].
  destruct (build_ok dw total B HB Ht Hsm) as (HIw & _ & E1w & _).
  assert (HF1' : Forall (call_ok (batch (build dv total B))) ops1) by (rewrite E1; exact HF1).
  assert (HF2' : Forall (call_ok (batch (build dw total B))) ops2) by (rewrite E1w; exact HF2).
  destruct (trun_er ops1 _ HI H32 HF1') as (h1 & obs1 & R1 & S1).
  destruct (trun_er ops2 _ HIw H32w HF2') as (h2 & obs2 & R2 & S2).
  exists h1, obs1, h2, obs2. split; [exact R1|]. split; [exact R2|].
  rewrite build_er in S1, S2.
  rewrite <- (map_map (fun c => key_call (snd c)) uop) in S1.
  rewrite <- (map_map (fun c : impl W * op W => key_call (snd c)) uop) in S2. rewrite HE, S2 in S1. injection S1 as Er Eb Eh Es _ _ Eo.
  split; [rewrite <- kmap_obs, <- (kmap_obs obs2), Eo; reflexivity|].
  split.
  { assert (HH : forall (X : Type) (l : list (list (key * X))), map (map fst) l = map (map fst) (map kmap l)).
    { intros X l. rewrite map_map. apply map_ext. intros r. symmetry. apply kmap_fst. }
    rewrite (HH V), (HH W), Er. reflexivity. }
  split; [rewrite <- (kmap_fst (buf h1)), <- (kmap_fst (buf h2)), Eb; reflexivity|]. split; congruence.
Qed.
Print Assumptions C68_keys_do_not_depend_on_ties_or_values.

(** C68: the stable queue of C09-C16 is the instance with the stable back end. *)
Theorem C68_stable_queue_is_an_instance :
  forall (V : Type),
    lawful (@stable_impl V) /\
    forall (ops : list (op V)) (h : heap V), trun h (map (fun o => (stable_impl, o)) ops) = run h ops.
Proof.
  intros V. split.
  - split; intros; split; try apply ssort_perm; apply ssort_sorted.
  - assert (HS : forall rs xs carry, tscan_path (@stable_impl V) rs xs carry = scan_path rs xs carry).
    { intros rs xs. induction xs as [|[i m] t IH]; intros carry; [reflexivity|]. cbn [tscan_path scan_path].
      destruct m; [|rewrite IH; reflexivity].
      change (tsplit stable_impl (3 + i) (row_at rs i) carry) with (msplit (row_at rs i) carry).
      destruct (msplit (row_at rs i) carry) as [hd nx]. rewrite IH. reflexivity. }
    assert (HI : forall (h : heap V) b, tinsert stable_impl h b = insert h b).
    { intros h b. unfold tinsert, insert.
      change (tsplit stable_impl 0 (row_at (rows h) 0) (blk_sort stable_impl b)) with (msplit (row_at (rows h) 0) (ssort b)).
      destruct (msplit (row_at (rows h) 0) (ssort b)) as [root blk1].
      change (tmerge_buffer stable_impl) with (@merge_buffer V).
      destruct (merge_buffer (set_rows h (upd (rows h) 0 root)) blk1) as [[h2 blk2] ovf].
      assert (E : tinsert_heapify stable_impl h2 blk2 = insert_heapify h2 blk2).
      { unfold tinsert_heapify, insert_heapify, tupdate_path, update_path. rewrite HS. reflexivity. }
      rewrite E. reflexivity. }
    assert (HD : forall (h : heap V), tdelete_mins stable_impl h = delete_mins h) by reflexivity.
    induction ops as [|[b|] t IH]; intros h; cbn [map trun run]; [reflexivity| |].
    + rewrite HI, IH. reflexivity.
    + rewrite HD. destruct (delete_mins h) as [[h' out]|]; [|reflexivity]. rewrite IH. reflexivity.
Qed.
Print Assumptions C68_stable_queue_is_an_instance.

(** Values are NOT determined: the same two calls on two lawful back ends return
    differently ordered values (only keys are, by the theorem above). *)
Definition anti_sort {V : Type} (l : list (key * V)) : list (key * V) := ssort (rev l).
Definition anti_impl : impl Z := MkImpl anti_sort (fun _ a b => anti_sort (a ++ b)).
Lemma anti_lawful : lawful anti_impl.
Proof.
  split; intros; unfold anti_impl, anti_sort; cbn [blk_sort merge_at]; split; try apply ssort_sorted;
    rewrite ssort_perm; symmetry; apply Permutation_rev.
Qed.
Definition tie_history (k : impl Z) : list (impl Z * op Z) :=
  [(k, Ins [(Fin 1, 10); (Fin 1, 11)]%Z); (k, Ins [(Fin 1, 12); (Fin 0, 5)]%Z); (k, Del); (k, Del)].
Theorem C68_values_of_ties_do_depend_on_the_back_end :
  lawful (@stable_impl Z) /\ lawful anti_impl /\
  option_map snd (trun (build 0%Z 6 2) (tie_history stable_impl)) =
    Some [([], 2); ([], 4); ([(Fin 0, 5); (Fin 1, 10)], 2); ([(Fin 1, 11); (Fin 1, 12)], 0)]%Z /\
  option_map snd (trun (build 0%Z 6 2) (tie_history anti_impl)) =
    Some [([], 2); ([], 4); ([(Fin 0, 5); (Fin 1, 12)], 2); ([(Fin 1, 10); (Fin 1, 11)], 0)]%Z.
Proof.
  split; [apply C68_stable_queue_is_an_instance|]. split; [exact anti_lawful|]. split; vm_compute; reflexivity.
Qed.
Print Assumptions C68_values_of_ties_do_depend_on_the_back_end.

(** Non-vacuity: a history mixing both back ends, with overflow, is legal. *)
Example C68_nonvacuous :
  params_ok 6 2 /\
  Forall (fun c => lawful (fst c) /\ legal 2 (snd c))
    [(anti_impl, Ins [kv 1; kv 1]); (stable_impl, Ins [kv 1; kv 1]); (anti_impl, Ins [kv 1; kv 1]); (anti_impl, Ins [kv 1; kv 1]); (stable_impl, Del)].
Proof.
  split; [unfold params_ok; lia|].
  assert (HL : legal 2 (Ins [kv 1; kv 1])).
  { split; [reflexivity|]. intros x Hx. cbn [In] in Hx. repeat (destruct Hx as [<-|Hx]; [discriminate|]). destruct Hx. }
  pose proof (proj1 (C68_stable_queue_is_an_instance Z)) as HS. pose proof anti_lawful as HA.
  repeat (constructor; [split; [assumption|first [exact HL|exact I]]|]). constructor.
Qed.
