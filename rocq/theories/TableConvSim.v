(** * TableConvSim.v — a table given a [family] of items behaves like the table of their words. *)
From Coq Require Import Eqdep_dec.
From Verif Require Import Jax KeyModel HashModel HashProofs StableSort TableModel ProbeProofs TableLookup TableInv TableInsert DedupeModel DedupeSpec ParInsertModel ParInsert TritonModel PallasModel TableSpec TableHistory TableMap TableFloatSim TableConv.
From Verif Require TableSim.

Section V.
Context {O : Type} (L : lenient O) (F : O -> Prop) (FM : family L F) (C : settings).
Notation n := (le_nwords L).
Notation d := (le_default L).
Notation hp := (lhash L).
Notation words := (le_words L).
(** ** vectors of [n] words *)
Definition vec : Type := {ws : list N | (length ws =? n) = true}.
Definition wordsb (ws : list N) : bool := forallb (fun a => a <? 2 ^ 32)%N ws.
Definition vnone : vec := exist _ (repeat (2 ^ 32)%N n) (proj2 (Nat.eqb_eq _ _) (repeat_length _ n)).
Definition veqb (x y : vec) : bool := if list_eq_dec N.eq_dec (proj1_sig x) (proj1_sig y) then true else false.
Definition vhash (ws : list N) : N * N := le_hash L (if wordsb ws then ws else words d).
Lemma vec_eq (x y : vec) : proj1_sig x = proj1_sig y -> x = y.
Proof. destruct x as [a H], y as [b K]. cbn. intros <-. f_equal. apply UIP_dec, Bool.bool_dec. Qed.
Lemma veqb_eq x y : veqb x y = true <-> x = y.
Proof. unfold veqb. destruct (list_eq_dec _ _ _) as [E|NE]; split; intros H; try congruence. now apply vec_eq. Qed.
Lemma vec_len (x : vec) : length (proj1_sig x) = n.
Proof. destruct x as [a H]. cbn. now apply Nat.eqb_eq. Qed.
Definition vT : dataclass vec :=
  {| dc_eqb := veqb; dc_default := vnone; dc_words := fun x => proj1_sig x; dc_nwords := n; dc_hash := vhash;
     dc_eq := veqb_eq; dc_inj := vec_eq; dc_len := vec_len |}.
Notation hpv := (hash_pair vT).
(** the words of an item *)
Definition toV (o : O) : vec :=
  match Bool.bool_dec (length (words o) =? n) true with left H => exist _ (words o) H | right _ => vnone end.
Lemma toV_words o : length (words o) = n -> proj1_sig (toV o) = words o.
Proof. intros H. apply Nat.eqb_eq in H. unfold toV. destruct (Bool.bool_dec _ _) as [E|NE]; [reflexivity|contradiction]. Qed.
Lemma toV_F o : F o -> proj1_sig (toV o) = words o.
Proof. intros H. apply toV_words. now apply (fm_len _ _ FM). Qed.
Lemma toV_inj o p : F o -> F p -> (toV o = toV p <-> same_bytes L o p).
Proof. intros Ho Hp. unfold same_bytes. rewrite <- (toV_F o Ho), <- (toV_F p Hp). split; [now intros ->|apply vec_eq]. Qed.
Lemma wordsb_spec ws : wordsb ws = true <-> Forall (fun a => a < 2 ^ 32)%N ws.
Proof. unfold wordsb. rewrite forallb_forall, Forall_forall. split; intros H a Ha; specialize (H a Ha); [now apply N.ltb_lt|now apply N.ltb_lt]. Qed.
Lemma vnone_big : wordsb (proj1_sig vnone) = false.
Proof. cbn [vnone proj1_sig]. pose proof (fm_some _ _ FM). destruct n as [|m]; [lia|]. reflexivity. Qed.
Lemma toV_hash o : F o -> hpv (toV o) = hp o.
Proof. intros H. unfold hash_pair, vT, vhash, lhash. cbn [dc_hash dc_words]. rewrite (toV_F o H). now rewrite (proj2 (wordsb_spec _) (fm_word _ _ FM o H)). Qed.
Lemma default_hash : hpv vnone = hp d.
Proof. unfold hash_pair, vT, vhash, lhash. cbn [dc_hash dc_words]. now rewrite vnone_big. Qed.
Lemma toV_some o : F o -> toV o <> vnone.
Proof. intros H E. pose proof vnone_big as B. rewrite <- E, (toV_F o H) in B. rewrite (proj2 (wordsb_spec _) (fm_word _ _ FM o H)) in B. discriminate. Qed.

(** ** the relation *)
Inductive slot : O -> vec -> Prop :=
  | slot_none : slot d vnone
  | slot_some o : F o -> slot (le_conv L o) (toV o).
Definition real (x : vec) : Prop := wordsb (proj1_sig x) = true.
Definition rel (t : @table O) (u : @table vec) : Prop := t = retab (tab t) u /\ Forall2 slot (tab t) (tab u).

Lemma rel_at t u i : rel t u -> slot (tabAt d t i) (tabAt vnone u i).
Proof.
  intros [_ H]. unfold tabAt. revert i. induction H as [|a b l m HS HF IH]; intros [|i]; cbn [nth]; try apply slot_none; [exact HS|apply IH].
Qed.
Notation sto := (TableInv.stored vnone).
(** every stored vector comes from an item *)
Definition agrees (u : @table vec) : Prop := forall i x, sto u i x -> x <> vnone.
Lemma slot_eq a x o : slot a x -> x <> vnone -> F o -> le_eq L a o = veqb x (toV o).
Proof.
  intros HS HN Ho. destruct HS as [|p Hp]; [congruence|]. pose proof (fm_eq _ _ FM p o Hp Ho) as E1. pose proof (veqb_eq (toV p) (toV o)) as E2. rewrite (toV_inj p o Hp Ho) in E2.
  destruct (le_eq L (le_conv L p) o), (veqb (toV p) (toV o)); try reflexivity; [assert (false = true) by tauto; discriminate|assert (false = true) by tauto; discriminate].
Qed.
Section At.
Context (t : @table O) (u : @table vec) (R : rel t u) (k : nat) (G : good vT k u) (A : agrees u).
Lemma rel_same : cap t = cap u /\ bsz t = bsz u /\ maxp t = maxp u /\ fill t = fill u /\ fps t = fps u.
Proof. destruct R as [E _]. rewrite E. cbn. auto. Qed.
Lemma fillOf_same b : fillOf t b = fillOf u b.
Proof. unfold fillOf. now rewrite (proj1 (proj2 (proj2 (proj2 rel_same)))). Qed.
Lemma cap_pos : 0 < cap u.
Proof. destruct G as [V _]. rewrite (wf_cap _ _ (i_wf _ _ _ _ V)). pose proof (Nat.pow_nonzero 2 k). lia. Qed.
Lemma fp_same o : F o -> fp_of hp o = fp_of hpv (toV o).
Proof. intros H. unfold fp_of. now rewrite (toV_hash o H). Qed.
Lemma step_same o : F o -> step_of hp (cap u) o = step_of hpv (cap u) (toV o).
Proof. intros H. unfold step_of. now rewrite (toV_hash o H). Qed.
Lemma start_same o : F o -> start_of hp (cap u) o = start_of hpv (cap u) (toV o).
Proof. intros H. unfold start_of. now rewrite (toV_hash o H). Qed.
Lemma scan_sim o act b : F o -> b < cap u -> scan (le_eq L) d t o (fp_of hp o) act b = scan veqb vnone u (toV o) (fp_of hpv (toV o)) act b.
Proof.
  intros Ho Hb. rewrite (fp_same o Ho). destruct rel_same as (_ & EB & _ & EF & EP). destruct G as [V _].
  pose proof (wf_bsz _ _ (i_wf _ _ _ _ V)) as HB. pose proof (wf_fill _ _ (i_wf _ _ _ _ V) b Hb) as HF.
  apply scan_agree; try assumption; [lia|]. intros s Hs Hu _. rewrite u8_small' in Hu by lia.
  apply slot_eq; [now apply rel_at| |exact Ho]. apply (A (b * bsz u + s)). exists b, s. auto.
Qed.
Lemma lookup_bucket_sim o : F o -> lookup_bucket (le_eq L) d hp t o = lookup_bucket veqb vnone hpv u (toV o).
Proof.
  intros Ho. destruct rel_same as (EC & EB & EM & EF & EP). unfold lookup_bucket. rewrite EM, EC, (start_same o Ho), (step_same o Ho).
  rewrite (TableSim.while_ext (fun s : lst => fst (fst (fst s)) < cap u) (lk_cond t) (lk_body (le_eq L) d t o (step_of hpv (cap u) (toV o)) (fp_of hp o))
     (lk_cond u) (lk_body veqb vnone u (toV o) (step_of hpv (cap u) (toV o)) (fp_of hpv (toV o)))).
  - reflexivity.
  - intros [[[b s] f] p] _. unfold lk_cond. now rewrite EM.
  - intros [[[b s] f] p] Hb. cbn [fst] in Hb. unfold lk_body. rewrite (scan_sim o true b Ho Hb), (fillOf_same b), EB, EC, EM.
    destruct (scan veqb vnone u (toV o) _ true b) as [fd ms]. split; [reflexivity|]. cbn [fst].
    destruct (fd || negb (u8 (fillOf u b) =? bsz u)); [exact Hb|apply TableSim.next_lt; exact cap_pos].
  - cbn [fst]. apply TableSim.start_lt. exact cap_pos.
Qed.
Lemma lookup_sim o : F o -> LLookup L t o = Lookup vT u (toV o).
Proof. intros Ho. unfold LLookup, Lookup, lookup. cbn [vT dc_eqb dc_default]. rewrite (lookup_bucket_sim o Ho). destruct rel_same as (_ & -> & _). reflexivity. Qed.
Lemma lookup_rows_sim q : (forall x, In x (map fst q) -> F x) ->
  lookup_rows (le_eq L) d hp t q = lookup_rows veqb vnone hpv u (map (fun r => (toV (fst r), snd r)) q).
Proof.
  intros HA. destruct rel_same as (EC & EB & EM & EF & EP). unfold lookup_rows. rewrite EM.
  set (g := fun l : list (O * prow) => map (fun r => (toV (fst r), snd r)) l).
  assert (E0 : map (fun r => (fst r, pl_init hpv u (fst r) (fst (snd r)) (snd (snd r)))) (map (fun r : O * (bool * bool) => (toV (fst r), snd r)) q)
             = g (map (fun r => (fst r, pl_init hp t (fst r) (fst (snd r)) (snd (snd r)))) q)).
  { unfold g. rewrite !map_map. apply map_ext_in. intros r Hr. cbn [fst snd]. unfold pl_init. rewrite EC, (start_same (fst r)); [reflexivity|]. apply HA. now apply in_map. }
  rewrite E0. set (l0 := map _ q).
  set (P := fun l : list (O * prow) => Forall (fun r => pb (snd r) < cap u /\ F (fst r)) l).
  assert (H0 : P l0).
  { unfold P, l0. apply Forall_forall. intros r Hr. apply in_map_iff in Hr. destruct Hr as (p & <- & Hp). cbn [fst snd pl_init pb]. split; [rewrite EC; apply TableSim.start_lt; exact cap_pos|]. apply HA. now apply in_map. }
  assert (HB : forall l, P l -> pl_body veqb vnone hpv u (g l) = g (pl_body (le_eq L) d hp t l) /\ P (pl_body (le_eq L) d hp t l)).
  { intros l HP. unfold g, pl_body. rewrite !map_map. cbn [fst snd].
    assert (HH : forall r, In r l -> pl_step veqb vnone hpv u (toV (fst r)) (snd r) = pl_step (le_eq L) d hp t (fst r) (snd r) /\ pb (pl_step (le_eq L) d hp t (fst r) (snd r)) < cap u).
    { intros [x s] Hr. cbn [fst snd]. unfold P in HP. rewrite Forall_forall in HP. destruct (HP _ Hr) as [Hb HX]. cbn [fst snd] in Hb, HX. unfold pl_step. rewrite (scan_sim x _ (pb s) HX Hb), (fillOf_same (pb s)), EB, EC, EM, (step_same x HX).
      destruct (scan _ _ _ _ _ _ _) as [fd ms]. split; [reflexivity|]. cbn [pb].
      destruct (pact s && (negb (pfound s) && (pprobes s <? maxp u)%N)); [|exact Hb]. match goal with |- (if ?z then _ else _) < _ => destruct z end; [apply TableSim.next_lt; exact cap_pos|exact Hb]. }
    split.
    - apply map_ext_in. intros r Hr. now rewrite (proj1 (HH r Hr)).
    - unfold P. apply Forall_forall. intros r Hr. apply in_map_iff in Hr. destruct Hr as (p & <- & Hp). cbn [fst snd]. split; [now apply HH|]. unfold P in HP. rewrite Forall_forall in HP. now apply HP. }
  assert (HC : forall l, pl_cond (g l) = pl_cond l) by (intros l; unfold pl_cond, g; now rewrite existsb_map).
  clearbody l0. clear E0 q HA. revert l0 H0. generalize (S (N.to_nat (maxp u))). intros f. induction f as [|f IH]; intros l HP; cbn [while]; rewrite HC; destruct (pl_cond l); try reflexivity.
  - cbn [option_map]. unfold g. now rewrite map_map.
  - destruct (HB l HP) as [-> HP']. now apply IH.
  - cbn [option_map]. unfold g. now rewrite map_map.
Qed.
Lemma lookup_parallel_sim xs f : Forall F xs -> LLookupParallel L t xs f = LookupParallel vT u (map toV xs) f.
Proof.
  intros HA. rewrite Forall_forall in HA. unfold LLookupParallel, LookupParallel, lookup_parallel. cbn [vT dc_eqb dc_default]. rewrite map_length.
  assert (EE : forall l, lookup_rows (le_eq L) d hp t (map (fun p => (fst p, (false, snd p))) (combine xs l)) = lookup_rows veqb vnone hpv u (map (fun p => (fst p, (false, snd p))) (combine (map toV xs) l))).
  { intros l. rewrite lookup_rows_sim.
    - f_equal. rewrite combine_map_l, !map_map. reflexivity.
    - intros x Hx. apply HA. rewrite map_map in Hx. apply in_map_iff in Hx. destruct Hx as ([y b] & <- & Hy). cbn [fst]. apply in_combine_l in Hy. exact Hy. }
  destruct rel_same as (_ & EB & _). rewrite EB. fold vT. change (hash_pair _) with hpv.
  destruct f as [[|]|l]; rewrite ?EE; reflexivity.
Qed.
(** ** insert *)
Lemma slot_declared a x : slot a x -> slot (le_conv L a) x.
Proof. intros [|o Ho]; [rewrite (fm_default _ _ FM); apply slot_none|]. rewrite (fm_idem _ _ FM o Ho). now apply slot_some. Qed.
Lemma slots_upd l m i o : Forall2 slot l m -> F o -> Forall2 slot (map (le_conv L) (Jax.upd l i o)) (Jax.upd m i (toV o)).
Proof.
  intros H Ho. revert i. induction H as [|a b l m HS HF IH]; intros [|i]; cbn [Jax.upd map]; try constructor; try (now apply slot_declared); try (now apply slot_some); [|apply IH].
  clear - HF FM. induction HF; cbn [map]; constructor; [now apply slot_declared|assumption].
Qed.
Lemma slots_declared l m : Forall2 slot l m -> Forall2 slot (map (le_conv L) l) m.
Proof. induction 1; cbn [map]; constructor; [now apply slot_declared|assumption]. Qed.
Lemma rel_declared (t0 : @table O) (u0 : @table vec) : t0 = retab (tab t0) u0 -> Forall2 slot (map (le_conv L) (tab t0)) (tab u0) -> rel (declared L t0) u0.
Proof. intros E H. split; [unfold declared, retab; rewrite E; cbn; reflexivity|exact H]. Qed.
Lemma insert_sim o : F o -> exists u1 ok i, Insert vT u (toV o) = Some (u1, ok, i) /\ exists t1, LInsert L t o = Some (t1, ok, i) /\ rel t1 u1.
Proof.
  intros Ho. destruct (insert_facts vT k u (toV o) G) as (u1 & ok & i & EI & _ & _). exists u1, ok, i. split; [exact EI|].
  unfold LInsert, Insert, insert in *. cbn [vT dc_eqb dc_default] in EI. fold vT in EI. rewrite (lookup_bucket_sim o Ho).
  destruct (lookup_bucket veqb vnone hpv u (toV o)) as [[[b s] fd]|]; [|discriminate]. rewrite (fillOf_same b). destruct rel_same as (EC & EB & EM & EF & EP). rewrite EB.
  assert (E1 : u1 = (if negb fd && (fillOf u b <=? s) then write hpv u (toV o) b s else u) /\ ok = negb fd && (fillOf u b <=? s) /\ i = b * bsz u + s) by (repeat split; congruence). destruct E1 as (-> & -> & ->). clear EI.
  cbn [option_map fst snd]. eexists. split; [reflexivity|]. destruct R as [ER HS]. destruct (negb fd && (fillOf u b <=? s)).
  - apply rel_declared.
    + unfold write, retab. cbn [tab]. rewrite ER. cbn [retab cap bsz maxp size fill occ fps tab fillOf]. rewrite (fp_same o Ho). reflexivity.
    + unfold write. cbn [tab]. rewrite EB. now apply slots_upd.
  - apply rel_declared; [exact ER|]. now apply slots_declared.
Qed.
(** ** batches *)
Definition both : Type := {p : O * vec | hpv (snd p) = hp (fst p)}.
Definition fstA (a : both) : O := fst (proj1_sig a).
Definition sndA (a : both) : vec := snd (proj1_sig a).
Definition dA : both := exist (fun p : O * vec => hpv (snd p) = hp (fst p)) (d, vnone) default_hash.
Definition hpA (a : both) : N * N := hp (fstA a).
Lemma hp_fst a : hp (fstA a) = hpA a. Proof. reflexivity. Qed.
Lemma hp_snd a : hpv (sndA a) = hpA a. Proof. destruct a as [p H]. exact H. Qed.
Lemma lift_items os : Forall F os -> exists l : list both, map fstA l = os /\ map sndA l = map toV os.
Proof.
  induction 1 as [|o os Ho H (l & E1 & E2)]; [exists []; auto|]. exists (exist (fun p : O * vec => hpv (snd p) = hp (fst p)) (o, toV o) (toV_hash o Ho) :: l). cbn [map]. rewrite E1, E2. auto.
Qed.
Lemma par_rows_map {X Y} (f : X -> Y) xs uniq rs : par_rows (map f xs) uniq rs = map (mapI f) (par_rows xs uniq rs).
Proof. unfold par_rows. rewrite !combine_map_l, !map_map. apply map_ext. intros [[x b] p]. reflexivity. Qed.
Definition uA : @table both := retab (B := both) [] u.
Lemma batch_slots (l : list O) (m : list vec) os xs nb res : Forall2 slot l m -> Forall2 (fun o x => F o /\ x = toV o) os xs ->
  Forall2 slot (map (le_conv L) (batch_tab l os nb res)) (batch_tab m xs nb res).
Proof.
  intros H HX.
  assert (K : Forall2 (fun p q => F (fst p) /\ fst q = toV (fst p) /\ snd p = snd q) (combine os res) (combine xs res)).
  { clear H. revert res. induction HX as [|o x os xs [H1 H2] HX IH]; intros [|r res]; cbn [combine]; constructor; [cbn; auto|apply IH]. }
  assert (K' : Forall2 (fun p q => F (fst p) /\ fst q = toV (fst p) /\ snd p = snd q) (filter (fun p => fst (snd p)) (combine os res)) (filter (fun p => fst (snd p)) (combine xs res))).
  { induction K as [|p q a b (K1 & K2 & K3) K IH]; cbn [filter]; [constructor|]. rewrite <- K3. destruct (fst (snd p)); [constructor; auto|exact IH]. }
  unfold batch_tab. clear K HX.
  assert (KK : forall a b, Forall2 slot (map (le_conv L) a) b -> Forall2 slot
     (map (le_conv L) (fold_left (fun a p => Jax.upd a (fst (snd (snd p)) * nb + snd (snd (snd p))) (fst p)) (filter (fun p => fst (snd p)) (combine os res)) a))
     (fold_left (fun a p => Jax.upd a (fst (snd (snd p)) * nb + snd (snd (snd p))) (fst p)) (filter (fun p => fst (snd p)) (combine xs res)) b)).
  { induction K' as [|p q a' b' (K1 & K2 & K3) K' IH]; intros a b HS; cbn [fold_left]; [exact HS|]. apply IH. rewrite <- K3, K2. generalize (fst (snd (snd p)) * nb + snd (snd (snd p))). intros i. clear - HS K1. revert i b HS.
    induction a as [|y a IH]; intros i b HS; inversion HS as [|? z ? b0 H1 H2 E1 E2]; subst; [constructor|]. destruct i as [|i]; cbn [Jax.upd map]; constructor; [now apply slot_some|exact H2|exact H1|now apply IH]. }
  apply KK. now apply slots_declared.
Qed.
Lemma lassigns_shape be rws M res : lassigns L be t rws M res -> tab M = batch_tab (tab t) (map ix rws) (bsz t) res.
Proof. destruct be as [|maxb|maxb order]; cbn [lassigns]; [apply xla_tab|intros [_ H]; now apply triton_tab in H|intros (_ & _ & H); now apply pallas_tab in H]. Qed.
Lemma retab_retab {A' B' C'} (l : list C') (m : list B') (T : @table A') : retab l (retab m T) = retab l T.
Proof. reflexivity. Qed.
Lemma t_uA : t = retab (tab t) uA. Proof. destruct R as [E _]. rewrite E at 1. reflexivity. Qed.
Lemma u_uA : u = retab (tab u) uA. Proof. unfold uA, retab. cbn. now destruct u. Qed.
Lemma assigns_iff be (rw : list (@irow both)) res :
  (forall M, lassigns L be t (map (mapI fstA) rw) M res -> exists u1, assigns vT be u (map (mapI sndA) rw) u1 res /\ M = retab (tab M) u1) /\
  (forall u1, assigns vT be u (map (mapI sndA) rw) u1 res -> exists M, lassigns L be t (map (mapI fstA) rw) M res /\ M = retab (tab M) u1).
Proof.
  destruct rel_same as (_ & EB & _). destruct be as [|maxb|maxb order]; cbn [lassigns assigns].
  - destruct (xla_nat fstA hpA hp hp_fst (tab t) uA rw) as [l1 E1]. rewrite <- t_uA in E1. destruct (xla_nat sndA hpA hpv hp_snd (tab u) uA rw) as [l2 E2]. rewrite <- u_uA in E2. rewrite E1, E2.
    destruct (xla hpA uA rw) as [[LA r]|]; cbn [option_map fst snd]; split; intros M E; try discriminate.
    + assert (M = retab l1 LA /\ r = res) as [-> ->] by (split; congruence). exists (retab l2 LA). split; reflexivity.
    + assert (M = retab l2 LA /\ r = res) as [-> ->] by (split; congruence). exists (retab l1 LA). split; reflexivity.
  - destruct (triton_nat fstA hpA hp dA hp_fst (tab t) uA rw maxb) as [A1 A2]. destruct (triton_nat sndA hpA hpv dA hp_snd (tab u) uA rw maxb) as [B1 B2]. rewrite <- t_uA in A1, A2. rewrite <- u_uA in B1, B2. change (fstA dA) with d in A1, A2. change (sndA dA) with vnone in B1, B2. change (dc_default vT) with vnone. rewrite EB. split; intros M [HB HM]; (split; [|idtac]) || idtac.
    + destruct (A2 _ _ HM) as (l & LA & -> & HA). destruct (B1 _ _ HA) as (l' & HB'). exists (retab l' LA). split; [split; assumption|reflexivity].
    + destruct (B2 _ _ HM) as (l & LA & -> & HA). destruct (A1 _ _ HA) as (l' & HB'). exists (retab l' LA). split; [split; assumption|reflexivity].
  - destruct (pallas_nat fstA hpA hp dA hp_fst (tab t) uA rw maxb order) as [l1 E1]. destruct (pallas_nat sndA hpA hpv dA hp_snd (tab u) uA rw maxb order) as [l2 E2]. rewrite <- t_uA in E1. rewrite <- u_uA in E2. change (fstA dA) with d in E1. change (sndA dA) with vnone in E2. change (dc_default vT) with vnone. rewrite E1, E2, EB, !map_length.
    destruct (pallas dA hpA uA rw maxb order) as [[LA r]|]; cbn [option_map fst snd]; split; intros M (HB & HO & E); try discriminate.
    + assert (M = retab l1 LA /\ r = res) as [-> ->] by (split; congruence). exists (retab l2 LA). split; [split; [exact HB|split; [exact HO|reflexivity]]|reflexivity].
    + assert (M = retab l2 LA /\ r = res) as [-> ->] by (split; congruence). exists (retab l1 LA). split; [split; [exact HB|split; [exact HO|reflexivity]]|reflexivity].
Qed.
Lemma prepare_sim xs filled uk : Forall F xs ->
  par_prepare (le_eq L) d hp words n (s_mode C) (s_sort C) t xs filled uk =
  par_prepare (dc_eqb vT) (dc_default vT) hpv (dc_words vT) (dc_nwords vT) (s_mode C) (s_sort C) u (map toV xs) filled uk.
Proof.
  intros HA. rewrite Forall_forall in HA. unfold par_prepare. cbn [vT dc_eqb dc_default dc_words dc_nwords]. fold vT. rewrite !map_map.
  rewrite (map_ext_in (fun x => hpv (toV x)) hp) by (intros x Hx; apply toV_hash; now apply HA). rewrite (map_ext_in (fun x => proj1_sig (toV x)) words) by (intros x Hx; apply toV_F; now apply HA).
  destruct (dedupe_pairs _ _ _ _ _ _ _) as [uniq reps]. rewrite lookup_rows_sim.
  - rewrite (combine_map_l toV xs). reflexivity.
  - intros x Hx. apply HA. apply in_map_iff in Hx. destruct Hx as ([y b] & <- & Hy). cbn [fst]. apply in_combine_l in Hy. exact Hy.
Qed.
Lemma items_rows (l : list both) os : map fstA l = os -> map sndA l = map toV os -> Forall F os -> forall uniq rs,
  Forall2 (fun o x => F o /\ x = toV o) (map ix (map (mapI fstA) (par_rows l uniq rs))) (map ix (map (mapI sndA) (par_rows l uniq rs))).
Proof.
  intros E1 E2 HF uniq rs. rewrite !map_map. cbn [mapI ix]. unfold par_rows. rewrite !map_map. cbn [ix].
  assert (K : Forall (fun a => F (fstA a) /\ sndA a = toV (fstA a)) l).
  { revert os E1 E2 HF. induction l as [|a l IH]; intros [|o os] E1 E2 HF; try discriminate; constructor.
    - cbn [map] in *. assert (fstA a = o /\ sndA a = toV o) as [-> ->] by (split; congruence). split; [exact (Forall_inv HF)|reflexivity].
    - apply (IH os); [cbn in E1; congruence|cbn in E2; congruence|exact (Forall_inv_tail HF)]. }
  clear - K. revert uniq rs. induction K as [|a l Ha K IH]; intros [|b uniq] [|p rs]; cbn [combine map fst]; constructor; [exact Ha|apply IH].
Qed.
Lemma batch_sim be xs f uk ins uniq idx : Forall F xs ->
  (forall t1, LParallelInsert L C be t xs f uk (t1, ins, uniq, idx) -> exists u1, ParallelInsert vT C be u (map toV xs) f uk (u1, ins, uniq, idx) /\ rel t1 u1) /\
  (forall u1, ParallelInsert vT C be u (map toV xs) f uk (u1, ins, uniq, idx) -> exists t1, LParallelInsert L C be t xs f uk (t1, ins, uniq, idx) /\ rel t1 u1).
Proof.
  intros HF. destruct (lift_items xs HF) as (lA & L1 & L2). destruct rel_same as (EC & EB & EM & EF & EP).
  assert (EI : forall rs res reps, par_idx t rs res reps = par_idx u rs res reps) by (intros; unfold par_idx; now rewrite EB).
  assert (KR : forall M u1 uq rs res, lassigns L be t (map (mapI fstA) (par_rows lA uq rs)) M res -> assigns vT be u (map (mapI sndA) (par_rows lA uq rs)) u1 res -> M = retab (tab M) u1 -> rel (declared L M) u1).
  { intros M u1 uq rs res H1 H2 E. apply rel_declared; [exact E|]. rewrite (lassigns_shape be _ _ _ H1). destruct (TableSim.assigns_shape vec vT be _ _ _ _ H2) as (_ & _ & _ & _ & ->). rewrite EB. apply batch_slots; [apply R|]. now apply (items_rows lA xs). }
  assert (GG : forall P1 P2, (P1 = fun t1 => exists uniq0 reps rs t' res, par_prepare (le_eq L) d hp words n (s_mode C) (s_sort C) t xs (mask_list (length xs) f) uk = Some (uniq0, reps, rs) /\
      lassigns L be t (par_rows xs uniq0 rs) t' res /\ (t1, ins, uniq, idx) = (declared L t', map fst res, uniq0, par_idx t rs res reps)) ->
    (P2 = fun u1 => exists uniq0 reps rs t' res, par_prepare (dc_eqb vT) (dc_default vT) hpv (dc_words vT) (dc_nwords vT) (s_mode C) (s_sort C) u (map toV xs) (mask_list (length (map toV xs)) f) uk = Some (uniq0, reps, rs) /\
      assigns vT be u (par_rows (map toV xs) uniq0 rs) t' res /\ (u1, ins, uniq, idx) = (t', map fst res, uniq0, par_idx u rs res reps)) ->
    (forall t1, P1 t1 -> exists u1, P2 u1 /\ rel t1 u1) /\ (forall u1, P2 u1 -> exists t1, P1 t1 /\ rel t1 u1)).
  { intros P1 P2 -> ->. rewrite map_length. split.
    - intros t1 (uq & reps & rs & t' & res & H1 & H2 & H3). rewrite <- L1, par_rows_map in H2. destruct (proj1 (assigns_iff be _ res) t' H2) as (u1 & K1 & K2). exists u1.
      assert (t1 = declared L t' /\ ins = map fst res /\ uniq = uq /\ idx = par_idx t rs res reps) as (-> & -> & -> & ->) by (repeat split; congruence). split; [|exact (KR _ _ _ _ _ H2 K1 K2)].
      exists uq, reps, rs, u1, res. rewrite <- (prepare_sim xs _ uk HF). split; [exact H1|]. split; [rewrite <- L2, par_rows_map; exact K1|]. now rewrite EI.
    - intros u1 (uq & reps & rs & t' & res & H1 & H2 & H3). rewrite <- L2, par_rows_map in H2. destruct (proj2 (assigns_iff be _ res) t' H2) as (M & K1 & K2). exists (declared L M).
      assert (u1 = t' /\ ins = map fst res /\ uniq = uq /\ idx = par_idx u rs res reps) as (-> & -> & -> & ->) by (repeat split; congruence). split; [|exact (KR _ _ _ _ _ K1 H2 K2)].
      exists uq, reps, rs, M, res. rewrite (prepare_sim xs _ uk HF). split; [exact H1|]. split; [rewrite <- L1, par_rows_map; exact K1|]. now rewrite EI. }
  unfold LParallelInsert, ParallelInsert. destruct f as [[|]|l]; [apply GG; reflexivity| |apply GG; reflexivity].
  rewrite map_length. split; intros t1 E.
  - exists u. assert (t1 = t) as -> by congruence. split; [congruence|exact R].
  - exists t. assert (t1 = u) as -> by congruence. split; [congruence|exact R].
Qed.
End At.

(** ** histories *)
Definition vevent (e : @event O) : @event vec := match e with EInsert x ok i => EInsert (toV x) ok i | EBatch xs ins idx => EBatch (map toV xs) ins idx end.
Lemma vevent_reports e x i : Forall F (event_inputs e) -> F x -> (TableSpec.event_reports vT (vevent e) (toV x) i <-> event_reports L e x i).
Proof.
  intros HE Hx. destruct e as [y ok j|ys ins idx]; cbn [vevent TableSpec.event_reports event_reports event_inputs] in *.
  - rewrite (toV_inj y x (Forall_inv HE) Hx). tauto.
  - rewrite map_length. rewrite Forall_forall in HE. split.
    + intros (q & Hq & HI & EX & EJ). destruct (nth_error ys q) as [y|] eqn:EY; [|apply nth_error_None in EY; lia]. exists q, y. split; [exact EY|]. split; [exact HI|]. split; [|exact EJ].
      apply toV_inj; [apply HE; now apply nth_error_In in EY|exact Hx|]. rewrite <- EX. apply (map_nth_error toV) in EY. symmetry. apply nth_error_nth. exact EY.
    + intros (q & y & EY & HI & EX & EJ). exists q. split; [apply nth_error_Some; congruence|]. split; [exact HI|]. split; [|exact EJ]. pose proof EY as EY'. apply (map_nth_error toV) in EY'. apply (nth_error_nth _ _ (dc_default vT)) in EY'. rewrite EY'. apply toV_inj; [apply HE; now apply nth_error_In in EY|exact Hx|exact EX].
Qed.
Lemma vevent_only e y i : Forall F (event_inputs e) -> TableSpec.event_reports vT (vevent e) y i -> exists x, F x /\ y = toV x.
Proof.
  intros HE. rewrite Forall_forall in HE. destruct e as [x ok j|xs ins idx]; cbn [vevent TableSpec.event_reports event_inputs] in *.
  - intros (_ & <- & _). exists x. split; [apply HE; now left|reflexivity].
  - rewrite map_length. intros (q & Hq & _ & <- & _). destruct (nth_error xs q) as [x|] eqn:EX; [|apply nth_error_None in EX; lia]. exists x. split; [apply HE; now apply nth_error_In in EX|]. apply (map_nth_error toV) in EX. now apply nth_error_nth.
Qed.
Lemma inputs_in es e : Forall F (inputs es) -> In e es -> Forall F (event_inputs e).
Proof. intros H He. rewrite Forall_forall in *. intros x Hx. apply H. apply in_flat_map. exists e. auto. Qed.
Lemma vreported es x i : Forall F (inputs es) -> F x -> (TableSpec.reported vT (map vevent es) (toV x) i <-> reported L es x i).
Proof.
  intros HI Hx. split.
  - intros (e & He & H). apply in_map_iff in He. destruct He as (e' & <- & He). exists e'. split; [exact He|]. apply vevent_reports in H; [exact H|now apply (inputs_in es)|exact Hx].
  - intros (e & He & H). exists (vevent e). split; [now apply in_map|]. apply vevent_reports; [now apply (inputs_in es)|exact Hx|exact H].
Qed.
Lemma history_agrees es u : history vT C (map vevent es) u -> Forall F (inputs es) -> agrees u.
Proof.
  intros H HI i x HS. destruct (history_facts vT C _ u H) as (k & _ & HR & _). apply HR in HS. destruct HS as (e & He & HS). apply in_map_iff in He. destruct He as (e' & <- & He).
  destruct (vevent_only e' x i (inputs_in es e' HI He) HS) as (o & Ho & ->). now apply toV_some.
Qed.
Record sim (es : list (@event O)) (t : @table O) (u : @table vec) : Prop := {
  sm_rel : rel t u;
  sm_hist : history vT C (map vevent es) u;
  sm_F : Forall F (inputs es) }.
Lemma mask_ok_map xs f : mask_ok xs f -> mask_ok (map toV xs) f.
Proof. unfold mask_ok. now rewrite map_length. Qed.
Lemma op_sim es t u e t1 : sim es t u -> Forall F (event_inputs e) -> lop L C t e t1 -> exists u1, sim (es ++ [e]) t1 u1.
Proof.
  intros [R H HI] HE HO. pose proof (history_agrees es u H HI) as A. destruct (history_facts vT C _ u H) as (k & G & _).
  assert (HF : Forall F (inputs (es ++ [e]))) by (unfold inputs; rewrite flat_map_app; apply Forall_app; split; [exact HI|cbn [flat_map]; now rewrite app_nil_r]).
  assert (K : exists u1, op vT C u (vevent e) u1 /\ rel t1 u1).
  { inversion HO as [t0 x t1' ok i EI|t0 be xs f uk t1' ins uniq idx HM HP]; subst; cbn [event_inputs vevent] in *.
    - destruct (insert_sim t u R k G A x (Forall_inv HE)) as (u1 & ok' & i' & E1 & t1' & E2 & R1). rewrite EI in E2. assert (t1' = t1 /\ ok' = ok /\ i' = i) as (-> & -> & ->) by (repeat split; congruence). exists u1. split; [now constructor|exact R1].
    - destruct (proj1 (batch_sim t u R k G A be xs f uk ins uniq idx HE) t1 HP) as (u1 & HP' & R1). exists u1. split; [|exact R1]. exact (op_batch vT C u be (map toV xs) f uk u1 ins uniq idx (mask_ok_map xs f HM) HP'). }
  destruct K as (u1 & HO' & R1). exists u1. constructor; [exact R1| |exact HF]. rewrite map_app. apply (history_run vT C _ u); [exact H|]. cbn [map]. econstructor; [exact HO'|constructor].
Qed.
Lemma run_sim es t u es2 t2 : sim es t u -> Forall F (inputs es2) -> lrun L C t es2 t2 -> exists u2, sim (es ++ es2) t2 u2.
Proof.
  intros S HF HR. revert es u S HF. induction HR as [t|t e t1 es2 t2 HO HR IH]; intros es u S HF; [exists u; now rewrite app_nil_r|].
  unfold inputs in HF. cbn [flat_map] in HF. apply Forall_app in HF. destruct HF as [H1 H2]. destruct (op_sim es t u e t1 S H1 HO) as (u1 & S1).
  replace (es ++ e :: es2) with ((es ++ [e]) ++ es2) by (now rewrite <- app_assoc). exact (IH (es ++ [e]) u1 S1 H2).
Qed.
Lemma build_sim capacity bs mult mp : lconfig_ok L capacity bs mult mp -> exists u, sim [] (LBuild L capacity bs mult mp) u.
Proof.
  intros HC. exists (Build vT capacity bs mult mp). constructor.
  - split; [reflexivity|]. unfold LBuild, Build, build. cbn [tab vT dc_default]. generalize ((table_cap (mult * capacity / bs) + 1) * bs). intros m. induction m as [|m IH]; cbn [repeat]; constructor; [apply slot_none|exact IH].
  - exists capacity, bs, mult, mp. split; [exact HC|]. constructor.
  - constructor.
Qed.
Theorem history_sim es t : lhistory L C es t -> Forall F (inputs es) -> exists u, sim es t u.
Proof. intros (cpt & bs & mu & mp & HC & HR) HF. destruct (build_sim cpt bs mu mp HC) as (u0 & S0). exact (run_sim [] _ u0 es t S0 HF HR). Qed.
Lemma count_map es : count (map vevent es) = count es.
Proof. unfold count. rewrite map_map. f_equal. apply map_ext. intros [x ok i|xs ins idx]; reflexivity. Qed.
End V.
