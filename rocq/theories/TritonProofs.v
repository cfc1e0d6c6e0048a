(** * TritonProofs.v — every interleaving of the GPU kernel meets the slot contract. *)
From Verif Require Import Jax KeyModel HashModel HashProofs StableSort TableModel ProbeProofs TableLookup TableInv TableInsert ResolveProofs TableRounds TableCommit TableBound DedupeModel DedupeSpec DedupeProofs DedupeExact ParInsertModel ParInsert Claims TritonModel.

(** ** bit lemmas *)
Section Bits.
Local Open Scope N_scope.
Lemma full_mask_ones n : (n <= 32)%nat -> full_mask n = N.ones (N.of_nat n).
Proof.
  intros H. unfold full_mask. destruct (Nat.leb_spec 32 n) as [H'|H'].
  - replace n with 32%nat by lia. reflexivity.
  - rewrite N.ones_equiv, N.shiftl_1_l. lia.
Qed.
Lemma free_bits f n i : (f <= n <= 32)%nat ->
  N.testbit (free_of n (N.ones (N.of_nat f))) i = (N.of_nat f <=? i) && (i <? N.of_nat n).
Proof.
  intros H. unfold free_of. rewrite full_mask_ones by lia. rewrite N.land_spec, N.lxor_spec.
  change 0xFFFFFFFF with (N.ones 32).
  destruct (N.ltb_spec i (N.of_nat n)) as [Hn|Hn].
  - rewrite (N.ones_spec_low (N.of_nat n)) by lia. rewrite (N.ones_spec_low 32) by lia.
    destruct (N.leb_spec (N.of_nat f) i) as [Hf|Hf].
    + rewrite N.ones_spec_high by lia. reflexivity.
    + rewrite N.ones_spec_low by lia. reflexivity.
  - rewrite (N.ones_spec_high (N.of_nat n)) by lia. rewrite !andb_false_r. reflexivity.
Qed.
Lemma free_eq f n : (f <= n <= 32)%nat -> free_of n (N.ones (N.of_nat f)) = N.shiftl (N.ones (N.of_nat (n - f))) (N.of_nat f).
Proof.
  intros H. apply N.bits_inj. intros i. rewrite free_bits by exact H.
  destruct (N.leb_spec (N.of_nat f) i) as [Hf|Hf].
  - rewrite N.shiftl_spec_high' by exact Hf. destruct (N.ltb_spec i (N.of_nat n)) as [Hn|Hn].
    + rewrite N.ones_spec_low by lia. reflexivity.
    + rewrite N.ones_spec_high by lia. reflexivity.
  - rewrite N.shiftl_spec_low by exact Hf. reflexivity.
Qed.
Lemma free_zero f n : (f <= n <= 32)%nat -> (free_of n (N.ones (N.of_nat f)) = 0 <-> f = n).
Proof.
  intros H. split; intros E.
  - destruct (Nat.eq_dec f n) as [|Hne]; [assumption|exfalso].
    pose proof (free_bits f n (N.of_nat f) H) as HB. rewrite E, N.bits_0 in HB.
    destruct (N.leb_spec (N.of_nat f) (N.of_nat f)); [|lia]. destruct (N.ltb_spec (N.of_nat f) (N.of_nat n)); [discriminate|lia].
  - subst f. rewrite free_eq, Nat.sub_diag by lia. reflexivity.
Qed.
Lemma lsb_free f n : (f < n <= 32)%nat -> lsb_of (free_of n (N.ones (N.of_nat f))) = 2 ^ N.of_nat f.
Proof.
  intros H. rewrite free_eq by lia. unfold lsb_of.
  set (m := N.of_nat (n - f)). rewrite N.shiftl_mul_pow2.
  assert (1 <= 2 ^ m) as H1 by (pose proof (N.pow_nonzero 2 m); lia).
  assert (2 ^ 32 = 2 ^ N.of_nat f * 2 ^ m * 2 ^ N.of_nat (32 - n)) as E32.
  { rewrite <- !N.pow_add_r. f_equal. unfold m. lia. }
  set (F := 2 ^ N.of_nat f) in *. set (A := 2 ^ m) in *. set (B := 2 ^ N.of_nat (32 - n)) in *.
  assert (F <> 0) as HF by (unfold F; apply N.pow_nonzero; lia).
  assert (1 <= B) as HB by (unfold B; pose proof (N.pow_nonzero 2 (N.of_nat (32 - n))); lia).
  assert (N.ones m = A - 1) as EO by (rewrite N.ones_equiv; unfold A; lia).
  assert (2 ^ 32 - N.ones m * F = (1 + A * (B - 1)) * F) as ED.
  { rewrite E32, EO. apply N.add_sub_eq_l. replace (F * A * B) with (F * A * (B - 1) + F * A) by nia.
    replace (F * A) with (F * (A - 1) + F) at 2 by nia. ring. }
  rewrite ED. unfold w32, W32.
  assert (m <> 0) as Hm by (unfold m; lia).
  assert (2 <= A) as HA.
  { unfold A. replace m with (N.succ (N.pred m)) by lia. rewrite N.pow_succ_r'. pose proof (N.pow_nonzero 2 (N.pred m)). lia. }
  rewrite N.mod_small by (rewrite E32; nia).
  unfold F at 1 2. rewrite <- !N.shiftl_mul_pow2, <- N.shiftl_land.
  rewrite N.land_comm, N.land_ones.
  rewrite N.mul_comm, N.mod_add by lia. rewrite N.mod_small by lia. rewrite N.shiftl_1_l. reflexivity.
Qed.
Lemma slot_pow f : (f < 32)%nat -> slot_of (2 ^ N.of_nat f) = f.
Proof.
  intros H. unfold slot_of, clz32. rewrite N.size_log2 by (apply N.pow_nonzero; lia). rewrite N.log2_pow2 by lia. lia.
Qed.
Lemma land_ones_pow g f : (f <= g)%nat -> (N.land (N.ones (N.of_nat g)) (2 ^ N.of_nat f) = 0 <-> f = g).
Proof.
  intros H. split; intros E.
  - destruct (Nat.eq_dec f g) as [|Hne]; [assumption|exfalso].
    assert (N.testbit (N.land (N.ones (N.of_nat g)) (2 ^ N.of_nat f)) (N.of_nat f) = true) as HT.
    { rewrite N.land_spec, N.pow2_bits_true, N.ones_spec_low by lia. reflexivity. }
    rewrite E, N.bits_0 in HT. discriminate.
  - subst g. apply N.bits_inj. intros i. rewrite N.land_spec, N.bits_0.
    destruct (N.eq_dec i (N.of_nat f)) as [->|Hne]; [rewrite N.ones_spec_high by lia; reflexivity|].
    rewrite N.pow2_bits_false by lia. apply andb_false_r.
Qed.
Lemma lor_ones_pow g f : (f < g)%nat -> N.lor (N.ones (N.of_nat g)) (2 ^ N.of_nat f) = N.ones (N.of_nat g).
Proof.
  intros H. apply N.bits_inj. intros i. rewrite N.lor_spec.
  destruct (N.eq_dec i (N.of_nat f)) as [->|Hne]; [rewrite N.ones_spec_low by lia; reflexivity|].
  rewrite N.pow2_bits_false by lia. apply orb_false_r.
Qed.
Lemma ones_S' f : N.lor (N.ones (N.of_nat f)) (2 ^ N.of_nat f) = N.ones (N.of_nat (S f)).
Proof.
  apply N.bits_inj. intros i. rewrite N.lor_spec.
  destruct (N.eq_dec i (N.of_nat f)) as [->|Hne]; [rewrite N.pow2_bits_true, (N.ones_spec_low (N.of_nat (S f))) by lia; apply orb_true_r|].
  rewrite N.pow2_bits_false, orb_false_r by lia. destruct (N.lt_ge_cases i (N.of_nat f)).
  - rewrite !N.ones_spec_low by lia. reflexivity.
  - rewrite !N.ones_spec_high by lia. reflexivity.
Qed.
Lemma filter_all {A} (f : A -> bool) l : (forall x, In x l -> f x = true) -> filter f l = l.
Proof.
  induction l as [|a l IH]; intros H; [reflexivity|]. cbn [filter]. rewrite (H a (or_introl eq_refl)). f_equal. apply IH.
  intros x Hx. apply H. right. exact Hx.
Qed.
Lemma popcount_ones g n : (g <= n <= 32)%nat -> popcount (N.land (N.ones (N.of_nat g)) (full_mask n)) = g.
Proof.
  intros H. rewrite full_mask_ones by lia. unfold popcount.
  replace (filter (fun i => N.testbit (N.land (N.ones (N.of_nat g)) (N.ones (N.of_nat n))) (N.of_nat i)) (seq 0 32))
    with (filter (fun i => (i <? g)%nat) (seq 0 32)).
  - replace 32%nat with (g + (32 - g))%nat by lia. rewrite seq_app, filter_app, app_length.
    rewrite filter_all, seq_length.
    + assert (filter (fun i => (i <? g)%nat) (seq (0 + g) (32 - g)) = []) as ->; [|cbn; lia].
      generalize (32 - g)%nat. intros m. assert (forall o, (g <= o)%nat -> filter (fun i => (i <? g)%nat) (seq o m) = []) as HG.
      { induction m as [|m IH]; intros o Ho; [reflexivity|]. cbn [seq filter]. destruct (Nat.ltb_spec o g); [lia|]. apply IH. lia. }
      apply HG. lia.
    + intros x Hx. apply in_seq in Hx. apply Nat.ltb_lt. lia.
  - apply filter_ext_in. intros i Hi. apply in_seq in Hi. rewrite N.land_spec.
    destruct (Nat.ltb_spec i g) as [HL|HL].
    + rewrite !N.ones_spec_low by lia. reflexivity.
    + rewrite N.ones_spec_high by lia. reflexivity.
Qed.
End Bits.

Lemma map_upd {A B} (f : A -> B) l : forall i v, map f (upd l i v) = upd (map f l) i (f v).
Proof. induction l as [|a l IH]; intros [|i] v; cbn; try reflexivity. rewrite IH. reflexivity. Qed.

Lemma ok_places {item} (rows : list (@irow item)) (res : list (bool * (nat * nat))) : length res = length rows ->
  res_places (map ix rows) res = map (fun p : @irow item * (bool * (nat * nat)) => (ix (fst p), snd (snd p))) (filter (fun p => fst (snd p)) (combine rows res)).
Proof.
  unfold res_places. revert res. induction rows as [|r l IH]; intros [|q res] HL; cbn in HL; try lia; [reflexivity|].
  cbn [map combine filter snd]. destruct (fst q); cbn [map fst snd]; rewrite IH by lia; reflexivity.
Qed.
Lemma fold_set_len {A} (f : A -> nat) (v : A -> nat) l : forall init, length (fold_left (fun a p => upd a (f p) (v p)) l init) = length init.
Proof. induction l as [|a l IH]; intros init; [reflexivity|]. cbn. rewrite IH. apply upd_length. Qed.
Lemma fold_set {A} (f : A -> nat) (v : nat -> nat) (l : list A) b : forall init, b < length init ->
  nth b (fold_left (fun a p => upd a (f p) (v (f p))) l init) 0 = if existsb (fun p => f p =? b) l then v b else nth b init 0.
Proof.
  induction l as [|a l IH]; intros init Hb; [reflexivity|]. cbn [fold_left existsb]. rewrite IH by (rewrite upd_length; exact Hb).
  destruct (existsb (fun p => f p =? b) l); [rewrite orb_true_r; reflexivity|]. rewrite orb_false_r.
  destruct (Nat.eqb_spec (f a) b) as [<-|Hne]; [apply nth_upd_eq; exact Hb|apply nth_upd_neq; exact Hne].
Qed.


Section T.
Context {item : Type} (d : item) (hp : item -> N * N).
Notation table := (@table item).
Notation irow := (@irow item).
Notation bres := (bool * (nat * nat))%type.
Notation inv := (TableInv.inv d hp).
Notation dres := (false, (0, 0)).
Variables (k : nat) (t : table) (rows : list irow) (maxb : nat).
Hypothesis V : inv k t.
Hypothesis H32 : bsz t <= 32.
Hypothesis HS : start_ok d hp k t rows.
Notation pr := (probe hp (cap t) k).
Notation rw i := (nth i rows (dr d)).
Notation n := (length rows).
Notation dpc := (Done false 0 0).
Notation claims := (claims_ok d hp k t rows).

Lemma claims_ext g res res' : claims g res -> length res' = length res ->
  (forall i p, i < n -> (nth i res' dres = (true, p) <-> nth i res dres = (true, p))) -> claims g res'.
Proof.
  intros C HL HE. constructor.
  - rewrite HL. apply C.
  - apply C.
  - intros i b s Hi E. apply (c_claim _ _ _ _ _ _ _ C i b s Hi). apply HE; assumption.
  - intros b s Hb Hs. destruct (c_full _ _ _ _ _ _ _ C b s Hb Hs) as (i & Hi & E). exists i. split; [exact Hi|]. apply HE; assumption.
  - intros i i' p Hi Hi' E E'. apply (c_inj _ _ _ _ _ _ _ C i i' p); auto; apply HE; assumption.
Qed.

(** what is known about one program when the fill levels are [g] *)
Definition on_chain (g : nat -> nat) (i p b : nat) : Prop :=
  exists j, p <= j /\ b = pr (ix (rw i)) j /\ forall j', j' < j -> g (pr (ix (rw i)) j') = bsz t.
Definition pc_ok (g : nat -> nat) (i : nat) (c : pc) : Prop :=
  match c with
  | Outer p b => iupd (rw i) = true -> on_chain g i p b
  | Inner p b a v => iupd (rw i) = true /\ on_chain g i p b /\
      exists f, v = N.ones (N.of_nat f) /\ f <= g b /\ (a < bsz t -> a <= f) /\ (bsz t <= a -> f = bsz t)
  | Done false b s => iupd (rw i) = true -> exists b', on_chain g i maxb b'
  | Done true b s => True
  end.
Record TI (c : cfg) (g : nat -> nat) : Prop := {
  ti_claims : claims g (map res_of (pcs c));
  ti_len : length (mem c) = length (occ t);
  ti_mem : forall b, b < cap t -> nth b (mem c) 0%N = N.ones (N.of_nat (g b));
  ti_past : forall m b, In m (past c) -> b < cap t -> exists f, nth b m 0%N = N.ones (N.of_nat f) /\ f <= g b;
  ti_pc : forall i, i < n -> pc_ok g i (nth i (pcs c) dpc) }.
Let W := i_wf _ _ _ _ V.
Let HC := wf_cap _ _ W.
Let HK := wf_k _ _ W.
Lemma prl x j : pr x j < cap t. Proof. apply probe_lt; [exact HC|lia]. Qed.

Lemma pc_mono g g' i c : (forall b, g b <= g' b) -> (forall b, b < cap t -> g' b <= bsz t) -> pc_ok g i c -> pc_ok g' i c.
Proof.
  intros HM HB.
  assert (forall p b, on_chain g i p b -> on_chain g' i p b) as HO.
  { intros p b (j & H1 & H2 & H3). exists j. split; [exact H1|]. split; [exact H2|]. intros j' Hj'.
    specialize (H3 j' Hj'). specialize (HM (pr (ix (rw i)) j')). specialize (HB _ (prl (ix (rw i)) j')). lia. }
  destruct c as [p b|p b a v|[|] b s]; cbn; auto.
  - intros (U & O & f & E1 & E2 & E3 & E4). split; [exact U|]. split; [apply HO; exact O|]. exists f. specialize (HM b).
    split; [exact E1|]. split; [lia|]. auto.
  - intros H U. destruct (H U) as (b' & O). exists b'. apply HO. exact O.
Qed.
Lemma mono_bump g b : claims g (map res_of []) \/ True -> forall b', g b' <= bump g b b'.
Proof. intros _ b'. unfold bump. destruct (Nat.eqb_spec b' b) as [->|]; lia. Qed.

(** a step that touches no shared word and claims nothing *)
Lemma local_step c g i q : TI c g -> i < length (pcs c) -> fst (res_of (nth i (pcs c) dpc)) = false -> fst (res_of q) = false ->
  (i < n -> pc_ok g i q) -> TI (MkC (mem c) (past c) (upd (pcs c) i q)) g.
Proof.
  intros T Hi N1 N2 HQ. constructor; cbn [mem past pcs]; try apply T.
  - apply (claims_ext g (map res_of (pcs c))); [apply T|rewrite !map_length, upd_length; reflexivity|].
    intros i' p Hi'. rewrite map_upd. destruct (Nat.eq_dec i i') as [<-|Hne].
    + rewrite nth_upd_eq by (rewrite map_length; exact Hi). rewrite (map_nth_lt res_of _ i dpc) by exact Hi.
      split; intros E; [rewrite E in N2|rewrite E in N1]; discriminate.
    + rewrite nth_upd_neq by exact Hne. tauto.
  - intros i' Hi'. destruct (Nat.eq_dec i i') as [<-|Hne]; [rewrite nth_upd_eq by exact Hi; auto|].
    rewrite nth_upd_neq by exact Hne. apply T. exact Hi'.
Qed.

Lemma tstep_TI c g c' : TI c g -> tstep d hp t rows maxb c c' -> exists g', TI c' g'.
Proof.
  intros T ST.
  assert (length (pcs c) = n) as HL.
  { pose proof (c_len _ _ _ _ _ _ _ (ti_claims _ _ T)) as H. rewrite map_length in H. exact H. }
  pose proof (c_g _ _ _ _ _ _ _ (ti_claims _ _ T)) as HG.
  inversion ST as [i p b Hi E HX|i p b m Hi E U HP HM|i p b a v Hi E HA HF l old HCl|i p b a v Hi E HA HF l old HCl|i p b a v Hi E HA HF|i p b a v Hi E HA]; subst c'; clear ST;
    pose proof (ti_pc _ _ T i ltac:(lia)) as PC; rewrite E in PC; cbn [pc_ok] in PC; fold (dr d) in *.
  - exists g. apply local_step; auto; [rewrite E; reflexivity|]. intros _. cbn [pc_ok]. intros U. fold (dr d) in HX.
    destruct HX as [HX|HX]; [unfold dr in *; congruence|]. destruct (PC U) as (j & H1 & H2 & H3). exists b, j. split; [lia|auto].
  - exists g. apply local_step; auto; [rewrite E; reflexivity|]. intros _. cbn [pc_ok]. split; [exact U|]. split; [apply PC; exact U|].
    assert (b < cap t) as Hb by (destruct (PC U) as (j & _ & -> & _); apply prl).
    destruct HM as [<-|HM].
    + exists (g b). split; [apply T; exact Hb|]. split; [lia|]. split; intros; [lia|]. pose proof (wf_bsz _ _ W). lia.
    + destruct (ti_past _ _ T m b HM Hb) as (f & E1 & E2). exists f. split; [exact E1|]. split; [lia|]. split; intros; [lia|]. pose proof (wf_bsz _ _ W). lia.
  - destruct PC as (U & (j & H1 & H2 & H3) & f & E1 & E2 & E3 & E4).
    assert (b < cap t) as Hb by (rewrite H2; apply prl). specialize (HG b Hb) as HGb.
    assert (f < bsz t) as Hf. { subst v. destruct (Nat.eq_dec f (bsz t)) as [Ef|]; [exfalso; apply HF; apply free_zero; lia|lia]. }
    assert (l = 2 ^ N.of_nat f)%N as El by (unfold l; subst v; apply lsb_free; lia).
    assert (old = N.ones (N.of_nat (g b))) as Eo by (unfold old; apply T; exact Hb).
    rewrite El, Eo in HCl. apply land_ones_pow in HCl; [|lia].
    exists (bump g b). rewrite El, Eo, slot_pow by lia. subst f.
    assert (claims (bump g b) (upd (map res_of (pcs c)) i (true, (b, g b)))) as CN.
    { apply (claim_one d hp k t rows g _ i b j); auto; try lia.
      - apply (ti_claims _ _ T).
      - rewrite (map_nth_lt res_of _ i dpc) by exact Hi. rewrite E. reflexivity. }
    constructor; cbn [mem past pcs].
    + rewrite map_upd. exact CN.
    + rewrite upd_length. apply T.
    + intros b' Hb'. assert (b < length (mem c)) by (rewrite (ti_len _ _ T), (wf_occ_len _ _ W); lia).
      unfold bump. destruct (Nat.eqb_spec b' b) as [->|Hne].
      * rewrite nth_upd_eq by assumption. apply ones_S'.
      * rewrite nth_upd_neq by auto. apply T. exact Hb'.
    + intros m b' [<-|Hm] Hb'.
      * exists (g b'). split; [apply T; exact Hb'|]. unfold bump. destruct (Nat.eqb_spec b' b) as [->|]; lia.
      * destruct (ti_past _ _ T m b' Hm Hb') as (f' & A & B). exists f'. split; [exact A|]. unfold bump. destruct (Nat.eqb_spec b' b) as [->|]; lia.
    + intros i' Hi'. destruct (Nat.eq_dec i i') as [<-|Hne]; [rewrite nth_upd_eq by exact Hi; exact I|].
      rewrite nth_upd_neq by exact Hne. apply (pc_mono g); [|intros b' Hb'; apply (c_g _ _ _ _ _ _ _ CN b' Hb')|apply T; exact Hi'].
      intros b'. unfold bump. destruct (Nat.eqb_spec b' b) as [->|]; lia.
  - destruct PC as (U & (j & H1 & H2 & H3) & f & E1 & E2 & E3 & E4).
    assert (b < cap t) as Hb by (rewrite H2; apply prl). specialize (HG b Hb) as HGb.
    assert (f < bsz t) as Hf. { subst v. destruct (Nat.eq_dec f (bsz t)) as [Ef|]; [exfalso; apply HF; apply free_zero; lia|lia]. }
    assert (l = 2 ^ N.of_nat f)%N as El by (unfold l; subst v; apply lsb_free; lia).
    assert (old = N.ones (N.of_nat (g b))) as Eo by (unfold old; apply T; exact Hb).
    assert (f < g b) as Hfg. { rewrite El, Eo in HCl. destruct (Nat.eq_dec f (g b)); [exfalso; apply HCl; apply land_ones_pow; lia|lia]. }
    exists g. rewrite El, Eo, lor_ones_pow by exact Hfg.
    assert (upd (mem c) b (N.ones (N.of_nat (g b))) = mem c) as EM.
    { apply (nth_ext _ _ 0%N 0%N); [apply upd_length|]. intros q _. destruct (Nat.eq_dec b q) as [<-|Hne]; [|apply nth_upd_neq; exact Hne].
      rewrite nth_upd_eq by (rewrite (ti_len _ _ T), (wf_occ_len _ _ W); lia). symmetry. apply T. exact Hb. }
    rewrite EM.
    assert (TI (MkC (mem c) (past c) (upd (pcs c) i (Inner p b (S a) (N.ones (N.of_nat (g b)))))) g) as TL.
    { apply local_step; auto; [rewrite E; reflexivity|]. intros _. cbn [pc_ok]. split; [exact U|]. split; [exists j; auto|].
      exists (g b). split; [reflexivity|]. split; [lia|]. lia. }
    constructor; try apply TL. cbn [mem past pcs]. intros m b' [<-|Hm] Hb'.
    + exists (g b'). split; [apply T; exact Hb'|lia].
    + apply (ti_past _ _ T); assumption.
  - destruct PC as (U & O & f & E1 & E2 & E3 & E4). exists g. apply local_step; auto; [rewrite E; reflexivity|]. intros _. cbn [pc_ok].
    split; [exact U|]. split; [exact O|]. exists f. split; [exact E1|]. split; [exact E2|]. split; [lia|]. intros _.
    destruct O as (j & _ & -> & _). pose proof (HG _ (prl (ix (rw i)) j)). subst v. apply free_zero in HF; lia.
  - destruct PC as (U & (j & H1 & H2 & H3) & f & E1 & E2 & E3 & E4). specialize (E4 HA). subst f. exists g.
    apply local_step; auto; [rewrite E; reflexivity|]. intros _. cbn [pc_ok]. intros _. exists (S j). split; [lia|]. split.
    + rewrite (probe_S hp (cap t) k HC ltac:(lia)), <- H2. reflexivity.
    + intros j' Hj'. destruct (Nat.eq_dec j' j) as [->|]; [|apply H3; lia]. rewrite <- H2.
      assert (b < cap t) as Hb by (rewrite H2; apply prl). pose proof (HG b Hb). lia.
Qed.

Lemma start_TI : TI (start t rows) (fillOf t).
Proof.
  constructor; cbn [start mem past pcs].
  - apply claims_init; [exact V|rewrite !map_length; reflexivity|]. intros i Hi. rewrite map_map.
    rewrite (map_nth_lt _ rows i (dr d)) by exact Hi. reflexivity.
  - reflexivity.
  - intros b Hb. apply (i_occ _ _ _ _ V H32 b Hb).
  - intros m b [].
  - intros i Hi. rewrite (map_nth_lt _ rows i (dr d)) by exact Hi. cbn [pc_ok]. intros U.
    destruct HS as (_ & _ & _ & H). destruct (H i Hi U) as (j & E & HF). exists j. split; [lia|]. auto.
Qed.
Lemma reach_TI c : treach d hp t rows maxb c -> exists g, TI c g.
Proof. induction 1 as [|c c' HR [g T] ST]; [exists (fillOf t); apply start_TI|apply (tstep_TI c g); assumption]. Qed.

(** ** the writes *)
Lemma gpu_ok c g : TI c g -> backend_ok d hp k t rows (commit_gpu hp t rows (mem c) (map res_of (pcs c))) (map res_of (pcs c)).
Proof.
  intros T. pose proof (ti_claims _ _ T) as C. set (res := map res_of (pcs c)) in *.
  pose proof (c_len _ _ _ _ _ _ _ C) as HL.
  pose proof (ok_places rows res HL) as EP.
  apply (claims_placed d hp k t rows V g res); auto; unfold commit_gpu; cbn [cap bsz maxp tab fps size fill occ].
  - rewrite EP. unfold write_places. cbn [tab].
    apply (fold_map_upd (fun p : irow * bres => (ix (fst p), snd (snd p))) (fun a p => upd a (flat_of (bsz t) p) (fst p))).
  - rewrite EP. unfold write_places. cbn [fps].
    apply (fold_map_upd (fun p : irow * bres => (ix (fst p), snd (snd p))) (fun a p => upd a (flat_of (bsz t) p) (fp_of hp (fst p)))).
  - rewrite EP, map_length. reflexivity.
  - apply (fold_set_len (fun p : irow * bres => fst (snd (snd p)))).
  - apply T.
  - intros b Hb. unfold fillOf at 1. cbn [fill].
    rewrite (fold_set (fun p : irow * bres => fst (snd (snd p))) (fun b => popcount (N.land (nth b (mem c) 0%N) (full_mask (bsz t))))) by (rewrite (wf_fill_len _ _ W); lia).
    destruct (existsb _ _) eqn:EX.
    + rewrite (ti_mem _ _ T b Hb). apply popcount_ones. pose proof (c_g _ _ _ _ _ _ _ C b Hb). lia.
    + fold (fillOf t b). pose proof (c_g _ _ _ _ _ _ _ C b Hb) as HG. destruct (Nat.eq_dec (fillOf t b) (g b)) as [|Hne]; [assumption|exfalso].
      destruct (c_full _ _ _ _ _ _ _ C b (fillOf t b) Hb ltac:(lia)) as (i & Hi & E).
      assert (existsb (fun p : irow * bres => fst (snd (snd p)) =? b) (filter (fun p : irow * bres => fst (snd p)) (combine rows res)) = true); [|congruence].
      apply existsb_exists. exists (rw i, nth i res dres). rewrite E. cbn [fst snd]. split; [|apply Nat.eqb_refl].
      apply filter_In. split; [|reflexivity]. apply (in_combine_nth _ _ (dr d) dres); [lia|]. exists i. split; [exact Hi|]. rewrite E. auto.
  - intros b Hb. apply T. exact Hb.
Qed.

Theorem triton_spec t' res : triton_result d hp t rows maxb t' res -> backend_ok d hp k t rows t' res /\
  ((forall i, i < n -> iupd (rw i) = true -> fst (nth i res dres) = false -> cap t <= maxb -> total t' = cap t * bsz t)).
Proof.
  intros (c & HR & HF & -> & ->). destruct (reach_TI c HR) as [g T]. split; [apply (gpu_ok c g); exact T|].
  intros i Hi U NI HM. pose proof (gpu_ok c g T) as BO.
  assert (length (pcs c) = n) as HL. { pose proof (c_len _ _ _ _ _ _ _ (ti_claims _ _ T)) as H. rewrite map_length in H. exact H. }
  destruct (HF i ltac:(lia)) as (ins & b & s & E). rewrite (map_nth_lt res_of _ i dpc) in NI by lia. rewrite E in NI. cbn in NI. subst ins.
  pose proof (ti_pc _ _ T i Hi) as PC. rewrite E in PC. cbn [pc_ok] in PC. destruct (PC U) as (b' & j & H1 & H2 & H3).
  assert (forall b, b < cap t -> g b = bsz t) as HFull.
  { intros q Hq. destruct (probe_onto hp (cap t) k HC ltac:(lia) (ix (rw i)) q Hq) as (j' & Hj' & <-). apply H3. lia. }
  pose proof (bo_placed _ _ _ _ _ _ _ BO) as P.
  rewrite <- (pl_cap _ _ _ _ _ P), <- (pl_bsz _ _ _ _ _ P). apply (total_full d hp).
  intros q Hq. rewrite (pl_cap _ _ _ _ _ P) in Hq. rewrite (pl_fill _ _ _ _ _ P) by exact Hq. rewrite (pl_bsz _ _ _ _ _ P).
  rewrite (claims_cnt d hp k t rows g) by (auto; apply T). apply HFull. exact Hq.
Qed.

(** ** termination: every execution is finite and no unfinished state is stuck *)
Definition pmeas (c : pc) : nat :=
  match c with
  | Outer p _ => (maxb - p) * (bsz t + 3) + 1
  | Inner p _ a _ => (maxb - S p) * (bsz t + 3) + 2 + (bsz t - a)
  | Done _ _ _ => 0
  end.
Definition meas (c : cfg) : nat := list_sum (map pmeas (pcs c)).
Lemma list_sum_upd l : forall i v, i < length l -> list_sum (upd l i v) + nth i l 0 = list_sum l + v.
Proof.
  induction l as [|a l IH]; intros [|i] v Hi; cbn in Hi; try lia.
  - cbn [upd list_sum fold_right nth]. lia.
  - cbn [upd list_sum fold_right nth]. change (fold_right Nat.add 0) with list_sum. specialize (IH i v ltac:(lia)). lia.
Qed.
Theorem triton_terminates c c' : tstep d hp t rows maxb c c' -> meas c' < meas c.
Proof.
  assert (forall x, 0 < x + 1) as Hpos1 by (intros; lia). assert (forall x y, 0 < x + 2 + y) as Hpos2 by (intros; lia).
  intros ST. unfold meas.
  assert (forall i q, i < length (pcs c) -> pmeas q < pmeas (nth i (pcs c) dpc) -> list_sum (map pmeas (upd (pcs c) i q)) < list_sum (map pmeas (pcs c))) as H.
  { intros i q Hi Hq. rewrite map_upd. pose proof (list_sum_upd (map pmeas (pcs c)) i (pmeas q)) as HU. rewrite map_length in HU.
    specialize (HU Hi). rewrite (map_nth_lt pmeas _ i dpc) in HU by exact Hi. lia. }
  inversion ST as [i p b Hi E HX|i p b m Hi E U HP HM|i p b a v Hi E HA HF l old HCl|i p b a v Hi E HA HF l old HCl|i p b a v Hi E HA HF|i p b a v Hi E HA]; subst c'; cbn [pcs];
    apply H; try exact Hi; rewrite E; cbn [pmeas]; try lia.
  - apply (Hpos1 (_ * _)).
  - replace (maxb - p) with (S (maxb - S p)) by lia. cbn [Nat.mul]. generalize ((maxb - S p) * (bsz t + 3)). intros z. lia.
  - apply (Hpos2 (_ * _)).
Qed.
Theorem triton_progress c : treach d hp t rows maxb c -> ~ finished c -> exists c', tstep d hp t rows maxb c c'.
Proof.
  intros HR HN.
  assert (exists i, i < length (pcs c) /\ match nth i (pcs c) dpc with Done _ _ _ => False | _ => True end) as (i & Hi & HI).
  { destruct (Forall_Exists_dec (fun p => match p with Done _ _ _ => True | _ => False end)) with (l := pcs c) as [HF|HE].
    - intros [| |]; [right|right|left]; auto.
    - exfalso. apply HN. intros i Hi. rewrite Forall_forall in HF. specialize (HF (nth i (pcs c) dpc) (nth_In _ _ Hi)).
      destruct (nth i (pcs c) dpc) as [| |ins b s]; try contradiction. exists ins, b, s. reflexivity.
    - apply Exists_exists in HE. destruct HE as (p & Hp & HE). apply (In_nth _ _ dpc) in Hp. destruct Hp as (i & Hi & <-).
      exists i. split; [exact Hi|]. destruct (nth i (pcs c) dpc); auto. }
  destruct (nth i (pcs c) dpc) as [p b|p b a v|] eqn:E; [| |contradiction].
  - destruct (iupd (rw i)) eqn:U; [|eexists; eapply s_exit; eauto].
    destruct (Nat.lt_ge_cases p maxb); [|eexists; eapply s_exit; eauto].
    eexists. eapply (s_load d hp t rows maxb c i p b (mem c)); eauto. left. reflexivity.
  - destruct (Nat.lt_ge_cases a (bsz t)); [|eexists; eapply s_next; eauto].
    destruct (N.eq_dec (free_of (bsz t) v) 0) as [|HF]; [eexists; eapply s_nofree; eauto|].
    destruct (N.eq_dec (N.land (nth b (mem c) 0%N) (lsb_of (free_of (bsz t) v))) 0).
    + eexists; eapply s_claim; eauto.
    + eexists; eapply s_retry; eauto.
Qed.
End T.
