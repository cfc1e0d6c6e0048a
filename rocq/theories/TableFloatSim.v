(** * TableFloatSim.v — with IEEE comparison the table behaves like the one of TableSpec.v on
      items in which every NaN item carries the number of the operation that brought it. *)
From Verif Require Import Jax KeyModel HashModel HashProofs StableSort TableModel ProbeProofs TableLookup TableInv TableInsert DedupeModel DedupeSpec ParInsertModel ParInsert TritonModel PallasModel TableSpec TableHistory TableMap TableFloat.
From Verif Require TableSim.

(** ** the invariant only sees the values of the hash *)
Lemma inv_ext {I} (d : I) hp1 hp2 k (t : @table I) : (forall x, hp1 x = hp2 x) -> inv d hp1 k t -> inv d hp2 k t.
Proof.
  intros H V.
  assert (HF : forall x, fp_of hp1 x = fp_of hp2 x) by (intros x; unfold fp_of; now rewrite H).
  assert (HP : forall c x j, probe hp1 c k x j = probe hp2 c k x j) by (intros c x j; unfold probe, stride, start_of, step_of; now rewrite H).
  constructor; try apply V.
  - intros b s Hb Hs. rewrite <- HF. now apply V.
  - intros b s Hb Hs. destruct (i_chain _ _ _ _ V b s Hb Hs) as (j & H1 & H2 & H3). exists j. rewrite <- HP. split; [exact H1|]. split; [exact H2|]. intros i Hi. rewrite <- HP. now apply H3.
Qed.

Lemma u8_small' n : n < 256 -> u8 n = n. Proof. intros H. apply Nat.mod_small. exact H. Qed.
Lemma map_u8_seq' n : n <= 256 -> map u8 (seq 0 n) = seq 0 n.
Proof. intros H. rewrite <- (map_id (seq 0 n)) at 2. apply map_ext_in. intros a Ha. apply in_seq in Ha. apply u8_small'. lia. Qed.
Lemma nth_map_seq' {B} (f : nat -> B) n i dd : i < n -> nth i (map f (seq 0 n)) dd = f i.
Proof. intros H. rewrite (nth_indep _ dd (f 0)) by (rewrite map_length, seq_length; exact H). rewrite map_nth, seq_nth by exact H. reflexivity. Qed.
Lemma combine_map_seq' {B} (f : nat -> B) n o : combine (map f (seq o n)) (seq o n) = map (fun i => (f i, i)) (seq o n).
Proof. revert o; induction n as [|n IH]; intros o; [reflexivity|]. cbn [seq map combine]. f_equal. apply IH. Qed.
(** ** one bucket: two comparisons that agree where they are consulted *)
Lemma existsb_nth_true (l : list bool) i : nth i l false = true -> existsb (fun b => b) l = true.
Proof. revert i. induction l as [|a l IH]; intros [|i]; cbn; try discriminate; [now intros ->|]. intros H. rewrite (IH i H). apply orb_true_r. Qed.
Lemma scan_agree {I J} (e1 : I -> I -> bool) (e2 : J -> J -> bool) d1 d2 (t1 : @table I) (t2 : @table J) x y fp act b :
  bsz t1 = bsz t2 -> bsz t2 <= 256 -> fill t1 = fill t2 -> fps t1 = fps t2 ->
  (forall o, o < bsz t2 -> o < u8 (fillOf t2 b) -> fpAt t2 (b * bsz t2 + o) = fp -> e1 (tabAt d1 t1 (b * bsz t2 + o)) x = e2 (tabAt d2 t2 (b * bsz t2 + o)) y) ->
  scan e1 d1 t1 x fp act b = scan e2 d2 t2 y fp act b.
Proof.
  intros EB HB EF EP H. unfold scan. cbv zeta. rewrite EB.
  assert (E1 : fillOf t1 b = fillOf t2 b) by (unfold fillOf; now rewrite EF).
  assert (E2 : map (fun o => act && (o <? u8 (fillOf t1 b)) && (fpAt t1 (b * bsz t2 + o) =? fp)%N) (map u8 (seq 0 (bsz t2))) = map (fun o => act && (o <? u8 (fillOf t2 b)) && (fpAt t2 (b * bsz t2 + o) =? fp)%N) (map u8 (seq 0 (bsz t2)))).
  { apply map_ext. intros o. unfold fpAt. now rewrite E1, EP. }
  rewrite E2. clear E1 E2.
  rewrite map_u8_seq' by exact HB. set (offs := seq 0 (bsz t2)). set (q := fun o : nat => act && (o <? u8 (fillOf t2 b)) && (fpAt t2 (b * bsz t2 + o) =? fp)%N). set (fpm := map q offs).
  assert (HQ : forall o, In o offs -> q o = true -> e1 (tabAt d1 t1 (b * bsz t2 + o)) x = e2 (tabAt d2 t2 (b * bsz t2 + o)) y).
  { intros o Ho Q. unfold q in Q. apply andb_prop in Q. destruct Q as [Q1 Q2]. apply andb_prop in Q1. destruct Q1 as [_ Q1]. apply in_seq in Ho. apply H; [lia|now apply Nat.ltb_lt|now apply N.eqb_eq]. }
  assert (EFast : any fpm && e1 (tabAt d1 t1 (b * bsz t2 + u8 (argmax fpm))) x = any fpm && e2 (tabAt d2 t2 (b * bsz t2 + u8 (argmax fpm))) y).
  { destruct (any fpm) eqn:A; [|reflexivity]. cbn [andb]. destruct (argmax_spec fpm A) as [A1 A2]. assert (LF : length fpm = bsz t2) by (unfold fpm, offs; now rewrite map_length, seq_length).
    rewrite u8_small' by (rewrite LF in A1; clear - A1 HB; lia). apply HQ; [apply in_seq; rewrite LF in A1; clear - A1; lia|]. unfold fpm in A2 at 2. unfold offs in A2. rewrite nth_map_seq' in A2 by (rewrite LF in A1; exact A1). exact A2. }
  rewrite EFast. set (other := map _ (combine fpm offs)).
  replace (map (fun p : bool * nat => fst p && e1 (tabAt d1 t1 (b * bsz t2 + snd p)) x) (combine other offs)) with (map (fun p : bool * nat => fst p && e2 (tabAt d2 t2 (b * bsz t2 + snd p)) y) (combine other offs)); [reflexivity|].
  unfold other, fpm, offs. rewrite combine_map_seq', map_map. cbn [fst snd]. rewrite combine_map_seq', !map_map. apply map_ext_in. intros o Ho. cbn [fst snd]. destruct (q o) eqn:Q; [|reflexivity]. cbn [andb].
  rewrite (HQ o Ho Q). reflexivity.
Qed.

Section S.
Context {item : Type} (T : dataclass item) (E : ieee T) (C : settings).
Notation d := (dc_default T).
Notation hp := (hash_pair T).
Notation ieq := (ie_eq E).

(** ** items with a tag *)
Notation titem := (item * nat)%type.
(** the tag of the items of operation number [k] *)
Definition tag (k : nat) (x : item) : titem := (x, if ieq x x then 0 else k).
Definition teqb (p q : titem) : bool := dc_eqb T (fst p) (fst q) && (snd p =? snd q).
Definition native (k : nat) (p : titem) : bool := snd p =? (if ieq (fst p) (fst p) then 0 else k).
Definition twords (k : nat) (p : titem) : list N :=
  if native k p then dc_words T (fst p)
  else match dc_words T (fst p) with [] => [] | a :: l => (a + 2 ^ 32 * N.of_nat (S (snd p)))%N :: l end.
Definition thash (ws : list N) : N * N := dc_hash T (map (fun a => a mod 2 ^ 32)%N ws).
Lemma words_mod x : map (fun a => a mod 2 ^ 32)%N (dc_words T x) = dc_words T x.
Proof. pose proof (ie_word E x) as H. induction H as [|a l Ha H IH]; [reflexivity|]. cbn [map]. rewrite N.mod_small by exact Ha. now rewrite IH. Qed.
Lemma twords_mod k p : map (fun a => a mod 2 ^ 32)%N (twords k p) = dc_words T (fst p).
Proof.
  unfold twords. destruct (native k p); [apply words_mod|]. pose proof (words_mod (fst p)) as H. destruct (dc_words T (fst p)) as [|a l]; [reflexivity|]. cbn [map] in *.
  rewrite N.mul_comm, N.mod_add by discriminate. exact H.
Qed.
Lemma teqb_eq p q : teqb p q = true <-> p = q.
Proof. destruct p as [x i], q as [y j]. unfold teqb. cbn [fst snd]. rewrite andb_true_iff, (dc_eq T), Nat.eqb_eq. split; [intros [-> ->]; reflexivity|intros H; injection H; auto]. Qed.
Lemma twords_inj k p q : twords k p = twords k q -> p = q.
Proof.
  intros H. assert (HX : fst p = fst q) by (apply (dc_inj T); rewrite <- (twords_mod k p), <- (twords_mod k q); now rewrite H).
  destruct p as [x i], q as [y j]. cbn [fst] in HX. subst y. f_equal. unfold twords, native in H. cbn [fst snd] in H. set (kk := if ieq x x then 0 else k) in *.
  pose proof (dc_len T x) as HL. pose proof (ie_words E) as HW. pose proof (ie_word E x) as HB. destruct (dc_words T x) as [|a l]; [cbn in HL; lia|].
  assert (Ha : (a < 2 ^ 32)%N) by (inversion HB; assumption). clear HB HL HW.
  destruct (i =? kk) eqn:Ei; destruct (j =? kk) eqn:Ej; try apply Nat.eqb_eq in Ei; try apply Nat.eqb_eq in Ej; [congruence| | |].
  - assert (HH : a = (a + 2 ^ 32 * N.of_nat (S j))%N) by congruence. exfalso. change (2 ^ 32)%N with 4294967296%N in *. lia.
  - assert (HH : a = (a + 2 ^ 32 * N.of_nat (S i))%N) by congruence. exfalso. change (2 ^ 32)%N with 4294967296%N in *. lia.
  - assert (HH : (a + 2 ^ 32 * N.of_nat (S i) = a + 2 ^ 32 * N.of_nat (S j))%N) by congruence. change (2 ^ 32)%N with 4294967296%N in *. lia.
Qed.
Lemma twords_len k p : length (twords k p) = dc_nwords T.
Proof. rewrite <- (dc_len T (fst p)), <- (twords_mod k p), map_length. reflexivity. Qed.
Definition tagged (k : nat) : dataclass titem :=
  {| dc_eqb := teqb; dc_default := (d, 0); dc_words := twords k; dc_nwords := dc_nwords T; dc_hash := thash;
     dc_eq := teqb_eq; dc_inj := twords_inj k; dc_len := twords_len k |}.
Lemma thp k p : hp (fst p) = hash_pair (tagged k) p.
Proof. unfold hash_pair. cbn [tagged dc_hash dc_words]. unfold thash. now rewrite twords_mod. Qed.
Lemma tag_words k x : twords k (tag k x) = dc_words T x.
Proof. unfold twords, native, tag. cbn [fst snd]. now rewrite Nat.eqb_refl. Qed.
Lemma tag_hp k x : hash_pair (tagged k) (tag k x) = hp x.
Proof. rewrite <- thp. reflexivity. Qed.
Notation d' := ((d, 0) : titem).
Notation hpF := (fun p : titem => hp (fst p)).
Definition untag (t : @table titem) : @table item := retab (map fst (tab t)) t.
Lemma untag_at t i : tabAt d (untag t) i = fst (tabAt d' t i).
Proof. unfold tabAt, untag. cbn [retab tab]. exact (map_nth fst (tab t) d' i). Qed.
Definition good' (t : @table titem) : Prop := exists k, TableInv.inv d' hpF k t /\ limit_ok t.
Lemma good_at n t : good' t -> exists k, good (tagged n) k t.
Proof. intros (k & V & L). exists k. split; [|exact L]. exact (inv_ext _ _ _ k t (thp n) V). Qed.
Lemma good_of n k t : good (tagged n) k t -> good' t.
Proof. intros [V L]. exists k. split; [|exact L]. exact (inv_ext _ _ _ k t (fun x => eq_sym (thp n x)) V). Qed.

(** ** scanning for the query [x] brought by operation [k] *)
Notation sto := (TableInv.stored d').
Definition agrees (k : nat) (t : @table titem) (x : item) : Prop :=
  forall i y j, sto t i (y, j) -> fp_of hp y = fp_of hp x -> ieq y x = teqb (y, j) (tag k x).
Lemma scan_sim k t x act b : good' t -> agrees k t x -> b < cap t ->
  scan ieq d (untag t) x (fp_of hp x) act b = scan teqb d' t (tag k x) (fp_of (hash_pair (tagged k)) (tag k x)) act b.
Proof.
  intros (kk & V & L) HA Hb. rewrite <- (fp_nat fst (hash_pair (tagged k)) hp (thp k) (tag k x)). cbn [tag fst].
  pose proof (wf_bsz _ _ (i_wf _ _ _ _ V)) as HB. pose proof (wf_fill _ _ (i_wf _ _ _ _ V) b Hb) as HF.
  apply scan_agree; try reflexivity; [lia|]. intros o Ho Hu EF. rewrite u8_small' in Hu by lia. rewrite untag_at.
  pose proof (i_fps _ _ _ _ V b o Hb Hu) as EP. rewrite EP in EF.
  destruct (tabAt d' t (b * bsz t + o)) as [y j] eqn:EY. cbn [fst]. apply (HA (b * bsz t + o)); [exists b, o; auto|].
  unfold slot_item in EF. rewrite EY in EF. unfold fp_of in EF |- *. exact EF.
Qed.
Lemma cap_pos t : good' t -> 0 < cap t.
Proof. intros (k & V & _). rewrite (wf_cap _ _ (i_wf _ _ _ _ V)). pose proof (Nat.pow_nonzero 2 k). lia. Qed.
Lemma lookup_bucket_sim k t x : good' t -> agrees k t x ->
  lookup_bucket ieq d hp (untag t) x = lookup_bucket teqb d' (hash_pair (tagged k)) t (tag k x).
Proof.
  intros G HA. unfold lookup_bucket. cbn [untag retab maxp cap].
  rewrite <- (start_nat fst (hash_pair (tagged k)) hp (thp k) (cap t) (tag k x)), <- (step_nat fst (hash_pair (tagged k)) hp (thp k) (cap t) (tag k x)). change (fst (tag k x)) with x.
  rewrite (TableSim.while_ext (fun s : lst => fst (fst (fst s)) < cap t) (lk_cond (untag t)) (lk_body ieq d (untag t) x (step_of hp (cap t) x) (fp_of hp x))
     (lk_cond t) (lk_body teqb d' t (tag k x) (step_of hp (cap t) x) (fp_of (hash_pair (tagged k)) (tag k x)))).
  - reflexivity.
  - intros [[[b s] f] p] _. reflexivity.
  - intros [[[b s] f] p] Hb. cbn [fst] in Hb. unfold lk_body. rewrite (scan_sim k t x true b G HA Hb). change (fillOf (untag t) b) with (fillOf t b). cbn [untag retab bsz cap maxp].
    destruct (scan teqb d' t (tag k x) _ true b) as [fd ms]. split; [reflexivity|]. cbn [fst].
    destruct (fd || negb (u8 (fillOf t b) =? bsz t)); [exact Hb|apply TableSim.next_lt; now apply cap_pos].
  - cbn [fst]. apply TableSim.start_lt. now apply cap_pos.
Qed.
Lemma lookup_sim k t x : good' t -> agrees k t x -> FLookup T E (untag t) x = Lookup (tagged k) t (tag k x).
Proof. intros G HA. unfold FLookup, Lookup, lookup. now rewrite (lookup_bucket_sim k t x G HA). Qed.
Lemma lookup_rows_sim k t q : good' t -> (forall x, In x (map fst q) -> agrees k t x) ->
  lookup_rows ieq d hp (untag t) q = lookup_rows teqb d' (hash_pair (tagged k)) t (map (fun r => (tag k (fst r), snd r)) q).
Proof.
  intros G HA. unfold lookup_rows. cbn [untag retab maxp]. fold (untag t).
  set (g := fun l : list (item * prow) => map (fun r => (tag k (fst r), snd r)) l).
  assert (E0 : map (fun r => (fst r, pl_init (hash_pair (tagged k)) t (fst r) (fst (snd r)) (snd (snd r)))) (map (fun r : item * (bool * bool) => (tag k (fst r), snd r)) q)
             = g (map (fun r => (fst r, pl_init hp (untag t) (fst r) (fst (snd r)) (snd (snd r)))) q)).
  { unfold g. rewrite !map_map. apply map_ext. intros r. cbn [fst snd]. unfold pl_init. cbn [untag retab cap]. rewrite <- (start_nat fst (hash_pair (tagged k)) hp (thp k)). reflexivity. }
  rewrite E0. set (l0 := map _ q).
  set (P := fun l : list (item * prow) => Forall (fun r => pb (snd r) < cap t /\ agrees k t (fst r)) l).
  assert (H0 : P l0).
  { unfold P, l0. apply Forall_forall. intros r Hr. apply in_map_iff in Hr. destruct Hr as (p & <- & Hp). cbn [fst snd pl_init pb]. split; [apply TableSim.start_lt; now apply cap_pos|]. apply HA. now apply in_map. }
  assert (HB : forall l, P l -> pl_body teqb d' (hash_pair (tagged k)) t (g l) = g (pl_body ieq d hp (untag t) l) /\ P (pl_body ieq d hp (untag t) l)).
  { intros l HP. unfold g, pl_body. rewrite !map_map. cbn [fst snd].
    assert (HH : forall r, In r l -> pl_step teqb d' (hash_pair (tagged k)) t (tag k (fst r)) (snd r) = pl_step ieq d hp (untag t) (fst r) (snd r) /\ pb (pl_step ieq d hp (untag t) (fst r) (snd r)) < cap t).
    { intros [x s] Hr. cbn [fst snd]. unfold P in HP. rewrite Forall_forall in HP. destruct (HP _ Hr) as [Hb HX]. cbn [fst snd] in Hb, HX. unfold pl_step. rewrite (scan_sim k t x _ (pb s) G HX Hb).
      change (fillOf (untag t) (pb s)) with (fillOf t (pb s)). cbn [untag retab bsz cap maxp].
      rewrite <- (step_nat fst (hash_pair (tagged k)) hp (thp k) (cap t) (tag k x)). change (fst (tag k x)) with x.
      destruct (scan _ _ _ _ _ _ _) as [fd ms]. split; [reflexivity|]. cbn [pb].
      destruct (pact s && (negb (pfound s) && (pprobes s <? maxp t)%N)); [|exact Hb]. match goal with |- (if ?z then _ else _) < _ => destruct z end; [apply TableSim.next_lt; now apply cap_pos|exact Hb]. }
    split.
    - apply map_ext_in. intros r Hr. now rewrite (proj1 (HH r Hr)).
    - unfold P. apply Forall_forall. intros r Hr. apply in_map_iff in Hr. destruct Hr as (p & <- & Hp). cbn [fst snd]. split; [now apply HH|]. unfold P in HP. rewrite Forall_forall in HP. now apply HP. }
  assert (HC : forall l, pl_cond (g l) = pl_cond l) by (intros l; unfold pl_cond, g; now rewrite existsb_map).
  clearbody l0. clear E0 q HA. revert l0 H0. generalize (S (N.to_nat (maxp t))). intros f. induction f as [|f IH]; intros l HP; cbn [while]; rewrite HC; destruct (pl_cond l); try reflexivity.
  - cbn [option_map]. unfold g. now rewrite map_map.
  - destruct (HB l HP) as [-> HP']. now apply IH.
  - cbn [option_map]. unfold g. now rewrite map_map.
Qed.
Lemma lookup_parallel_sim k t xs f : good' t -> (forall x, In x xs -> agrees k t x) ->
  FLookupParallel T E (untag t) xs f = LookupParallel (tagged k) t (map (tag k) xs) f.
Proof.
  intros G HA. unfold FLookupParallel, LookupParallel, lookup_parallel. rewrite map_length.
  assert (EE : forall l, lookup_rows ieq d hp (untag t) (map (fun p => (fst p, (false, snd p))) (combine xs l)) = lookup_rows teqb d' (hash_pair (tagged k)) t (map (fun p => (fst p, (false, snd p))) (combine (map (tag k) xs) l))).
  { intros l. rewrite (lookup_rows_sim k t _ G).
    - f_equal. rewrite combine_map_l, !map_map. reflexivity.
    - intros x Hx. apply HA. rewrite map_map in Hx. apply in_map_iff in Hx. destruct Hx as ([y b] & <- & Hy). cbn [fst]. apply in_combine_l in Hy. exact Hy. }
  cbn [tagged dc_eqb dc_default]. destruct f as [[|]|l]; rewrite ?EE; reflexivity.
Qed.

(** ** one insertion *)
Lemma insert_sim k t x t1 ok i : good' t -> agrees k t x -> FInsert T E (untag t) x = Some (t1, ok, i) ->
  exists t1', Insert (tagged k) t (tag k x) = Some (t1', ok, i) /\ t1 = untag t1'.
Proof.
  intros G HA. unfold FInsert, Insert, insert. rewrite (lookup_bucket_sim k t x G HA). cbn [tagged dc_eqb dc_default].
  destruct (lookup_bucket teqb d' (hash_pair (tagged k)) t (tag k x)) as [[[b s] f]|]; [|discriminate]. change (fillOf (untag t) b) with (fillOf t b). change (bsz (untag t)) with (bsz t).
  set (can := negb f && (fillOf t b <=? s)). intros EQ. injection EQ as EQ <- <-. eexists. split; [reflexivity|]. subst t1. destruct can; [|reflexivity].
  unfold write, untag, retab. cbn [cap bsz maxp size tab fill occ fps]. rewrite TableSim.upd_map. cbn [tag fst]. rewrite <- (fp_nat fst (hash_pair (tagged k)) hp (thp k)). reflexivity.
Qed.
Lemma insert_sim_some k t x : good' t -> agrees k t x -> FInsert T E (untag t) x = option_map (fun r => (untag (fst (fst r)), snd (fst r), snd r)) (Insert (tagged k) t (tag k x)).
Proof.
  intros G HA. destruct (FInsert T E (untag t) x) as [[[t1 ok] i]|] eqn:EI.
  - destruct (insert_sim k t x t1 ok i G HA EI) as (t1' & -> & ->). reflexivity.
  - unfold FInsert, Insert, insert in *. rewrite (lookup_bucket_sim k t x G HA) in EI. cbn [tagged dc_eqb dc_default]. destruct (lookup_bucket teqb d' (hash_pair (tagged k)) t (tag k x)) as [[[b s] f]|]; [discriminate|reflexivity].
Qed.

(** ** one batch *)
Lemma par_rows_tag k xs uniq rs : par_rows xs uniq rs = map (mapI fst) (par_rows (map (tag k) xs) uniq rs).
Proof. unfold par_rows. rewrite !combine_map_l, !map_map. apply map_ext. intros [[x u] p]. reflexivity. Qed.
Lemma assigns_fwd k be t rws M res : assigns T be (untag t) (map (mapI fst) rws) M res ->
  exists L', assigns (tagged k) be t rws L' res /\ M = untag L'.
Proof.
  intros HA. destruct (TableSim.assigns_shape item T be _ _ _ _ HA) as (_ & _ & _ & _ & ET).
  assert (HL : exists l L', M = retab l L' /\ assigns (tagged k) be t rws L' res).
  { destruct be as [|maxb|maxb order]; cbn [assigns] in *.
    - unfold untag in HA. destruct (xla_nat fst (hash_pair (tagged k)) hp (thp k) (map fst (tab t)) t rws) as [l EL]. rewrite EL in HA.
      destruct (xla (hash_pair (tagged k)) t rws) as [[L' r]|]; [|discriminate]. cbn [option_map fst snd] in HA. injection HA as <- <-. eauto.
    - destruct HA as [Hb HT]. destruct (triton_nat fst (hash_pair (tagged k)) hp d' (thp k) (map fst (tab t)) t rws maxb) as [_ H2]. destruct (H2 _ _ HT) as (l & L' & -> & HT'). exists l, L'. auto.
    - destruct HA as (Hb & HO & HP). rewrite map_length in HO. destruct (pallas_nat fst (hash_pair (tagged k)) hp d' (thp k) (map fst (tab t)) t rws maxb order) as [l EL]. change (fst d') with d in EL. unfold untag in HP. rewrite EL in HP.
      change (dc_default (tagged k)) with d'. destruct (pallas d' (hash_pair (tagged k)) t rws maxb order) as [[L' r]|]; [|discriminate]. cbn [option_map fst snd] in HP. injection HP as <- <-. eauto 6. }
  destruct HL as (l & L' & -> & HA'). exists L'. split; [exact HA'|]. destruct (TableSim.assigns_shape titem (tagged k) be _ _ _ _ HA') as (_ & _ & _ & _ & ET').
  cbn [retab tab] in ET. unfold untag. f_equal. rewrite ET, ET', batch_tab_map. cbn [untag retab tab bsz]. rewrite !map_map. reflexivity.
Qed.
Lemma assigns_bwd k be t rws L' res : assigns (tagged k) be t rws L' res -> assigns T be (untag t) (map (mapI fst) rws) (untag L') res.
Proof.
  intros HA. destruct (TableSim.assigns_shape titem (tagged k) be _ _ _ _ HA) as (_ & _ & _ & _ & ET').
  assert (HL : exists l, assigns T be (untag t) (map (mapI fst) rws) (retab l L') res).
  { destruct be as [|maxb|maxb order]; cbn [assigns] in *.
    - destruct (xla_nat fst (hash_pair (tagged k)) hp (thp k) (map fst (tab t)) t rws) as [l EL]. unfold untag. rewrite EL, HA. cbn. eauto.
    - destruct HA as [Hb HT]. destruct (triton_nat fst (hash_pair (tagged k)) hp d' (thp k) (map fst (tab t)) t rws maxb) as [H2 _]. destruct (H2 _ _ HT) as (l & HT'). exists l. auto.
    - destruct HA as (Hb & HO & HP). destruct (pallas_nat fst (hash_pair (tagged k)) hp d' (thp k) (map fst (tab t)) t rws maxb order) as [l EL]. change (dc_default (tagged k)) with d' in HP. rewrite HP in EL. rewrite map_length. exists l. auto. }
  destruct HL as (l & HL). destruct (TableSim.assigns_shape item T be _ _ _ _ HL) as (_ & _ & _ & _ & ET).
  replace (untag L') with (retab l L'); [exact HL|]. unfold untag. f_equal. cbn [retab tab] in ET. rewrite ET, ET', batch_tab_map. cbn [untag retab tab bsz]. rewrite !map_map. reflexivity.
Qed.
Lemma prepare_sim k t xs filled uk : good' t -> (forall x, In x xs -> agrees k t x) ->
  par_prepare ieq d hp (dc_words T) (dc_nwords T) (s_mode C) (s_sort C) (untag t) xs filled uk =
  par_prepare (dc_eqb (tagged k)) (dc_default (tagged k)) (hash_pair (tagged k)) (dc_words (tagged k)) (dc_nwords (tagged k)) (s_mode C) (s_sort C) t (map (tag k) xs) filled uk.
Proof.
  intros G HA. unfold par_prepare. cbn [tagged dc_eqb dc_default dc_words dc_nwords]. fold (tagged k). rewrite !map_map. rewrite (map_ext _ hp (tag_hp k)), (map_ext _ (dc_words T) (tag_words k)).
  destruct (dedupe_pairs _ _ _ _ _ _ _) as [uniq reps]. rewrite (lookup_rows_sim k t _ G).
  - rewrite (combine_map_l (tag k) xs). reflexivity.
  - intros x Hx. apply HA. apply in_map_iff in Hx. destruct Hx as ([y b] & <- & Hy). cbn [fst]. apply in_combine_l in Hy. exact Hy.
Qed.
Lemma mask_ok_tag k xs f : mask_ok xs f -> mask_ok (map (tag k) xs) f.
Proof. unfold mask_ok. now rewrite map_length. Qed.
Lemma batch_sim k be t xs f uk t1 ins uniq idx : good' t -> (forall x, In x xs -> agrees k t x) ->
  FParallelInsert T E C be (untag t) xs f uk (t1, ins, uniq, idx) ->
  exists t1', ParallelInsert (tagged k) C be t (map (tag k) xs) f uk (t1', ins, uniq, idx) /\ t1 = untag t1'.
Proof.
  intros G HA HP.
  assert (GG : (exists uniq0 reps rs t' res, par_prepare ieq d hp (dc_words T) (dc_nwords T) (s_mode C) (s_sort C) (untag t) xs (mask_list (length xs) f) uk = Some (uniq0, reps, rs) /\
      assigns T be (untag t) (par_rows xs uniq0 rs) t' res /\ (t1, ins, uniq, idx) = (t', map fst res, uniq0, par_idx (untag t) rs res reps)) ->
    exists t1', (exists uniq0 reps rs t' res, par_prepare (dc_eqb (tagged k)) (dc_default (tagged k)) (hash_pair (tagged k)) (dc_words (tagged k)) (dc_nwords (tagged k)) (s_mode C) (s_sort C) t (map (tag k) xs) (mask_list (length (map (tag k) xs)) f) uk = Some (uniq0, reps, rs) /\
      assigns (tagged k) be t (par_rows (map (tag k) xs) uniq0 rs) t' res /\ (t1', ins, uniq, idx) = (t', map fst res, uniq0, par_idx t rs res reps)) /\ t1 = untag t1').
  { intros (u & reps & rs & t' & res & EP & HR & EO). rewrite (prepare_sim k t xs _ uk G HA) in EP. rewrite (par_rows_tag k) in HR. destruct (assigns_fwd k be t _ _ _ HR) as (L' & HL & ->).
    injection EO as -> -> -> ->. exists L'. split; [|reflexivity]. exists u, reps, rs, L', res. rewrite map_length. auto. }
  unfold FParallelInsert in HP. unfold ParallelInsert. destruct f as [[|]|l]; [apply GG; exact HP| |apply GG; exact HP].
  injection HP as -> -> -> ->. exists t. rewrite map_length. auto.
Qed.
Lemma batch_sim_back k be t xs f uk t1' ins uniq idx : good' t -> (forall x, In x xs -> agrees k t x) ->
  ParallelInsert (tagged k) C be t (map (tag k) xs) f uk (t1', ins, uniq, idx) -> FParallelInsert T E C be (untag t) xs f uk (untag t1', ins, uniq, idx).
Proof.
  intros G HA HP.
  assert (GG : (exists uniq0 reps rs t' res, par_prepare (dc_eqb (tagged k)) (dc_default (tagged k)) (hash_pair (tagged k)) (dc_words (tagged k)) (dc_nwords (tagged k)) (s_mode C) (s_sort C) t (map (tag k) xs) (mask_list (length (map (tag k) xs)) f) uk = Some (uniq0, reps, rs) /\
      assigns (tagged k) be t (par_rows (map (tag k) xs) uniq0 rs) t' res /\ (t1', ins, uniq, idx) = (t', map fst res, uniq0, par_idx t rs res reps)) ->
    exists uniq0 reps rs t' res, par_prepare ieq d hp (dc_words T) (dc_nwords T) (s_mode C) (s_sort C) (untag t) xs (mask_list (length xs) f) uk = Some (uniq0, reps, rs) /\
      assigns T be (untag t) (par_rows xs uniq0 rs) t' res /\ (untag t1', ins, uniq, idx) = (t', map fst res, uniq0, par_idx (untag t) rs res reps)).
  { intros (u & reps & rs & t' & res & EP & HR & EO). rewrite map_length in EP. injection EO as -> -> -> ->. exists u, reps, rs, (untag t'), res. rewrite (prepare_sim k t xs _ uk G HA). split; [exact EP|]. split; [|reflexivity].
    rewrite (par_rows_tag k). now apply assigns_bwd with (k := k). }
  unfold FParallelInsert. unfold ParallelInsert in HP. destruct f as [[|]|l]; [apply GG; exact HP| |apply GG; exact HP].
  rewrite map_length in HP. injection HP as -> -> -> ->. reflexivity.
Qed.

(** ** histories *)
Record sim (es : list (@event item)) (t : @table item) (t' : @table titem) : Prop := {
  sm_untag : t = untag t';
  sm_good : good' t';
  sm_tags : forall i x j, sto t' i (x, j) -> In x (inputs es) /\ j <= length es /\ (numeric T E x -> j = 0);
  sm_stored : forall i x, (exists j, sto t' i (x, j)) <-> reported T es x i;
  sm_total : total t' = count es }.
Lemma sim_agrees es t t' k x : sim es t t' -> length es < k -> separated T E (x :: inputs es) -> agrees k t' x.
Proof.
  intros S Hk HS i y j HST EF. destruct (sm_tags _ _ _ S i y j HST) as (HI & HJ & HZ). unfold tag, teqb. cbn [fst snd].
  destruct (ieq x x) eqn:EX.
  - destruct (ieq y x) eqn:EY.
    + assert (y = x) as -> by (apply HS; [now right|now left|exact EY|exact EF]). rewrite (HZ EX). symmetry. rewrite Nat.eqb_refl, andb_true_r. now apply (dc_eq T).
    + symmetry. apply andb_false_iff. left. destruct (dc_eqb T y x) eqn:ED; [|reflexivity]. apply (dc_eq T) in ED. subst y. congruence.
  - destruct (ieq y x) eqn:EY; [apply (ie_self E) in EY; destruct EY; congruence|]. symmetry. apply andb_false_iff. right. apply Nat.eqb_neq. lia.
Qed.
Lemma separated_sub l m : (forall x, In x l -> In x m) -> separated T E m -> separated T E l.
Proof. intros H HS x y Hx Hy. apply HS; auto. Qed.
Lemma tag_inj k x y j : (y, j) = tag k x -> y = x.
Proof. unfold tag. congruence. Qed.
Lemma nth_tag k xs q : q < length xs -> nth q (map (tag k) xs) d' = tag k (nth q xs d).
Proof. intros H. rewrite (nth_indep _ d' (tag k d)) by (now rewrite map_length). apply map_nth. Qed.
Definition tag_event (k : nat) (e : @event item) : @event titem :=
  match e with EInsert x ok i => EInsert (tag k x) ok i | EBatch xs ins idx => EBatch (map (tag k) xs) ins idx end.
Lemma tag_event_count k e : event_count (tag_event k e) = event_count e.
Proof. destruct e; reflexivity. Qed.
Lemma tag_event_reports k e y j i : event_reports (tagged k) (tag_event k e) (y, j) i <-> event_reports T e y i /\ (y, j) = tag k y.
Proof.
  destruct e as [x ok i'|xs ins idx]; cbn [tag_event event_reports].
  - split; [intros (-> & EE & ->)|intros ((-> & -> & ->) & EE)]; [pose proof (tag_inj _ _ _ _ (eq_sym EE)); subst|]; auto.
  - change (dc_default (tagged k)) with d'. rewrite map_length. split.
    + intros (q & Hq & HI & EE & EJ). rewrite nth_tag in EE by exact Hq. pose proof (tag_inj _ _ _ _ (eq_sym EE)) as ->. split; [exists q; auto|]. now rewrite EE.
    + intros ((q & Hq & HI & <- & EJ) & EE). exists q. rewrite nth_tag by exact Hq. auto.
Qed.
Lemma event_input e y i : event_reports T e y i -> In y (event_inputs e).
Proof. destruct e as [x ok j|xs ins idx]; cbn; [intros (_ & -> & _); now left|]. intros (q & Hq & _ & <- & _). now apply nth_In. Qed.
Lemma op_sim es t t' e t1 : sim es t t' -> separated T E (event_inputs e ++ inputs es) -> fop T E C t e t1 ->
  exists t1', sim (es ++ [e]) t1 t1' /\ op (tagged (S (length es))) C t' (tag_event (S (length es)) e) t1'.
Proof.
  intros S HS HO. pose proof (sm_untag _ _ _ S) as ->. pose proof (sm_good _ _ _ S) as G. set (n := Datatypes.S (length es)).
  assert (HA : forall x, In x (event_inputs e) -> agrees n t' x).
  { intros x Hx. apply (sim_agrees es (untag t')); [exact S|unfold n; lia|]. revert HS. apply separated_sub. intros y [<-|Hy]; apply in_or_app; auto. }
  assert (HX : exists t1', op (tagged n) C t' (tag_event n e) t1' /\ t1 = untag t1').
  { inversion HO as [t0 x t1' ok i EI|t0 be xs f uk t1' ins uniq idx HM HP]; subst; cbn [event_inputs tag_event] in *.
    - destruct (insert_sim n t' x t1 ok i G (HA x (or_introl eq_refl)) EI) as (t1' & EI' & ->). exists t1'. split; [now constructor|reflexivity].
    - destruct (batch_sim n be t' xs f uk t1 ins uniq idx G HA HP) as (t1' & HP' & ->). exists t1'. split; [|reflexivity]. exact (op_batch (tagged n) C t' be (map (tag n) xs) f uk t1' ins uniq idx (mask_ok_tag n xs f HM) HP'). }
  destruct HX as (t1' & HO' & ->). exists t1'. split; [|exact HO']. destruct (good_at n t' G) as (k & GK). pose proof (op_fact (tagged n) C k t' _ t1' GK HO') as F.
  assert (HI : inputs (es ++ [e]) = inputs es ++ event_inputs e) by (unfold inputs; rewrite flat_map_app; cbn; now rewrite app_nil_r).
  assert (ST : forall i y j, sto t1' i (y, j) <-> sto t' i (y, j) \/ (event_reports T e y i /\ (y, j) = tag n y)).
  { intros i y j. rewrite <- tag_event_reports. exact (sf_stored _ _ _ _ _ F i (y, j)). }
  constructor; [reflexivity|exact (good_of n k t1' (sf_good _ _ _ _ _ F))| | |].
  - intros i y j H. rewrite HI, app_length. cbn [length]. apply ST in H. destruct H as [H|[H EJ]].
    + destruct (sm_tags _ _ _ S i y j H) as (H1 & H2 & H3). split; [apply in_or_app; now left|]. split; [lia|exact H3].
    + split; [apply in_or_app; right; now apply (event_input e y i)|]. unfold tag in EJ. injection EJ as ->. unfold numeric. destruct (ieq y y); (split; [unfold n; lia|]); [reflexivity|discriminate].
  - intros i y. split.
    + intros (j & H). apply ST in H. destruct H as [H|[H _]].
      * assert (HR : reported T es y i) by (apply (sm_stored _ _ _ S); now exists j). destruct HR as (e' & He & HR). exists e'. split; [apply in_or_app; now left|exact HR].
      * exists e. split; [apply in_or_app; right; now left|exact H].
    + intros (e' & He & HR). apply in_app_or in He. destruct He as [He|[<-|[]]].
      * destruct (proj2 (sm_stored _ _ _ S i y) (ex_intro _ e' (conj He HR))) as (j & Hj). exists j. apply ST. now left.
      * exists (snd (tag n y)). apply ST. right. split; [exact HR|reflexivity].
  - rewrite (sf_total _ _ _ _ _ F), (sm_total _ _ _ S), tag_event_count. unfold count. rewrite map_app, list_sum_app. cbn. lia.
Qed.
Lemma run_sim es t t' es2 t2 : sim es t t' -> separated T E (inputs (es ++ es2)) -> frun T E C t es2 t2 -> exists t2', sim (es ++ es2) t2 t2'.
Proof.
  intros S HS HR. revert es t' S HS. induction HR as [t|t e t1 es2 t2 HO HR IH]; intros es t' S HS; [exists t'; now rewrite app_nil_r|].
  destruct (op_sim es t t' e t1 S) as (t1' & S1 & _); [|exact HO|].
  - revert HS. apply separated_sub. intros x Hx. unfold inputs in *. rewrite flat_map_app. cbn [flat_map]. apply in_app_or in Hx. apply in_or_app. destruct Hx as [Hx|Hx]; [right; apply in_or_app; now left|now left].
  - replace (es ++ e :: es2) with ((es ++ [e]) ++ es2) in * by (now rewrite <- app_assoc). exact (IH (es ++ [e]) t1' S1 HS).
Qed.
Lemma build_sim capacity bs mult mp : config_ok T capacity bs mult mp -> exists t', sim [] (Build T capacity bs mult mp) t'.
Proof.
  intros HC. exists (Build (tagged 0) capacity bs mult mp).
  destruct (build_good (tagged 0) capacity bs mult mp HC) as (k & G & HT0).
  assert (HN : forall i p, ~ sto (Build (tagged 0) capacity bs mult mp) i p).
  { intros i p (b & s & Hb & Hs & _). unfold Build, fillOf, build in Hs. cbn [fill] in Hs. destruct (nth_repeat' 0 0 (table_cap (mult * capacity / bs) + 1) b) as [EE|EE]; rewrite EE in Hs; lia. }
  constructor.
  - unfold Build, untag, build, retab. cbn [cap bsz maxp size tab fill occ fps]. cbn [tagged dc_default]. f_equal. generalize ((table_cap (mult * capacity / bs) + 1) * bs). intros m. induction m as [|m IH]; [reflexivity|]. cbn. now rewrite <- IH.
  - exact (good_of 0 k _ G).
  - intros i x j H. destruct (HN _ _ H).
  - intros i x. split; [intros (j & H); destruct (HN _ _ H)|]. intros (e & [] & _).
  - exact HT0.
Qed.
Theorem history_sim es t : fhistory T E C es t -> separated T E (inputs es) -> exists t', sim es t t'.
Proof. intros (cpt & bs & mu & mp & HC & HR) HS. destruct (build_sim cpt bs mu mp HC) as (t0' & S0). exact (run_sim [] _ t0' es t S0 HS HR). Qed.
End S.
