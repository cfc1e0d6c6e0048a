(** * TableSim.v — the hash table on arrays simulates the one on lists of items. *)
From Coq Require Import String.
From Verif Require Import Jax KeyModel HashModel StableSort TableModel ProbeProofs DedupeModel ParInsertModel TritonModel PallasModel TableSpec TableMap.
From Verif Require Import StructModel ArrayModel ArrayFacts ShapeModel PropShape RowsModel RowsLift PropRows SoaModel PropSoa EqModel HeapArrays HeapRows TableArrays.

(** a list-level item type whose items are single instances of the class *)
Record item_view (c : class) {I : Type} (T : dataclass I) (phi : I -> obj) (hp : obj -> N * N) (rowof : obj -> list N) : Prop := {
  iv_batched : forall x, batched c [] (phi x);
  iv_eq : forall x y, obj_eq (phi x) (phi y) = Some (dc_eqb T x y);
  iv_inj : forall x y, phi x = phi y -> x = y;
  iv_default : phi (dc_default T) = default_obj [] c;
  iv_hash : forall x, hp (phi x) = hash_pair T x;
  iv_words : forall x, rowof (phi x) = dc_words T x }.

Lemma while_ext {S : Type} (P : S -> Prop) c1 b1 c2 b2 : (forall s, P s -> c1 s = c2 s) -> (forall s, P s -> b1 s = b2 s /\ P (b1 s)) ->
  forall f s, P s -> while f c1 b1 s = while f c2 b2 s.
Proof. intros HC HB. induction f as [|f IH]; intros s HP; cbn [while]; rewrite (HC s HP); destruct (c2 s); try reflexivity. destruct (HB s HP) as [<- HP']. now apply IH. Qed.
Lemma u8_le n : u8 n <= n.
Proof. unfold u8. apply Nat.mod_le. lia. Qed.
Lemma next_lt k step b : 0 < k -> next_bucket k step b < k.
Proof.
  intros Hk. unfold next_bucket. assert (N.land (w32 (N.of_nat b + step)) (mask_of k) <= mask_of k)%N.
  { generalize (w32 (N.of_nat b + step)) as x. generalize (mask_of k) as y. intros y x. destruct (N.eq_dec (N.land x y) 0) as [->|HE]; [lia|].
    apply N.ldiff_le. apply N.bits_inj_0. intros i. rewrite N.ldiff_spec, N.land_spec. destruct (N.testbit x i), (N.testbit y i); reflexivity. }
  unfold mask_of in *. lia.
Qed.
Lemma start_lt {I} (hp : I -> N * N) k x : 0 < k -> start_of hp k x < k.
Proof.
  intros Hk. unfold start_of. assert (N.land (fst (hp x)) (mask_of k) <= mask_of k)%N.
  { generalize (fst (hp x)) as z. generalize (mask_of k) as y. intros y z. apply N.ldiff_le. apply N.bits_inj_0. intros i. rewrite N.ldiff_spec, N.land_spec. destruct (N.testbit z i), (N.testbit y i); reflexivity. }
  unfold mask_of in *. lia.
Qed.

Section S.
Variables (c : class) (I : Type) (T : dataclass I) (phi : I -> obj) (hp : obj -> N * N) (rowof : obj -> list N).
Hypothesis V : item_view c T phi hp rowof.
Hypothesis HN : c <> CNil.
Hypothesis HS : solid c.
Notation hpI := (hash_pair T).
Notation dI := (dc_default T).
Notation eqI := (dc_eqb T).

(** the arrays [t] hold the table [L] of items *)
Record arep (t : atable) (L : @table I) : Prop := {
  r_meta : meta t = retab [] L;
  r_cap : 0 < cap L; r_bsz : 0 < bsz L;
  r_tab : batched c [(cap L + 1) * bsz L] (a_tab t);
  r_rows : rows ((cap L + 1) * bsz L) (a_tab t) = map phi (tab L);
  r_fps : length (fps L) = (cap L + 1) * bsz L }.
Lemma r_fields t L : arep t L -> a_cap t = cap L /\ a_bsz t = bsz L /\ a_maxp t = maxp L /\ a_size t = size L /\ a_fill t = fill L /\ a_occ t = occ L /\ a_fps t = fps L.
Proof. intros R. pose proof (r_meta _ _ R) as E. unfold meta, retab in E. repeat split; congruence. Qed.
Lemma arep_length t L : arep t L -> length (tab L) = (cap L + 1) * bsz L.
Proof. intros R. rewrite <- (map_length phi), <- (r_rows _ _ R). apply rows_length. Qed.
Lemma arep_inj t L L' : arep t L -> arep t L' -> L = L'.
Proof.
  intros R R'. destruct (r_fields _ _ R) as (A1 & A2 & A3 & A4 & A5 & A6 & A7). destruct (r_fields _ _ R') as (B1 & B2 & B3 & B4 & B5 & B6 & B7).
  pose proof (r_rows _ _ R) as E. pose proof (r_rows _ _ R') as E'. rewrite <- A1, <- A2 in E. rewrite <- B1, <- B2 in E'. rewrite E in E'.
  assert (ET : tab L = tab L'). { clear - E' V. revert E'. generalize (tab L'). induction (tab L) as [|a l IH]; intros [|b m] E; try discriminate; [reflexivity|]. cbn in E. f_equal; [apply (iv_inj _ _ _ _ _ V); congruence|apply IH; congruence]. }
  destruct L as [l1 l2 l3 l4 l5 l6 l7 l8], L' as [m1 m2 m3 m4 m5 m6 m7 m8]. cbn in *. congruence.
Qed.

Lemma get_row t L i : arep t L -> i < (cap L + 1) * bsz L -> obj_index_array (iscal (Z.of_nat i)) (a_tab t) = Some (phi (nth i (tab L) dI)).
Proof.
  intros R Hi. destruct (C45_get_one c _ (a_tab t) (Z.of_nat i) (phi dI) (r_tab _ _ R)) as (r & -> & _ & ->); [lia|]. f_equal. rewrite (r_rows _ _ R).
  rewrite jget_in by (rewrite map_length, (arep_length _ _ R); lia). rewrite Nat2Z.id. apply map_nth.
Qed.
Lemma eq_at_spec t L x i : arep t L -> i < (cap L + 1) * bsz L -> eq_at t (phi x) i = Some (eqI (tabAt dI L i) x).
Proof. intros R Hi. unfold eq_at. rewrite (get_row t L i R Hi). apply (iv_eq _ _ _ _ _ V). Qed.
Lemma comparable_spec t L x : arep t L -> comparable t (phi x) = true.
Proof. intros R. unfold comparable. rewrite (eq_at_spec t L) by (try assumption; pose proof (r_bsz _ _ R); lia). reflexivity. Qed.
Lemma same_at_spec t L x i : arep t L -> i < (cap L + 1) * bsz L -> same_at t (phi x) i = eqI (tabAt dI L i) x.
Proof. intros R Hi. unfold same_at. now rewrite (eq_at_spec t L). Qed.
Lemma slot_lt k n b o : b < k -> o < n -> b * n + o < (k + 1) * n.
Proof. intros. assert (b * n <= k * n) by (apply Nat.mul_le_mono_r; lia). nia. Qed.
Lemma ascan_spec t L x fp act b : arep t L -> b < cap L -> ascan t (phi x) fp act b = scan eqI dI L x fp act b.
Proof.
  intros R Hb. destruct (r_fields _ _ R) as (A1 & A2 & A3 & A4 & A5 & A6 & A7). unfold ascan, scan, fillOf, fpAt. rewrite A2, A5, A7.
  set (offs := map u8 (seq 0 (bsz L))). set (fpm := map _ offs).
  assert (HO : forall o, In o offs -> o < bsz L) by (intros o Ho; apply in_map_iff in Ho; destruct Ho as (q & <- & Hq); apply in_seq in Hq; pose proof (u8_le q); lia).
  assert (HF : u8 (argmax fpm) < bsz L).
  { pose proof (r_bsz _ _ R). pose proof (u8_le (argmax fpm)). enough (argmax fpm < bsz L) by lia. assert (HL : length fpm = bsz L) by (unfold fpm, offs; now rewrite !map_length, seq_length). rewrite <- HL. unfold argmax. destruct (first_true fpm) as [i|] eqn:E; [apply (first_true_some _ _ E)|lia]. }
  rewrite (same_at_spec t L) by (try assumption; now apply slot_lt).
  set (other := map _ (combine fpm offs)).
  replace (map (fun p : bool * nat => fst p && same_at t (phi x) (b * bsz L + snd p)) (combine other offs)) with (map (fun p : bool * nat => fst p && eqI (tabAt dI L (b * bsz L + snd p)) x) (combine other offs)); [reflexivity|].
  apply map_ext_in. intros [f o] Hp. apply in_combine_r in Hp. cbn [fst snd]. rewrite (same_at_spec t L) by (try assumption; apply slot_lt; auto). reflexivity.
Qed.
Lemma alookup_bucket_spec t L x : arep t L -> alookup_bucket hp t (phi x) = lookup_bucket eqI dI hpI L x.
Proof.
  intros R. destruct (r_fields _ _ R) as (A1 & A2 & A3 & A4 & A5 & A6 & A7). unfold alookup_bucket, lookup_bucket. rewrite (comparable_spec t L x R), A1, A3.
  rewrite (step_nat phi hpI hp (iv_hash _ _ _ _ _ V)), (fp_nat phi hpI hp (iv_hash _ _ _ _ _ V)), (start_nat phi hpI hp (iv_hash _ _ _ _ _ V)).
  rewrite (while_ext (fun s : lst => fst (fst (fst s)) < cap L) (lk_cond (meta t)) (alk_body t (phi x) (step_of hpI (cap L) x) (fp_of hpI x)) (lk_cond L) (lk_body eqI dI L x (step_of hpI (cap L) x) (fp_of hpI x))).
  - reflexivity.
  - intros [[[b s] f] p] _. unfold lk_cond. cbn [meta maxp]. now rewrite A3.
  - intros [[[b s] f] p] Hb. cbn [fst] in Hb. unfold alk_body, lk_body. rewrite (ascan_spec t L) by assumption. rewrite A1, A2, A3, A5. fold (fillOf L b). destruct (scan eqI dI L x (fp_of hpI x) true b) as [fd ms]. split; [reflexivity|]. cbn [fst].
    destruct (fd || negb (u8 (fillOf L b) =? bsz L)); [exact Hb|apply next_lt; exact (r_cap _ _ R)].
  - cbn [fst]. apply start_lt. exact (r_cap _ _ R).
Qed.
Theorem alookup_spec t L x : arep t L -> alookup hp t (phi x) = lookup eqI dI hpI L x.
Proof. intros R. unfold alookup, lookup. rewrite (alookup_bucket_spec t L x R). destruct (r_fields _ _ R) as (_ & -> & _). reflexivity. Qed.
Theorem agetitem_spec t L i : arep t L -> i < (cap L + 1) * bsz L -> agetitem t i = Some (phi (getitem dI L i)).
Proof. intros R Hi. unfold agetitem. now apply get_row. Qed.

Lemma alookup_rows_spec t L q : arep t L -> alookup_rows hp t (map (fun r => (phi (fst r), snd r)) q) = lookup_rows eqI dI hpI L q.
Proof.
  intros R. destruct (r_fields _ _ R) as (A1 & A2 & A3 & A4 & A5 & A6 & A7). unfold alookup_rows, lookup_rows.
  assert (E : forallb (fun r => comparable t (fst r)) (map (fun r : I * (bool * bool) => (phi (fst r), snd r)) q) = true).
  { apply forallb_forall. intros r Hr. apply in_map_iff in Hr. destruct Hr as (p & <- & _). cbn [fst]. now apply (comparable_spec t L). }
  rewrite E, A3, map_map. cbn [fst snd].
  set (g := fun l : list (I * prow) => map (fun r => (phi (fst r), snd r)) l).
  assert (E0 : map (fun r : I * (bool * bool) => (phi (fst r), pl_init hp (meta t) (phi (fst r)) (fst (snd r)) (snd (snd r)))) q = g (map (fun r => (fst r, pl_init hpI L (fst r) (fst (snd r)) (snd (snd r)))) q)).
  { unfold g. rewrite map_map. apply map_ext. intros r. cbn [fst snd]. unfold pl_init. cbn [meta cap]. rewrite (start_nat phi hpI hp (iv_hash _ _ _ _ _ V)), A1. reflexivity. }
  rewrite E0. set (l0 := map (fun r => (fst r, pl_init hpI L (fst r) (fst (snd r)) (snd (snd r)))) q).
  set (P := fun l : list (I * prow) => Forall (fun r => pb (snd r) < cap L) l).
  assert (H0 : P l0) by (unfold P, l0; apply Forall_forall; intros r Hr; apply in_map_iff in Hr; destruct Hr as (p & <- & _); cbn; apply start_lt; exact (r_cap _ _ R)).
  assert (HB : forall l, P l -> map (fun r => (fst r, apl_step hp t (fst r) (snd r))) (g l) = g (pl_body eqI dI hpI L l) /\ P (pl_body eqI dI hpI L l)).
  { intros l HP. unfold g, pl_body. rewrite !map_map. cbn [fst snd].
    assert (HH : forall r, In r l -> apl_step hp t (phi (fst r)) (snd r) = pl_step eqI dI hpI L (fst r) (snd r) /\ pb (pl_step eqI dI hpI L (fst r) (snd r)) < cap L).
    { intros [x s] Hr. cbn [fst snd]. unfold P in HP. rewrite Forall_forall in HP. pose proof (HP _ Hr) as Hb. cbn [snd] in Hb. unfold apl_step, pl_step. rewrite A1, A2, A3, A5. rewrite (step_nat phi hpI hp (iv_hash _ _ _ _ _ V)), (fp_nat phi hpI hp (iv_hash _ _ _ _ _ V)).
      rewrite (ascan_spec t L) by assumption. fold (fillOf L (pb s)). destruct (scan _ _ _ _ _ _ _) as [fd ms]. split; [reflexivity|]. cbn [pb].
      destruct (pact s && (negb (pfound s) && (pprobes s <? maxp L)%N)); [|exact Hb]. match goal with |- (if ?z then _ else _) < _ => destruct z end; [apply next_lt; exact (r_cap _ _ R)|exact Hb]. }
    split.
    - apply map_ext_in. intros r Hr. now rewrite (proj1 (HH r Hr)).
    - unfold P. apply Forall_forall. intros r Hr. apply in_map_iff in Hr. destruct Hr as (p & <- & Hp). cbn [snd]. apply HH. exact Hp. }
  assert (HC : forall l, pl_cond (g l) = pl_cond l) by (intros l; unfold pl_cond, g; now rewrite existsb_map).
  clearbody l0. clear E E0 q. revert l0 H0. generalize (S (N.to_nat (maxp L))). intros f. induction f as [|f IH]; intros l HP; cbn [while]; rewrite HC; destruct (pl_cond l); try reflexivity.
  - cbn [option_map]. unfold g. now rewrite map_map.
  - destruct (HB l HP) as [-> HP']. now apply IH.
  - cbn [option_map]. unfold g. now rewrite map_map.
Qed.
Lemma vrows_spec k inputs : batched c [k] inputs -> vrows inputs = Some (rows k inputs).
Proof.
  intros HB. unfold vrows. rewrite (leading_spec c HN HS k [] inputs HB). unfold rows. apply sequence_map.
  assert (H : forall l, (forall i, In i l -> i < k) -> Forall2 (fun x y => obj_index_array (iscal (Z.of_nat x)) inputs = Some y) l (map (fun i => elem [i] inputs) l)).
  { induction l as [|i l IH]; intros Hl; cbn; constructor; [|apply IH; intros; apply Hl; now right]. assert (Hi : i < k) by (apply Hl; now left).
    destruct (C45_get_one c k inputs (Z.of_nat i) ONil HB) as (r & -> & _ & ->); [lia|]. f_equal. rewrite jget_in by (rewrite rows_length; lia). rewrite Nat2Z.id. now apply rows_nth. }
  apply H. intros i Hi. apply in_seq in Hi. lia.
Qed.
Theorem alookup_parallel_spec t L k inputs xs f : arep t L -> batched c [k] inputs -> rows k inputs = map phi xs ->
  alookup_parallel hp t inputs f = lookup_parallel eqI dI hpI L xs f.
Proof.
  intros R HB HR. unfold alookup_parallel, lookup_parallel. rewrite (vrows_spec k inputs HB), HR, map_length. destruct (r_fields _ _ R) as (_ & A2 & _).
  assert (E : forall l, alookup_rows hp t (map (fun p => (fst p, (false, snd p))) (combine (map phi xs) l)) = lookup_rows eqI dI hpI L (map (fun p => (fst p, (false, snd p))) (combine xs l))).
  { intros l. rewrite <- (alookup_rows_spec t L _ R). f_equal. rewrite combine_map_l, !map_map. reflexivity. }
  destruct f as [[|]|l]; rewrite ?E, ?A2; reflexivity.
Qed.
Lemma abuild_spec capacity bs mult mp : 0 < bs -> arep (abuild c capacity bs mult mp) (TableModel.build dI capacity bs mult mp).
Proof.
  intros Hb. unfold abuild, TableModel.build. set (k := table_cap (mult * capacity / bs)). assert (Hk : 0 < k) by (unfold k, table_cap; destruct (_ <=? 1); [lia|apply Nat.neq_0_lt_0, Nat.pow_nonzero; lia]).
  destruct (C45_default_rows c ((k + 1) * bs)) as [D1 D2].
  constructor; cbn [meta retab a_cap a_bsz a_maxp a_size a_tab a_fill a_occ a_fps cap bsz maxp size tab fill occ fps]; try assumption; try reflexivity.
  - rewrite D2, <- (iv_default _ _ _ _ _ V). clear. generalize ((k + 1) * bs). intros n. induction n as [|n IH]; [reflexivity|]. cbn. now rewrite IH.
  - apply repeat_length.
Qed.
Lemma upd_map {X Y} (f : X -> Y) l : forall i x, map f (Jax.upd l i x) = Jax.upd (map f l) i (f x).
Proof. induction l as [|a l IH]; intros [|i] x; cbn; try reflexivity. now rewrite IH. Qed.
Lemma jset_nat {X} (l : list X) i v : jset l (Z.of_nat i) v = Jax.upd l i v.
Proof.
  destruct (Nat.lt_ge_cases i (length l)) as [H|H].
  - rewrite jset_in by lia. now rewrite Nat2Z.id.
  - unfold jset, norm_idx. destruct (Z.of_nat i <? 0)%Z eqn:E; [lia|]. destruct (Z.of_nat i <? Z.of_nat (length l))%Z eqn:E2; [lia|]. rewrite andb_false_r.
    symmetry. clear E E2. revert i H. induction l as [|a l IH]; intros [|i] H; cbn in *; try reflexivity; [lia|]. now rewrite IH by lia.
Qed.
Theorem ainsert_spec t L x : arep t L ->
  match ainsert hp t (phi x), TableModel.insert eqI dI hpI L x with
  | Some (t', ok, i), Some (L', ok', i') => arep t' L' /\ ok = ok' /\ i = i'
  | None, None => True
  | _, _ => False
  end.
Proof.
  intros R. unfold ainsert, TableModel.insert. rewrite (alookup_bucket_spec t L x R). destruct (lookup_bucket eqI dI hpI L x) as [[[b s] f]|]; [|exact Logic.I].
  destruct (r_fields _ _ R) as (A1 & A2 & A3 & A4 & A5 & A6 & A7). rewrite A2, A5. fold (fillOf L b). split; [|auto].
  destruct (negb f && (fillOf L b <=? s)); [|exact R].
  destruct (C45_set_one c _ (a_tab t) (Z.of_nat (b * bsz L + s)) (phi x) (r_tab _ _ R) (iv_batched _ _ _ _ _ V x)) as [D1 D2].
  unfold awrite, write. rewrite A1, A2, A3, A4, A5, A6, A7. fold (fillOf L b). rewrite (fp_nat phi hpI hp (iv_hash _ _ _ _ _ V)).
  constructor; cbn [meta retab a_cap a_bsz a_maxp a_size a_tab a_fill a_occ a_fps cap bsz maxp size tab fill occ fps]; try (apply R).
  - reflexivity.
  - exact D1.
  - rewrite D2, (r_rows _ _ R), jset_nat. symmetry. apply upd_map.
  - rewrite Jax.upd_length. exact (r_fps _ _ R).
Qed.

(** ** batches *)
Lemma apar_prepare_spec m sortp t L xs filled uk : arep t L ->
  apar_prepare hp rowof (dc_nwords T) m sortp t (map phi xs) filled uk = par_prepare eqI dI hpI (dc_words T) (dc_nwords T) m sortp L xs filled uk.
Proof.
  intros R. unfold apar_prepare, par_prepare. rewrite !map_map. rewrite (map_ext _ hpI (iv_hash _ _ _ _ _ V)), (map_ext _ (dc_words T) (iv_words _ _ _ _ _ V)).
  destruct (dedupe_pairs _ _ _ _ _ _ _) as [uniq reps]. rewrite <- (alookup_rows_spec t L _ R). rewrite combine_map_l. destruct (alookup_rows _ _ _); reflexivity.
Qed.
Lemma par_rows_map xs uniq rs : par_rows (map phi xs) uniq rs = map (mapI phi) (par_rows xs uniq rs).
Proof. unfold par_rows. rewrite !combine_map_l, !map_map. apply map_ext. intros [[x u] p]. reflexivity. Qed.
Lemma batch_jsets {X} n (xs : list X) : forall res tab0, length res = length xs ->
  jsets tab0 (safe_flat (length tab0) (map (fun r : bool * (nat * nat) => (fst r, fst (snd r) * n + snd (snd r))) res)) xs = batch_tab tab0 xs n res.
Proof.
  induction xs as [|x xs IH]; intros [|[ok [b s]] res] tab0 HL; try discriminate; [reflexivity|]. unfold jsets, safe_flat, batch_tab in *. cbn [map combine fold_left filter fst snd].
  destruct ok; cbn [fold_left fst snd].
  - rewrite jset_nat. rewrite <- (IH res); [|now injection HL]. rewrite Jax.upd_length. reflexivity.
  - rewrite <- (IH res); [|now injection HL]. f_equal. unfold jset, norm_idx. destruct (Z.of_nat (length tab0) <? 0)%Z eqn:E; [lia|]. rewrite Z.ltb_irrefl, andb_false_r. reflexivity.
Qed.
Lemma store_spec t L k inputs xs res L' : arep t L -> batched c [k] inputs -> rows k inputs = map phi xs -> length res = k ->
  cap L' = cap L -> bsz L' = bsz L -> length (fps L') = length (fps L) -> tab L' = batch_tab (tab L) xs (bsz L) res ->
  forall l, exists ta, store_batch t inputs res (retab l L') = Some ta /\ arep ta L'.
Proof.
  intros R HB HR HL EC EB EF ET l. destruct (r_fields _ _ R) as (A1 & A2 & A3 & A4 & A5 & A6 & A7). unfold store_batch, scatter_drop. rewrite A2, A7.
  set (safe := safe_flat (length (fps L)) _).
  assert (LS : length safe = k) by (unfold safe, safe_flat; now rewrite !map_length).
  destruct (lift_many _ _ _ _ _ c [a_tab t; inputs] (rowwise_at_set ((cap L + 1) * bsz L) [] (ivec safe) ltac:(unfold wfa; cbn; lia))) as [o2 [E1 [E2 [E3 _]]]]; [discriminate| |].
  { pose proof (r_tab _ _ R) as [H1 H2]. destruct HB as [H3 H4]. cbn [ivec ashape app]. rewrite LS. repeat apply Forall2_cons; try apply Forall2_nil; split; assumption. }
  change (tree_mapn (on_two (fun field value => a_at_set (ivec safe) value field)) [a_tab t; inputs] = Some o2) in E1. rewrite E1. eexists. split; [reflexivity|].
  cbn [tree_mapn] in E1. apply (proj2 (set_each_tmap (fun v a => a_at_set (ivec safe) v a))) in E1. change (obj_at_set (ivec safe) (a_tab t) inputs = o2) in E1. subst o2.
  destruct (C45_set_many c _ (a_tab t) safe inputs (r_tab _ _ R) ltac:(rewrite LS; exact HB)) as [D1 D2].
  assert (LX : length res = length xs) by (rewrite HL, <- (map_length phi xs), <- HR; symmetry; apply rows_length).
  unfold with_tab, retab. constructor; cbn [meta retab a_cap a_bsz a_maxp a_size a_tab a_fill a_occ a_fps cap bsz maxp size tab fill occ fps]; rewrite ?EC, ?EB; try (apply R).
  - unfold meta, retab. cbn. now rewrite EC, EB.
  - exact D1.
  - rewrite D2, LS, HR, (r_rows _ _ R), ET, batch_tab_map. rewrite <- (batch_jsets (bsz L) (map phi xs) res (map phi (tab L))) by (now rewrite map_length).
    f_equal. unfold safe. rewrite map_length, (arep_length _ _ R), (r_fps _ _ R). reflexivity.
  - rewrite EF. exact (r_fps _ _ R).
Qed.
Lemma fold_upd_length {X Y} (f : list X -> Y -> nat) (g : list X -> Y -> X) l : forall a, length (fold_left (fun a r => Jax.upd a (f a r) (g a r)) l a) = length a.
Proof. induction l as [|y l IH]; intros a; [reflexivity|]. cbn [fold_left]. now rewrite IH, Jax.upd_length. Qed.
Lemma assigns_shape be L rws L' res : assigns T be L rws L' res -> length res = length rws /\ cap L' = cap L /\ bsz L' = bsz L /\ length (fps L') = length (fps L) /\ tab L' = batch_tab (tab L) (map ix rws) (bsz L) res.
Proof.
  destruct be as [|maxb|maxb order]; cbn [assigns].
  - intros E. pose proof (xla_tab hpI L rws L' res E) as ET. pose proof (xla_length hpI L rws L' res E) as EL. unfold xla in E. destruct (rounds hpI L rws) as [rows'|]; [|discriminate]. assert (EE : L' = commit hpI L rows') by congruence. subst L'.
    cbn [commit cap bsz fps] in *. rewrite fold_upd_length. auto.
  - intros [_ E]. pose proof (triton_tab _ _ _ _ _ _ _ E) as ET. pose proof (triton_length _ _ _ _ _ _ _ E) as EL. destruct E as (g & _ & _ & _ & ->). cbn [commit_gpu cap bsz fps] in *. rewrite fold_upd_length. auto.
  - intros (_ & _ & E). pose proof (pallas_tab _ _ _ _ _ _ _ _ E) as ET. pose proof (pallas_length _ _ _ _ _ _ _ _ E) as EL. unfold pallas in E. destruct (preserve _ _ _ _ _ _) as [[[fl oc] r]|]; [|discriminate].
    injection E as <- _. cbn [cap bsz fps] in *. rewrite fold_upd_length. auto.
Qed.
(** reserving on the arrays is assigning on the list, apart from the stored items *)
Lemma reserves_fwd be t L rws M res : arep t L -> reserves c hp be t (map (mapI phi) rws) M res -> exists l L', M = retab l L' /\ assigns T be L rws L' res.
Proof.
  intros R. destruct (r_fields _ _ R) as (A1 & A2 & _). destruct be as [|maxb|maxb order]; cbn [reserves assigns].
  - rewrite (r_meta _ _ R). destruct (xla_nat phi hpI hp (iv_hash _ _ _ _ _ V) [] L rws) as [l E]. rewrite E. destruct (xla hpI L rws) as [[L' r]|]; [|discriminate]. cbn [option_map fst snd]. intros EE. injection EE as <- <-. eauto.
  - rewrite A2, (r_meta _ _ R). intros [Hb HT]. rewrite <- (iv_default _ _ _ _ _ V) in HT. destruct (triton_nat phi hpI hp dI (iv_hash _ _ _ _ _ V) [] L rws maxb) as [_ H2]. destruct (H2 _ _ HT) as (l & L' & -> & HT'). eauto.
  - rewrite A2, (r_meta _ _ R), map_length. intros (Hb & HO & HP). rewrite <- (iv_default _ _ _ _ _ V) in HP. destruct (pallas_nat phi hpI hp dI (iv_hash _ _ _ _ _ V) [] L rws maxb order) as [l E]. rewrite E in HP.
    destruct (pallas dI hpI L rws maxb order) as [[L' r]|]; [|discriminate]. cbn [option_map fst snd] in HP. injection HP as <- <-. eauto 6.
Qed.
Lemma reserves_bwd be t L rws L' res : arep t L -> assigns T be L rws L' res -> exists l, reserves c hp be t (map (mapI phi) rws) (retab l L') res.
Proof.
  intros R. destruct (r_fields _ _ R) as (A1 & A2 & _). destruct be as [|maxb|maxb order]; cbn [reserves assigns].
  - intros E0. rewrite (r_meta _ _ R). destruct (xla_nat phi hpI hp (iv_hash _ _ _ _ _ V) [] L rws) as [l E]. rewrite E, E0. cbn. eauto.
  - rewrite A2, (r_meta _ _ R). intros [Hb HT]. destruct (triton_nat phi hpI hp dI (iv_hash _ _ _ _ _ V) [] L rws maxb) as [H2 _]. destruct (H2 _ _ HT) as (l & HT'). rewrite (iv_default _ _ _ _ _ V) in HT'. eauto.
  - rewrite A2, (r_meta _ _ R), map_length. intros (Hb & HO & HP). destruct (pallas_nat phi hpI hp dI (iv_hash _ _ _ _ _ V) [] L rws maxb order) as [l E]. rewrite HP, (iv_default _ _ _ _ _ V) in E. cbn in E. eauto.
Qed.
Lemma par_rows_ix (xs : list I) uniq rs : length uniq = length xs -> length rs = length xs -> map ix (par_rows xs uniq rs) = xs.
Proof.
  intros H1 H2. unfold par_rows. rewrite map_map. cbn [ix]. revert uniq rs H1 H2. induction xs as [|x xs IH]; intros [|u us] [|r rs] H1 H2; try discriminate; [reflexivity|]. cbn. f_equal. apply IH; [now injection H1|now injection H2].
Qed.
Lemma fold_upd_pairs {X} (l : list (nat * X)) : forall a, length (fold_left (fun a p => Jax.upd a (fst p) (snd p)) l a) = length a.
Proof. induction l as [|y l IH]; intros a; [reflexivity|]. cbn [fold_left]. now rewrite IH, Jax.upd_length. Qed.
Lemma from_sorted_length ks filled uk perm : length (fst (from_sorted ks filled uk perm)) = length filled.
Proof. unfold from_sorted. cbn [fst]. rewrite !map_length, !combine_length, !map_length, !combine_length, seq_length, fold_upd_pairs, repeat_length. lia. Qed.
Lemma dedupe_pairs_length m w perm ps rws filled uk : length (fst (dedupe_pairs m w perm ps rws filled uk)) = length filled.
Proof.
  assert (D : forall m', length (fst (dedupe_rows m' w rws filled uk)) = length filled).
  { intros m'. unfold dedupe_rows. destruct m'; [destruct (w <=? 8); [|destruct (collision _ _ _ _)]| |destruct (w <=? 8)]; apply from_sorted_length. }
  unfold dedupe_pairs. destruct m; [destruct (collision _ _ _ _)| |]; try apply D; apply from_sorted_length.
Qed.
Lemma lookup_rows_length L q rs : lookup_rows eqI dI hpI L q = Some rs -> length rs = length q.
Proof.
  unfold lookup_rows. intros H. destruct (while _ _ _ _) as [s|] eqn:E; [|discriminate]. cbn [option_map] in H. assert (EQ : rs = map snd s) by congruence. subst rs. rewrite map_length.
  refine (while_inv (fun s => length s = length q) _ _ _ _ _ _ _ E); [|now rewrite map_length]. intros s0 H0. unfold pl_body. now rewrite map_length.
Qed.
Variable C : settings.
Lemma Hlen L xs filled uk uniq reps rs : length filled = length xs ->
  par_prepare eqI dI hpI (dc_words T) (dc_nwords T) (s_mode C) (s_sort C) L xs filled uk = Some (uniq, reps, rs) -> length uniq = length xs /\ length rs = length xs.
Proof.
  intros HF. unfold par_prepare. pose proof (dedupe_pairs_length (s_mode C) (dc_nwords T) (s_sort C filled (map hpI xs)) (map hpI xs) (map (dc_words T) xs) filled uk) as DL.
  destruct (dedupe_pairs _ _ _ _ _ _ _) as [u r]. cbn [fst] in DL. destruct (lookup_rows _ _ _ _ _) as [s|] eqn:E; [|discriminate]. intros EE. assert (u = uniq) by congruence. assert (s = rs) by congruence. subst u s.
  apply lookup_rows_length in E. rewrite !combine_length, map_length in E. lia.
Qed.
Theorem aparallel_fwd be t L k inputs xs f uk ta ins uniq idx : arep t L -> batched c [k] inputs -> rows k inputs = map phi xs -> mask_ok xs f ->
  aparallel_insert c hp rowof (dc_nwords T) (s_mode C) (s_sort C) be t inputs f uk (ta, ins, uniq, idx) ->
  exists L', ParallelInsert T C be L xs f uk (L', ins, uniq, idx) /\ arep ta L'.
Proof.
  intros R HB HR HM (xs' & EV & HP). rewrite (vrows_spec k inputs HB), HR in EV. injection EV as <-. rewrite map_length in HP. destruct (r_fields _ _ R) as (A1 & A2 & _).
  assert (G : (exists uniq0 reps rs M ta0 res, apar_prepare hp rowof (dc_nwords T) (s_mode C) (s_sort C) t (map phi xs) (mask_list (length xs) f) uk = Some (uniq0, reps, rs) /\
      reserves c hp be t (par_rows (map phi xs) uniq0 rs) M res /\ store_batch t inputs res M = Some ta0 /\
      (ta, ins, uniq, idx) = (ta0, map fst res, uniq0, par_idx (meta t) rs res reps)) ->
    exists L', (exists uniq0 reps rs L0 res, par_prepare eqI dI hpI (dc_words T) (dc_nwords T) (s_mode C) (s_sort C) L xs (mask_list (length xs) f) uk = Some (uniq0, reps, rs) /\
      assigns T be L (par_rows xs uniq0 rs) L0 res /\ (L', ins, uniq, idx) = (L0, map fst res, uniq0, par_idx L rs res reps)) /\ arep ta L').
  { intros (u & reps & rs & M & ta0 & res & EP & HRs & ES & EO). rewrite (apar_prepare_spec _ _ t L) in EP by exact R. rewrite par_rows_map in HRs.
    destruct (reserves_fwd _ _ _ _ _ _ R HRs) as (l & L' & -> & HA). destruct (assigns_shape _ _ _ _ _ HA) as (SL & S1 & S2 & S3 & S4).
    destruct (Hlen _ _ _ _ _ _ _ HM EP) as [L1 L2]. rewrite par_rows_ix in S4 by assumption.
    assert (LX : length xs = k) by (rewrite <- (map_length phi xs), <- HR; apply rows_length).
    assert (LR : length res = k) by (rewrite SL; unfold par_rows; rewrite map_length, !combine_length; lia).
    destruct (store_spec t L k inputs xs res L' R HB HR LR S1 S2 S3 S4 l) as (ta1 & ES1 & RR). rewrite ES in ES1. injection ES1 as <-.
    assert (EI : par_idx (meta t) rs res reps = par_idx L rs res reps) by (unfold par_idx; cbn [meta bsz]; now rewrite A2).
    rewrite EI in EO. exists L'. split; [|congruence]. exists u, reps, rs, L', res. split; [exact EP|]. split; [exact HA|]. congruence. }
  destruct f as [[|]|l]; cbn [ParallelInsert] in *.
  - apply G in HP. exact HP.
  - injection HP as -> -> -> ->. exists L. split; [reflexivity|exact R].
  - apply G in HP. exact HP.
Qed.
Theorem aparallel_bwd be t L k inputs xs f uk L' ins uniq idx : arep t L -> batched c [k] inputs -> rows k inputs = map phi xs -> mask_ok xs f ->
  ParallelInsert T C be L xs f uk (L', ins, uniq, idx) ->
  exists ta, aparallel_insert c hp rowof (dc_nwords T) (s_mode C) (s_sort C) be t inputs f uk (ta, ins, uniq, idx) /\ arep ta L'.
Proof.
  intros R HB HR HM HP. destruct (r_fields _ _ R) as (A1 & A2 & _).
  assert (G : (exists uniq0 reps rs L0 res, par_prepare eqI dI hpI (dc_words T) (dc_nwords T) (s_mode C) (s_sort C) L xs (mask_list (length xs) f) uk = Some (uniq0, reps, rs) /\
      assigns T be L (par_rows xs uniq0 rs) L0 res /\ (L', ins, uniq, idx) = (L0, map fst res, uniq0, par_idx L rs res reps)) ->
    exists ta, (exists uniq0 reps rs M ta0 res, apar_prepare hp rowof (dc_nwords T) (s_mode C) (s_sort C) t (map phi xs) (mask_list (length xs) f) uk = Some (uniq0, reps, rs) /\
      reserves c hp be t (par_rows (map phi xs) uniq0 rs) M res /\ store_batch t inputs res M = Some ta0 /\
      (ta, ins, uniq, idx) = (ta0, map fst res, uniq0, par_idx (meta t) rs res reps)) /\ arep ta L').
  { intros (u & reps & rs & L0 & res & EP & HA & EO). assert (E0 : L0 = L') by congruence. subst L0. destruct (assigns_shape _ _ _ _ _ HA) as (SL & S1 & S2 & S3 & S4).
    destruct (Hlen _ _ _ _ _ _ _ HM EP) as [L1 L2]. rewrite par_rows_ix in S4 by assumption.
    assert (LX : length xs = k) by (rewrite <- (map_length phi xs), <- HR; apply rows_length).
    assert (LR : length res = k) by (rewrite SL; unfold par_rows; rewrite map_length, !combine_length; lia).
    destruct (reserves_bwd _ _ _ _ _ _ R HA) as [l HRs].
    destruct (store_spec t L k inputs xs res L' R HB HR LR S1 S2 S3 S4 l) as (ta & ES & RR).
    assert (EI : par_idx (meta t) rs res reps = par_idx L rs res reps) by (unfold par_idx; cbn [meta bsz]; now rewrite A2).
    exists ta. split; [|exact RR]. exists u, reps, rs, (retab l L'), ta, res. rewrite (apar_prepare_spec _ _ t L) by exact R. split; [exact EP|]. rewrite par_rows_map. split; [exact HRs|]. split; [exact ES|]. congruence. }
  unfold aparallel_insert. rewrite (vrows_spec k inputs HB), HR.
  destruct f as [[|]|l]; cbn [ParallelInsert] in HP.
  - apply G in HP. destruct HP as (ta & HP & RR). exists ta. split; [|exact RR]. exists (map phi xs). split; [reflexivity|]. rewrite map_length. exact HP.
  - injection HP as -> -> -> ->. exists t. split; [|exact R]. exists (map phi xs). split; [reflexivity|]. now rewrite map_length.
  - apply G in HP. destruct HP as (ta & HP & RR). exists ta. split; [|exact RR]. exists (map phi xs). split; [reflexivity|]. rewrite map_length. exact HP.
Qed.
End S.
