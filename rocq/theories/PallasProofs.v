(** * PallasProofs.v — the TPU backend meets the slot contract. *)
From Verif Require Import Jax KeyModel HashModel HashProofs StableSort TableModel ProbeProofs TableLookup TableInv TableInsert ResolveProofs TableRounds TableCommit TableBound DedupeModel DedupeSpec DedupeProofs DedupeExact ParInsertModel ParInsert Claims TritonModel TritonProofs PallasModel.

(** ** lists *)
Lemma filter_interval (P : nat -> bool) p m :
  (forall q r, p <= q -> q < r -> P r = true -> r < p + m -> P q = true) ->
  filter P (seq p m) = seq p (length (filter P (seq p m))).
Proof.
  induction m as [|m IH]; intros H; [reflexivity|].
  rewrite seq_S, filter_app. cbn [filter]. destruct (P (p + m)) eqn:E.
  - rewrite (filter_all P (seq p m)).
    + rewrite app_length, seq_length. cbn [length]. replace (m + 1) with (S m) by lia. rewrite seq_S. reflexivity.
    + intros q Hq. apply in_seq in Hq. apply (H q (p + m)); auto; lia.
  - rewrite app_nil_r. apply IH. intros q r Hq Hr HP Hm. apply (H q r); auto. lia.
Qed.
Lemma scatter_len {A} (z : A) n idx vals : length (scatter z n idx vals) = n.
Proof.
  unfold scatter. generalize (combine idx vals). intros l. rewrite <- (repeat_length z n) at 2. generalize (repeat z n). intros i.
  revert i. induction l as [|a l IH]; intros i; cbn [fold_left]; [reflexivity|]. rewrite IH. apply upd_length.
Qed.
Lemma scatter_at {A} (z : A) n idx vals p : NoDup idx -> length idx = n -> length vals = n -> (forall i, In i idx -> i < n) -> p < n ->
  nth (nth p idx 0) (scatter z n idx vals) z = nth p vals z.
Proof.
  intros ND HI HV HB Hp.
  destruct (scatter_nth fst snd z (combine idx vals) (repeat z n)) as (H & _ & _).
  { rewrite map_fst_combine by lia. exact ND. }
  rewrite repeat_length in H. specialize (H (nth p idx 0, nth p vals z)). cbn [fst snd] in H. apply H.
  - rewrite <- combine_nth by lia. apply nth_In. rewrite combine_length. lia.
  - apply HB, nth_In. lia.
Qed.
Lemma nth_map_seq {A} (f : nat -> A) n i dd : i < n -> nth i (map f (seq 0 n)) dd = f i.
Proof. intros H. rewrite (map_nth_lt f (seq 0 n) i 0 dd) by (rewrite seq_length; exact H). rewrite seq_nth by exact H. reflexivity. Qed.
Lemma shl1_ones f : (N.shiftl 1 (N.of_nat f) - 1)%N = N.ones (N.of_nat f).
Proof. rewrite N.ones_equiv, N.shiftl_1_l. lia. Qed.
Lemma sorted_nat_contiguous (l : list nat) : StronglySorted le l -> contiguous 0 l.
Proof.
  intros S p q r Hpq Hqr Hr E.
  pose proof (StronglySorted_nth _ 0 l S p q Hpq ltac:(lia)).
  pose proof (StronglySorted_nth _ 0 l S q r Hqr Hr). cbn beta in *. lia.
Qed.
(** group lengths of a sorted array: the run starting at [p] is [p .. p+len-1] *)
Lemma group_len_run sb p : StronglySorted le sb -> p < length sb -> nth p (group_start Nat.eqb sb) false = true ->
  forall q, q < length sb -> (nth q sb 0 = nth p sb 0 <-> p <= q < p + nth p (group_len sb) 0).
Proof.
  intros S Hp HS q Hq. pose proof (sorted_nat_contiguous sb S) as C.
  pose proof (proj1 (group_start_spec Nat.eqb 0 Nat.eqb_eq sb p C Hp) HS) as HF.
  unfold group_len. rewrite nth_map_seq by exact Hp. rewrite HS.
  set (P := fun q => nth q (group_id Nat.eqb sb) 0 =? nth p (group_id Nat.eqb sb) 0).
  assert (forall q, q < length sb -> (P q = true <-> nth q sb 0 = nth p sb 0)) as HP.
  { intros r Hr. unfold P. rewrite Nat.eqb_eq. apply (group_id_eq Nat.eqb 0 Nat.eqb_eq sb r p C Hr Hp). }
  assert (filter P (seq 0 (length sb)) = filter P (seq p (length sb - p))) as E.
  { replace (length sb) with (p + (length sb - p)) at 1 by lia. rewrite seq_app, filter_app. cbn [Nat.add].
    assert (filter P (seq 0 p) = []) as ->; [|reflexivity].
    destruct (filter P (seq 0 p)) as [|r l] eqn:EF; [reflexivity|]. exfalso.
    assert (In r (filter P (seq 0 p))) as HI by (rewrite EF; left; reflexivity). apply filter_In in HI. destruct HI as [HI HT].
    apply in_seq in HI. apply HP in HT; [|lia]. apply (HF r ltac:(lia) HT). }
  rewrite E. rewrite (filter_interval P p (length sb - p)) in E.
  - split.
    + intros EQ. assert (p <= q) as Hle.
      { destruct (Nat.le_gt_cases p q); [assumption|]. exfalso. apply (HF q ltac:(lia) EQ). }
      assert (In q (filter P (seq 0 (length sb)))) as HI by (apply filter_In; split; [apply in_seq; lia|apply HP; assumption]).
      rewrite E in HI. apply in_seq in HI. exact HI.
    + intros HI. apply HP; [exact Hq|]. assert (In q (filter P (seq 0 (length sb)))) as HI2 by (rewrite E; apply in_seq; lia).
      apply filter_In in HI2. apply HI2.
  - intros a b Ha Hb HT Hlt. apply HP; [lia|]. apply HP in HT; [|lia].
    destruct (Nat.eq_dec a p) as [->|]; [reflexivity|]. apply (C p a b); auto; lia.
Qed.
Lemma filter_len_le {A} (f : A -> bool) l : length (filter f l) <= length l.
Proof. induction l as [|a l IH]; cbn; [lia|]. destruct (f a); cbn; lia. Qed.
Lemma group_len_le sb p : StronglySorted le sb -> p < length sb -> p + nth p (group_len sb) 0 <= length sb.
Proof.
  intros S Hp. pose proof (sorted_nat_contiguous sb S) as C. unfold group_len. rewrite nth_map_seq by exact Hp.
  destruct (nth p (group_start Nat.eqb sb) false) eqn:HS; [|lia].
  pose proof (proj1 (group_start_spec Nat.eqb 0 Nat.eqb_eq sb p C Hp) HS) as HF.
  set (PP := fun q => nth q (group_id Nat.eqb sb) 0 =? nth p (group_id Nat.eqb sb) 0).
  assert (length (filter PP (seq 0 (length sb))) = length (filter PP (seq 0 p)) + length (filter PP (seq p (length sb - p)))) as E.
  { replace (length sb) with (p + (length sb - p)) at 1 by lia. rewrite seq_app, filter_app, app_length. reflexivity. }
  rewrite E. assert (filter PP (seq 0 p) = []) as ->.
  { destruct (filter PP (seq 0 p)) as [|x l] eqn:EF; [reflexivity|]. exfalso.
    assert (In x (filter PP (seq 0 p))) as HI by (rewrite EF; left; reflexivity). apply filter_In in HI. destruct HI as [HI HT].
    apply in_seq in HI. unfold PP in HT. apply Nat.eqb_eq in HT.
    apply (group_id_eq Nat.eqb 0 Nat.eqb_eq sb x p C) in HT; try lia. apply (HF x ltac:(lia) HT). }
  pose proof (filter_len_le PP (seq p (length sb - p))) as HL. rewrite seq_length in HL. cbn [length]. lia.
Qed.

Notation dps := (MkPS 0 0 0 false false).
Section T.
Context {item : Type} (d : item) (hp : item -> N * N).
Notation table := (@table item).
Notation irow := (@irow item).
Notation bres := (bool * (nat * nat))%type.
Notation inv := (TableInv.inv d hp).
Notation dres := (false, (0, 0)).
Variables (k : nat) (t : table) (rows : list irow) (maxb : nat) (order : nat -> list nat).
Hypothesis V : inv k t.
Hypothesis H32 : bsz t <= 32.
Hypothesis HS : start_ok d hp k t rows.
Hypothesis HO : forall r, Permutation (order r) (seq 0 (length rows)).
Notation pr := (probe hp (cap t) k).
Notation rw i := (nth i rows (dr d)).
Notation n := (length rows).
Notation claims := (claims_ok d hp k t rows).
Let W := i_wf _ _ _ _ V.
Let HC := wf_cap _ _ W.
Let HK := wf_k _ _ W.
Lemma prl x j : pr x j < cap t. Proof. apply probe_lt; [exact HC|lia]. Qed.

Definition keyof (st : list pst) (i : nat) : nat := if qpend (nth i st dps) then qcur (nth i st dps) else cap t.
Lemma psorted_facts st : length st = n ->
  let sb := map fst (psorted t rows st) in let si := map snd (psorted t rows st) in
  length sb = n /\ length si = n /\ NoDup si /\ (forall i, In i si <-> i < n) /\ StronglySorted le sb /\
  (forall p, p < n -> nth p sb 0 = keyof st (nth p si 0)).
Proof.
  intros HL. cbv zeta. unfold psorted.
  set (keys := map (fun s => if qpend s then qcur s else cap t) st).
  assert (length keys = n) as HKy by (unfold keys; rewrite map_length; exact HL).
  set (kv := combine keys (seq 0 n)). set (L := isort _ kv).
  assert (Permutation L kv) as HP by apply isort_perm.
  assert (length kv = n) as Hkv by (unfold kv; rewrite combine_length, seq_length; lia).
  assert (length L = n) as HLn by (rewrite (Permutation_length HP); exact Hkv).
  assert (Permutation (map snd L) (seq 0 n)) as HPs.
  { rewrite <- (map_snd_combine keys (seq 0 n)) by (rewrite seq_length; exact HKy). apply Permutation_map. exact HP. }
  split; [rewrite map_length; exact HLn|]. split; [rewrite map_length; exact HLn|].
  split; [eapply Permutation_NoDup; [apply Permutation_sym, HPs|apply seq_NoDup]|].
  split. { intros i. split; intros H; [apply (Permutation_in _ HPs) in H; apply in_seq in H; lia|].
    eapply Permutation_in; [apply Permutation_sym, HPs|]. apply in_seq. lia. }
  split.
  - apply (StronglySorted_map_nth _ 0). intros p q Hpq Hq. rewrite map_length in Hq. rewrite !(map_nth fst L (0, 0)).
    assert (StronglySorted (fun a b : nat * nat => (fst a <=? fst b) = true) L) as HSo.
    { apply isort_sorted; [intros a b c|intros a b]; cbv beta; rewrite ?Nat.leb_le, ?Nat.leb_gt; lia. }
    pose proof (StronglySorted_nth _ (0, 0) L HSo p q Hpq Hq) as HX. cbv beta in HX. apply Nat.leb_le in HX. exact HX.
  - intros p Hp. rewrite (map_nth_lt fst L p (0, 0) 0), (map_nth_lt snd L p (0, 0) 0) by lia.
    assert (In (nth p L (0, 0)) kv) as HI by (eapply Permutation_in; [exact HP|apply nth_In; lia]).
    apply (In_nth _ _ (0, 0)) in HI. destruct HI as (i & Hi & E). rewrite <- E. rewrite Hkv in Hi. unfold kv.
    rewrite combine_nth_seq by assumption. cbn [fst snd]. unfold keys, keyof.
    rewrite (map_nth_lt _ st i dps) by lia. reflexivity.
Qed.

Definition resq (s : pst) : bres := (qins s, (qb s, qs s)).
(** invariant of the loop state *)
Record PI (fl : list nat) (oc : list N) (st : list pst) (r : nat) (g : nat -> nat) : Prop := {
  p_claims : claims g (map resq st);
  p_lfl : length fl = length (fill t);
  p_loc : length oc = length (occ t);
  p_fl : forall b, b < cap t -> nth b fl 0 = g b;
  p_oc : forall b, b < cap t -> nth b oc 0%N = N.ones (N.of_nat (g b));
  p_pend : forall i, i < n -> qpend (nth i st dps) = true ->
    iupd (rw i) = true /\ qins (nth i st dps) = false /\
    exists j, r <= j /\ qcur (nth i st dps) = pr (ix (rw i)) j /\ forall j', j' < j -> g (pr (ix (rw i)) j') = bsz t;
  p_done : forall i, i < n -> iupd (rw i) = true -> qpend (nth i st dps) = false -> qins (nth i st dps) = true }.

Section Round.
Variables (fl0 : list nat) (oc0 : list N) (st : list pst) (r : nat) (g0 : nat -> nat).
Hypothesis P : PI fl0 oc0 st r g0.
Lemma st_len : length st = n.
Proof. pose proof (c_len _ _ _ _ _ _ _ (p_claims _ _ _ _ _ P)) as H. rewrite map_length in H. exact H. Qed.
Let sb := map fst (psorted t rows st).
Let si := map snd (psorted t rows st).
Let gs := group_start Nat.eqb sb.
Let gl := group_len sb.
Let LSB : length sb = n. Proof. apply (psorted_facts st st_len). Qed.
Let LSI : length si = n. Proof. apply (psorted_facts st st_len). Qed.
Let NSI : NoDup si. Proof. apply (psorted_facts st st_len). Qed.
Let ISI : forall i, In i si <-> i < n. Proof. apply (psorted_facts st st_len). Qed.
Let SSB : StronglySorted le sb. Proof. apply (psorted_facts st st_len). Qed.
Let KSB : forall p, p < n -> nth p sb 0 = keyof st (nth p si 0). Proof. apply (psorted_facts st st_len). Qed.
Lemma si_lt p : p < n -> nth p si 0 < n. Proof. intros H. apply ISI, nth_In. lia. Qed.
Lemma si_inj p q : p < n -> q < n -> nth p si 0 = nth q si 0 -> p = q.
Proof. intros Hp Hq E. apply (proj1 (NoDup_nth si 0) NSI); lia || exact E. Qed.
Lemma si_onto i : i < n -> exists p, p < n /\ nth p si 0 = i.
Proof. intros H. apply ISI in H. apply (In_nth _ _ 0) in H. rewrite LSI in H. destruct H as (p & Hp & E). exists p. auto. Qed.

(** the row results as they stand in the middle of the kernel *)
Definition rk (sl : list nat) (il : list bool) : list bres :=
  map (fun i => let p := nth i st dps in
    if qpend p && nth i (scatter false n si il) false
    then (true, (nth i (scatter 0 n si sb) 0, nth i (scatter 0 n si sl) 0)) else resq p) (seq 0 n).
Lemma rk_at sl il p : length sl = n -> length il = n -> p < n ->
  nth (nth p si 0) (rk sl il) dres = if qpend (nth (nth p si 0) st dps) && nth p il false then (true, (nth p sb 0, nth p sl 0)) else resq (nth (nth p si 0) st dps).
Proof.
  intros H1 H2 Hp. unfold rk. rewrite nth_map_seq by (apply si_lt; exact Hp).
  rewrite !scatter_at; auto; apply ISI.
Qed.
Lemma rk_upd sl il p f : length sl = n -> length il = n -> p < n -> qpend (nth (nth p si 0) st dps) = true ->
  rk (upd sl p f) (upd il p true) = upd (rk sl il) (nth p si 0) (true, (nth p sb 0, f)).
Proof.
  intros H1 H2 Hp HQ. assert (forall a b, length (rk a b) = n) as HLR by (intros; unfold rk; rewrite map_length, seq_length; reflexivity).
  apply (nth_ext _ _ dres dres); [rewrite upd_length, !HLR; reflexivity|].
  intros i Hi. rewrite HLR in Hi. destruct (si_onto i Hi) as (q & Hq & <-).
  rewrite rk_at by (rewrite ?upd_length; assumption). destruct (Nat.eq_dec p q) as [<-|Hne].
  - rewrite !nth_upd_eq by (rewrite ?HLR; auto; lia). rewrite HQ. reflexivity.
  - rewrite !nth_upd_neq by (try (intros E; apply si_inj in E; auto); auto). rewrite rk_at by assumption. reflexivity.
Qed.

(** kernel invariant; [D] = programs already run *)
Record KI (D : list nat) (fl : list nat) (oc : list N) (sl : list nat) (il : list bool) (g : nat -> nat) : Prop := {
  k_claims : claims g (rk sl il);
  k_lsl : length sl = n; k_lil : length il = n;
  k_lfl : length fl = length (fill t); k_loc : length oc = length (occ t);
  k_fl : forall b, b < cap t -> nth b fl 0 = g b;
  k_oc : forall b, b < cap t -> nth b oc 0%N = N.ones (N.of_nat (g b));
  k_mono : forall b, g0 b <= g b;
  k_new : forall q, q < n -> (forall p, In p D -> nth p gs false = true -> nth p sb 0 <> nth q sb 0) -> nth q il false = false;
  k_old : forall p q, In p D -> p < n -> nth p gs false = true -> nth p sb 0 < cap t -> q < n -> nth q sb 0 = nth p sb 0 ->
    nth q il false = true \/ g (nth p sb 0) = bsz t }.

(** the offset loop of one program *)
Definition SInv (p : nat) (g1 : nat -> nat) (il1 : list bool) (j : nat) (s : nat * list nat * list bool) (g : nat -> nat) : Prop :=
  let '(f, sl, il) := s in let b := nth p sb 0 in let len := nth p gl 0 in
  claims g (rk sl il) /\ length sl = n /\ length il = n /\ f = g b /\ (forall b', b' <> b -> g b' = g1 b') /\ (forall b', g1 b' <= g b') /\
  (forall o, o < j -> o < len -> nth (p + o) il false = true \/ f = bsz t) /\
  (forall o, j <= o -> o < len -> nth (p + o) il false = false) /\
  (forall q, q < n -> nth q sb 0 <> b -> nth q il false = nth q il1 false) /\
  (f = bsz t \/ j <= f \/ len <= j).
Lemma pend_of p b : p < n -> nth p sb 0 = b -> b < cap t -> qpend (nth (nth p si 0) st dps) = true /\ qcur (nth (nth p si 0) st dps) = b.
Proof.
  intros Hp E Hb. rewrite KSB in E by exact Hp. unfold keyof in E. destruct (qpend _); [auto|lia].
Qed.
Lemma gcap g res b : claims g res -> b < cap t -> g b <= bsz t.
Proof. intros C Hb. apply (c_g _ _ _ _ _ _ _ C b Hb). Qed.
Lemma kstore_inv p g1 il1 j s g : p < n -> nth p gs false = true -> nth p sb 0 < cap t -> (forall b, g0 b <= g1 b) ->
  SInv p g1 il1 j s g -> exists g', SInv p g1 il1 (S j) (kstore t p (nth p gl 0) s j) g'.
Proof.
  intros Hp Hs Hb HM. destruct s as [[f sl] il]. intros (C & L1 & L2 & Ef & Eo & Em & A & B & Ot & Pg). unfold kstore. cbv zeta.
  set (b := nth p sb 0) in *. set (len := nth p gl 0) in *.
  pose proof (group_len_run sb p SSB ltac:(lia) Hs) as HR. fold gl len b in HR.
  pose proof (gcap g _ b C Hb) as Hgb.
  destruct (Nat.ltb_spec j len) as [Hj|Hj]; cbn [andb]; [destruct (Nat.ltb_spec f (bsz t)) as [Hf|Hf]|].
  - (* store *)
    assert (p + j < n) as Hpj.
    { pose proof (group_len_le sb p SSB ltac:(lia)) as HX. fold gl len in HX. lia. }
    assert (nth (p + j) sb 0 = b) as Eb by (apply HR; lia).
    destruct (pend_of (p + j) b Hpj Eb Hb) as [HQ HCur].
    set (i := nth (p + j) si 0) in *. assert (i < n) as Hi by (apply si_lt; exact Hpj).
    destruct (p_pend _ _ _ _ _ P i Hi HQ) as (U & NI & jj & Hjj & EC & HFu).
    exists (bump g b). unfold SInv. fold b len.
    assert (claims (bump g b) (rk (upd sl (p + j) f) (upd il (p + j) true))) as CN.
    { rewrite rk_upd by assumption. fold i. rewrite Eb, Ef. apply (claim_one d hp k t rows g _ i b jj); auto; try lia.
      - unfold i. rewrite rk_at by assumption. fold i. rewrite (B j) by lia. rewrite HQ. cbn [andb]. exact NI.
      - intros j' Hj'. specialize (HFu j' Hj'). pose proof (gcap g _ _ C (prl (ix (rw i)) j')). specialize (Em (pr (ix (rw i)) j')). specialize (HM (pr (ix (rw i)) j')). lia. }
    split; [exact CN|]. rewrite !upd_length. split; [exact L1|]. split; [exact L2|].
    assert (bump g b b = S (g b)) as EBB by (unfold bump; rewrite Nat.eqb_refl; reflexivity).
    assert (forall b', b' <> b -> bump g b b' = g b') as EBN by (intros b' Hne; unfold bump; destruct (Nat.eqb_spec b' b); [contradiction|reflexivity]).
    split; [lia|]. split; [intros b' Hne; rewrite EBN by exact Hne; apply Eo; exact Hne|].
    split. { intros b'. destruct (Nat.eq_dec b' b) as [->|Hne]; [rewrite EBB; specialize (Em b); lia|rewrite EBN by exact Hne; apply Em]. }
    split. { intros o Ho Hl. destruct (Nat.eq_dec o j) as [->|Hne].
      - left. apply nth_upd_eq. lia.
      - rewrite nth_upd_neq by lia. destruct (A o ltac:(lia) Hl) as [|]; [auto|lia]. }
    split. { intros o Ho Hl. rewrite nth_upd_neq by lia. apply B; lia. }
    split. { intros q Hq Hne. rewrite nth_upd_neq by (intros <-; contradiction). apply Ot; assumption. }
    destruct Pg as [|[|]]; lia.
  - (* bucket full *)
    assert (f = bsz t) as Ef' by lia. exists g. unfold SInv. fold b len.
    split; [exact C|]. split; [exact L1|]. split; [exact L2|]. split; [exact Ef|]. split; [exact Eo|]. split; [exact Em|].
    split; [auto|]. split; [intros o Ho; apply B; lia|]. split; [exact Ot|]. auto.
  - exists g. unfold SInv. fold b len.
    split; [exact C|]. split; [exact L1|]. split; [exact L2|]. split; [exact Ef|]. split; [exact Eo|]. split; [exact Em|].
    split; [intros o Ho Hl; apply A; lia|]. split; [intros o Ho Hl; lia|]. split; [exact Ot|]. lia.
Qed.
Lemma kstore_fold p g1 il1 m : p < n -> nth p gs false = true -> nth p sb 0 < cap t -> (forall b, g0 b <= g1 b) ->
  forall j s g, SInv p g1 il1 j s g -> exists g', SInv p g1 il1 (j + m) (fold_left (kstore t p (nth p gl 0)) (seq j m) s) g'.
Proof.
  intros Hp Hs Hb HM. induction m as [|m IH]; intros j s g SI; [exists g; rewrite Nat.add_0_r; exact SI|].
  cbn [seq fold_left]. destruct (kstore_inv p g1 il1 j s g Hp Hs Hb HM SI) as (g' & SI').
  replace (j + S m) with (S j + m) by lia. apply (IH (S j) _ g'). exact SI'.
Qed.

Lemma kprog_inv D fl oc sl il g p : ~ In p D -> p < n -> (forall p', In p' D -> p' < n) -> KI D fl oc sl il g ->
  exists fl' oc' sl' il' g', kprog t sb gs gl ((fl, oc), (sl, il)) p = ((fl', oc'), (sl', il')) /\ KI (p :: D) fl' oc' sl' il' g'.
Proof.
  intros HN Hp HD K. unfold kprog. set (b := nth p sb 0).
  destruct (nth p gs false) eqn:EG; cbn [andb]; [destruct (Nat.ltb_spec b (cap t)) as [Hb|Hb]|].
  - (* a group owner *)
    pose proof (gcap g _ b (k_claims _ _ _ _ _ _ K) Hb) as Hgb.
    assert (forall p', In p' D -> nth p' gs false = true -> nth p' sb 0 <> b) as HDn.
    { intros p' Hp' EG' E. specialize (HD p' Hp').
      pose proof (proj1 (group_start_spec Nat.eqb 0 Nat.eqb_eq sb p (sorted_nat_contiguous sb SSB) ltac:(lia)) EG) as F1.
      pose proof (proj1 (group_start_spec Nat.eqb 0 Nat.eqb_eq sb p' (sorted_nat_contiguous sb SSB) ltac:(lia)) EG') as F2.
      destruct (Nat.lt_trichotomy p p') as [Hlt|[->|Hlt]]; [|contradiction|].
      - apply (F2 p Hlt). symmetry. exact E.
      - apply (F1 p' Hlt). exact E. }
    pose proof (group_len_run sb p SSB ltac:(lia) EG) as HR. fold gl b in HR.
    assert (SInv p g il 0 (Nat.min (nth b fl 0) (bsz t), sl, il) g) as S0.
    { unfold SInv. fold b. split; [apply K|]. split; [apply K|]. split; [apply K|]. rewrite (k_fl _ _ _ _ _ _ K b Hb).
      split; [lia|]. split; [auto|]. split; [auto|]. split; [lia|]. split.
      - intros o _ Ho. destruct (Nat.lt_ge_cases (p + o) n) as [Hlt|Hge].
        + apply (k_new _ _ _ _ _ _ K); [exact Hlt|]. intros p' Hp' EG'. rewrite (proj2 (HR (p + o) ltac:(lia))) by lia. apply HDn; assumption.
        + apply nth_overflow. rewrite (k_lil _ _ _ _ _ _ K). exact Hge.
      - split; [auto|]. right. left. lia. }
    destruct (kstore_fold p g il (bsz t) Hp EG Hb (k_mono _ _ _ _ _ _ K) 0 _ g S0) as (g' & S1).
    change (seq 0 (bsz t)) with (seq 0 (bsz t)) in S1.
    destruct (fold_left (kstore t p (nth p gl 0)) (seq 0 (bsz t)) (Nat.min (nth b fl 0) (bsz t), sl, il)) as [[f sl'] il'] eqn:EF.
    unfold SInv in S1. fold b in S1. destruct S1 as (C & L1 & L2 & Ef & Eo & Em & A & B & Ot & Pg).
    pose proof (gcap g' _ b C Hb) as Hgb'.
    exists (upd fl b f), (upd oc b (if bsz t <=? f then full_mask (bsz t) else (N.shiftl 1 (N.of_nat f) - 1)%N)), sl', il', g'.
    split; [reflexivity|]. constructor; auto.
    + rewrite upd_length. apply K.
    + rewrite upd_length. apply K.
    + intros b' Hb'. destruct (Nat.eq_dec b b') as [<-|Hne].
      * rewrite nth_upd_eq by (rewrite (k_lfl _ _ _ _ _ _ K), (wf_fill_len _ _ W); lia). exact Ef.
      * rewrite nth_upd_neq by exact Hne. rewrite (k_fl _ _ _ _ _ _ K b' Hb'). symmetry. apply Eo. auto.
    + intros b' Hb'. destruct (Nat.eq_dec b b') as [<-|Hne].
      * rewrite nth_upd_eq by (rewrite (k_loc _ _ _ _ _ _ K), (wf_occ_len _ _ W); lia). rewrite <- Ef.
        destruct (Nat.leb_spec (bsz t) f) as [Hfull|_]; [|apply shl1_ones]. rewrite full_mask_ones by exact H32. f_equal. lia.
      * rewrite nth_upd_neq by exact Hne. rewrite (k_oc _ _ _ _ _ _ K b' Hb'). rewrite Eo by auto. reflexivity.
    + intros b'. specialize (Em b'). pose proof (k_mono _ _ _ _ _ _ K b'). lia.
    + intros q Hq HX. rewrite Ot by (auto; intros E; apply (HX p (or_introl eq_refl) EG); unfold b in E; congruence).
      apply (k_new _ _ _ _ _ _ K); [exact Hq|]. intros p' Hp'. apply HX. right. exact Hp'.
    + intros p' q HI Hp' EG' Hb' Hq E.
      destruct (Nat.eq_dec (nth p' sb 0) b) as [Eb|Hne].
      * rewrite Eb in *. apply HR in E; [|lia]. cbn [Nat.add] in *. rewrite Ef in *.
        assert (q - p < nth p gl 0) as Hl by lia. replace q with (p + (q - p)) by lia.
        destruct (Nat.lt_ge_cases (q - p) (bsz t)) as [Hlt|Hge]; [apply A; assumption|]. right. lia.
      * destruct HI as [->|HI]; [contradiction|]. rewrite Ot by (auto; congruence). rewrite Eo by exact Hne.
        apply (k_old _ _ _ _ _ _ K p' q); assumption.
  - (* the sentinel group *)
    exists fl, oc, sl, il, g. split; [reflexivity|]. constructor; try apply K.
    + intros q Hq HX. apply (k_new _ _ _ _ _ _ K); [exact Hq|]. intros p' Hp'. apply HX. right. exact Hp'.
    + intros p' q [<-|HI]; [fold b; lia|]. apply (k_old _ _ _ _ _ _ K p' q HI).
  - exists fl, oc, sl, il, g. split; [reflexivity|]. constructor; try apply K.
    + intros q Hq HX. apply (k_new _ _ _ _ _ _ K); [exact Hq|]. intros p' Hp'. apply HX. right. exact Hp'.
    + intros p' q [<-|HI] Hp'; [congruence|]. apply (k_old _ _ _ _ _ _ K p' q HI Hp').
Qed.
Lemma kernel_inv ps : forall D fl oc sl il g, NoDup (D ++ ps) -> (forall p, In p (D ++ ps) -> p < n) -> KI D fl oc sl il g ->
  exists fl' oc' sl' il' g' D', fold_left (kprog t sb gs gl) ps ((fl, oc), (sl, il)) = ((fl', oc'), (sl', il')) /\
    KI D' fl' oc' sl' il' g' /\ forall p, In p ps -> In p D'.
Proof.
  assert (forall ps D fl oc sl il g, NoDup (D ++ ps) -> (forall p, In p (D ++ ps) -> p < n) -> KI D fl oc sl il g ->
    exists fl' oc' sl' il' g' D', fold_left (kprog t sb gs gl) ps ((fl, oc), (sl, il)) = ((fl', oc'), (sl', il')) /\
    KI D' fl' oc' sl' il' g' /\ forall p, In p (D ++ ps) -> In p D') as H.
  { clear ps. induction ps as [|p ps IH]; intros D fl oc sl il g ND HB K.
    - exists fl, oc, sl, il, g, D. split; [reflexivity|]. split; [exact K|]. intros p. rewrite app_nil_r. auto.
    - cbn [fold_left]. destruct (kprog_inv D fl oc sl il g p) as (fl' & oc' & sl' & il' & g' & E & K'); auto.
      + intros HI. apply NoDup_remove_2 in ND. apply ND. apply in_or_app. left. exact HI.
      + apply HB, in_or_app. right. left. reflexivity.
      + intros p' Hp'. apply HB, in_or_app. left. exact Hp'.
      + rewrite E. destruct (IH (p :: D) fl' oc' sl' il' g') as (fl2 & oc2 & sl2 & il2 & g2 & D2 & E2 & K2 & H2).
        * cbn [app]. constructor; [apply NoDup_remove_2 in ND; exact ND|]. apply NoDup_remove_1 in ND. exact ND.
        * intros p' Hp'. apply HB. cbn [app] in Hp'. destruct Hp' as [<-|Hp']; [apply in_or_app; right; left; reflexivity|].
          apply in_app_or in Hp'. apply in_or_app. destruct Hp'; [left|right; right]; assumption.
        * exact K'.
        * exists fl2, oc2, sl2, il2, g2, D2. split; [exact E2|]. split; [exact K2|]. intros p' Hp'. apply H2. cbn [app].
          apply in_app_or in Hp'. destruct Hp' as [Hp'|[<-|Hp']]; [right; apply in_or_app|left|right; apply in_or_app]; auto. }
  intros D fl oc sl il g ND HB K. destruct (H ps D fl oc sl il g ND HB K) as (a & b & c & e & f & D' & E & K' & HI).
  exists a, b, c, e, f, D'. split; [exact E|]. split; [exact K'|]. intros p Hp. apply HI, in_or_app. right. exact Hp.
Qed.
Lemma kernel_start : KI [] fl0 oc0 (repeat 0 n) (repeat false n) g0.
Proof.
  constructor; try (apply repeat_length); try apply P; auto.
  - pose proof (p_claims _ _ _ _ _ P) as C.
    replace (rk (repeat 0 n) (repeat false n)) with (map resq st); [exact C|].
    apply (nth_ext _ _ dres dres); [unfold rk; rewrite !map_length, seq_length; apply st_len|]. rewrite map_length, st_len. intros i Hi.
    destruct (si_onto i Hi) as (p & Hp & <-). rewrite rk_at by (try apply repeat_length; exact Hp). rewrite nth_repeat, andb_false_r.
    apply (map_nth_lt resq st _ dps dres). rewrite st_len. exact Hi.
  - intros q _ _. apply nth_repeat.
Qed.
Lemma round_inv : exists fl oc st' g, pbody d hp t rows order ((fl0, oc0), st, r) = ((fl, oc), st', S r) /\ PI fl oc st' (S r) g.
Proof.
  unfold pbody. fold sb si gs gl.
  destruct (kernel_inv (order r) [] fl0 oc0 (repeat 0 n) (repeat false n) g0) as (fl & oc & sl & il & g & D & E & K & HD).
  - cbn [app]. eapply Permutation_NoDup; [apply Permutation_sym, HO|apply seq_NoDup].
  - cbn [app]. intros p Hp. apply (Permutation_in _ (HO r)) in Hp. apply in_seq in Hp. lia.
  - apply kernel_start.
  - unfold sb, si, gs, gl in E |- *. rewrite E. fold sb si gs gl.
    eexists fl, oc, _, g. split; [reflexivity|].
    assert (forall p, p < n -> forall i, i = nth p si 0 -> nth i (scatter false n si il) false = nth p il false) as HI.
    { intros p Hp i ->. apply scatter_at; auto; try apply K. apply ISI. }
    constructor; try apply K.
    + replace (map resq _) with (rk sl il); [apply K|]. rewrite map_map. unfold rk. apply map_ext_in. intros i Hi. apply in_seq in Hi.
      unfold resq. cbn [qins qb qs]. destruct (qpend (nth i st dps)) eqn:EQ; cbn [andb].
      * destruct (p_pend _ _ _ _ _ P i ltac:(lia) EQ) as (_ & NI & _). rewrite NI. cbn [orb].
        destruct (nth i (scatter false n si il) false); reflexivity.
      * rewrite orb_false_r. reflexivity.
    + intros i Hi. rewrite nth_map_seq by exact Hi. cbn [qpend qins qcur]. intros HQ. rewrite HQ.
      apply andb_true_iff in HQ. destruct HQ as [HQ NIn]. apply negb_true_iff in NIn. rewrite HQ, NIn. cbn [andb]. rewrite orb_false_r.
      destruct (p_pend _ _ _ _ _ P i Hi HQ) as (U & NI & j & Hj & EC & HF). split; [exact U|]. split; [exact NI|].
      exists (S j). split; [lia|]. rewrite EC. split; [symmetry; apply (probe_S hp (cap t) k HC ltac:(lia))|].
      assert (forall b, b < cap t -> g0 b = bsz t -> g b = bsz t) as HM.
      { intros b Hb Eb. pose proof (k_mono _ _ _ _ _ _ K b). pose proof (gcap g _ b (k_claims _ _ _ _ _ _ K) Hb). lia. }
      intros j' Hj'. destruct (Nat.eq_dec j' j) as [->|]; [|apply HM; [apply prl|apply HF; lia]].
      destruct (si_onto i Hi) as (q & Hq & Eq). rewrite (HI q Hq i (eq_sym Eq)) in NIn.
      assert (nth q sb 0 = pr (ix (rw i)) j) as Eb. { rewrite KSB by exact Hq. rewrite Eq. unfold keyof. rewrite HQ. exact EC. }
      (* the owner of its group *)
      assert (exists p, p < n /\ nth p gs false = true /\ nth p sb 0 = nth q sb 0) as (p & Hp & EG & Ep).
      { assert (exists p, p <= q /\ nth p sb 0 = nth q sb 0 /\ forall q', q' < p -> nth q' sb 0 <> nth p sb 0) as (p & Hp & Ep & HFst).
        { clear - q. assert (forall m, m <= q -> nth m sb 0 = nth q sb 0 -> exists p, p <= q /\ nth p sb 0 = nth q sb 0 /\ forall q', q' < p -> nth q' sb 0 <> nth p sb 0) as HX.
          { induction m as [m IHm] using lt_wf_ind. intros Hm Em.
            destruct (existsb (fun q' => nth q' sb 0 =? nth m sb 0) (seq 0 m)) eqn:EX.
            - apply existsb_exists in EX. destruct EX as (q' & HI & E). apply in_seq in HI. apply Nat.eqb_eq in E. apply (IHm q'); [lia|lia|congruence].
            - exists m. split; [exact Hm|]. split; [exact Em|]. intros q' Hq' E.
              assert (existsb (fun q' => nth q' sb 0 =? nth m sb 0) (seq 0 m) = true); [|congruence].
              apply existsb_exists. exists q'. split; [apply in_seq; lia|apply Nat.eqb_eq; exact E]. }
          apply (HX q (le_n q) eq_refl). }
        exists p. split; [lia|]. split; [|exact Ep].
        apply (group_start_spec Nat.eqb 0 Nat.eqb_eq sb p (sorted_nat_contiguous sb SSB) ltac:(lia)). exact HFst. }
      destruct (k_old _ _ _ _ _ _ K p q) as [HT|HT].
      * apply HD. eapply Permutation_in; [apply Permutation_sym, HO|]. apply in_seq. lia.
      * exact Hp.
      * exact EG.
      * rewrite Ep, Eb. apply prl.
      * exact Hq.
      * auto.
      * congruence.
      * rewrite <- HT. f_equal. congruence.
    + intros i Hi U. rewrite nth_map_seq by exact Hi. cbn [qpend qins]. intros HQ.
      destruct (qpend (nth i st dps)) eqn:EQ; cbn [andb] in *.
      * apply negb_false_iff in HQ. rewrite HQ. apply orb_true_r.
      * rewrite (p_done _ _ _ _ _ P i Hi U EQ). reflexivity.
Qed.
End Round.

Lemma init_PI : PI (fill t) (occ t) (map (fun x => MkPS (ib x) (ib x) 0 false (iupd x)) rows) 0 (fillOf t).
Proof.
  assert (forall i, i < n -> nth i (map (fun x : irow => MkPS (ib x) (ib x) 0 false (iupd x)) rows) dps = MkPS (ib (rw i)) (ib (rw i)) 0 false (iupd (rw i))) as HN.
  { intros i Hi. rewrite (map_nth_lt (fun x : irow => MkPS (ib x) (ib x) 0 false (iupd x)) rows i (dr d) dps) by exact Hi. reflexivity. }
  constructor; auto.
  - apply claims_init; [exact V|rewrite !map_length; reflexivity|]. intros i Hi. rewrite (map_nth_lt resq _ i dps dres) by (rewrite map_length; exact Hi).
    rewrite HN by exact Hi. reflexivity.
  - intros b Hb. apply (i_occ _ _ _ _ V H32 b Hb).
  - intros i Hi. rewrite HN by exact Hi. cbn [qpend qins qcur]. intros U. split; [exact U|]. split; [reflexivity|].
    destruct HS as (_ & _ & _ & H). destruct (H i Hi U) as (j & E & HF). exists j. split; [lia|]. auto.
  - intros i Hi U. rewrite HN by exact Hi. cbn [qpend]. congruence.
Qed.

Theorem pallas_spec : exists t' res, pallas d hp t rows maxb order = Some (t', res) /\ backend_ok d hp k t rows t' res /\
  (forall i, i < n -> iupd (rw i) = true -> fst (nth i res dres) = false -> cap t <= maxb -> total t' = cap t * bsz t).
Proof.
  unfold pallas, preserve.
  destruct (while_total (fun s => exists g, PI (fst (fst (fst s))) (snd (fst (fst s))) (snd (fst s)) (snd s) g) (fun s => maxb - snd s)
              (pcond maxb) (pbody d hp t rows order)) with (fuel := S maxb) (s := pinit t rows) as (s' & EW & (g & P) & HCond).
  - intros [[[fl oc] st] r] [g P] HCo. cbn [fst snd] in *. destruct (round_inv fl oc st r g P) as (fl' & oc' & st' & g' & E & P').
    rewrite E. cbn [fst snd]. split; [exists g'; exact P'|]. unfold pcond in HCo. lia.
  - exists (fillOf t). apply init_PI.
  - cbn [pinit snd]. lia.
  - rewrite EW. destruct s' as [[[fl oc] st] r]. cbn [fst snd] in *.
    pose proof (p_claims _ _ _ _ _ P) as C. change (map (fun s => (qins s, (qb s, qs s))) st) with (map resq st).
    set (res := map resq st) in *. pose proof (c_len _ _ _ _ _ _ _ C) as HL.
    eexists _, res. split; [reflexivity|].
    pose proof (ok_places rows res HL) as EP.
    assert (backend_ok d hp k t rows {| cap := cap t; bsz := bsz t; maxp := maxp t;
       size := w32 (size t + N.of_nat (length (filter (fun p : irow * bres => fst (snd p)) (combine rows res))));
       tab := fold_left (fun a p => upd a (fst (snd (snd p)) * bsz t + snd (snd (snd p))) (ix (fst p))) (filter (fun p : irow * bres => fst (snd p)) (combine rows res)) (tab t);
       fill := fl; occ := oc;
       fps := fold_left (fun a p => upd a (fst (snd (snd p)) * bsz t + snd (snd (snd p))) (fp_of hp (ix (fst p)))) (filter (fun p : irow * bres => fst (snd p)) (combine rows res)) (fps t) |} res) as BO.
    { apply (claims_placed d hp k t rows V g res); auto; cbn [cap bsz maxp tab fps size fill occ].
      - rewrite EP. unfold write_places. cbn [tab].
        apply (fold_map_upd (fun p : irow * bres => (ix (fst p), snd (snd p))) (fun a p => upd a (flat_of (bsz t) p) (fst p))).
      - rewrite EP. unfold write_places. cbn [fps].
        apply (fold_map_upd (fun p : irow * bres => (ix (fst p), snd (snd p))) (fun a p => upd a (flat_of (bsz t) p) (fp_of hp (fst p)))).
      - rewrite EP, map_length. reflexivity.
      - apply P.
      - apply P.
      - intros b Hb. apply (p_fl _ _ _ _ _ P b Hb).
      - intros b Hb. apply (p_oc _ _ _ _ _ P b Hb). }
    split; [exact BO|]. intros i Hi U NI HM.
    assert (length st = n) as HLs by (unfold res in HL; rewrite map_length in HL; exact HL).
    unfold res in NI. rewrite (map_nth_lt resq st i dps dres) in NI by lia. cbn [resq fst] in NI.
    destruct (qpend (nth i st dps)) eqn:EQ; [|rewrite (p_done _ _ _ _ _ P i Hi U EQ) in NI; discriminate].
    assert (existsb qpend st = true) as EX by (apply existsb_exists; exists (nth i st dps); split; [apply nth_In; lia|exact EQ]).
    unfold pcond in HCond. rewrite EX in HCond. cbn [andb] in HCond. apply Nat.ltb_ge in HCond.
    destruct (p_pend _ _ _ _ _ P i Hi EQ) as (_ & _ & j & Hj & _ & HF).
    pose proof (bo_placed _ _ _ _ _ _ _ BO) as PL.
    match type of PL with placed _ _ _ ?T _ => set (t' := T) in * end.
    change (cap t) with (cap t'). change (bsz t) with (bsz t'). apply (total_full d hp).
    intros q Hq. change (cap t') with (cap t) in Hq. change (bsz t') with (bsz t).
    change (fillOf t' q) with (nth q fl 0). rewrite (p_fl _ _ _ _ _ P q Hq).
    destruct (probe_onto hp (cap t) k HC ltac:(lia) (ix (rw i)) q Hq) as (j' & Hj' & <-). apply HF. lia.
Qed.
End T.
