(** * PropTableWide.v — C31: a bucket that reaches 256 items becomes invisible, for every
      stored type, hash function and choice of 256 distinct items. *)
From Verif Require Import Jax KeyModel HashModel HashProofs StableSort TableModel ProbeProofs TableLookup DedupeModel DedupeSpec ParInsertModel TritonModel PallasModel TableSpec.

Lemma u8_lt n : n < 256 -> u8 n = n. Proof. intros H. apply Nat.mod_small. exact H. Qed.
Lemma u8_seq n : n <= 256 -> map u8 (seq 0 n) = seq 0 n.
Proof.
  intros H. rewrite <- (map_id (seq 0 n)) at 2. apply map_ext_in. intros a Ha. apply in_seq in Ha. apply u8_lt. lia.
Qed.
Lemma nth_mapseq {B} (f : nat -> B) n i dd : i < n -> nth i (map f (seq 0 n)) dd = f i.
Proof.
  intros H. rewrite (nth_indep _ dd (f 0)) by (rewrite map_length, seq_length; exact H).
  rewrite map_nth, seq_nth by exact H. reflexivity.
Qed.
Lemma zip_mapseq {B} (f : nat -> B) n o : combine (map f (seq o n)) (seq o n) = map (fun i => (f i, i)) (seq o n).
Proof. revert o; induction n as [|n IH]; intros o; [reflexivity|]. cbn [seq map combine]. f_equal. apply IH. Qed.

Section W.
Context {item : Type} (T : dataclass item) (C : settings).
Notation table := (@table item).
Notation d := (dc_default T).
Notation hp := (hash_pair T).
Implicit Types (t : table) (x : item).

Lemma scan_none t x fp b : bsz t <= 256 ->
  (forall o, o < u8 (fillOf t b) -> tabAt d t (b * bsz t + o) <> x) -> fst (scan (dc_eqb T) d t x fp true b) = false.
Proof.
  intros HB HN. unfold scan. rewrite u8_seq by exact HB. cbn [andb]. rewrite zip_mapseq, map_map. cbn [fst snd]. rewrite zip_mapseq, map_map. cbn [fst snd].
  set (L := u8 (fillOf t b)) in *. set (g := fun o => (o <? L) && (fpAt t (b * bsz t + o) =? fp)%N).
  assert (forall o, g o = true -> dc_eqb T (tabAt d t (b * bsz t + o)) x = false) as HG.
  { intros o HO. apply andb_prop in HO. destruct HO as [HO _]. apply Nat.ltb_lt in HO.
    destruct (dc_eqb T _ x) eqn:E; [|reflexivity]. apply (dc_eq T) in E. exfalso. apply (HN o HO E). }
  set (a := argmax (map g (seq 0 (bsz t)))).
  assert (any (map g (seq 0 (bsz t))) && dc_eqb T (tabAt d t (b * bsz t + u8 a)) x = false) as EF.
  { destruct (any (map g (seq 0 (bsz t)))) eqn:EA; [|reflexivity]. cbn [andb]. apply argmax_spec in EA. fold a in EA. destruct EA as [A1 A2].
    rewrite map_length, seq_length in A1. rewrite nth_mapseq in A2 by exact A1. rewrite u8_lt by lia. apply HG. exact A2. }
  rewrite EF. cbn [fst orb negb andb]. match goal with |- fst (if ?c then _ else _) = _ => destruct c end; [|reflexivity]. cbn [fst].
  match goal with |- ?c = _ => destruct c eqn:ES end; [|reflexivity]. exfalso. unfold any in ES. apply existsb_exists in ES. destruct ES as (v & HV & ->).
  apply in_map_iff in HV. destruct HV as (o & HV & _). apply andb_prop in HV. destruct HV as [HV HX]. apply andb_prop in HV. destruct HV as [HV _].
  fold (g o) in HV. rewrite (HG o HV) in HX. discriminate.
Qed.

(** one bucket of 256 slots holding the items [done] *)
Record one_bucket (done : list item) (t : table) : Prop := {
  ob_cap : cap t = 1; ob_bsz : bsz t = 256; ob_maxp : maxp t = 256%N; ob_fill : fillOf t 0 = length done;
  ob_size : size t = N.of_nat (length done); ob_tab : length (tab t) = 512; ob_fl : length (fill t) = 2;
  ob_items : forall s, s < length done -> tabAt d t s = nth s done d }.
Lemma start_cap1 x : start_of hp 1 x = 0.
Proof. unfold start_of, mask_of. change (N.of_nat 1 - 1)%N with 0%N. rewrite N.land_0_r. reflexivity. Qed.
Lemma lookup_stops t x : cap t = 1 -> (0 < maxp t)%N -> fst (scan (dc_eqb T) d t x (fp_of hp x) true 0) = false -> u8 (fillOf t 0) <> bsz t ->
  lookup_bucket (dc_eqb T) d hp t x = Some (0, u8 (fillOf t 0), false).
Proof.
  intros HC HM HS HF. unfold lookup_bucket. rewrite HC, start_cap1. cbn [while].
  unfold lk_cond at 1. cbn [negb andb]. destruct (N.ltb_spec 0 (maxp t)) as [_|HX]; [|lia].
  destruct (N.to_nat (maxp t)) as [|m] eqn:EM; [lia|].
  unfold lk_body at 2. destruct (scan _ _ _ _ _ _ _) as [fnd ms]. cbn [fst] in HS. subst fnd.
  destruct (Nat.eqb_spec (u8 (fillOf t 0)) (bsz t)) as [|_]; [contradiction|]. cbn [negb orb].
  cbn [while]. unfold lk_cond at 1. cbn [negb andb]. rewrite N.ltb_irrefl. reflexivity.
Qed.
Lemma one_step done t x : one_bucket done t -> length done < 256 -> ~ In x done ->
  exists t', Insert T t x = Some (t', true, length done) /\ one_bucket (done ++ [x]) t'.
Proof.
  intros [H1 H2 H3 H4 H5 H6 H7 H8] HL HN. unfold Insert, insert.
  rewrite lookup_stops; [|exact H1|rewrite H3; reflexivity| |rewrite H4, u8_lt by lia; lia].
  - rewrite H4, u8_lt by lia. cbn [negb andb]. rewrite Nat.leb_refl. cbn [Nat.mul]. rewrite Nat.add_0_l. eexists. split; [reflexivity|].
    unfold write. rewrite Nat.mul_0_l, Nat.add_0_l. constructor; cbn [cap bsz maxp size tab fill]; auto.
    + unfold fillOf. cbn [fill]. rewrite nth_upd_eq by lia. fold (fillOf t 0). rewrite H4, app_length. cbn. lia.
    + rewrite H5, app_length. cbn [length]. unfold w32, W32. rewrite N.mod_small; [lia|]. apply (N.lt_trans _ 512); [lia|reflexivity].
    + rewrite upd_length. exact H6.
    + rewrite upd_length. exact H7.
    + rewrite app_length. cbn [length]. intros s Hs. unfold tabAt. cbn [tab]. destruct (Nat.eq_dec s (length done)) as [->|Hne].
      * rewrite nth_upd_eq by lia. rewrite app_nth2, Nat.sub_diag by lia. reflexivity.
      * rewrite nth_upd_neq by lia. rewrite app_nth1 by lia. apply H8. lia.
  - apply scan_none; [lia|]. rewrite H4, u8_lt by lia. intros o Ho. rewrite Nat.mul_0_l, Nat.add_0_l, H8 by exact Ho. intros <-. apply HN. apply nth_In. exact Ho.
Qed.
Lemma fill_up xs : forall done t, one_bucket done t -> length done + length xs <= 256 -> NoDup (done ++ xs) ->
  exists es t', run T C t es t' /\ one_bucket (done ++ xs) t' /\ count es = length xs /\ forall x, In x xs -> exists i, reported T es x i.
Proof.
  induction xs as [|x xs IH]; intros done t HO HL HD.
  - exists [], t. rewrite app_nil_r. split; [constructor|]. split; [exact HO|]. split; [reflexivity|]. intros x [].
  - cbn [length] in HL. destruct (one_step done t x HO ltac:(lia)) as (t1 & E1 & HO1).
    { apply NoDup_remove_2 in HD. intros H. apply HD. apply in_or_app. left. exact H. }
    destruct (IH (done ++ [x]) t1 HO1) as (es & t2 & HR & HO2 & HC & HI).
    { rewrite app_length. cbn. lia. }
    { rewrite <- app_assoc. exact HD. }
    rewrite <- app_assoc in HO2. cbn [app] in HO2.
    exists (EInsert x true (length done) :: es), t2. split; [econstructor; [apply op_insert; exact E1|exact HR]|].
    split; [exact HO2|]. split; [change (count (EInsert x true (length done) :: es)) with (1 + count es); cbn [length]; lia|].
    intros y [<-|Hy].
    + exists (length done), (EInsert x true (length done)). split; [left; reflexivity|]. cbn. auto.
    + destruct (HI y Hy) as (i & e & He & Hev). exists i, e. split; [right; exact He|exact Hev].
Qed.
(** 256 distinct items are inserted one by one into a table with room for exactly them:
    every insert reports success, [size] is 256, and afterwards none is found *)
Theorem C31_wide_bucket_invisible : forall xs, length xs = 256 -> NoDup xs ->
  exists es t, run T C (Build T 128 256 2 None) es t /\ count es = 256 /\ size t = 256%N /\ slots t = 256 /\
    forall x, (In x xs -> exists i, reported T es x i) /\ absent T t x.
Proof.
  intros xs HL HD. destruct (fill_up xs [] (Build T 128 256 2 None)) as (es & t & HR & [H1 H2 H3 H4 H5 H6 H7 H8] & HC & HI).
  - assert (cap (Build T 128 256 2 None) = 1) as HCap by reflexivity.
    constructor; try reflexivity. cbn [length]. lia.
  - cbn [length]. lia.
  - exact HD.
  - cbn [app] in *. exists es, t. split; [exact HR|]. split; [lia|]. split; [rewrite H5, HL; reflexivity|]. split; [unfold slots; rewrite H1, H2; reflexivity|].
    intros x. split; [apply HI|]. exists 0. unfold Lookup, lookup.
    assert (u8 (fillOf t 0) = 0) as HU by (rewrite H4, HL; reflexivity).
    rewrite lookup_stops; [rewrite HU; reflexivity|exact H1|rewrite H3; reflexivity| |rewrite HU, H2; discriminate].
    apply scan_none; [lia|]. rewrite HU. intros o Ho. lia.
Qed.
End W.
Print Assumptions C31_wide_bucket_invisible.
