(** * ResolveProofs.v — slot-conflict resolution picks the lowest batch index per slot. *)
From Verif Require Import Jax HashModel HashProofs StableSort TableModel.

Lemma sorted_N_contiguous (l : list N) : StronglySorted (fun a b => (a <= b)%N) l -> contiguous 0%N l.
Proof.
  intros S p q r Hpq Hqr Hr E.
  pose proof (StronglySorted_nth _ 0%N l S p q Hpq ltac:(lia)).
  pose proof (StronglySorted_nth _ 0%N l S q r Hqr Hr). cbn beta in *. lia.
Qed.
Lemma combine_nth_seq {A} (l : list A) (dd : A) n p : length l = n -> p < n ->
  nth p (combine l (seq 0 n)) (dd, 0) = (nth p l dd, p).
Proof. intros HL Hp. rewrite combine_nth by (rewrite seq_length; exact HL). rewrite seq_nth by exact Hp. reflexivity. Qed.
Lemma map_fst_combine {A B} (a : list A) (b : list B) : length a = length b -> map fst (combine a b) = a.
Proof. revert b; induction a as [|x a IH]; intros [|y b] E; cbn in *; try discriminate; [reflexivity|]. f_equal. apply IH. lia. Qed.
Lemma map_snd_combine {A B} (a : list A) (b : list B) : length a = length b -> map snd (combine a b) = b.
Proof. revert b; induction a as [|x a IH]; intros [|y b] E; cbn in *; try discriminate; [reflexivity|]. f_equal. apply IH. lia. Qed.

Lemma resolve_length flats active : length (resolve flats active) = length flats.
Proof.
  unfold resolve. set (L := combine _ _).
  assert (forall (l : list (N * nat * bool)) init, length (fold_left (fun acc r => upd acc (snd (fst r)) (snd r && negb (fst (fst r) =? sentinel)%N)) l init) = length init) as H.
  { induction l as [|a l IH]; intros init; cbn [fold_left]; [reflexivity|]. rewrite IH. apply upd_length. }
  rewrite H. apply repeat_length.
Qed.

Lemma resolve_spec flats active : length flats = length active ->
  (forall i, In i flats -> (N.of_nat i < sentinel)%N) ->
  forall i, i < length flats ->
  (nth i (resolve flats active) false = true <->
   nth i active false = true /\
   forall j, j < i -> nth j active false = true -> nth j flats 0 <> nth i flats 0).
Proof.
  intros HL HS i Hi. unfold resolve.
  set (n := length flats) in *.
  set (keyf := fun p : nat * bool => if snd p then N.of_nat (fst p) else sentinel).
  set (keys := map keyf (combine flats active)).
  assert (length keys = n) as HK by (unfold keys; rewrite map_length, combine_length; lia).
  assert (forall j, j < n -> nth j keys 0%N = if nth j active false then N.of_nat (nth j flats 0) else sentinel) as Hkey.
  { intros j Hj. unfold keys. rewrite (nth_indep _ 0%N (keyf (0, false))) by (fold keys; lia).
    rewrite map_nth, combine_nth by exact HL. reflexivity. }
  set (kv := combine keys (seq 0 n)).
  set (lebp := fun p q : N * nat => (fst p <=? fst q)%N).
  set (L := isort lebp kv).
  assert (Permutation L kv) as HP by apply isort_perm.
  assert (length kv = n) as Hkv by (unfold kv; rewrite combine_length, seq_length; lia).
  assert (length L = n) as HLn by (rewrite (Permutation_length HP); exact Hkv).
  assert (StronglySorted (lexle lebp (fun p q => snd p < snd q)) L) as Hsort.
  { apply isort_stable.
    - unfold lebp. intros a b c Hab Hbc. lia.
    - unfold lebp. intros a b Hab. lia.
    - apply (StronglySorted_map_nth _ (0%N, 0)). intros p q Hpq Hq. unfold kv. rewrite !combine_nth_seq by (auto; lia). cbn. exact Hpq. }
  assert (StronglySorted (fun a b => (a <= b)%N) (map fst L)) as HsN.
  { apply (StronglySorted_map_nth _ 0%N). intros p q Hpq Hq. rewrite map_length in Hq.
    rewrite !(map_nth fst L (0%N, 0)).
    pose proof (StronglySorted_nth _ (0%N, 0) L Hsort p q Hpq Hq) as [H _]. unfold lebp in H. lia. }
  set (starts := group_start N.eqb (map fst L)).
  assert (length starts = n) as Hst by (unfold starts; rewrite group_start_length, map_length; exact HLn).
  assert (NoDup (map (fun r : N * nat * bool => snd (fst r)) (combine L starts))) as HND.
  { replace (map (fun r : N * nat * bool => snd (fst r)) (combine L starts)) with (map snd (map fst (combine L starts))) by (rewrite map_map; reflexivity).
    rewrite map_fst_combine by lia. eapply Permutation_NoDup; [apply Permutation_map, Permutation_sym, HP|].
    unfold kv. rewrite map_snd_combine by (rewrite seq_length; lia). apply seq_NoDup. }
  assert (forall p, p < n -> exists i', i' < n /\ nth p L (0%N, 0) = (nth i' keys 0%N, i')) as Hel.
  { intros p Hp. assert (In (nth p L (0%N, 0)) kv) as HI by (eapply Permutation_in; [exact HP|apply nth_In; lia]).
    apply (In_nth _ _ (0%N, 0)) in HI. destruct HI as (i' & Hi' & E). rewrite Hkv in Hi'. exists i'. split; [exact Hi'|].
    rewrite <- E. apply combine_nth_seq; assumption. }
  assert (forall i', i' < n -> exists p, p < n /\ nth p L (0%N, 0) = (nth i' keys 0%N, i')) as Hpos.
  { intros i' Hi'. assert (In (nth i' keys 0%N, i') L) as HI.
    { eapply Permutation_in; [apply Permutation_sym, HP|]. unfold kv. rewrite <- (combine_nth_seq keys 0%N n i') by assumption.
      apply nth_In. fold kv. lia. }
    apply (In_nth _ _ (0%N, 0)) in HI. destruct HI as (p & Hp & E). exists p. split; [lia|exact E]. }
  destruct (scatter_nth (fun r : N * nat * bool => snd (fst r)) (fun r => snd r && negb (fst (fst r) =? sentinel)%N) false
              (combine L starts) (repeat false n) HND) as (Hsc & _ & _).
  destruct (Hpos i Hi) as (p & Hp & Ep).
  assert (In (nth i keys 0%N, i, nth p starts false) (combine L starts)) as Hin.
  { rewrite <- Ep, <- (combine_nth L starts p (0%N, 0) false) by (rewrite Hst; exact HLn). apply nth_In. rewrite combine_length, HLn, Hst. lia. }
  specialize (Hsc _ Hin). cbn [fst snd] in Hsc. rewrite Hsc by (rewrite repeat_length; exact Hi). clear Hsc.
  rewrite andb_true_iff, negb_true_iff, N.eqb_neq.
  unfold starts. rewrite (group_start_spec N.eqb 0%N N.eqb_eq) by (try apply sorted_N_contiguous; try exact HsN; rewrite map_length; lia).
  assert (forall q, nth q (map fst L) 0%N = fst (nth q L (0%N, 0))) as Hf by (intros q; apply (map_nth fst L (0%N, 0))).
  rewrite Hf, Ep. cbn [fst].
  assert (forall j, j < n -> nth j active false = true -> (N.of_nat (nth j flats 0%nat) < sentinel)%N) as Hlt.
  { intros j Hj _. apply HS. apply nth_In. exact Hj. }
  split.
  - intros [Hfirst Hne]. rewrite Hkey in Hne by exact Hi.
    destruct (nth i active false) eqn:EA; [|congruence]. split; [reflexivity|].
    intros j Hj HA E. destruct (Hpos j ltac:(lia)) as (q & Hq & Eq).
    assert (nth j keys 0%N = nth i keys 0%N) as EK by (rewrite !Hkey, HA, EA, E by lia; reflexivity).
    destruct (Nat.lt_trichotomy q p) as [Hqp|[->|Hqp]].
    + apply (Hfirst q Hqp). rewrite Hf, Eq. exact EK.
    + rewrite Ep in Eq. injection Eq. intros. lia.
    + pose proof (StronglySorted_nth _ (0%N, 0) L Hsort p q Hqp ltac:(lia)) as [_ Hlex].
      rewrite Ep, Eq in Hlex. unfold lebp in Hlex. cbn [fst snd] in Hlex.
      specialize (Hlex ltac:(apply N.leb_le; rewrite EK; reflexivity)). lia.
  - intros [HA Hno]. assert (nth i keys 0%N = N.of_nat (nth i flats 0)) as EK by (rewrite Hkey, HA by exact Hi; reflexivity).
    split; [|rewrite EK; specialize (Hlt i Hi HA); lia].
    intros q Hq E. rewrite Hf in E. destruct (Hel q ltac:(lia)) as (j & Hj & Eq). rewrite Eq in E. cbn [fst] in E.
    pose proof (StronglySorted_nth _ (0%N, 0) L Hsort q p Hq ltac:(lia)) as [_ Hlex].
    rewrite Ep, Eq in Hlex. unfold lebp in Hlex. cbn [fst snd] in Hlex.
    specialize (Hlex ltac:(apply N.leb_le; rewrite E; reflexivity)).
    assert (nth j active false = true) as HAj.
    { rewrite Hkey in E by exact Hj. destruct (nth j active false); [reflexivity|].
      specialize (Hlt i Hi HA). rewrite EK in E. rewrite <- E in Hlt. lia. }
    apply (Hno j Hlex HAj). rewrite !Hkey, HA, HAj in E by lia. lia.
Qed.
