(** * MergeProofs.v — all merge backends compute the stable merge. *)
From Verif Require Import Jax KeyModel SortProofs MergeModel.

Definition ksorted (l : list key) : Prop := StronglySorted KLe l.

Lemma ksorted_nth l : ksorted l -> forall i j d, i <= j -> j < length l -> kle (nth i l d) (nth j l d) = true.
Proof.
  unfold ksorted. induction 1 as [|x t H IH Hx]; intros i j d Hij Hj; simpl in *; [lia|].
  destruct i as [|i], j as [|j]; try lia; auto.
  - rewrite Forall_forall in Hx. apply Hx. apply nth_In. lia.
  - apply IH; lia.
Qed.

(** payload maps commute with the stable sort *)
Section MapPayload.
Context {W W' : Type} (f : W -> W').
Definition pm (p : key * W) : key * W' := (fst p, f (snd p)).
Lemma sinsert_map x l : sinsert (pm x) (map pm l) = map pm (sinsert x l).
Proof.
  induction l as [|y t IH]; simpl; [reflexivity|].
  destruct (kle (fst x) (fst y)); simpl; [reflexivity|]. f_equal. exact IH.
Qed.
Lemma ssort_map l : ssort (map pm l) = map pm (ssort l).
Proof. induction l as [|x t IH]; simpl; [reflexivity|]. rewrite IH. apply sinsert_map. Qed.
End MapPayload.

(** structural stable merge *)
Section SMerge.
Context {W : Type}.
Notation item := (key * W)%type.
Fixpoint smerge (l1 : list item) : list item -> list item :=
  match l1 with
  | [] => fun l2 => l2
  | x :: t1 => fix aux (l2 : list item) :=
      match l2 with
      | [] => x :: t1
      | y :: t2 => if kle (fst x) (fst y) then x :: smerge t1 (y :: t2) else y :: aux t2
      end
  end.
Lemma smerge_nil_r l : smerge l [] = l.
Proof. destruct l; reflexivity. Qed.
Lemma smerge_cons x t1 y t2 : smerge (x :: t1) (y :: t2) =
  if kle (fst x) (fst y) then x :: smerge t1 (y :: t2) else y :: smerge (x :: t1) t2.
Proof. reflexivity. Qed.

Lemma sinsert_hd x (l : list item) : (forall y t, l = y :: t -> kle (fst x) (fst y) = true) -> sinsert x l = x :: l.
Proof. destruct l as [|y t]; intros H; simpl; [reflexivity|]. rewrite (H y t eq_refl). reflexivity. Qed.

Lemma sinsert_smerge x (l1 l2 : list item) : sorted (x :: l1) -> sorted l2 ->
  sinsert x (smerge l1 l2) = smerge (x :: l1) l2.
Proof.
  intros H1; induction l2 as [|y l2 IH]; intros H2.
  - rewrite smerge_nil_r. apply sorted_cons in H1 as [H1 H1'].
    simpl. apply sinsert_hd. intros z t ->. apply H1. left; reflexivity.
  - rewrite smerge_cons. destruct (kle (fst x) (fst y)) eqn:E.
    + apply sinsert_hd. apply sorted_cons in H1 as [H1 H1'].
      intros z t Hz. destruct l1 as [|u l1]; simpl in Hz.
      * injection Hz as <- _. exact E.
      * destruct (kle (fst u) (fst y)); injection Hz as <- _; [|exact E].
        apply H1. left; reflexivity.
    + assert (Hm : smerge l1 (y :: l2) = y :: smerge l1 l2).
      { destruct l1 as [|u l1]; [reflexivity|]. rewrite smerge_cons.
        destruct (kle (fst u) (fst y)) eqn:E2; [|reflexivity].
        apply sorted_cons in H1 as [H1 _]. specialize (H1 u (or_introl eq_refl)).
        unfold ile in H1. rewrite (kle_trans _ _ _ H1 E2) in E. discriminate. }
      rewrite Hm. simpl. rewrite E. f_equal. apply IH.
      apply sorted_cons in H2. tauto.
Qed.

Lemma ssort_app (l1 l2 : list item) : sorted l1 -> sorted l2 -> ssort (l1 ++ l2) = smerge l1 l2.
Proof.
  induction l1 as [|x l1 IH]; intros H1 H2.
  - simpl. apply ssort_id; assumption.
  - cbn [app ssort fold_right]. fold (ssort (l1 ++ l2)).
    assert (H1' : sorted l1) by (apply sorted_cons in H1; tauto).
    rewrite IH by assumption. apply sinsert_smerge; assumption.
Qed.
End SMerge.

Section Backends.
Variables a b : list key.
Hypothesis Ha : ksorted a.
Hypothesis Hb : ksorted b.
Notation n := (length a). Notation m := (length b).
Notation ka i := (nth i a PInf). Notation kb j := (nth j b PInf).

Lemma take_a_in i j : i < n -> j < m -> take_a a b i j = kle (ka i) (kb j).
Proof.
  intros Hi Hj. unfold take_a. rewrite !Nat.min_l by lia.
  destruct (m <=? j) eqn:E1; [lia|]. destruct (n <=? i) eqn:E2; [lia|]. reflexivity.
Qed.
Lemma take_a_b_done i j : m <= j -> take_a a b i j = true.
Proof. intros H. unfold take_a. destruct (m <=? j) eqn:E; [reflexivity|lia]. Qed.
Lemma take_a_a_done i j : n <= i -> j < m -> take_a a b i j = false.
Proof. intros H H2. unfold take_a. destruct (m <=? j) eqn:E; [lia|]. destruct (n <=? i) eqn:E2; [reflexivity|lia]. Qed.

(** positions reached after [k] steps from (i,j) *)
Fixpoint adv (s i j : nat) : nat * nat :=
  match s with
  | 0 => (i, j)
  | S s => if take_a a b i j then adv s (S i) j else adv s i (S j)
  end.
Lemma adv_plus s1 : forall s2 i j, adv (s1 + s2) i j = let '(i', j') := adv s1 i j in adv s2 i' j'.
Proof. induction s1 as [|s1 IH]; intros s2 i j; simpl; [reflexivity|]. destruct (take_a a b i j); apply IH. Qed.
(** the merge-path invariant *)
Definition PInv (i j : nat) : Prop :=
  i <= n /\ j <= m /\
  (0 < i -> j < m -> kle (ka (i - 1)) (kb j) = true) /\
  (0 < j -> i < n -> kle (ka i) (kb (j - 1)) = false).

Lemma PInv_unique i j i' j' : PInv i j -> PInv i' j' -> i + j = i' + j' -> i = i'.
Proof.
  assert (G : forall i j i' j', PInv i j -> PInv i' j' -> i + j = i' + j' -> i < i' -> False).
  { clear i j i' j'. intros i j i' j' (H1 & H2 & H3 & H4) (H1' & H2' & H3' & H4') Hs Hlt.
    assert (E1 : kle (ka (i' - 1)) (kb j') = true) by (apply H3'; lia).
    assert (E2 : kle (ka i) (kb (j - 1)) = false) by (apply H4; lia).
    assert (E3 : kle (ka i) (ka (i' - 1)) = true) by (apply ksorted_nth; [exact Ha|lia|lia]).
    assert (E4 : kle (kb j') (kb (j - 1)) = true) by (apply ksorted_nth; [exact Hb|lia|lia]).
    rewrite (kle_trans _ _ _ E3 (kle_trans _ _ _ E1 E4)) in E2. discriminate. }
  intros H H' Hs. destruct (lt_eq_lt_dec i i') as [[Hlt|He]|Hlt]; [|exact He|].
  - exfalso. eapply (G i j i' j'); eauto.
  - exfalso. eapply (G i' j' i j); eauto.
Qed.

Lemma PInv_step i j : PInv i j -> i + j < n + m ->
  if take_a a b i j then PInv (S i) j else PInv i (S j).
Proof.
  intros (H1 & H2 & H3 & H4) Hs.
  destruct (le_lt_dec m j) as [Hj|Hj].
  - rewrite take_a_b_done by assumption. unfold PInv. repeat split; try lia.
    intros Hj0 Hi. assert (E := H4 Hj0 ltac:(lia)).
    destruct (kle (ka (S i)) (kb (j - 1))) eqn:E2; [|reflexivity].
    assert (E3 : kle (ka i) (ka (S i)) = true) by (apply ksorted_nth; [exact Ha|lia|lia]).
    rewrite (kle_trans _ _ _ E3 E2) in E. discriminate.
  - destruct (le_lt_dec n i) as [Hi|Hi].
    + rewrite take_a_a_done by assumption. unfold PInv. repeat split; try lia.
      intros Hi0 Hj1. eapply kle_trans; [apply H3; lia|]. apply ksorted_nth; [exact Hb|lia|lia].
    + rewrite take_a_in by assumption. destruct (kle (ka i) (kb j)) eqn:E; unfold PInv.
      * repeat split; try lia.
        -- intros _ _. replace (S i - 1) with i by lia. exact E.
        -- intros Hj0 Hi1. assert (E1 := H4 Hj0 Hi).
           destruct (kle (ka (S i)) (kb (j - 1))) eqn:E2; [|reflexivity].
           assert (E3 : kle (ka i) (ka (S i)) = true) by (apply ksorted_nth; [exact Ha|lia|lia]).
           rewrite (kle_trans _ _ _ E3 E2) in E1. discriminate.
      * repeat split; try lia.
        -- intros Hi0 Hj1. eapply kle_trans; [apply H3; lia|]. apply ksorted_nth; [exact Hb|lia|lia].
        -- intros _ _. replace (S j - 1) with j by lia. exact E.
Qed.

Lemma adv_PInv k : forall i j, PInv i j -> i + j + k <= n + m ->
  let '(i', j') := adv k i j in PInv i' j' /\ i' + j' = i + j + k.
Proof.
  induction k as [|k IH]; intros i j H Hk; simpl.
  - split; [exact H|lia].
  - pose proof (PInv_step i j H ltac:(lia)) as HS. destruct (take_a a b i j).
    + specialize (IH (S i) j HS ltac:(lia)). destruct (adv k (S i) j). split; [tauto|lia].
    + specialize (IH i (S j) HS ltac:(lia)). destruct (adv k i (S j)). split; [tauto|lia].
Qed.
Section PathA.
Context {W : Type}.
Variable fa : nat -> W.
Definition la (i : nat) : list (key * W) := map (fun k => (ka k, fa k)) (seq i (n - i)).
Lemma la_cons i : i < n -> la i = (ka i, fa i) :: la (S i).
Proof. intros H. unfold la. replace (n - i) with (S (n - S i)) by lia. reflexivity. Qed.
Lemma la_nil i : n <= i -> la i = [].
Proof. intros H. unfold la. replace (n - i) with 0 by lia. reflexivity. Qed.
Lemma la_sorted i : sorted (la i).
Proof.
  unfold sorted. remember (n - i) as d eqn:Hd. revert i Hd. induction d as [|d IH]; intros i Hd.
  - rewrite la_nil by lia. constructor.
  - rewrite la_cons by lia. constructor; [apply IH; lia|].
    apply Forall_forall. intros p Hp. unfold la in Hp. apply in_map_iff in Hp as (k & <- & Hk).
    apply in_seq in Hk. unfold ile; simpl. apply ksorted_nth; [exact Ha|lia|lia].
Qed.
End PathA.
Section PathB.
Context {W : Type}.
Variable fb : nat -> W.
Definition lb (j : nat) : list (key * W) := map (fun k => (kb k, fb k)) (seq j (m - j)).
Lemma lb_cons j : j < m -> lb j = (kb j, fb j) :: lb (S j).
Proof. intros H. unfold lb. replace (m - j) with (S (m - S j)) by lia. reflexivity. Qed.
Lemma lb_nil j : m <= j -> lb j = [].
Proof. intros H. unfold lb. replace (m - j) with 0 by lia. reflexivity. Qed.
Lemma lb_sorted j : sorted (lb j).
Proof.
  unfold sorted. remember (m - j) as d eqn:Hd. revert j Hd. induction d as [|d IH]; intros j Hd.
  - rewrite lb_nil by lia. constructor.
  - rewrite lb_cons by lia. constructor; [apply IH; lia|].
    apply Forall_forall. intros p Hp. unfold lb in Hp. apply in_map_iff in Hp as (k & <- & Hk).
    apply in_seq in Hk. unfold ile; simpl. apply ksorted_nth; [exact Hb|lia|lia].
Qed.
End PathB.
Section Path.
Context {W : Type}.
Variables fa fb : nat -> W.
Lemma run_block_smerge s : forall i j, s = (n - i) + (m - j) ->
  run_block a b fa fb s i j = smerge (la fa i) (lb fb j).
Proof.
  induction s as [|s IH]; intros i j Hs.
  - rewrite la_nil, lb_nil by lia. reflexivity.
  - cbn [run_block]. unfold step_out.
    destruct (le_lt_dec m j) as [Hj|Hj].
    + rewrite take_a_b_done by assumption. rewrite IH by lia.
      rewrite (lb_nil fb j) by lia. rewrite !smerge_nil_r, (la_cons fa i) by lia.
      rewrite Nat.min_l by lia. reflexivity.
    + destruct (le_lt_dec n i) as [Hi|Hi].
      * rewrite take_a_a_done by assumption. rewrite IH by lia.
        rewrite !(la_nil fa i) by lia. simpl. rewrite (lb_cons fb j) by lia.
        rewrite Nat.min_l by lia. reflexivity.
      * rewrite take_a_in by assumption. rewrite (la_cons fa i), (lb_cons fb j) by assumption.
        rewrite smerge_cons. cbn [fst].
        rewrite !Nat.min_l by lia.
        destruct (kle (ka i) (kb j)).
        -- rewrite IH by lia. rewrite (lb_cons fb j) by assumption. reflexivity.
        -- rewrite IH by lia. rewrite (la_cons fa i) by assumption. reflexivity.
Qed.

Lemma run_block_plus s1 : forall s2 i j, run_block a b fa fb (s1 + s2) i j =
  run_block a b fa fb s1 i j ++ (let '(i', j') := adv s1 i j in run_block a b fa fb s2 i' j').
Proof.
  induction s1 as [|s1 IH]; intros s2 i j; simpl; [reflexivity|]. f_equal.
  destruct (take_a a b i j); apply IH.
Qed.
Lemma run_block_length s : forall i j, length (run_block a b fa fb s i j) = s.
Proof. induction s as [|s IH]; intros i j; simpl; [reflexivity|]. f_equal. destruct (take_a a b i j); apply IH. Qed.

End Path.

(** ** the binary search *)
Section Search.
Variables smin smax : key.
Variable k : nat.
Hypothesis Hk : k <= n + m.
(* P i : candidate i is valid, for low < i <= high *)
Definition SInv (s : nat * nat) : Prop :=
  let '(lo, hi) := s in
  k - m <= lo /\ lo <= hi /\ hi <= Nat.min n k /\
  (k - m < lo -> kle (ka (lo - 1)) (kb (k - lo)) = true) /\
  (hi < Nat.min n k -> kle (ka hi) (kb (k - hi - 1)) = false).

Lemma part_body_inv s : SInv s -> part_cond s = true -> SInv (part_body a b smin smax k s) /\
  let '(lo, hi) := s in let '(lo', hi') := part_body a b smin smax k s in hi' - lo' < hi - lo.
Proof.
  destruct s as [lo hi]. intros (H1 & H2 & H3 & H4 & H5) Hc. unfold part_cond in Hc; simpl in Hc.
  unfold part_body. set (i := lo + (hi - lo + 1) / 2).
  assert (Hi : lo < i /\ i <= hi) by (unfold i; lia).
  destruct (0 <? i) eqn:E1; [|lia]. destruct (k - i <? m) eqn:E2; [|lia].
  destruct (kle (ka (i - 1)) (kb (k - i))) eqn:E; unfold SInv.
  - split; [|lia]. repeat split; try lia. intros _. exact E. exact H5.
  - split; [|lia]. repeat split; try lia. exact H4.
    intros _. replace (k - (i - 1) - 1) with (k - i) by lia. exact E.
Qed.

Lemma while_part fuel : forall s, SInv s -> snd s - fst s <= fuel ->
  exists i, while fuel part_cond (part_body a b smin smax k) s = Some (i, i) /\ SInv (i, i).
Proof.
  induction fuel as [|fuel IH]; intros [lo hi] HI Hf; simpl in Hf.
  - assert (He : part_cond (lo, hi) = false) by (unfold part_cond; simpl; lia).
    simpl. rewrite He. exists lo. destruct HI as (? & ? & ?).
    assert (hi = lo) by lia. subst. split; [reflexivity|]. unfold SInv. tauto.
  - cbn [while]. destruct (part_cond (lo, hi)) eqn:Hc.
    + destruct (part_body_inv _ HI Hc) as [HI' Hd].
      destruct (part_body a b smin smax k (lo, hi)) as [lo' hi'].
      apply IH; [exact HI'|simpl; lia].
    + unfold part_cond in Hc; simpl in Hc. destruct HI as (? & ? & ?).
      assert (hi = lo) by lia. subst. exists lo. split; [reflexivity|]. unfold SInv. tauto.
Qed.

Lemma partition_PInv : exists i j, partition_at a b smin smax k = Some (i, j) /\ PInv i j /\ i + j = k.
Proof.
  unfold partition_at.
  destruct (while_part (S n) (k - m, Nat.min n k)) as (i & Hw & HI).
  - unfold SInv. repeat split; try lia.
  - simpl. lia.
  - rewrite Hw. simpl. exists i, (k - i). split; [reflexivity|].
    destruct HI as (H1 & H2 & H3 & H4 & H5). split; [|lia].
    unfold PInv. repeat split; try lia.
    + intros Hi Hj. destruct (Nat.eq_dec i (k - m)) as [He|He].
      * lia.
      * apply H4. lia.
    + intros Hj Hi. replace (k - i - 1) with (k - i - 1) by lia. apply H5. lia.
Qed.
End Search.

Lemma PInv_0 : PInv 0 0.
Proof. unfold PInv. repeat split; lia. Qed.

Lemma partition_adv smin smax k : k <= n + m -> partition_at a b smin smax k = Some (adv k 0 0).
Proof.
  intros Hk. destruct (partition_PInv smin smax k Hk) as (i & j & -> & HI & Hs).
  pose proof (adv_PInv k 0 0 PInv_0 ltac:(lia)) as HA. destruct (adv k 0 0) as [i' j'].
  destruct HA as [HA HB]. assert (i = i') by (eapply PInv_unique; eauto; lia). subst.
  f_equal. f_equal. lia.
Qed.

Section Grid.
Context {W : Type}.
Variables (fa fb : nat -> W) (smin smax : key) (bs : nat).
Hypothesis Hbs : 0 < bs.

Lemma programs_ok g : g * bs < n + m + bs ->
  exists blocks, mapM (run_program a b smin smax fa fb bs) (seq 0 g) = Some blocks /\
    concat blocks = run_block a b fa fb (g * bs) 0 0.
Proof.
  intros Hg.
  enough (G : forall c s, s + c = g -> exists blocks,
    mapM (run_program a b smin smax fa fb bs) (seq s c) = Some blocks /\
    concat blocks = let '(i, j) := adv (s * bs) 0 0 in run_block a b fa fb (c * bs) i j).
  { destruct (G g 0 eq_refl) as (blocks & H1 & H2). exists blocks. split; [exact H1|]. exact H2. }
  induction c as [|c IH]; intros s Hs.
  - exists []. simpl. split; [reflexivity|]. destruct (adv (s * bs) 0 0). reflexivity.
  - destruct (IH (S s) ltac:(lia)) as (blocks & H1 & H2).
    assert (Hle : s * bs <= n + m) by nia.
    cbn [seq mapM]. unfold run_program at 1. rewrite partition_adv by exact Hle.
    destruct (adv (s * bs) 0 0) as [i j] eqn:EA.
    rewrite H1. exists (run_block a b fa fb bs i j :: blocks). split; [reflexivity|].
    cbn [concat]. rewrite H2. replace (S c * bs) with (bs + c * bs) by lia.
    rewrite run_block_plus. f_equal.
    replace (S s * bs) with (s * bs + bs) by lia. rewrite adv_plus, EA.
    destruct (adv bs i j). reflexivity.
Qed.

Lemma run_grid_ok : 0 < n + m ->
  run_grid a b smin smax fa fb bs = Some (smerge (la fa 0) (lb fb 0)).
Proof.
  intros Hpos. unfold run_grid.
  set (g := (n + m + bs - 1) / bs).
  assert (Hg1 : g * bs < n + m + bs).
  { unfold g. pose proof (Nat.mul_div_le (n + m + bs - 1) bs ltac:(lia)). lia. }
  assert (Hg2 : n + m <= g * bs).
  { unfold g. pose proof (Nat.mod_upper_bound (n + m + bs - 1) bs ltac:(lia)) as HM.
    pose proof (Nat.div_mod_eq (n + m + bs - 1) bs) as HE. rewrite Nat.mul_comm in HE. nia. }
  destruct (programs_ok g Hg1) as (blocks & -> & H2). simpl. f_equal.
  rewrite H2. replace (g * bs) with ((n + m) + (g * bs - (n + m))) by lia.
  rewrite run_block_plus. rewrite firstn_app, run_block_length, Nat.sub_diag.
  cbn [firstn]. rewrite app_nil_r. rewrite firstn_all2 by (rewrite run_block_length; lia).
  apply run_block_smerge. lia.
Qed.
End Grid.

(** ** the sequential kernel *)
Lemma main_loop_ok fuel : forall i j out, i <= n -> j <= m -> n - i + (m - j) <= fuel ->
  exists i' j' mid, while fuel (main_cond a b) (main_body a b) (i, j, out) = Some (i', j', out ++ mid) /\
    i' <= n /\ j' <= m /\ (i' = n \/ j' = m) /\
    smerge (la (fun i => i) i) (lb (fun j => n + j) j)
     = mid ++ smerge (la (fun i => i) i') (lb (fun j => n + j) j').
Proof.
  induction fuel as [|fuel IH]; intros i j out Hi Hj Hf.
  - simpl. destruct ((i <? n) && (j <? m)) eqn:E; [lia|].
    exists i, j, []. rewrite app_nil_r. repeat split; auto; lia.
  - cbn [while]. unfold main_cond at 1. destruct ((i <? n) && (j <? m)) eqn:E.
    + unfold main_body at 2.
      destruct (kle (ka i) (kb j)) eqn:Ek.
      * destruct (IH (S i) j (out ++ [(ka i, i)]) ltac:(lia) Hj ltac:(lia)) as (i' & j' & mid & H1 & H2 & H3 & H4 & H5).
        exists i', j', ((ka i, i) :: mid). rewrite H1, <- app_assoc. repeat split; auto.
        rewrite (la_cons _ i), (lb_cons _ j) by lia. rewrite smerge_cons. cbn [fst]. rewrite Ek.
        cbn [app]. f_equal. rewrite <- (lb_cons (fun j => n + j) j) by lia. exact H5.
      * destruct (IH i (S j) (out ++ [(kb j, n + j)]) Hi ltac:(lia) ltac:(lia)) as (i' & j' & mid & H1 & H2 & H3 & H4 & H5).
        exists i', j', ((kb j, n + j) :: mid). rewrite H1, <- app_assoc. repeat split; auto.
        rewrite (la_cons _ i), (lb_cons _ j) by lia. rewrite smerge_cons. cbn [fst]. rewrite Ek.
        cbn [app]. f_equal. rewrite <- (la_cons (fun i => i) i) by lia. exact H5.
    + exists i, j, []. rewrite app_nil_r. repeat split; auto; lia.
Qed.

Lemma ak_loop_ok fuel : forall i j out, i <= n -> n - i <= fuel ->
  while fuel (ak_cond a) (ak_body a) (i, j, out) = Some (n, j, out ++ la (fun i => i) i).
Proof.
  induction fuel as [|fuel IH]; intros i j out Hi Hf.
  - simpl. destruct (i <? n) eqn:E; [lia|]. rewrite la_nil by lia. rewrite app_nil_r. do 3 f_equal. lia.
  - cbn [while]. unfold ak_cond at 1. destruct (i <? n) eqn:E.
    + unfold ak_body at 2. rewrite IH by lia. rewrite <- app_assoc. simpl.
      rewrite (la_cons _ i) by lia. reflexivity.
    + rewrite la_nil by lia. rewrite app_nil_r. do 3 f_equal. lia.
Qed.
Lemma bk_loop_ok fuel : forall i j out, j <= m -> m - j <= fuel ->
  while fuel (bk_cond b) (bk_body a b) (i, j, out) = Some (i, m, out ++ lb (fun j => n + j) j).
Proof.
  induction fuel as [|fuel IH]; intros i j out Hj Hf.
  - simpl. destruct (j <? m) eqn:E; [lia|]. rewrite lb_nil by lia. rewrite app_nil_r. do 3 f_equal. lia.
  - cbn [while]. unfold bk_cond at 1. destruct (j <? m) eqn:E.
    + unfold bk_body at 2. rewrite IH by lia. rewrite <- app_assoc. simpl.
      rewrite (lb_cons _ j) by lia. reflexivity.
    + rewrite lb_nil by lia. rewrite app_nil_r. do 3 f_equal. lia.
Qed.

Lemma merge_loop_smerge : merge_loop_idx a b = Some (smerge (la (fun i => i) 0) (lb (fun j => n + j) 0)).
Proof.
  unfold merge_loop_idx.
  destruct (main_loop_ok (n + m) 0 0 [] ltac:(lia) ltac:(lia) ltac:(lia)) as (i & j & mid & H1 & H2 & H3 & H4 & H5).
  rewrite H1, (ak_loop_ok n) by lia. rewrite (bk_loop_ok m) by lia. simpl. f_equal.
  rewrite H5, <- app_assoc. f_equal.
  destruct H4 as [-> | ->].
  - rewrite (la_nil _ n) by lia. reflexivity.
  - rewrite (lb_nil _ m) by lia. rewrite app_nil_r, smerge_nil_r. reflexivity.
Qed.

(** ** the sort backend *)
Lemma map_seq_combine {W} (l : list key) (f : nat -> W) s :
  map (fun k => (nth (k - s) l PInf, f k)) (seq s (length l)) = combine l (map f (seq s (length l))).
Proof.
  revert s; induction l as [|x l IH]; intros s; [reflexivity|]. cbn [length seq map combine].
  rewrite Nat.sub_diag. cbn [nth]. f_equal. rewrite <- IH. apply map_ext_in. intros k Hk.
  apply in_seq in Hk. replace (k - s) with (S (k - S s)) by lia. reflexivity.
Qed.
Lemma la0 {W} (f : nat -> W) : la f 0 = combine a (map f (seq 0 n)).
Proof.
  unfold la. rewrite Nat.sub_0_r. rewrite <- map_seq_combine. apply map_ext. intros k. rewrite Nat.sub_0_r. reflexivity.
Qed.
Lemma lb0 {W} (f : nat -> W) : lb f 0 = combine b (map f (seq 0 m)).
Proof.
  unfold lb. rewrite Nat.sub_0_r. rewrite <- map_seq_combine. apply map_ext. intros k. rewrite Nat.sub_0_r. reflexivity.
Qed.
Lemma combine_app' {A B} (l1 l2 : list A) (r1 r2 : list B) : length l1 = length r1 ->
  combine (l1 ++ l2) (r1 ++ r2) = combine l1 r1 ++ combine l2 r2.
Proof. revert r1; induction l1 as [|x l1 IH]; intros [|y r1] H; simpl in *; try lia; auto. f_equal. apply IH. lia. Qed.
Lemma map_add_seq c l : forall s, map (fun j => c + j) (seq s l) = seq (c + s) l.
Proof. induction l as [|l IH]; intros s; simpl; [reflexivity|]. f_equal. rewrite IH. f_equal. lia. Qed.

Lemma merge_sort_smerge : merge_sort_idx a b = smerge (la (fun i => i) 0) (lb (fun j => n + j) 0).
Proof.
  unfold merge_sort_idx. rewrite seq_app, combine_app' by (rewrite seq_length; reflexivity).
  rewrite <- ssort_app by (apply la_sorted || apply lb_sorted).
  rewrite la0, lb0. rewrite map_id. simpl. rewrite map_add_seq. rewrite Nat.add_0_r. reflexivity.
Qed.

Theorem loop_eq_sort : merge_loop_idx a b = Some (merge_sort_idx a b).
Proof. rewrite merge_loop_smerge, merge_sort_smerge. reflexivity. Qed.

Theorem parallel_eq_sort smin smax bs : 0 < bs ->
  merge_parallel_idx a b smin smax bs = Some (merge_sort_idx a b).
Proof.
  intros Hbs. unfold merge_parallel_idx.
  destruct (n + m =? 0) eqn:E0.
  { rewrite merge_sort_smerge, la_nil, lb_nil by lia. reflexivity. }
  destruct (n =? 0) eqn:E1.
  { rewrite merge_sort_smerge, la_nil by lia. simpl. f_equal. rewrite lb0.
    rewrite map_add_seq. f_equal. f_equal. lia. }
  destruct (m =? 0) eqn:E2.
  { rewrite merge_sort_smerge, lb_nil by lia. rewrite smerge_nil_r. f_equal. rewrite la0, map_id. reflexivity. }
  rewrite run_grid_ok by lia. rewrite merge_sort_smerge. reflexivity.
Qed.
End Backends.

(** ** values *)
Section Values.
Context {V : Type} (dflt : V).

Lemma gather_select_concat (av bv : list V) idx :
  (forall i, In i idx -> i < length av + length bv) ->
  gather_select dflt av bv idx = gather_concat dflt av bv idx.
Proof.
  intros H. unfold gather_select, gather_concat.
  destruct (length av =? 0) eqn:E1.
  { destruct av; [reflexivity|discriminate]. }
  destruct (length bv =? 0) eqn:E2.
  { destruct bv; [rewrite app_nil_r; reflexivity|discriminate]. }
  apply map_ext_in. intros i Hi. specialize (H i Hi).
  destruct (i <? length av) eqn:E3.
  - rewrite Nat.min_l by lia. rewrite app_nth1 by lia. reflexivity.
  - rewrite Nat.min_l by lia. rewrite app_nth2 by lia. reflexivity.
Qed.

Lemma combine_seq_payload (l : list key) (v : list V) : length l = length v ->
  combine l v = map (pm (fun i => nth i v dflt)) (combine l (seq 0 (length l))).
Proof.
  intros H. enough (G : forall s (pre : list V), length pre = s ->
    combine l v = map (pm (fun i => nth i (pre ++ v) dflt)) (combine l (seq s (length l)))) by (apply (G 0 []); reflexivity).
  revert v H. induction l as [|x l IH]; intros [|y v] H s pre Hp; simpl in *; try lia; auto.
  f_equal.
  - unfold pm; simpl. rewrite app_nth2 by lia. subst s. rewrite Nat.sub_diag. reflexivity.
  - rewrite (IH v ltac:(lia) (S s) (pre ++ [y])) by (rewrite app_length; simpl; lia).
    rewrite <- app_assoc. reflexivity.
Qed.

Lemma fst_combine {A B} (l : list A) (r : list B) : length l = length r -> map fst (combine l r) = l.
Proof. revert r; induction l as [|x l IH]; intros [|y r] H; simpl in *; try lia; auto. f_equal. apply IH; lia. Qed.
Lemma snd_combine {A B} (l : list A) (r : list B) : length l = length r -> map snd (combine l r) = r.
Proof. revert r; induction l as [|x l IH]; intros [|y r] H; simpl in *; try lia; auto. f_equal. apply IH; lia. Qed.

(** merge_sort_split on parallel arrays is the stable sort of the pairs, split. *)
Lemma merge_sort_split_pairs ak av bk bv : length ak = length av -> length bk = length bv ->
  let s := ssort (combine ak av ++ combine bk bv) in
  merge_sort_split dflt ak av bk bv =
  (map fst (firstn (length ak) s), map snd (firstn (length ak) s),
   map fst (skipn (length ak) s), map snd (skipn (length ak) s)).
Proof.
  intros H1 H2 s. unfold merge_sort_split.
  assert (Hs : s = map (pm (fun i => nth i (av ++ bv) dflt)) (merge_sort_idx ak bk)).
  { unfold s, merge_sort_idx. rewrite <- ssort_map. f_equal.
    rewrite <- (app_length ak bk).
    rewrite <- combine_seq_payload by (rewrite !app_length; lia).
    rewrite combine_app' by assumption. reflexivity. }
  assert (Hin : forall i, In i (map snd (merge_sort_idx ak bk)) -> i < length av + length bv).
  { intros i Hi. unfold merge_sort_idx in Hi.
    assert (Hi2 : In i (map snd (combine (ak ++ bk) (seq 0 (length ak + length bk))))).
    { eapply Permutation_in; [|exact Hi]. apply Permutation_map, ssort_perm. }
    rewrite snd_combine in Hi2 by (rewrite app_length, seq_length; reflexivity).
    apply in_seq in Hi2. lia. }
  rewrite gather_select_concat by exact Hin.
  assert (Hk : map fst s = map fst (merge_sort_idx ak bk)).
  { rewrite Hs, map_map. reflexivity. }
  assert (Hv : map snd s = gather_concat dflt av bv (map snd (merge_sort_idx ak bk))).
  { rewrite Hs. unfold gather_concat. rewrite !map_map. reflexivity. }
  rewrite <- Hk, <- Hv. rewrite !firstn_map, !skipn_map. reflexivity.
Qed.

Lemma sort_arrays_pairs k v : length k = length v ->
  sort_arrays dflt k v = (map fst (ssort (combine k v)), map snd (ssort (combine k v))).
Proof.
  intros H. unfold sort_arrays. rewrite (combine_seq_payload k v H) , ssort_map, !map_map. reflexivity.
Qed.

(** the key/value kernel agrees too *)
Lemma merge_kv_pairs smin smax bs ak av bk bv :
  ksorted ak -> ksorted bk -> length ak = length av -> length bk = length bv ->
  0 < length ak -> 0 < length bk -> 0 < bs ->
  merge_parallel_kv dflt smin smax bs ak av bk bv = Some (ssort (combine ak av ++ combine bk bv)).
Proof.
  intros Ha Hb H1 H2 Hn Hm Hbs. unfold merge_parallel_kv.
  destruct (length ak + length bk =? 0) eqn:E; [lia|].
  rewrite run_grid_ok by (auto; lia). f_equal.
  rewrite <- ssort_app by (apply la_sorted || apply lb_sorted; assumption). f_equal.
  assert (G : forall (l : list key) (v : list V), length l = length v ->
    combine l (map (fun i => nth (Nat.min i (length l - 1)) v dflt) (seq 0 (length l))) = combine l v).
  { intros l v Hl. f_equal. apply nth_ext_len with (d := dflt).
    - rewrite map_length, seq_length. exact Hl.
    - intros i Hi. rewrite map_length, seq_length in Hi.
      pose (g := fun i => nth (Nat.min i (length l - 1)) v dflt).
      change (nth i (map g (seq 0 (length l))) dflt = nth i v dflt).
      rewrite (nth_indep _ dflt (g 0)) by (rewrite map_length, seq_length; exact Hi).
      rewrite (map_nth g), seq_nth by assumption. unfold g. f_equal. lia. }
  rewrite la0, lb0. rewrite !G by assumption. reflexivity.
Qed.
End Values.

(** ** what the partition means *)
Section PartitionMeaning.
Variables a b : list key.
Hypothesis Ha : ksorted a.
Hypothesis Hb : ksorted b.
Notation n := (length a). Notation m := (length b).
Notation rb := (run_block a b (fun i => i) (fun j => n + j)).

Lemma take_a_true i j : i + j < n + m -> j <= m -> take_a a b i j = true -> i < n.
Proof. intros H Hj HT. unfold take_a in HT. destruct (m <=? j) eqn:E; destruct (n <=? i) eqn:E2; simpl in HT; try discriminate; lia. Qed.
Lemma take_a_false i j : take_a a b i j = false -> j < m.
Proof. intros HT. unfold take_a in HT. destruct (m <=? j) eqn:E; simpl in HT; try discriminate; lia. Qed.

Lemma run_block_sides s : forall i j, PInv a b i j -> i + j + s <= n + m ->
  let '(i', j') := adv a b s i j in
  i <= i' /\ j <= j' /\
  filter (fun x => x <? n) (map snd (rb s i j)) = seq i (i' - i) /\
  filter (fun x => n <=? x) (map snd (rb s i j)) = seq (n + j) (j' - j).
Proof.
  induction s as [|s IH]; intros i j HI Hs.
  - simpl. rewrite !Nat.sub_diag. simpl. repeat split; lia.
  - cbn [adv run_block]. unfold step_out.
    pose proof (PInv_step a b Ha Hb i j HI ltac:(lia)) as HS.
    destruct HI as (Hi & Hj & _).
    destruct (take_a a b i j) eqn:ET.
    + assert (Hin : i < n) by (eapply take_a_true; eauto; lia).
      specialize (IH (S i) j HS ltac:(lia)). destruct (adv a b s (S i) j) as [i' j'].
      destruct IH as (H1 & H2 & H3 & H4). repeat split; try lia.
      * cbn [map filter snd]. destruct (i <? n) eqn:E; [|lia]. rewrite H3.
        replace (i' - i) with (S (i' - S i)) by lia. reflexivity.
      * cbn [map filter snd]. destruct (n <=? i) eqn:E; [lia|]. exact H4.
    + assert (Hjn : j < m) by (eapply take_a_false; eauto).
      specialize (IH i (S j) HS ltac:(lia)). destruct (adv a b s i (S j)) as [i' j'].
      destruct IH as (H1 & H2 & H3 & H4). repeat split; try lia.
      * cbn [map filter snd]. destruct (n + j <? n) eqn:E; [lia|]. exact H3.
      * cbn [map filter snd]. destruct (n <=? n + j) eqn:E; [|lia]. rewrite H4.
        replace (j' - j) with (S (j' - S j)) by lia. rewrite Nat.add_succ_r. reflexivity.
Qed.

Lemma run_block_sort : rb (n + m) 0 0 = merge_sort_idx a b.
Proof. rewrite (merge_sort_smerge a b Ha Hb). apply run_block_smerge. lia. Qed.

Theorem partition_meaning smin smax k : k <= n + m ->
  exists i j, partition_at a b smin smax k = Some (i, j) /\ i + j = k /\
    filter (fun x => x <? n) (map snd (firstn k (merge_sort_idx a b))) = seq 0 i /\
    filter (fun x => n <=? x) (map snd (firstn k (merge_sort_idx a b))) = seq n j.
Proof.
  intros Hk. rewrite (partition_adv a b Ha Hb) by exact Hk.
  pose proof (adv_PInv a b Ha Hb k 0 0 (PInv_0 a b) ltac:(lia)) as HA.
  pose proof (run_block_sides k 0 0 (PInv_0 a b) ltac:(lia)) as HR.
  assert (HF : firstn k (merge_sort_idx a b) = rb k 0 0).
  { rewrite <- run_block_sort. replace (n + m) with (k + (n + m - k)) by lia.
    rewrite run_block_plus. rewrite firstn_app, run_block_length, Nat.sub_diag. cbn [firstn].
    rewrite app_nil_r. apply firstn_all2. rewrite run_block_length; lia. }
  rewrite HF. destruct (adv a b k 0 0) as [i j]. exists i, j.
  destruct HA as [_ HA]. destruct HR as (H1 & H2 & H3 & H4).
  rewrite !Nat.sub_0_r, Nat.add_0_r in *. repeat split; auto.
Qed.

Theorem partition_monotone smin smax k k' : k <= k' -> k' <= n + m ->
  exists i j i' j', partition_at a b smin smax k = Some (i, j) /\
    partition_at a b smin smax k' = Some (i', j') /\ i <= i' /\ j <= j'.
Proof.
  intros Hk Hk'. rewrite !(partition_adv a b Ha Hb) by lia.
  replace k' with (k + (k' - k)) by lia. rewrite adv_plus.
  pose proof (adv_PInv a b Ha Hb k 0 0 (PInv_0 a b) ltac:(lia)) as HA.
  destruct (adv a b k 0 0) as [i j] eqn:E. destruct HA as [HA HB].
  pose proof (run_block_sides (k' - k) i j HA ltac:(lia)) as HR.
  destruct (adv a b (k' - k) i j) as [i' j']. exists i, j, i', j'. tauto.
Qed.
End PartitionMeaning.

Lemma sorted_map_fst {W : Type} (l : list (key * W)) : sorted l -> ksorted (map fst l).
Proof.
  unfold sorted, ksorted. intros HS. induction HS as [|x t HS IH HF]; cbn [map]; constructor; auto.
  apply Forall_forall. intros k Hk. apply in_map_iff in Hk as (y & <- & Hy).
  rewrite Forall_forall in HF. apply HF. exact Hy.
Qed.

Section SplitSpec.
Context {V : Type} (dflt : V).
Lemma merge_sort_split_spec ak av bk bv lk lv hk hv :
  length ak = length av -> length bk = length bv ->
  merge_sort_split dflt ak av bk bv = (lk, lv, hk, hv) ->
  Permutation (combine lk lv ++ combine hk hv) (combine ak av ++ combine bk bv) /\
  ksorted (lk ++ hk) /\
  length lk = length ak /\ length lv = length ak /\ length hk = length bk /\ length hv = length bk.
Proof.
  intros H1 H2 H. rewrite (merge_sort_split_pairs dflt ak av bk bv H1 H2) in H.
  set (s := ssort (combine ak av ++ combine bk bv)) in *. injection H as <- <- <- <-.
  assert (HL : length s = length ak + length bk).
  { unfold s. rewrite ssort_length, app_length, !combine_length. lia. }
  assert (HC : forall l : list (key * V), combine (map fst l) (map snd l) = l).
  { induction l as [|[x y] l IH]; simpl; [reflexivity|]. f_equal. exact IH. }
  rewrite !HC, firstn_skipn, !map_length, firstn_length, skipn_length.
  split; [apply ssort_perm|]. split; [|lia].
  rewrite <- map_app, firstn_skipn. apply sorted_map_fst. apply ssort_sorted.
Qed.
End SplitSpec.
