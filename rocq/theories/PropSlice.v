(** * PropSlice.v — property C87: slicing and masking a batch of instances does to its rows what
      Python does to the items of a list. *)
From Coq Require Import String Sorting.Sorted.
From Verif Require Import Jax StructModel ArrayModel ArrayFacts ShapeModel PropShape RowsModel RowsLift PropRows PropRows2 PropRows3 PropRows6 PropInverse.
From Verif Require Import QueueModel UpdateModel SoaModel PropSoa PropSoa2 PropSoa3 PropSoa4 SliceModel.

(** ** Specification: the positions that Python's [start:stop:step] selects in [n] items *)
Definition from_end (n : nat) (z : Z) : Z := if (z <? 0)%Z then (z + Z.of_nat n)%Z else z.
Definition selected (start stop : option Z) (step : Z) (n : nat) : list nat :=
  if (0 <? step)%Z then
    let lo := match start with Some z => Z.max 0 (from_end n z) | None => 0%Z end in
    let hi := match stop with Some z => from_end n z | None => Z.of_nat n end in
    filter (fun p => (lo <=? Z.of_nat p)%Z && (Z.of_nat p <? hi)%Z && ((Z.of_nat p - lo) mod step =? 0)%Z) (seq 0 n)
  else
    let hi := match start with Some z => Z.min (Z.of_nat n - 1) (from_end n z) | None => (Z.of_nat n - 1)%Z end in
    let lo := match stop with Some z => from_end n z | None => (-1)%Z end in
    rev (filter (fun p => (lo <? Z.of_nat p)%Z && (Z.of_nat p <=? hi)%Z && ((hi - Z.of_nat p) mod (- step) =? 0)%Z) (seq 0 n)).

(** ** Sorted lists are determined by their elements *)
Lemma sorted_unique (R : nat -> nat -> Prop) : (forall x y, R x y -> R y x -> False) -> forall l m, StronglySorted R l -> StronglySorted R m -> (forall x, In x l <-> In x m) -> l = m.
Proof.
  intros HR. induction l as [|x l IH]; intros [|y m] HL HM HI; [reflexivity|exfalso; apply (HI y); now left|exfalso; apply (HI x); now left|].
  inversion HL as [|a b L1 L2]; subst. inversion HM as [|a b M1 M2]; subst. rewrite Forall_forall in L2, M2. assert (HXX : forall z, R z z -> False) by (intros z H; exact (HR z z H H)).
  assert (E : x = y).
  { destruct (Nat.eq_dec x y) as [|NE]; [assumption|exfalso]. assert (X : In x (y :: m)) by (apply HI; now left). assert (Y : In y (x :: l)) by (apply HI; now left).
    destruct X as [X|X]; [congruence|]. destruct Y as [Y|Y]; [congruence|]. exact (HR x y (L2 y Y) (M2 x X)). }
  subst y. f_equal. apply IH; [exact L1|exact M1|]. intros z. split; intros Hz.
  - assert (Z0 : In z (x :: m)) by (apply HI; now right). destruct Z0 as [Z0|Z0]; [subst z; exfalso; exact (HXX x (L2 x Hz))|exact Z0].
  - assert (Z0 : In z (x :: l)) by (apply HI; now right). destruct Z0 as [Z0|Z0]; [subst z; exfalso; exact (HXX x (M2 x Hz))|exact Z0].
Qed.
Lemma seq_sorted a n : StronglySorted lt (seq a n).
Proof. revert a. induction n as [|n IH]; intros a; cbn [seq]; constructor; [apply IH|]. apply Forall_forall. intros x Hx. apply in_seq in Hx. lia. Qed.
Lemma filter_sorted {R : nat -> nat -> Prop} f l : StronglySorted R l -> StronglySorted R (filter f l).
Proof.
  induction 1 as [|x l H1 IH H2]; [constructor|]. cbn [filter]. destruct (f x); [|exact IH]. constructor; [exact IH|]. apply Forall_forall. intros y Hy. apply filter_In in Hy. rewrite Forall_forall in H2. now apply H2.
Qed.
Lemma rev_sorted l : StronglySorted lt l -> StronglySorted gt (rev l).
Proof.
  induction 1 as [|x l H1 IH H2]; [constructor|]. cbn [rev]. rewrite Forall_forall in H2. assert (K : forall y, In y (rev l) -> x < y) by (intros y Hy; apply H2; now apply in_rev).
  revert IH K. generalize (rev l). clear. intros m HM. induction HM as [|y m M1 IH M2]; intros K; [repeat constructor|]. cbn [app]. constructor; [apply IH; intros z Hz; apply K; now right|].
  apply Forall_app. split; [exact M2|]. constructor; [apply K; now left|constructor].
Qed.
Lemma map_sorted (R : nat -> nat -> Prop) (f : nat -> nat) n : (forall i j, i < j -> j < n -> R (f i) (f j)) -> StronglySorted R (map f (seq 0 n)).
Proof.
  intros H. assert (K : forall k a, a + k <= n -> StronglySorted R (map f (seq a k))).
  { induction k as [|k IH]; intros a Ha; cbn [seq map]; constructor; [apply IH; lia|]. apply Forall_forall. intros y Hy. apply in_map_iff in Hy. destruct Hy as (j & <- & Hj). apply in_seq in Hj. apply H; lia. }
  apply K. lia.
Qed.
Lemma selected_lt start stop step n p : In p (selected start stop step n) -> p < n.
Proof. unfold selected. destruct (0 <? step)%Z; intros H; [|apply in_rev in H]; apply filter_In in H; destruct H as [H _]; apply in_seq in H; lia. Qed.
Lemma sorted_nodup R l : (forall x, ~ R x x) -> StronglySorted R l -> NoDup (l : list nat).
Proof. intros HR. induction 1 as [|x l H1 IH H2]; constructor; [|exact IH]. intros Hx. rewrite Forall_forall in H2. exact (HR x (H2 x Hx)). Qed.
Lemma selected_nodup start stop step n : NoDup (selected start stop step n).
Proof.
  unfold selected. destruct (0 <? step)%Z.
  - apply (sorted_nodup lt); [lia|]. apply filter_sorted, seq_sorted.
  - apply (sorted_nodup gt); [lia|]. apply rev_sorted, filter_sorted, seq_sorted.
Qed.
(** the library's arithmetic ([slice.indices]) selects these positions *)
Lemma positions_selected start stop step n : step <> 0%Z ->
  map Z.to_nat (slice_positions (slice_indices start stop step n)) = selected start stop step n.
Proof.
  intros HS. destruct (slice_indices start stop step n) as [[st k] len] eqn:E. pose proof (C41_slice_in_range _ _ _ _ _ _ _ HS E) as [-> HR]. cbn [slice_positions]. rewrite map_map.
  unfold slice_indices in E. pose proof (f_equal (fun p => fst (fst p)) E) as E1. pose proof (f_equal snd E) as E3. cbn [fst snd] in E1, E3. clear E. rewrite E1 in E3. unfold selected, from_end. destruct (Z.ltb_spec 0 step) as [Hp|Hn].
  - destruct (Z.ltb_spec step 0) as [|_]; [lia|]. apply (sorted_unique lt); [lia| |apply filter_sorted, seq_sorted|].
    { apply map_sorted. intros i j Hij Hj. pose proof (HR i ltac:(lia)). pose proof (HR j ltac:(lia)). nia. }
    intros x. rewrite filter_In, in_seq, !andb_true_iff, Z.leb_le, Z.ltb_lt, Z.eqb_eq, in_map_iff.
    set (b := match stop with Some z => Z.max 0 _ | None => Z.of_nat n end) in *.
    set (lo := match start with Some z => Z.max 0 (if (z <? 0)%Z then _ else z) | None => 0%Z end). set (hi := match stop with Some z => if (z <? 0)%Z then _ else z | None => Z.of_nat n end).
    assert (HB : b = Z.max 0 (Z.min (Z.of_nat n) hi)) by (unfold b, hi; destruct stop; lia).
    assert (HST : st = Z.min (Z.of_nat n) lo) by (rewrite <- E1; unfold lo; destruct start; lia). assert (HLO : (0 <= lo)%Z) by (unfold lo; destruct start; lia).
    clear E1. clearbody b lo hi. split.
    + intros (i & <- & Hi). apply in_seq in Hi. pose proof (HR i ltac:(lia)) as Hx. assert (Z.of_nat i + 1 <= (b - st + step - 1) / step)%Z by lia.
      assert (step * ((b - st + step - 1) / step) <= b - st + step - 1)%Z by (apply Z.mul_div_le; lia). rewrite Z2Nat.id by lia. assert (st = lo) by nia. repeat split; try lia; try nia.
      replace (st + step * Z.of_nat i - lo)%Z with (Z.of_nat i * step)%Z by lia. apply Z.mod_mul. lia.
    + intros ([_ Hx] & [Hlo Hhi] & Hm). assert (st = lo) by lia. subst st. apply Z.mod_divide in Hm; [|lia]. destruct Hm as [q Hq]. exists (Z.to_nat q). assert (Hq0 : (0 <= q)%Z) by nia.
      split; [rewrite Z2Nat.id by lia; apply Nat2Z.inj; rewrite Z2Nat.id; lia|]. apply in_seq. split; [lia|]. assert (q < Z.of_nat len)%Z; [|lia]. rewrite <- E3. rewrite Z2Nat.id by (apply Z.div_pos; lia).
      apply Z.lt_le_trans with (q + 1)%Z; [lia|]. apply Z.div_le_lower_bound; nia.
  - destruct (Z.ltb_spec step 0) as [_|]; [|lia]. apply (sorted_unique gt); [lia| |apply rev_sorted, filter_sorted, seq_sorted|].
    { apply map_sorted. intros i j Hij Hj. pose proof (HR i ltac:(lia)). pose proof (HR j ltac:(lia)). nia. }
    intros x. rewrite <- in_rev, filter_In, in_seq, !andb_true_iff, Z.leb_le, Z.ltb_lt, Z.eqb_eq, in_map_iff.
    set (b := match stop with Some z => Z.max (-1) _ | None => (-1)%Z end) in *.
    set (hi := match start with Some z => Z.min (Z.of_nat n - 1) (if (z <? 0)%Z then _ else z) | None => (Z.of_nat n - 1)%Z end). set (lo := match stop with Some z => if (z <? 0)%Z then _ else z | None => (-1)%Z end).
    assert (HB : b = Z.max (-1) (Z.min (Z.of_nat n - 1) lo)) by (unfold b, lo; destruct stop; lia).
    assert (HST : st = Z.max (-1) hi) by (rewrite <- E1; unfold hi; destruct start; lia). assert (HHI : (hi <= Z.of_nat n - 1)%Z) by (unfold hi; destruct start; lia).
    clear E1. clearbody b lo hi. split.
    + intros (i & <- & Hi). apply in_seq in Hi. pose proof (HR i ltac:(lia)) as Hx. assert (Z.of_nat i + 1 <= (st - b - step - 1) / - step)%Z by lia.
      assert (- step * ((st - b - step - 1) / - step) <= st - b - step - 1)%Z by (apply Z.mul_div_le; lia). rewrite Z2Nat.id by lia. assert (st = hi) by nia. repeat split; try lia; try nia.
      replace (hi - (st + step * Z.of_nat i))%Z with (Z.of_nat i * - step)%Z by lia. apply Z.mod_mul. lia.
    + intros ([_ Hx] & [Hlo Hhi] & Hm). assert (st = hi) by lia. subst st. apply Z.mod_divide in Hm; [|lia]. destruct Hm as [q Hq]. exists (Z.to_nat q). assert (Hq0 : (0 <= q)%Z) by nia.
      split; [rewrite Z2Nat.id by lia; apply Nat2Z.inj; rewrite Z2Nat.id; lia|]. apply in_seq. split; [lia|]. assert (q < Z.of_nat len)%Z; [|lia]. rewrite <- E3. rewrite Z2Nat.id by (apply Z.div_pos; lia).
      apply Z.lt_le_trans with (q + 1)%Z; [lia|]. apply Z.div_le_lower_bound; nia.
Qed.

(** ** [x[start:stop:step]] *)
Lemma nth_positions st k len i : i < len -> nth i (slice_positions (st, k, len)) 0%Z = (st + k * Z.of_nat i)%Z.
Proof. intros H. cbn [slice_positions]. rewrite (nth_indep _ 0%Z ((fun i => (st + k * Z.of_nat i)%Z) 0)) by (now rewrite map_length, seq_length). rewrite (map_nth (fun i => (st + k * Z.of_nat i)%Z)), seq_nth by exact H. reflexivity. Qed.
Lemma slice_selected start stop step n st k len : step <> 0%Z -> slice_indices start stop step n = (st, k, len) ->
  k = step /\ len = length (selected start stop step n) /\ forall i, i < len -> (st + step * Z.of_nat i)%Z = Z.of_nat (nth i (selected start stop step n) 0).
Proof.
  intros HS E. pose proof (positions_selected start stop step n HS) as P. destruct (C41_slice_in_range _ _ _ _ _ _ _ HS E) as [HK HR]. rewrite E in P.
  assert (L : len = length (selected start stop step n)) by (rewrite <- P, map_length; cbn [slice_positions]; now rewrite map_length, seq_length).
  split; [exact HK|]. split; [exact L|]. intros i Hi. rewrite <- P. change 0 with (Z.to_nat 0). rewrite (map_nth Z.to_nat), nth_positions by exact Hi. rewrite Z2Nat.id by (now apply HR). now rewrite HK.
Qed.
(** the [i]-th row of the slice is the [i]-th selected row, in every field *)
Theorem C87_slice : forall c n R o start stop step, batched c (n :: R) o -> step <> 0%Z ->
  let sel := selected start stop step n in
  exists o', obj_getslice start stop step o = Some o' /\ batched c (length sel :: R) o' /\
    forall i q, i < length sel -> inb q R -> elem (i :: q) o' = elem (nth i sel 0 :: q) o.
Proof.
  intros c n R o start stop step [HC HB] HS sel. destruct (slice_indices start stop step n) as [[st k] len] eqn:E. destruct (slice_selected _ _ _ _ _ _ _ HS E) as (-> & HL & HN). fold sel in HL, HN.
  assert (HR : rowwise1 (a_getslice start stop step) (n :: R) (length sel :: R) (fun b => Some (nth (hd 0 b) sel 0 :: tl b)) nofill).
  { apply (rowwise1_build _ _ _ _ _ (fun a idx => get a (index_src [ISlice st step len] (ashape a) idx))).
    - intros b Hb. destruct b as [|i b]; [inversion Hb|]. apply inb_cons in Hb. destruct Hb as [Hi Hb]. cbn [hd tl]. apply inb_cons. split; [|exact Hb]. apply (selected_lt start stop step). apply nth_In. exact Hi.
    - intros a I Hs Hw. unfold a_getslice. destruct (Z.eqb_spec step 0) as [|_]; [contradiction|]. rewrite Hs. cbn [app]. rewrite E. unfold a_index. rewrite Hs. cbn [app index_shape]. now rewrite HL.
    - intros a I b t Hs Hw Hb Ht. rewrite Hs. destruct b as [|i b]; [inversion Hb|]. apply inb_cons in Hb. destruct Hb as [Hi Hb]. cbn [app index_src hd tl]. rewrite HN by lia. rewrite Nat2Z.id.
      f_equal. }
  destruct (lift_one _ _ _ _ _ c o HR HC HB) as [o' [E1 [E2 [E3 E4]]]]. exists o'. split; [exact E1|]. split; [split; assumption|]. intros i q Hi Hq. rewrite E4 by (apply inb_cons; auto). reflexivity.
Qed.
(** the rows of a batch are sliced like the items of a list *)
Theorem C87_rows : forall c n o start stop step d, batched c [n] o -> step <> 0%Z ->
  exists o', obj_getslice start stop step o = Some o' /\ rows (length (selected start stop step n)) o' = map (fun p => nth p (rows n o) d) (selected start stop step n).
Proof.
  intros c n o start stop step d HB HS. destruct (C87_slice c n [] o start stop step HB HS) as (o' & E & _ & F). exists o'. split; [exact E|].
  apply rows_eq; [apply map_length|]. intros i d0 Hi. rewrite (nth_indep _ d0 ((fun p => nth p (rows n o) d) 0)) by (now rewrite map_length).
  rewrite (map_nth (fun p => nth p (rows n o) d)). rewrite rows_nth by (apply (selected_lt start stop step); apply nth_In; exact Hi). symmetry. exact (F i [] Hi inb_nil).
Qed.
(** the familiar cases: [x[:k]], [x[k:]], [x[::-1]], [x[-k:]] *)
Lemma filter_seq_range (f : nat -> bool) lo hi n : lo <= hi -> hi <= n -> (forall p, p < n -> f p = true <-> lo <= p < hi) -> filter f (seq 0 n) = seq lo (hi - lo).
Proof.
  intros H1 H2 H3. apply (sorted_unique lt); [lia|apply filter_sorted, seq_sorted|apply seq_sorted|]. intros x. rewrite filter_In, !in_seq. split; [intros [Hx Hf]; apply H3 in Hf; lia|intros Hx; split; [lia|apply H3; lia]].
Qed.
Lemma selected_upto k n : selected None (Some (Z.of_nat k)) 1 n = seq 0 (min k n).
Proof.
  unfold selected, from_end. cbn [Z.ltb Z.compare]. cbv zeta beta iota. destruct (Z.ltb_spec (Z.of_nat k) 0); [lia|]. rewrite (filter_seq_range _ 0 (min k n)) by (try lia; intros p Hp; rewrite Z.mod_1_r, !andb_true_iff, ?Z.leb_le, ?Z.ltb_lt, Z.eqb_eq; lia). f_equal. lia.
Qed.
Lemma selected_from k n : selected (Some (Z.of_nat k)) None 1 n = seq k (n - k).
Proof.
  unfold selected, from_end. cbn [Z.ltb Z.compare]. cbv zeta beta iota. destruct (Z.ltb_spec (Z.of_nat k) 0); [lia|]. destruct (Nat.le_gt_cases k n) as [Hk|Hk].
  - apply filter_seq_range; [exact Hk|lia|]. intros p Hp. rewrite Z.mod_1_r, !andb_true_iff, ?Z.leb_le, ?Z.ltb_lt, Z.eqb_eq. lia.
  - replace (n - k) with 0 by lia. cbn [seq]. destruct (filter _ _) as [|p l] eqn:E; [reflexivity|]. exfalso. assert (Hp : In p (p :: l)) by now left. rewrite <- E in Hp. apply filter_In in Hp. destruct Hp as [Hp Hf]. apply in_seq in Hp. rewrite !andb_true_iff, Z.leb_le in Hf. lia.
Qed.
Lemma selected_last k n : k <> 0 -> selected (Some (- Z.of_nat k)%Z) None 1 n = seq (n - k) (n - (n - k)).
Proof.
  intros Hk. unfold selected, from_end. cbn [Z.ltb Z.compare]. cbv zeta beta iota. destruct (Z.ltb_spec (- Z.of_nat k) 0); [|lia]. apply filter_seq_range; [lia|lia|]. intros p Hp. rewrite Z.mod_1_r, !andb_true_iff, ?Z.leb_le, ?Z.ltb_lt, Z.eqb_eq. lia.
Qed.
Lemma selected_backwards n : selected None None (-1) n = rev (seq 0 n).
Proof.
  unfold selected. cbn [Z.ltb Z.compare]. cbv zeta beta iota. rewrite (filter_seq_range _ 0 n) by (try lia; intros p Hp; change (- -1)%Z with 1%Z; rewrite Z.mod_1_r, !andb_true_iff, ?Z.leb_le, ?Z.ltb_lt, Z.eqb_eq; lia). now rewrite Nat.sub_0_r.
Qed.
Lemma map_nth_range {X} (l : list X) d lo hi : lo <= hi -> hi <= length l -> map (fun p => nth p l d) (seq lo (hi - lo)) = firstn (hi - lo) (skipn lo l).
Proof.
  intros H1 H2. apply (nth_ext _ _ d d); [rewrite map_length, seq_length, firstn_length, skipn_length; lia|]. intros i Hi. rewrite map_length, seq_length in Hi. rewrite (nth_map_any _ _ i 0) by (now rewrite seq_length). rewrite seq_nth by exact Hi.
  rewrite <- (firstn_skipn lo l) at 1. rewrite app_nth2 by (rewrite firstn_length; lia). rewrite firstn_length, Nat.min_l by lia. replace (lo + i - lo) with i by lia.
  rewrite <- (firstn_skipn (hi - lo) (skipn lo l)) at 1. rewrite app_nth1; [reflexivity|]. rewrite firstn_length, skipn_length. lia.
Qed.
Lemma map_nth_rev {X} (l : list X) d : map (fun p => nth p l d) (rev (seq 0 (length l))) = rev l.
Proof. rewrite map_rev. f_equal. rewrite <- (Nat.sub_0_r (length l)). rewrite map_nth_range by lia. cbn [skipn]. rewrite Nat.sub_0_r. apply firstn_all. Qed.
Theorem C87_upto : forall c n o k, batched c [n] o -> exists o', obj_getslice None (Some (Z.of_nat k)) 1 o = Some o' /\ rows (min k n) o' = firstn k (rows n o).
Proof.
  intros c n o k HB. destruct (C87_rows c n o None (Some (Z.of_nat k)) 1 ONil HB ltac:(lia)) as (o' & E & F). exists o'. split; [exact E|]. rewrite selected_upto, seq_length in F. rewrite F.
  pose proof (map_nth_range (rows n o) ONil 0 (min k n)) as M. rewrite Nat.sub_0_r, rows_length in M. rewrite M by lia. cbn [skipn]. destruct (Nat.le_gt_cases k n); [now rewrite Nat.min_l|]. rewrite Nat.min_r by lia. rewrite !firstn_all2; rewrite ?rows_length; auto; lia.
Qed.
Theorem C87_from : forall c n o k, batched c [n] o -> exists o', obj_getslice (Some (Z.of_nat k)) None 1 o = Some o' /\ rows (n - k) o' = skipn k (rows n o).
Proof.
  intros c n o k HB. destruct (C87_rows c n o (Some (Z.of_nat k)) None 1 ONil HB ltac:(lia)) as (o' & E & F). exists o'. split; [exact E|]. rewrite selected_from, seq_length in F. rewrite F.
  destruct (Nat.le_gt_cases k n) as [Hk|Hk]; [|replace (n - k) with 0 by lia; cbn [seq map]; rewrite skipn_all2; [reflexivity|rewrite rows_length; lia]].
  rewrite (map_nth_range (rows n o) ONil k n) by (rewrite ?rows_length; lia). apply firstn_all2. rewrite skipn_length, rows_length. lia.
Qed.
Theorem C87_last : forall c n o k, batched c [n] o -> k <> 0 -> exists o', obj_getslice (Some (- Z.of_nat k)%Z) None 1 o = Some o' /\ rows (min k n) o' = skipn (n - k) (rows n o).
Proof.
  intros c n o k HB Hk. destruct (C87_rows c n o (Some (- Z.of_nat k)%Z) None 1 ONil HB ltac:(lia)) as (o' & E & F). exists o'. split; [exact E|]. rewrite selected_last, seq_length in F by exact Hk. replace (min k n) with (n - (n - k)) by lia. rewrite F.
  rewrite (map_nth_range (rows n o) ONil (n - k) n) by (rewrite ?rows_length; lia). apply firstn_all2. rewrite skipn_length, rows_length. lia.
Qed.
Theorem C87_backwards : forall c n o, batched c [n] o -> exists o', obj_getslice None None (-1) o = Some o' /\ rows n o' = rev (rows n o).
Proof.
  intros c n o HB. destruct (C87_rows c n o None None (-1) ONil HB ltac:(lia)) as (o' & E & F). exists o'. split; [exact E|]. rewrite selected_backwards, rev_length, seq_length in F. rewrite F. pose proof (map_nth_rev (rows n o) ONil) as M. rewrite rows_length in M. exact M.
Qed.
(** a step of 0 raises *)
Lemma tmap1_none f B : (forall a J, ashape a = B ++ J -> f a = None) ->
  (forall d J x, solid_d d -> has_v (B ++ J) d x -> tmap_v (one f) x [] = None) /\ (forall c J x, c <> CNil -> solid c -> has_batch (B ++ J) c x -> tmap (one f) x [] = None).
Proof.
  intros HE. apply desc_class_ind.
  - intros dt ish bits pb fill J x _ B1. destruct x as [a|]; cbn [has_v] in *; [|contradiction]. cbn [tmap_v map sequence option_map one]. now rewrite (HE a (J ++ ish)) by now rewrite app_assoc.
  - intros c0 IH ish J x [S1 S2] B1. destruct x as [a|x]; cbn [has_v] in *; [contradiction|]. cbn [tmap_v map sequence]. rewrite (IH (J ++ ish) x); try assumption; try reflexivity. now rewrite app_assoc.
  - intros J x H. congruence.
  - intros nm d IHd r IHr J x _ [S1 S2] B1. destruct x as [|nx x rx]; [destruct B1|]. cbn [has_batch] in *. destruct B1 as [_ [B1 B1']]. cbn [tmap map sequence]. rewrite (IHd J x) by assumption. reflexivity.
Qed.
Theorem C87_step_zero : forall c B o start stop, c <> CNil -> solid c -> batched c B o -> obj_getslice start stop 0 o = None.
Proof. intros c B o start stop HN HS [HC HB]. apply (proj2 (tmap1_none _ B (fun a J _ => eq_refl)) c []); [exact HN|exact HS|now rewrite app_nil_r]. Qed.
(** cutting a batch in two and concatenating the parts gives the batch back *)
Theorem C87_cut_and_join : forall c n R o k, c <> CNil -> solid c -> batched c (n :: R) o -> k <= n ->
  exists a b, obj_getslice None (Some (Z.of_nat k)) 1 o = Some a /\ obj_getslice (Some (Z.of_nat k)) None 1 o = Some b /\ obj_concat c 0%Z [a; b] = Some o.
Proof.
  intros c n R o k HN HS HB Hk. destruct (C87_slice c n R o None (Some (Z.of_nat k)) 1 HB ltac:(lia)) as (a & E1 & B1 & F1). destruct (C87_slice c n R o (Some (Z.of_nat k)) None 1 HB ltac:(lia)) as (b & E2 & B2 & F2).
  rewrite selected_upto, seq_length, Nat.min_l in * by exact Hk. rewrite selected_from, seq_length in *. exists a, b. split; [exact E1|]. split; [exact E2|].
  destruct (C41_concat c (n :: R) 0 [k; n - k] [a; b] HN HS (Nat.le_refl 2)) as (o' & E3 & B3 & F3 & G3); [cbn [length]; lia|constructor; [exact B1|constructor; [exact B2|constructor]]|]. change (Z.of_nat 0) with 0%Z in E3. rewrite E3. f_equal.
  replace (list_sum [k; n - k]) with n in * by (cbn; lia). change (upd 0 n (n :: R)) with (n :: R) in *. apply (ext c (n :: R) _ _ B3 HB). intros x Hx. destruct x as [|i q]; [inversion Hx|]. apply inb_cons in Hx. destruct Hx as [Hi Hq].
  destruct (Nat.lt_ge_cases i k) as [H|H].
  - specialize (F3 0 (i :: q)). cbn [firstn nth length] in F3. change (upd 0 k (n :: R)) with (k :: R) in F3. change (upd 0 (list_sum [] + i) (i :: q)) with (i :: q) in F3. rewrite F3; [|lia|apply inb_cons; auto]. rewrite F1 by assumption. now rewrite seq_nth by exact H.
  - specialize (F3 1 (i - k :: q)). cbn [firstn nth length] in F3. change (upd 0 (n - k) (n :: R)) with (n - k :: R) in F3. change (upd 0 (list_sum [k] + (i - k)) (i - k :: q)) with (k + 0 + (i - k) :: q) in F3. replace (k + 0 + (i - k)) with i in F3 by lia.
    rewrite F3; [|lia|apply inb_cons; split; [lia|exact Hq]]. rewrite F2 by (try assumption; lia). rewrite seq_nth by lia. f_equal. f_equal. lia.
Qed.

(** ** [x.at[start:stop:step].set(values)] *)
Lemma set_each_ext (f g : array -> array -> option array) B : (forall w a J, ashape a = B ++ J -> f w a = g w a) ->
  (forall d J x y, has_v (B ++ J) d x -> set_each_v f x y = set_each_v g x y) /\ (forall c J x y, has_batch (B ++ J) c x -> set_each f x y = set_each g x y).
Proof.
  intros HE. apply desc_class_ind.
  - intros dt ish bits pb fill J x y B1. destruct x as [a|]; cbn [has_v] in *; [|contradiction]. destruct y as [b|]; cbn [set_each_v]; [|reflexivity]. now rewrite (HE b a (J ++ ish)) by now rewrite app_assoc.
  - intros c0 IH ish J x y B1. destruct x as [a|x]; cbn [has_v] in *; [contradiction|]. destruct y as [b|y]; cbn [set_each_v]; [reflexivity|]. rewrite (IH (J ++ ish)); [reflexivity|now rewrite app_assoc].
  - intros J x y B1. destruct x; [reflexivity|destruct B1].
  - intros nm d IHd r IHr J x y B1. destruct x as [|nx x rx]; [destruct B1|]. destruct y as [|ny y ry]; cbn [set_each]; [reflexivity|]. destruct B1 as [_ [B1 B1']]. now rewrite (IHd J x y B1), (IHr J rx ry B1').
Qed.
(** writing at distinct positions *)
Lemma norm_nat p n : p < n -> norm_index (Z.of_nat p) n = Some p.
Proof. intros H. unfold norm_index, norm_axis. destruct (Z.ltb_spec (Z.of_nat p) 0); [lia|]. destruct (Z.leb_spec 0 (Z.of_nat p)); [|lia]. destruct (Z.ltb_spec (Z.of_nat p) (Z.of_nat n)); [|lia]. cbn [andb]. now rewrite Nat2Z.id. Qed.
Lemma set_rows c n R o v V ps : batched c (n :: R) o -> batched c V v -> bc V (length ps :: R) -> NoDup ps -> (forall p, In p ps -> p < n) ->
  let o' := obj_at_set (ivec (map Z.of_nat ps)) o v in
  batched c (n :: R) o' /\ (forall j q, j < length ps -> inb q R -> elem (nth j ps 0 :: q) o' = elem (bcast_src V (j :: q)) v) /\
  (forall i q, i < n -> ~ In i ps -> inb q R -> elem (i :: q) o' = elem (i :: q) o).
Proof.
  intros HB HV Hbc HD HL o'. assert (LZ : length (map Z.of_nat ps) = length ps) by apply map_length.
  assert (HW : wfa (ivec (map Z.of_nat ps))) by (unfold wfa; cbn [ivec ashape adata]; rewrite LZ; cbn; lia).
  destruct (C86_set c n R o (ivec (map Z.of_nat ps)) v V HB HW HV) as [K1 K2]; [cbn [ivec ashape app]; now rewrite LZ|]. fold o' in K1, K2. split; [exact K1|].
  assert (HA : forall u i, addresses n (ivec (map Z.of_nat ps)) u i <-> exists j, u = [j] /\ j < length ps /\ nth j ps 0 = i).
  { intros u i. unfold addresses. split.
    - intros [U1 U2]. cbn [ivec ashape] in U1. rewrite LZ in U1. destruct u as [|j u]; [inversion U1|]. apply inb_cons in U1. destruct U1 as [Hj U1]. inversion U1; subst u. exists j. split; [reflexivity|]. split; [exact Hj|].
      rewrite get_ivec in U2. change 0%Z with (Z.of_nat 0) in U2. rewrite (map_nth Z.of_nat), norm_nat in U2 by (apply HL, nth_In, Hj). congruence.
    - intros (j & -> & Hj & <-). split; [cbn [ivec ashape]; rewrite LZ; apply inb_cons; split; [exact Hj|constructor]|]. rewrite get_ivec. change 0%Z with (Z.of_nat 0). rewrite (map_nth Z.of_nat). apply norm_nat, HL, nth_In, Hj. }
  split.
  - intros j q Hj Hq. destruct (K2 (nth j ps 0) (HL _ (nth_In _ _ Hj))) as [(u & U & F)|[N F]].
    + apply HA in U. destruct U as (j' & -> & Hj' & EJ). rewrite (proj1 (NoDup_nth ps 0) HD j' j Hj' Hj EJ) in F. exact (F q Hq).
    + exfalso. apply (N [j]). apply HA. exists j. auto.
  - intros i q Hi HI Hq. destruct (K2 i Hi) as [(u & U & F)|[N F]]; [|exact (F q Hq)]. exfalso. apply HI. apply HA in U. destruct U as (j & -> & Hj & <-). now apply nth_In.
Qed.
(** the [j]-th selected row becomes the [j]-th row of the values (broadcast to the slice, so that
    one single instance goes to every selected row); all others stay *)
Theorem C87_set_slice : forall c n R o v V start stop step, batched c (n :: R) o -> batched c V v -> step <> 0%Z ->
  let sel := selected start stop step n in bc V (length sel :: R) ->
  let o' := obj_setslice start stop step o v in
  batched c (n :: R) o' /\ (forall j q, j < length sel -> inb q R -> elem (nth j sel 0 :: q) o' = elem (bcast_src V (j :: q)) v) /\
  (forall i q, i < n -> ~ In i sel -> inb q R -> elem (i :: q) o' = elem (i :: q) o).
Proof.
  intros c n R o v V start stop step HB HV HS sel Hbc o'.
  assert (EO : o' = obj_at_set (ivec (map Z.of_nat sel)) o v).
  { assert (HE : forall w a J, ashape a = (n :: R) ++ J -> a_setslice start stop step w a = a_at_set (ivec (map Z.of_nat sel)) w a); [intros w a J HA|apply (proj2 (set_each_ext _ _ (n :: R) HE) c []); rewrite app_nil_r; apply HB].
    unfold a_setslice. destruct (Z.eqb_spec step 0); [contradiction|]. rewrite HA. cbn [app]. do 2 f_equal. destruct (slice_indices start stop step n) as [[st k] len] eqn:E. destruct (slice_selected _ _ _ _ _ _ _ HS E) as (-> & HL & HN). fold sel in HL, HN.
    apply (nth_ext _ _ 0%Z (Z.of_nat 0)); [cbn [slice_positions]; rewrite !map_length, seq_length; exact HL|]. intros i Hi. cbn [slice_positions] in Hi. rewrite map_length, seq_length in Hi. rewrite nth_positions by exact Hi. rewrite (map_nth Z.of_nat). now apply HN. }
  rewrite EO. apply set_rows; [exact HB|exact HV|exact Hbc|apply selected_nodup|intros p; apply selected_lt].
Qed.
(** values that do not fit, or a step of 0: nothing changes and nothing is raised *)
Theorem C87_set_unfit_is_silent : forall c n R o v V start stop step, batched c (n :: R) o -> batched c V v ->
  step = 0%Z \/ ~ bc V (length (selected start stop step n) :: R) -> obj_setslice start stop step o v = o.
Proof.
  intros c n R o v V start stop step [HC HB] [HCv HBv] H.
  assert (HE : forall w a J, ashape a = (n :: R) ++ J -> ashape w = V ++ J -> a_setslice start stop step w a = None); [intros w a J HA HW|apply (proj2 (set_each_none2 _ (n :: R) V HE) c []); rewrite app_nil_r; assumption].
  unfold a_setslice. destruct (Z.eqb_spec step 0) as [|NE]; [reflexivity|]. destruct H as [|H]; [contradiction|]. rewrite HA. cbn [app]. apply (at_set_unfit n R _ V J); [|exact HA|exact HW]. cbn [ivec ashape app]. intros K. apply H.
  rewrite <- (map_length Z.to_nat) in K. now rewrite positions_selected in K by exact NE.
Qed.
(** a slice that was written reads back *)
Theorem C87_set_get : forall c n R o v start stop step, batched c (n :: R) o -> step <> 0%Z -> batched c (length (selected start stop step n) :: R) v ->
  obj_getslice start stop step (obj_setslice start stop step o v) = Some v.
Proof.
  intros c n R o v start stop step HB HS HV. destruct (C87_set_slice c n R o v _ start stop step HB HV HS) as (K1 & K2 & _); [split; [lia|rewrite Nat.sub_diag; apply bcast_ok_refl]|].
  destruct (C87_slice c n R _ start stop step K1 HS) as (o' & E & B & F). rewrite E. f_equal. apply (ext c _ _ _ B HV). intros b Hb. destruct b as [|i q]; [inversion Hb|]. pose proof Hb as Hb0. apply inb_cons in Hb. destruct Hb as [Hi Hq].
  rewrite F by assumption. rewrite K2 by assumption. f_equal. now apply bcast_id.
Qed.
(** writing a slice back where it was read changes nothing *)
Theorem C87_get_set : forall c n R o start stop step s, batched c (n :: R) o -> step <> 0%Z -> obj_getslice start stop step o = Some s -> obj_setslice start stop step o s = o.
Proof.
  intros c n R o start stop step s HB HS E. destruct (C87_slice c n R o start stop step HB HS) as (s' & E' & B & F). rewrite E in E'. injection E' as <-.
  destruct (C87_set_slice c n R o s _ start stop step HB B HS) as (K1 & K2 & K3); [split; [lia|rewrite Nat.sub_diag; apply bcast_ok_refl]|].
  apply (ext c _ _ _ K1 HB). intros b Hb. destruct b as [|i q]; [inversion Hb|]. apply inb_cons in Hb. destruct Hb as [Hi Hq].
  destruct (in_dec Nat.eq_dec i (selected start stop step n)) as [HI|HI]; [|now apply K3]. apply (In_nth _ _ 0) in HI. destruct HI as (j & Hj & <-). rewrite K2 by assumption. rewrite bcast_id by (apply inb_cons; auto). now apply F.
Qed.

(** ** [x[mask]] *)
(** the multi-indices at which a boolean array is true, in row-major order *)
Definition lit (mask : array) : list (list nat) := filter (fun u => negb (get mask u =? 0)%Z) (map (unravel (ashape mask)) (seq 0 (prod (ashape mask)))).
Lemma lit_positions mask : lit mask = map (unravel (ashape mask)) (true_positions mask).
Proof.
  unfold lit, true_positions. assert (K : forall l, (forall i, In i l -> i < prod (ashape mask)) -> filter (fun u => negb (get mask u =? 0)%Z) (map (unravel (ashape mask)) l) = map (unravel (ashape mask)) (filter (fun i => negb (nth i (adata mask) 0 =? 0)%Z) l)).
  { induction l as [|i l IH]; intros H; [reflexivity|]. cbn [map filter]. rewrite IH by (intros j Hj; apply H; now right). unfold get at 1. rewrite ravel_unravel by (apply H; now left). destruct (negb _); reflexivity. }
  apply K. intros i Hi. apply in_seq in Hi. lia.
Qed.
Lemma true_lt mask i : In i (true_positions mask) -> i < prod (ashape mask).
Proof. intros H. apply filter_In in H. destruct H as [H _]. apply in_seq in H. lia. Qed.
(** the rows at which the mask is true, in row-major order *)
Theorem C87_mask : forall c R o mask, batched c (ashape mask ++ R) o ->
  exists o', obj_mask mask o = Some o' /\ batched c (length (lit mask) :: R) o' /\
    forall i q, i < length (lit mask) -> inb q R -> elem (i :: q) o' = elem (nth i (lit mask) [] ++ q) o.
Proof.
  intros c R o mask [HC HB]. rewrite lit_positions, map_length. set (ps := true_positions mask). set (M := ashape mask) in *.
  assert (HR : rowwise1 (a_mask mask) (M ++ R) (length ps :: R) (fun b => Some (unravel M (nth (hd 0 b) ps 0) ++ tl b)) nofill).
  { apply (rowwise1_build _ _ _ _ _ (fun a idx => get a (unravel M (nth (hd 0 idx) ps 0) ++ tl idx))).
    - intros b Hb. destruct b as [|i b]; [inversion Hb|]. apply inb_cons in Hb. destruct Hb as [Hi Hb]. cbn [hd tl]. apply inb_app_intro; [|exact Hb]. apply unravel_inb. apply true_lt. now apply nth_In.
    - intros a I Hs Hw. unfold a_mask, ndim. fold M. fold ps. rewrite Hs, <- app_assoc. rewrite firstn_app, Nat.sub_diag, firstn_all. cbn [firstn]. rewrite app_nil_r. unfold shape_eqb. destruct (list_eq_dec Nat.eq_dec M M) as [_|NE]; [|congruence].
      rewrite skipn_app, Nat.sub_diag, skipn_all. reflexivity.
    - intros a I b t Hs Hw Hb Ht. destruct b as [|i b]; [inversion Hb|]. cbn [app hd tl]. now rewrite app_assoc. }
  destruct (lift_one _ _ _ _ _ c o HR HC HB) as [o' [E1 [E2 [E3 E4]]]]. exists o'. split; [exact E1|]. split; [split; assumption|]. intros i q Hi Hq. rewrite E4 by (apply inb_cons; auto). cbn [hd tl].
  now rewrite (nth_map_any _ _ i 0) by exact Hi.
Qed.
(** a mask over the rows keeps the rows it is true at *)
Definition flags (bs : list bool) : array := MkArr DBool [length bs] (map Z.b2z bs).
Lemma true_flags bs : true_positions (flags bs) = filter (fun i => nth i bs false) (seq 0 (length bs)).
Proof.
  unfold true_positions. cbn [flags ashape adata]. replace (prod [length bs]) with (length bs) by (cbn; lia). apply filter_ext. intros i. change 0%Z with (Z.b2z false). rewrite (map_nth Z.b2z). destruct (nth i bs false); reflexivity.
Qed.
Lemma kept {X} (l : list X) d bs : length bs = length l -> map (fun p => nth p l d) (filter (fun i => nth i bs false) (seq 0 (length bs))) = map snd (filter fst (combine bs l)).
Proof.
  revert bs. induction l as [|x l IH]; intros [|b bs] H; cbn [length] in H; try discriminate; [reflexivity|]. cbn [length seq filter nth combine fst].
  assert (K : forall m, map (fun p => nth p (x :: l) d) (filter (fun i => nth i (b :: bs) false) (seq 1 m)) = map (fun p => nth p l d) (filter (fun i => nth i bs false) (seq 0 m))).
  { intros m. rewrite <- (seq_shift m 0). generalize (seq 0 m). intros s. induction s as [|i s IS]; [reflexivity|]. cbn [map filter]. change (nth (S i) (b :: bs) false) with (nth i bs false). destruct (nth i bs false); cbn [map]; [|exact IS]. change (nth (S i) (x :: l) d) with (nth i l d). f_equal. exact IS. }
  assert (HI : length bs = length l) by lia. destruct b; cbn [map]; rewrite K; [f_equal|]; exact (IH bs HI).
Qed.
Theorem C87_mask_rows : forall c n o bs, batched c [n] o -> length bs = n ->
  exists o' k, obj_mask (flags bs) o = Some o' /\ batched c [k] o' /\ rows k o' = map snd (filter fst (combine bs (rows n o))).
Proof.
  intros c n o bs HB HL. destruct (C87_mask c [] o (flags bs)) as (o' & E & B & F); [cbn [flags ashape]; now rewrite HL|]. exists o', (length (lit (flags bs))). split; [exact E|]. split; [exact B|].
  assert (EL : length (lit (flags bs)) = length (true_positions (flags bs))) by (rewrite lit_positions; apply map_length).
  rewrite <- (kept (rows n o) ONil bs) by (now rewrite rows_length). rewrite <- true_flags. apply rows_eq; [rewrite map_length; now symmetry|]. intros i d Hi.
  rewrite (nth_map_any _ _ i 0) by (rewrite <- EL; exact Hi). rewrite EL in Hi. pose proof (true_lt _ _ (nth_In _ 0 Hi)) as HP. replace (prod (ashape (flags bs))) with n in HP by (cbn [flags ashape]; rewrite HL; cbn; lia). rewrite rows_nth by exact HP.
  rewrite F by (try constructor; rewrite EL; exact Hi). rewrite lit_positions. rewrite (nth_map_any _ _ i 0) by exact Hi. f_equal. cbn [flags ashape]. rewrite HL. cbn [unravel app]. change (prod []) with 1. now rewrite Nat.div_1_r.
Qed.
(** a mask of another shape raises *)
Theorem C87_mask_unfit : forall c B o mask, c <> CNil -> solid c -> batched c B o -> length (ashape mask) <= length B -> firstn (length (ashape mask)) B <> ashape mask -> obj_mask mask o = None.
Proof.
  intros c B o mask HN HS [HC HB] HL HM. assert (HE : forall a J, ashape a = B ++ J -> a_mask mask a = None); [intros a J HA|apply (proj2 (tmap1_none _ B HE) c []); [exact HN|exact HS|now rewrite app_nil_r]].
  unfold a_mask, ndim. rewrite HA, firstn_app. replace (length (ashape mask) - length B) with 0 by lia. cbn [firstn]. rewrite app_nil_r. unfold shape_eqb. destruct (list_eq_dec Nat.eq_dec _ _) as [E|]; [contradiction|reflexivity].
Qed.
(** [x.at[mask].set(values)]: the rows at which the mask is true, in order, become the rows of the
    values; the others stay *)
Theorem C87_set_mask : forall c n R o v V bs, batched c (n :: R) o -> length bs = n -> batched c V v ->
  let ps := filter (fun i => nth i bs false) (seq 0 n) in bc V (length ps :: R) ->
  let o' := obj_setmask (flags bs) o v in
  batched c (n :: R) o' /\ (forall j q, j < length ps -> inb q R -> elem (nth j ps 0 :: q) o' = elem (bcast_src V (j :: q)) v) /\
  (forall i q, i < n -> nth i bs false = false -> inb q R -> elem (i :: q) o' = elem (i :: q) o).
Proof.
  intros c n R o v V bs HB HL HV ps Hbc o'. subst n. assert (EP : true_positions (flags bs) = ps) by apply true_flags. set (n := length bs) in *.
  assert (EO : o' = obj_at_set (ivec (map Z.of_nat ps)) o v).
  { assert (HE : forall w a J, ashape a = (n :: R) ++ J -> a_setmask (flags bs) w a = a_at_set (ivec (map Z.of_nat ps)) w a); [intros w a J HA|apply (proj2 (set_each_ext _ _ (n :: R) HE) c []); rewrite app_nil_r; apply HB].
    unfold a_setmask. rewrite HA, EP. cbn [app flags ashape]. fold n. unfold shape_eqb. destruct (list_eq_dec Nat.eq_dec [n] [n]) as [_|NE]; [reflexivity|congruence]. }
  destruct (set_rows c n R o v V ps HB HV Hbc) as (K1 & K2 & K3); [apply NoDup_filter, seq_NoDup|intros p Hp; apply filter_In in Hp; destruct Hp as [Hp _]; apply in_seq in Hp; lia|].
  rewrite EO. split; [exact K1|]. split; [exact K2|]. intros i q Hi Hb Hq. apply K3; [exact Hi| |exact Hq]. intros HI. apply filter_In in HI. destruct HI as [_ HI]. congruence.
Qed.

(** a mask of another length, or values that do not fit: nothing changes and nothing is raised *)
Theorem C87_set_mask_unfit : forall c n R o v V bs, batched c (n :: R) o -> batched c V v ->
  length bs <> n \/ ~ bc V (length (filter (fun i => nth i bs false) (seq 0 n)) :: R) -> obj_setmask (flags bs) o v = o.
Proof.
  intros c n R o v V bs [HC HB] [HCv HBv] H. unfold obj_setmask.
  assert (HE : forall w a J, ashape a = (n :: R) ++ J -> ashape w = V ++ J -> a_setmask (flags bs) w a = None); [intros w a J HA HW|apply (proj2 (set_each_none2 _ (n :: R) V HE) c []); rewrite app_nil_r; assumption].
  unfold a_setmask. rewrite HA. cbn [app flags ashape]. destruct (shape_eqb [length bs] [n]) eqn:ES; [|reflexivity]. apply shape_eqb_eq in ES. injection ES as EL. destruct H as [H|H]; [contradiction|].
  apply (at_set_unfit n R _ V J); [|exact HA|exact HW]. cbn [ivec ashape app]. intros K. apply H. rewrite map_length, true_flags, EL in K. exact K.
Qed.

(** ** [x[..., i]] *)
(** for classes with scalar fields only this takes the [i]-th entry of the last batch axis *)
(** any integer: negative ones count from the end, those out of range are brought to the nearest end *)
Theorem C87_last_axis_scalars : forall c B n o z, scalar_leaves c -> batched c (B ++ [n]) o -> n <> 0 ->
  let i := Z.to_nat (Z.max 0 (Z.min (from_end n z) (Z.of_nat n - 1))) in
  exists o', obj_last z o = Some o' /\ batched c B o' /\ forall b, inb b B -> elem b o' = elem (b ++ [i]) o.
Proof.
  intros c B n o z HSL HB Hn i. assert (Hi : i < n) by (unfold i; lia). destruct (lift_scalar (a_last z) (B ++ [n]) B (fun b => Some (b ++ [i])) nofill c o HSL) as (o' & E1 & E2 & E3).
  - split; [intros b Hb; apply inb_app_intro; [exact Hb|repeat constructor; exact Hi]|]. intros a Hs Hw. unfold a_last. rewrite Hs, rev_unit. destruct (Nat.eqb_spec n 0); [lia|]. rewrite rev_involutive. eexists. split; [reflexivity|]. split; [reflexivity|]. split; [reflexivity|]. split; [apply build_wfa|].
    intros b Hb. rewrite get_build by exact Hb. reflexivity.
  - exact HB.
  - exists o'. split; [exact E1|]. split; [exact E2|]. exact E3.
Qed.
(** refutation: with a tensor field the last axis is the tensor's: [x[..., 0]] on a batch of two
    cells takes the first row of the scalars and the first entry of every tensor.  The result is
    a well-formed single instance, and no row; on a batch of three it is no batch at all *)
Theorem C87_last_axis_refuted :
  (exists o', obj_last 0 (cells [2] [1; 5]%Z) = Some o' /\ batched cell [] o' /\ (forall i, i < 2 -> elem [i] (cells [2] [1; 5]%Z) <> o')) /\
  (exists o', obj_last 0 (cells [3] [1; 2; 3]%Z) = Some o' /\ get_batch cell o' = Some Unstr).
Proof.
  split; [|eexists; split; reflexivity]. eexists. split; [reflexivity|]. split; [split; [|repeat split]; repeat split|]. intros [|[|i]] Hi; [vm_compute; congruence|vm_compute; congruence|lia].
Qed.

(** ** Concrete uses *)
Example C87_case :
  let o := cells [5] [1; 2; 3; 4; 5]%Z in
  batched cell [5] o /\ selected (Some (-4)%Z) None 2 5 = [1; 3] /\ selected (Some 3%Z) (Some 0%Z) (-2) 5 = [3; 1] /\
  obj_getslice (Some (-4)%Z) None 2 o = Some (cells [2] [2; 4]%Z) /\ obj_getslice None None (-1) o = Some (cells [5] [5; 4; 3; 2; 1]%Z) /\
  obj_setslice None (Some 2%Z) 1 o (cells [] [9]%Z) = cells [5] [9; 9; 3; 4; 5]%Z /\ bc [] [2] /\
  obj_setslice None (Some 2%Z) 1 o (cells [3] [7; 8; 9]%Z) = o /\ ~ bc [3] [2] /\
  obj_mask (flags [true; false; false; true; true]) o = Some (cells [3] [1; 4; 5]%Z) /\
  obj_setmask (flags [true; false; false; true; false]) o (cells [2] [8; 9]%Z) = cells [5] [8; 2; 3; 9; 5]%Z /\
  obj_mask (flags [true; false]) o = None.
Proof.
  cbn zeta. split; [split; [|repeat split]; repeat split|]. split; [reflexivity|]. split; [reflexivity|]. split; [reflexivity|]. split; [reflexivity|]. split; [reflexivity|].
  split; [split; [cbn; lia|reflexivity]|]. split; [reflexivity|]. split; [intros [_ H]; discriminate|]. split; [reflexivity|]. split; reflexivity.
Qed.
(** a two-dimensional mask *)
Example C87_mask_case : batched cell [2; 2] (cells [2; 2] [1; 2; 3; 4]%Z) /\ lit (MkArr DBool [2; 2] [0; 1; 1; 0]%Z) = [[0; 1]; [1; 0]] /\
  obj_mask (MkArr DBool [2; 2] [0; 1; 1; 0]%Z) (cells [2; 2] [1; 2; 3; 4]%Z) = Some (cells [2] [2; 3]%Z).
Proof. split; [split; [|repeat split]; repeat split|]. split; reflexivity. Qed.
Print Assumptions C87_slice. Print Assumptions C87_rows. Print Assumptions C87_cut_and_join. Print Assumptions C87_set_slice. Print Assumptions C87_set_get. Print Assumptions C87_get_set. Print Assumptions C87_mask. Print Assumptions C87_mask_rows. Print Assumptions C87_set_mask. Print Assumptions C87_last_axis_refuted. Print Assumptions C87_set_mask_unfit.
