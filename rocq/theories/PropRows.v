(** * PropRows.v — property C41 (first part) and the shape-preserving part of C40:
    indexing, reshape, flatten, transpose and swapaxes act on whole elements. *)
From Coq Require Import String.
From Verif Require Import Jax StructModel ArrayModel ArrayFacts ShapeModel PropShape RowsModel RowsLift.

(** an instance of the class with the batch shape *)
Definition batched (c : class) (B : list nat) (o : obj) : Prop := conforms c o /\ has_batch B c o.

(** ** Elements are what integer indexing returns *)
Lemma elem_nil_both : (forall v d, conforms_v d v -> elem_v [] v = v) /\ (forall o c, conforms c o -> elem [] o = o).
Proof.
  apply value_obj_ind.
  - intros a d HC. destruct d as [dt ish bits pb fill|c ish]; [|destruct HC]. destruct HC as [_ HW]. cbn [elem_v]. f_equal. unfold sub. cbn [length skipn app]. now apply build_get.
  - intros o IH d HC. destruct d as [dt ish bits pb fill|c ish]; [destruct HC|]. cbn [elem_v]. f_equal. now apply (IH c).
  - reflexivity.
  - intros n v IHv r IHr c HC. destruct c as [|m d q]; [destruct HC|]. destruct HC as [_ [C1 C2]]. cbn [elem]. f_equal; [now apply (IHv d)|now apply (IHr q)].
Qed.
Definition nofill (_ : dtype) : Z := 0%Z.
Theorem C41_elem : forall c B o b, batched c B o -> inb b B ->
  exists e, obj_index (map (fun i => IInt (Z.of_nat i)) b) o = Some e /\ batched c [] e /\ e = elem b o.
Proof.
  intros c B o b [HC HB] Hb.
  assert (HR : rowwise1 (a_index (map (fun i => IInt (Z.of_nat i)) b)) B [] (fun _ => Some b) nofill).
  { split; [auto|]. intros a I Hs Hw. exists (sub b a). split; [now apply (sub_index b a B I)|]. rewrite (sub_shape b a B I Hb Hs). split; [reflexivity|]. split; [reflexivity|].
    split; [apply build_wfa|]. intros b' t Hb' Ht. inversion Hb'; subst. cbn [app]. rewrite get_build by exact Ht. reflexivity. }
  destruct (lift_one _ _ _ _ _ c o HR HC HB) as [e [E [E1 [E2 E3]]]]. exists e. split; [exact E|]. split; [split; assumption|].
  rewrite <- (E3 [] inb_nil). symmetry. now apply (proj2 elem_nil_both e c).
Qed.
(** elements of a default instance are default elements *)
Lemma full_sub b B I dt z : inb b B -> sub b (full dt (B ++ I) z) = full dt I z.
Proof.
  intros Hb. rewrite (sub_shape b _ B I Hb) by reflexivity. rewrite (full_build dt I). cbn [adtype full]. apply build_ext. intros t Ht.
  rewrite full_build. apply get_build. now apply inb_app_intro.
Qed.
Lemma default_elem_both B b : inb b B -> (forall d J, elem_v b (default_v (B ++ J) d) = default_v J d) /\ (forall c J, elem b (default_obj (B ++ J) c) = default_obj J c).
Proof.
  intros Hb. apply desc_class_ind.
  - intros dt ish bits pb fill J. cbn [default_v elem_v]. f_equal. rewrite <- app_assoc. now apply full_sub.
  - intros c IH ish J. cbn [default_v elem_v]. f_equal. rewrite <- app_assoc. apply IH.
  - reflexivity.
  - intros n d IHd r IHr J. cbn [default_obj elem]. now rewrite IHd, IHr.
Qed.
Theorem C41_default_elem : forall c B b, inb b B -> elem b (default_obj B c) = default_obj [] c.
Proof. intros c B b Hb. rewrite <- (proj2 (default_elem_both B b Hb) c []). now rewrite app_nil_r. Qed.

(** ** General indexing by integers, slices and new axes *)
(** the index items refer to batch axes only, slices stay inside, integer axes are not empty *)
Fixpoint index_ok (ix : list index_item) (B : list nat) : Prop :=
  match ix, B with
  | [], _ => True
  | INew :: r, _ => index_ok r B
  | IInt _ :: r, d :: B' => d <> 0 /\ index_ok r B'
  | ISlice st step len :: r, d :: B' => (forall i, i < len -> (0 <= st + step * Z.of_nat i < Z.of_nat d)%Z) /\ index_ok r B'
  | _, [] => False
  end.
Lemma index_ok_shape ix B I : index_ok ix B -> exists B', index_shape ix B = Some B' /\ index_shape ix (B ++ I) = Some (B' ++ I).
Proof.
  revert B. induction ix as [|x ix IH]; intros B H; [exists B; destruct B, I; auto|]. destruct x as [z|st step len|].
  - destruct B as [|d B]; [destruct H|]. destruct H as [Hd H]. destruct (IH B H) as [B' [E1 E2]]. exists B'. cbn [index_shape app]. destruct (Nat.eqb_spec d 0); [contradiction|]. auto.
  - destruct B as [|d B]; [destruct H|]. destruct H as [_ H]. destruct (IH B H) as [B' [E1 E2]]. exists (len :: B'). cbn [index_shape app]. rewrite E1, E2. auto.
  - cbn [index_ok] in H. destruct (IH B H) as [B' [E1 E2]]. exists (1 :: B'). cbn [index_shape]. rewrite E1, E2. split; reflexivity.
Qed.
Lemma index_ok_src ix B B' I b' t : index_ok ix B -> index_shape ix B = Some B' -> inb b' B' ->
  inb (index_src ix B b') B /\ index_src ix (B ++ I) (b' ++ t) = index_src ix B b' ++ t.
Proof.
  revert B B' b'. induction ix as [|x ix IH]; intros B B' b' H E Hb.
  - destruct B; cbn in E; injection E as <-; split; auto; cbn [index_src].
  - destruct x as [z|st step len|].
    + destruct B as [|d B]; [destruct H|]. destruct H as [Hd H]. cbn [index_shape] in E. destruct (Nat.eqb_spec d 0); [contradiction|]. cbn [index_src app].
      destruct (IH B B' b' H E Hb) as [K1 K2]. rewrite K2. split; [|reflexivity]. apply inb_cons. split; [unfold clamp_index; lia|exact K1].
    + destruct B as [|d B]; [destruct H|]. destruct H as [Hs H]. cbn [index_shape] in E. destruct (index_shape ix B) as [B''|] eqn:E2; [|discriminate]. injection E as <-.
      destruct b' as [|i b']; [inversion Hb|]. apply inb_cons in Hb. destruct Hb as [Hi Hb]. destruct (IH B B'' b' H E2 Hb) as [K1 K2]. cbn [index_src app]. rewrite K2. split; [|reflexivity].
      apply inb_cons. split; [|exact K1]. specialize (Hs i Hi). lia.
    + cbn [index_ok] in H. cbn [index_shape] in E. destruct (index_shape ix B) as [B''|] eqn:E2; [|discriminate]. injection E as <-.
      destruct b' as [|i b']; [inversion Hb|]. apply inb_cons in Hb. destruct Hb as [Hi Hb]. destruct (IH B B'' b' H E2 Hb) as [K1 K2]. cbn [index_src app]. rewrite K2. split; [exact K1|reflexivity].
Qed.
(** indexing an instance gives an instance with the indexed batch shape, and the element at
    [b'] of the result is the element at the indexed position of the input, in every field *)
Theorem C41_index : forall c B o ix, batched c B o -> index_ok ix B ->
  exists o' B', obj_index ix o = Some o' /\ index_shape ix B = Some B' /\ batched c B' o' /\
    forall b', inb b' B' -> inb (index_src ix B b') B /\ elem b' o' = elem (index_src ix B b') o.
Proof.
  intros c B o ix [HC HB] HI. destruct (index_ok_shape ix B [] HI) as [B' [EB _]].
  assert (HR : rowwise1 (a_index ix) B B' (fun b' => Some (index_src ix B b')) nofill).
  { apply (rowwise1_build _ _ _ _ _ (fun a idx => get a (index_src ix (ashape a) idx))).
    - intros b' Hb. now apply (index_ok_src ix B B' [] b' [] HI EB Hb).
    - intros a I Hs Hw. unfold a_index. rewrite Hs. destruct (index_ok_shape ix B I HI) as [B2 [E1 E2]]. rewrite E2. congruence.
    - intros a I b' t Hs Hw Hb Ht. rewrite Hs. now rewrite (proj2 (index_ok_src ix B B' I b' t HI EB Hb)). }
  destruct (lift_one _ _ _ _ _ c o HR HC HB) as [o' [E [E1 [E2 E3]]]]. exists o', B'. split; [exact E|]. split; [exact EB|]. split; [split; assumption|].
  intros b' Hb. split; [apply (index_ok_src ix B B' [] b' [] HI EB Hb)|now apply E3].
Qed.
(** Python slices with a non-zero step always select positions inside the axis *)
Theorem C41_slice_in_range : forall start stop step d st stp len, step <> 0%Z -> slice_indices start stop step d = (st, stp, len) ->
  stp = step /\ forall i, i < len -> (0 <= st + stp * Z.of_nat i < Z.of_nat d)%Z.
Proof.
  intros start stop step d st stp len Hs E. unfold slice_indices in E. injection E as E1 E2 E3. subst stp. split; [reflexivity|].
  destruct (Z.ltb_spec step 0) as [Hn|Hp].
  - set (n := Z.of_nat d) in *. assert (Hn0 : (0 <= n)%Z) by (unfold n; lia).
    assert (HA : (-1 <= st <= n - 1)%Z) by (subst st; destruct start as [z|]; lia).
    set (b := match stop with Some z => _ | None => _ end) in *. assert (HB : (-1 <= b)%Z) by (unfold b; destruct stop as [z|]; lia).
    intros i Hi. rewrite E1 in E3. 
    assert (HI : (Z.of_nat i < (st - b - step - 1) / - step)%Z) by lia.
    assert (HI2 : (Z.of_nat i + 1 <= (st - b - step - 1) / - step)%Z) by lia.
    pose proof (Z.mul_div_le (st - b - step - 1) (- step)) as HM. assert (HM2 : (- step * ((st - b - step - 1) / - step) <= st - b - step - 1)%Z) by (apply HM; lia). nia.
  - set (n := Z.of_nat d) in *. assert (Hn0 : (0 <= n)%Z) by (unfold n; lia).
    assert (HA : (0 <= st <= n)%Z) by (subst st; destruct start as [z|]; lia).
    set (b := match stop with Some z => _ | None => _ end) in *. assert (HB : (b <= n)%Z) by (unfold b; destruct stop as [z|]; lia).
    intros i Hi. rewrite E1 in E3.
    assert (HI2 : (Z.of_nat i + 1 <= (b - st + step - 1) / step)%Z) by lia.
    assert (HM2 : (step * ((b - st + step - 1) / step) <= b - st + step - 1)%Z) by (apply Z.mul_div_le; lia). nia.
Qed.

(** ** reshape and flatten *)
Lemma prod_map_Z s : existsb (fun z => (z <? 0)%Z) s = false -> Z.of_nat (prod (map Z.to_nat s)) = zprod s.
Proof.
  induction s as [|z s IH]; intros H; [reflexivity|]. cbn [existsb] in H. apply orb_false_iff in H. destruct H as [H1 H2]. cbn [map zprod fold_right]. rewrite prod_cons.
  fold (zprod s). rewrite <- (IH H2). apply Z.ltb_ge in H1. lia.
Qed.
Lemma rowwise_reshape B s : prod s = prod B -> rowwise1 (leaf_reshape (length B) s) B s (fun b' => Some (unravel B (ravel s b'))) nofill.
Proof.
  intros HP. split.
  - intros b' Hb. apply unravel_inb. rewrite <- HP. now apply ravel_lt.
  - intros a I Hs Hw. unfold leaf_reshape, ndim. rewrite Hs, app_length. destruct (Nat.ltb_spec (length B + length I) (length B)); [lia|].
    rewrite skipn_app, skipn_all, Nat.sub_diag. cbn [app skipn]. unfold a_reshape. rewrite Hs, !prod_app, HP, Nat.eqb_refl. eexists. split; [reflexivity|].
    cbn [adtype ashape]. split; [reflexivity|]. split; [reflexivity|]. split; [unfold wfa in *; cbn; rewrite Hw, Hs, !prod_app; lia|].
    intros b' t Hb Ht. unfold get. cbn [ashape adata]. rewrite Hs. pose proof (ravel_lt _ _ Hb) as HL. rewrite HP in HL.
    rewrite !ravel_app; [|apply inb_length, unravel_inb; exact HL|apply inb_length; exact Hb]. now rewrite ravel_unravel by exact HL.
Qed.
(** the shape asked for, with -1 resolved *)
Definition asked (s : list Z) (total : nat) (B' : list nat) : Prop :=
  prod B' = total /\ length s = length B' /\ count_neg s <= 1 /\
  forall i, i < length B' -> nth i s 0%Z = Z.of_nat (nth i B' 0) \/ nth i s 0%Z = (-1)%Z.
Lemma count_neg_0 s : count_neg s = 0 -> Forall (fun z => z <> (-1)%Z) s.
Proof. induction s as [|z s IH]; cbn; intros H; [constructor|]. destruct (Z.eqb_spec z (-1)); [lia|]. constructor; [assumption|]. apply IH. lia. Qed.
Theorem C41_reshape : forall c B o s o', c <> CNil -> solid c -> batched c B o -> obj_reshape c s o = Some o' ->
  exists B', asked s (prod B) B' /\ batched c B' o' /\
    (forall b', inb b' B' -> elem b' o' = elem (unravel B (ravel B' b')) o).
Proof.
  intros c B o s o' HN HS [HC HB] E. unfold obj_reshape in E. rewrite (proj2 (C40_reports c o B HN HS HC) HB) in E. destruct B as [|d B]; [discriminate|].
  set (BB := d :: B) in *. destruct (resolve (prod BB) s) as [s'|] eqn:ER; [|discriminate]. destruct (Z.eqb_spec (Z.of_nat (prod BB)) (zprod s')) as [EP|]; [|discriminate].
  destruct (existsb (fun z => (z <? 0)%Z) s') eqn:EX; [discriminate|].
  pose proof (prod_map_Z s' EX) as HZ. assert (HP : prod (map Z.to_nat s') = prod BB) by lia.
  destruct (lift_one _ _ _ _ _ c o (rowwise_reshape BB _ HP) HC HB) as [o2 [E1 [E2 [E3 E4]]]]. rewrite E1 in E. injection E as <-.
  exists (map Z.to_nat s'). split; [|split; [split; assumption|exact E4]].
  unfold asked. split; [exact HP|]. unfold resolve in ER. destruct (Nat.eqb_spec (count_neg s) 0) as [C0|C0].
  - injection ER as <-. rewrite map_length. split; [reflexivity|]. split; [lia|]. intros i Hi. left.
    assert (HI : (nth i s 0 <? 0)%Z = false).
    { destruct (nth i s 0 <? 0)%Z eqn:EI; [|reflexivity]. assert (existsb (fun z => (z <? 0)%Z) s = true) by (apply existsb_exists; exists (nth i s 0%Z); split; [now apply nth_In|exact EI]). congruence. }
    apply Z.ltb_ge in HI. rewrite (nth_indep _ 0 (Z.to_nat 0%Z)) by (now rewrite map_length). rewrite map_nth. lia.
  - destruct (Nat.ltb_spec 1 (count_neg s)); [discriminate|]. set (p := zprod _) in ER. destruct (p =? 0)%Z; [discriminate|]. destruct (negb _); [discriminate|].
    set (g := fun z => if (z =? -1)%Z then (Z.of_nat (prod BB) / p)%Z else z) in *. assert (EQ : s' = map g s) by congruence. clear ER. subst s'.
    rewrite !map_length. split; [reflexivity|]. split; [lia|]. intros i Hi.
    assert (EG : nth i (map g s) 0%Z = g (nth i s 0%Z)) by (rewrite (nth_indep _ 0%Z (g 0%Z)) by (now rewrite map_length); apply map_nth).
    assert (HI : (nth i (map g s) 0 <? 0)%Z = false).
    { destruct (nth i (map g s) 0 <? 0)%Z eqn:EI; [|reflexivity]. assert (existsb (fun z => (z <? 0)%Z) (map g s) = true) by (apply existsb_exists; exists (nth i (map g s) 0%Z); split; [apply nth_In; now rewrite map_length|exact EI]). congruence. }
    rewrite (nth_indep _ 0 (Z.to_nat 0%Z)) by (now rewrite !map_length). rewrite map_nth, EG in *. unfold g in *. destruct (Z.eqb_spec (nth i s 0%Z) (-1)); [right; assumption|left]. apply Z.ltb_ge in HI. lia.
Qed.
(** every shape with the right number of elements is accepted, also with one -1 *)
Theorem C41_reshape_succeeds : forall c B o B', c <> CNil -> solid c -> batched c B o -> B <> [] -> prod B' = prod B ->
  exists o', obj_reshape c (map Z.of_nat B') o = Some o' /\ batched c B' o' /\
    forall b', inb b' B' -> elem b' o' = elem (unravel B (ravel B' b')) o.
Proof.
  intros c B o B' HN HS [HC HB] HNB HP. unfold obj_reshape. rewrite (proj2 (C40_reports c o B HN HS HC) HB). destruct B as [|d B]; [congruence|]. set (BB := d :: B) in *.
  assert (C0 : count_neg (map Z.of_nat B') = 0) by (clear; induction B' as [|x l IH]; cbn [map count_neg]; [reflexivity|]; destruct (Z.eqb_spec (Z.of_nat x) (-1)); lia).
  unfold resolve. rewrite C0, Nat.eqb_refl.
  assert (EX : existsb (fun z => (z <? 0)%Z) (map Z.of_nat B') = false) by (clear; induction B' as [|x l IH]; cbn [map existsb]; [reflexivity|]; destruct (Z.ltb_spec (Z.of_nat x) 0); [lia|exact IH]).
  assert (EM : map Z.to_nat (map Z.of_nat B') = B') by (rewrite map_map; clear; induction B' as [|x l IH]; cbn [map]; [reflexivity|]; f_equal; [lia|exact IH]).
  pose proof (prod_map_Z _ EX) as HZ. rewrite EM in HZ. destruct (Z.eqb_spec (Z.of_nat (prod BB)) (zprod (map Z.of_nat B'))); [|lia]. rewrite EX, EM.
  destruct (lift_one _ _ _ _ _ c o (rowwise_reshape BB _ HP) HC HB) as [o2 [E1 [E2 [E3 E4]]]]. exists o2. split; [exact E1|]. split; [split; assumption|exact E4].
Qed.
Theorem C41_flatten : forall c B o, c <> CNil -> solid c -> batched c B o -> B <> [] ->
  exists o', obj_flatten c o = Some o' /\ batched c [prod B] o' /\
    forall b, inb b B -> elem [ravel B b] o' = elem b o.
Proof.
  intros c B o HN HS [HC HB] HNB. unfold obj_flatten. rewrite (proj2 (C40_reports c o B HN HS HC) HB). destruct B as [|d B]; [congruence|]. set (BB := d :: B) in *.
  assert (HP : prod [prod BB] = prod BB) by (cbn; lia).
  destruct (lift_one _ _ _ _ _ c o (rowwise_reshape BB _ HP) HC HB) as [o2 [E1 [E2 [E3 E4]]]]. exists o2. split; [exact E1|]. split; [split; assumption|].
  intros b Hb. rewrite E4 by (apply inb_cons; split; [now apply ravel_lt|constructor]). cbn [ravel]. rewrite Nat.add_0_r. unfold prod at 1. cbn [fold_right]. rewrite Nat.mul_1_r. now rewrite unravel_ravel.
Qed.

(** ** transpose *)
Lemma index_of_app_in m l r : In m l -> index_of m (l ++ r) = index_of m l.
Proof. induction l as [|x l IH]; intros H; [destruct H|]. cbn [app index_of]. destruct (Nat.eqb_spec x m); [reflexivity|]. f_equal. apply IH. destruct H; [congruence|assumption]. Qed.
Lemma index_of_app_out m l r : ~ In m l -> index_of m (l ++ r) = length l + index_of m r.
Proof. induction l as [|x l IH]; intros H; [reflexivity|]. cbn [app index_of length Nat.add]. destruct (Nat.eqb_spec x m); [exfalso; apply H; now left|]. f_equal. apply IH. intros K. apply H. now right. Qed.
Lemma index_of_seq n m j : j < m -> index_of (n + j) (seq n m) = j.
Proof.
  revert n j. induction m as [|m IH]; intros n j Hj; [lia|]. cbn [seq index_of]. destruct j; [rewrite Nat.add_0_r, Nat.eqb_refl; reflexivity|].
  destruct (Nat.eqb_spec n (n + S j)); [lia|]. f_equal. replace (n + S j) with (S n + j) by lia. apply IH. lia.
Qed.
Lemma index_of_nth l i : NoDup l -> i < length l -> index_of (nth i l 0) l = i.
Proof.
  revert i. induction l as [|x l IH]; intros i ND Hi; [cbn in Hi; lia|]. inversion ND; subst. destruct i; cbn [nth index_of]; [now rewrite Nat.eqb_refl|].
  cbn in Hi. destruct (Nat.eqb_spec x (nth i l 0)) as [->|]; [exfalso; apply H1; apply nth_In; lia|]. f_equal. apply IH; [assumption|lia].
Qed.
Lemma nth_index_of m l d : In m l -> nth (index_of m l) l d = m /\ index_of m l < length l.
Proof. induction l as [|x l IH]; intros H; [destruct H|]. cbn [index_of]. destruct (Nat.eqb_spec x m) as [->|]; [cbn; split; [reflexivity|lia]|]. destruct H as [H|H]; [congruence|]. destruct (IH H). cbn. split; [assumption|lia]. Qed.
Lemma nodupb_true l : NoDup l -> nodupb l = true.
Proof.
  induction 1 as [|x l Hx H IH]; [reflexivity|]. cbn. rewrite IH, andb_true_r. apply negb_true_iff. destruct (existsb (Nat.eqb x) l) eqn:E; [|reflexivity].
  apply existsb_exists in E. destruct E as [y [Hy E]]. apply Nat.eqb_eq in E. subst. contradiction.
Qed.
Definition perm_axes (ks : list nat) (n : nat) : Prop := NoDup ks /\ length ks = n /\ forall k, In k ks -> k < n.
Lemma perm_axes_in ks n m : perm_axes ks n -> m < n -> In m ks.
Proof.
  intros [ND [HL HB]] Hm.
  assert (HI : incl (seq 0 n) ks).
  { apply (NoDup_length_incl ND); [rewrite seq_length; lia|]. intros k Hk. apply in_seq. specialize (HB k Hk). lia. }
  apply HI. apply in_seq. lia.
Qed.
Lemma norm_axes_nat ks n : (forall k, In k ks -> k < n) -> norm_axes (map Z.of_nat ks) n = Some ks.
Proof.
  induction ks as [|k ks IH]; intros H; [reflexivity|]. cbn [map norm_axes]. rewrite norm_axis_pos by (apply H; now left). rewrite IH by (intros; apply H; now right). reflexivity.
Qed.
Lemma nodup_app_seq ks n m : NoDup ks -> (forall k, In k ks -> k < n) -> NoDup (ks ++ seq n m).
Proof.
  intros ND. induction ND as [|x l Hx ND IH]; intros HB; [apply seq_NoDup|]. cbn [app]. constructor.
  - rewrite in_app_iff, in_seq. intros [H|H]; [contradiction|]. specialize (HB x (or_introl eq_refl)). lia.
  - apply IH. intros k Hk. apply HB. now right.
Qed.
Lemma rowwise_transpose B ks : perm_axes ks (length B) ->
  rowwise1 (leaf_transpose (length B) (map Z.of_nat ks)) B (map (fun k => nth k B 0) ks)
    (fun b' => Some (map (fun m => nth (index_of m ks) b' 0) (seq 0 (length B)))) nofill.
Proof.
  intros HP. pose proof HP as [ND [HL HB]].
  assert (FULL : forall m, perm_axes (ks ++ seq (length B) m) (length B + m)).
  { intros m. split; [|split].
    - now apply nodup_app_seq.
    - rewrite app_length, seq_length. lia.
    - intros k Hk. apply in_app_iff in Hk. destruct Hk as [H|H]; [specialize (HB k H); lia|]. apply in_seq in H. lia. }
  apply (rowwise1_build _ _ _ _ _ (fun a idx => get a (map (fun m => nth (index_of m (ks ++ seq (length B) (ndim a - length B))) idx 0) (seq 0 (ndim a))))).
  - intros b' Hb. apply inb_of_nth; [now rewrite map_length, seq_length|]. intros m Hm.
    rewrite (nth_indep _ 0 ((fun m => nth (index_of m ks) b' 0) 0)) by (rewrite map_length, seq_length; exact Hm).
    rewrite (map_nth (fun m => nth (index_of m ks) b' 0)), seq_nth by exact Hm. cbn [Nat.add]. destruct (nth_index_of m ks 0 (perm_axes_in ks _ m HP Hm)) as [E1 E2].
    pose proof (inb_nth _ _ (index_of m ks) Hb) as H. rewrite map_length in H. specialize (H E2).
    rewrite (nth_map_any (fun k => nth k B 0) ks (index_of m ks) 0 0 E2), E1 in H. exact H.
  - intros a I Hs Hw. unfold leaf_transpose. assert (HA : ndim a = length B + length I) by (unfold ndim; now rewrite Hs, app_length). rewrite HA.
    destruct (Nat.ltb_spec (length B + length I) (length B)); [lia|]. replace (length B + length I - length B) with (length I) by lia.
    unfold a_transpose. rewrite <- map_app, HA. destruct (FULL (length I)) as [F1 [F2 F3]]. rewrite norm_axes_nat by exact F3. rewrite F2, Nat.eqb_refl, nodupb_true by exact F1. cbn [andb].
    f_equal. f_equal. rewrite map_app, Hs. f_equal.
    + apply map_ext_in. intros k Hk. apply app_nth1. now apply HB.
    + clear. apply (nth_ext _ _ 0 0); [now rewrite map_length, seq_length|]. intros j Hj. rewrite map_length, seq_length in Hj.
      rewrite (nth_indep _ 0 ((fun k => nth k (B ++ I) 0) 0)) by (now rewrite map_length, seq_length). rewrite (map_nth (fun k => nth k (B ++ I) 0)), seq_nth by exact Hj.
      rewrite app_nth2 by lia. f_equal. lia.
  - intros a I b' t Hs Hw Hb Ht. assert (HA : ndim a = length B + length I) by (unfold ndim; now rewrite Hs, app_length). rewrite HA.
    replace (length B + length I - length B) with (length I) by lia. f_equal. rewrite seq_app, map_app. cbn [Nat.add].
    pose proof (inb_length _ _ Hb) as LB. rewrite map_length in LB. f_equal.
    + apply map_ext_in. intros m Hm. apply in_seq in Hm. pose proof (perm_axes_in ks _ m HP ltac:(lia)) as HI. rewrite index_of_app_in by exact HI.
      apply app_nth1. destruct (nth_index_of m ks 0 HI). lia.
    + pose proof (inb_length _ _ Ht) as LT. apply (nth_ext _ _ 0 0); [now rewrite map_length, seq_length|]. intros j Hj. rewrite map_length, seq_length in Hj.
      set (g := fun m => _). rewrite (nth_indep _ 0 (g 0)) by (now rewrite map_length, seq_length). rewrite (map_nth g), seq_nth by exact Hj. unfold g.
      rewrite index_of_app_out by (intros H; specialize (HB _ H); lia). rewrite index_of_seq by exact Hj. rewrite app_nth2 by lia. f_equal. lia.
Qed.
(** element [b] of the input is element [b∘axes] of the result *)
Lemma transpose_src B ks b : perm_axes ks (length B) -> inb b B ->
  map (fun m => nth (index_of m ks) (map (fun k => nth k b 0) ks) 0) (seq 0 (length B)) = b /\ inb (map (fun k => nth k b 0) ks) (map (fun k => nth k B 0) ks).
Proof.
  intros HP Hb. pose proof HP as [ND [HL HB]]. pose proof (inb_length _ _ Hb) as LB. split.
  - apply (nth_ext _ _ 0 0); [now rewrite map_length, seq_length|]. intros m Hm. rewrite map_length, seq_length in Hm.
    set (g := fun m => nth (index_of m ks) (map (fun k => nth k b 0) ks) 0). rewrite (nth_indep _ 0 (g 0)) by (now rewrite map_length, seq_length). rewrite (map_nth g), seq_nth by exact Hm. unfold g. cbn [Nat.add].
    destruct (nth_index_of m ks 0 (perm_axes_in ks _ m HP Hm)) as [E1 E2]. rewrite (nth_indep _ 0 ((fun k => nth k b 0) 0)) by (now rewrite map_length).
    now rewrite (map_nth (fun k => nth k b 0)), E1.
  - apply inb_of_nth; [now rewrite !map_length|]. rewrite map_length. intros i Hi.
    rewrite (nth_indep _ 0 ((fun k => nth k b 0) 0)) by (now rewrite map_length). rewrite (nth_indep (map _ ks) 0 ((fun k => nth k B 0) 0)) by (now rewrite map_length).
    rewrite (map_nth (fun k => nth k b 0)), (map_nth (fun k => nth k B 0)). apply inb_nth; [exact Hb|]. apply HB. now apply nth_In.
Qed.
Theorem C41_transpose : forall c B o ks, c <> CNil -> solid c -> batched c B o -> perm_axes ks (length B) ->
  exists o', obj_transpose c (Some (map Z.of_nat ks)) o = Some o' /\ batched c (map (fun k => nth k B 0) ks) o' /\
    forall b, inb b B -> elem (map (fun k => nth k b 0) ks) o' = elem b o.
Proof.
  intros c B o ks HN HS [HC HB] HP. unfold obj_transpose. rewrite (proj2 (C40_reports c o B HN HS HC) HB).
  destruct (lift_one _ _ _ _ _ c o (rowwise_transpose B ks HP) HC HB) as [o2 [E1 [E2 [E3 E4]]]]. exists o2. split; [exact E1|]. split; [split; assumption|].
  intros b Hb. destruct (transpose_src B ks b HP Hb) as [T1 T2]. rewrite E4 by exact T2. now rewrite T1.
Qed.
Theorem C41_transpose_default : forall c B o, c <> CNil -> solid c -> batched c B o ->
  exists o', obj_transpose c None o = Some o' /\ batched c (rev B) o' /\ forall b, inb b B -> elem (rev b) o' = elem b o.
Proof.
  intros c B o HN HS HO.
  assert (HP : perm_axes (rev (seq 0 (length B))) (length B)).
  { split; [apply NoDup_rev, seq_NoDup|]. split; [now rewrite rev_length, seq_length|]. intros k Hk. apply in_rev, in_seq in Hk. lia. }
  destruct (C41_transpose c B o _ HN HS HO HP) as [o' [E1 [E2 E3]]]. exists o'.
  assert (ER : forall l : list nat, length l = length B -> map (fun k => nth k l 0) (rev (seq 0 (length B))) = rev l).
  { intros l HL. rewrite map_rev, <- HL. f_equal. clear. induction l as [|x l IH]; [reflexivity|]. cbn [length seq map nth]. f_equal. rewrite <- seq_shift, map_map. exact IH. }
  split.
  - unfold obj_transpose in *. destruct HO as [HC HB]. now rewrite (proj2 (C40_reports c o B HN HS HC) HB) in *.
  - rewrite ER in E2 by reflexivity. split; [exact E2|]. intros b Hb. rewrite <- (E3 b Hb). now rewrite ER by (apply inb_length; exact Hb).
Qed.
(** swapping two batch axes; negative axes count from the last batch axis *)
Lemma swap_perm i j n : i < n -> j < n -> perm_axes (swap_list i j n) n.
Proof.
  intros Hi Hj. unfold swap_list. split; [|split; [now rewrite map_length, seq_length|]].
  - apply FinFun.Injective_map_NoDup; [|apply seq_NoDup]. intros x y E.
    destruct (Nat.eqb_spec x i), (Nat.eqb_spec y i), (Nat.eqb_spec x j), (Nat.eqb_spec y j); lia.
  - intros k Hk. apply in_map_iff in Hk. destruct Hk as [x [<- Hx]]. apply in_seq in Hx. destruct (Nat.eqb_spec x i); [lia|]. destruct (Nat.eqb_spec x j); lia.
Qed.
Lemma swap_list_app i j n m : i < n -> j < n -> swap_list i j (n + m) = swap_list i j n ++ seq n m.
Proof.
  intros Hi Hj. unfold swap_list. rewrite seq_app, map_app. f_equal. cbn [Nat.add]. rewrite <- (map_id (seq n m)) at 2. apply map_ext_in. intros k Hk. apply in_seq in Hk.
  destruct (Nat.eqb_spec k i); [lia|]. destruct (Nat.eqb_spec k j); lia.
Qed.
Theorem C41_swapaxes : forall c B o i j i' j', c <> CNil -> solid c -> batched c B o -> norm_axis i (length B) = Some i' -> norm_axis j (length B) = Some j' ->
  exists o', obj_swapaxes c i j o = Some o' /\ batched c (upd i' (nth j' B 0) (upd j' (nth i' B 0) B)) o' /\
    forall b, inb b B -> elem (upd i' (nth j' b 0) (upd j' (nth i' b 0) b)) o' = elem b o.
Proof.
  intros c B o i j i' j' HN HS [HC HB] Ei Ej. pose proof (norm_axis_lt _ _ _ Ei) as Li. pose proof (norm_axis_lt _ _ _ Ej) as Lj.
  unfold obj_swapaxes. rewrite (proj2 (C40_reports c o B HN HS HC) HB), Ei, Ej.
  pose proof (swap_perm i' j' (length B) Li Lj) as HP.
  assert (ES : forall l : list nat, length l = length B -> map (fun k => nth k l 0) (swap_list i' j' (length B)) = upd i' (nth j' l 0) (upd j' (nth i' l 0) l)).
  { intros l HL. apply (nth_ext _ _ 0 0); [unfold swap_list; rewrite !map_length, seq_length, !upd_length; lia|]. intros m Hm. unfold swap_list in *. rewrite !map_length, seq_length in Hm.
    rewrite map_map. set (g := fun x => nth _ l 0). rewrite (nth_indep _ 0 (g 0)) by (now rewrite map_length, seq_length). rewrite (map_nth g), seq_nth by exact Hm. unfold g. cbn [Nat.add].
    rewrite !nth_upd by (rewrite ?upd_length; lia). destruct (Nat.eqb_spec m i'); [reflexivity|]. destruct (Nat.eqb_spec m j'); reflexivity. }
  assert (HR : rowwise1 (fun a => if ndim a <? length B then Some a else a_swapaxes (Z.of_nat i') (Z.of_nat j') a) B (map (fun k => nth k B 0) (swap_list i' j' (length B)))
            (fun b' => Some (map (fun m => nth (index_of m (swap_list i' j' (length B))) b' 0) (seq 0 (length B)))) nofill).
  { destruct (rowwise_transpose B _ HP) as [R1 R2]. split; [exact R1|]. intros a I Hs Hw. destruct (R2 a I Hs Hw) as [a' [F1 F2]]. exists a'. split; [|exact F2]. rewrite <- F1.
    assert (HA : ndim a = length B + length I) by (unfold ndim; now rewrite Hs, app_length). unfold leaf_transpose. rewrite HA. destruct (Nat.ltb_spec (length B + length I) (length B)); [lia|].
    unfold a_swapaxes. rewrite HA, !norm_axis_pos by lia. rewrite swap_list_app by assumption. rewrite map_app. now replace (length B + length I - length B) with (length I) by lia. }
  destruct (lift_one _ _ _ _ _ c o HR HC HB) as [o2 [E1 [E2 [E3 E4]]]]. exists o2. split; [exact E1|]. rewrite ES in E3 by reflexivity. split; [split; assumption|].
  intros b Hb. destruct (transpose_src B _ b HP Hb) as [T1 T2]. rewrite <- ES by (apply inb_length; exact Hb). rewrite E4 by exact T2. now rewrite T1.
Qed.
Print Assumptions C41_reshape.
