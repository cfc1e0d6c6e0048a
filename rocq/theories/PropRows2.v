(** * PropRows2.v — property C41 (second part): concat, stack, take, take_along_axis,
    expand_dims, squeeze, flip, roll, repeat, split and array indexing act on whole elements. *)
From Coq Require Import String.
From Verif Require Import Jax StructModel ArrayModel ArrayFacts ShapeModel PropShape RowsModel RowsLift PropRows.

(** ** Batch shapes of several instances *)
Lemma batch_of_spec c os Bs : c <> CNil -> solid c -> Forall2 (fun o B => batched c B o) os Bs -> batch_of c os = Some (map Batch Bs).
Proof.
  intros HN HS H. unfold batch_of. induction H as [|o B os Bs [HC HB] H IH]; [reflexivity|]. cbn [map sequence].
  rewrite (proj2 (C40_reports c o B HN HS HC) HB), IH. reflexivity.
Qed.
Lemma Forall2_len {X Y} (R : X -> Y -> Prop) l m : Forall2 R l m -> length l = length m.
Proof. induction 1; cbn; congruence. Qed.
Lemma Forall2_nth {X Y} (R : X -> Y -> Prop) l m k dx dy : Forall2 R l m -> k < length l -> R (nth k l dx) (nth k m dy).
Proof. intros H. revert k. induction H; intros k Hk; cbn in Hk; [lia|]. destruct k; [assumption|]. apply IHForall2. lia. Qed.

Lemma nth_repeat_lt {X} (x d : X) n k : k < n -> nth k (repeat x n) d = x.
Proof. revert k. induction n as [|n IH]; intros [|k] H; cbn; try lia; auto. apply IH. lia. Qed.

(** ** stack *)
Lemma rowwise_stack B n k : 0 < n -> k <= length B ->
  rowwise (a_stack (Z.of_nat k)) (repeat B n) (insert k n B) (fun b' => Some (nth k b' 0, remove_nth k b')) nofill.
Proof.
  intros Hn Hk. split.
  - intros b' Hb. apply inb_insert_inv in Hb; [|exact Hk]. destruct Hb as [H1 H2]. rewrite repeat_length. split; [exact H1|]. now rewrite nth_repeat_lt.
  - intros dt I l _ HA. pose proof (Forall2_len _ _ _ HA) as HL. rewrite repeat_length in HL. destruct l as [|a0 l]; [cbn in HL; lia|].
    assert (HE : forall a, In a (a0 :: l) -> adtype a = dt /\ ashape a = B ++ I /\ wfa a).
    { clear - HA. unfold row_args in HA. generalize dependent (a0 :: l). revert n. intros n x HA. 
      assert (forall Bs, Forall2 (fun a B0 => adtype a = dt /\ ashape a = B0 ++ I /\ wfa a) x Bs -> (forall B0, In B0 Bs -> B0 = B) -> forall a, In a x -> adtype a = dt /\ ashape a = B ++ I /\ wfa a).
      { clear. intros Bs H. induction H as [|a B0 x Bs HP H IH]; intros HB a' Ha; [destruct Ha|]. destruct Ha as [<-|Ha]; [rewrite <- (HB B0 (or_introl eq_refl)); exact HP|]. apply IH; auto. intros B1 H1. apply HB. now right. }
      apply (H _ HA). intros B0 HB0. now apply repeat_spec in HB0. }
    destruct (HE a0 (or_introl eq_refl)) as [D0 [S0 W0]]. unfold a_stack.
    assert (FA : forallb (fun a => shape_eqb (ashape a) (ashape a0) && dtype_eqb (adtype a) (adtype a0)) (a0 :: l) = true).
    { apply forallb_forall. intros a Ha. destruct (HE a Ha) as [D1 [S1 _]]. rewrite D1, D0, S1, S0, shape_eqb_refl, dtype_eqb_refl. reflexivity. }
    rewrite FA. unfold ndim. rewrite S0, app_length. rewrite norm_axis_pos by lia. eexists. split; [reflexivity|]. cbn [adtype ashape]. split; [exact D0|].
    rewrite insert_app by exact Hk. rewrite HL. split; [reflexivity|]. split; [apply build_wfa|]. intros b' t dflt Hb Ht. rewrite get_build by (now apply inb_app_intro).
    pose proof (inb_length _ _ Hb) as LB. rewrite insert_length in LB. rewrite (remove_app k b' t) by lia. rewrite (app_nth1 b') by lia.
    apply inb_insert_inv in Hb; [|exact Hk]. rewrite (nth_indep (a0 :: l) a0 dflt) by lia. reflexivity.
Qed.
(** stacking instances of one batch shape along batch position [k]: element [b] of the
    [j]-th input is the element of the result with [j] inserted at position [k] *)
Theorem C41_stack : forall c B os k, c <> CNil -> solid c -> 2 <= length os -> (forall o, In o os -> batched c B o) -> k <= length B ->
  exists o', obj_stack c (Z.of_nat k) os = Some o' /\ batched c (insert k (length os) B) o' /\
    forall j b, j < length os -> inb b B -> elem (insert k j b) o' = elem b (nth j os ONil).
Proof.
  intros c B os k HN HS HL HO Hk.
  assert (HA : Forall2 (fun o B => batched c B o) os (repeat B (length os))).
  { clear - HO. induction os as [|o os IH]; [constructor|]. cbn [length repeat]. constructor; [apply HO; now left|]. apply IH. intros; apply HO; now right. }
  destruct (lift_many _ _ _ _ _ c os (rowwise_stack B (length os) k ltac:(lia) Hk)) as [o' [E1 [E2 [E3 E4]]]].
  - destruct os; [cbn in HL; lia|discriminate].
  - exact HA.
  - exists o'. split; [|split; [split; assumption|]].
    + unfold obj_stack. destruct os as [|o1 [|o2 os]]; cbn [length] in HL; try lia. pose proof (batch_of_spec _ _ _ HN HS HA) as EB. cbn [length repeat map] in EB. rewrite EB.
      assert (F : forall (p : batch -> bool), p (Batch B) = true -> forallb p (Batch B :: map Batch (repeat B (length os))) = true).
      { intros p Hp. cbn [forallb]. rewrite Hp. cbn [andb]. clear - Hp. induction (length os); cbn; [reflexivity|]. rewrite Hp. exact IHn. }
      rewrite !F; [rewrite orb_true_r; exact E1|now apply batch_eqb_eq|]. destruct (structured_type (Batch B)); reflexivity.
    + intros j b Hj Hb. pose proof (inb_length _ _ Hb) as LB. rewrite E4 by (now apply inb_insert). rewrite remove_insert by lia.
      assert (EN : nth k (insert k j b) 0 = j) by (unfold insert; rewrite app_nth2 by (rewrite firstn_length; lia); rewrite firstn_length; replace (k - Nat.min k (length b)) with 0 by lia; reflexivity).
      now rewrite EN.
Qed.

(** ** concat *)
Lemma locate_lt sizes i : i < list_sum sizes -> fst (locate sizes i) < length sizes /\ snd (locate sizes i) < nth (fst (locate sizes i)) sizes 0 /\
  i = list_sum (firstn (fst (locate sizes i)) sizes) + snd (locate sizes i).
Proof.
  revert i. induction sizes as [|n r IH]; intros i H; [cbn in H; lia|]. change (list_sum (n :: r)) with (n + list_sum r) in H. cbn [locate]. destruct (Nat.ltb_spec i n); cbn [fst snd]; [cbn; lia|].
  specialize (IH (i - n) ltac:(lia)). destruct (locate r (i - n)) as [j q]. cbn [fst snd] in *. destruct IH as [H1 [H2 H3]]. cbn [length nth firstn]. change (list_sum (n :: firstn j r)) with (n + list_sum (firstn j r)). lia.
Qed.
Lemma locate_offset sizes j q : j < length sizes -> q < nth j sizes 0 -> locate sizes (list_sum (firstn j sizes) + q) = (j, q).
Proof.
  revert j. induction sizes as [|n r IH]; intros j Hj Hq; [cbn in Hj; lia|]. destruct j as [|j]; cbn [firstn locate nth] in *.
  - change (list_sum [] + q) with q. destruct (Nat.ltb_spec q n); [reflexivity|lia].
  - change (list_sum (n :: firstn j r)) with (n + list_sum (firstn j r)). destruct (Nat.ltb_spec (n + list_sum (firstn j r) + q) n); [lia|].
    replace (n + list_sum (firstn j r) + q - n) with (list_sum (firstn j r) + q) by lia. rewrite IH by (cbn in Hj; try lia; exact Hq). reflexivity.
Qed.
Lemma nth_le_sum j sizes q : j < length sizes -> q < nth j sizes 0 -> list_sum (firstn j sizes) + q < list_sum sizes.
Proof.
  revert j. induction sizes as [|n r IH]; intros j Hj Hq; [cbn in Hj; lia|]. change (list_sum (n :: r)) with (n + list_sum r). destruct j as [|j]; cbn [firstn nth] in *; [cbn; lia|].
  change (list_sum (n :: firstn j r)) with (n + list_sum (firstn j r)). specialize (IH j ltac:(cbn in Hj; lia) Hq). lia.
Qed.
Lemma rowwise_concat B k ns : ns <> [] -> k < length B ->
  rowwise (a_concat (Z.of_nat k)) (map (fun n => upd k n B) ns) (upd k (list_sum ns) B)
    (fun b' => let '(j, q) := locate ns (nth k b' 0) in Some (j, upd k q b')) nofill.
Proof.
  intros Hne Hk.
  assert (HNTH : forall n, nth k (upd k n B) 0 = n) by (intros n; rewrite nth_upd by exact Hk; now rewrite Nat.eqb_refl).
  assert (HB' : forall b', inb b' (upd k (list_sum ns) B) -> nth k b' 0 < list_sum ns).
  { intros b' Hb. pose proof (inb_nth _ _ k Hb) as H. rewrite upd_length, HNTH in H. now apply H. }
  split.
  - intros b' Hb. destruct (locate_lt ns _ (HB' b' Hb)) as [L1 [L2 _]]. destruct (locate ns (nth k b' 0)) as [j q]. cbn [fst snd] in *. rewrite map_length. split; [exact L1|].
    rewrite (nth_map_any (fun n => upd k n B) ns j 0) by exact L1. eapply inb_upd; eauto.
  - intros dt I l _ HA. pose proof (Forall2_len _ _ _ HA) as HL. rewrite map_length in HL. destruct l as [|a0 l]; [destruct ns; [congruence|cbn in HL; lia]|].
    assert (HE : forall j dflt, j < length (a0 :: l) -> adtype (nth j (a0 :: l) dflt) = dt /\ ashape (nth j (a0 :: l) dflt) = upd k (nth j ns 0) B ++ I /\ wfa (nth j (a0 :: l) dflt)).
    { intros j dflt Hj. pose proof (Forall2_nth _ _ _ j dflt [] HA Hj) as H. cbn beta in H. rewrite (nth_map_any (fun n => upd k n B) ns j 0) in H by (rewrite HL in Hj; exact Hj). exact H. }
    destruct (HE 0 a0 ltac:(cbn; lia)) as [D0 [S0 W0]]. cbn [nth] in D0, S0, W0. unfold a_concat.
    assert (N0 : ndim a0 = length B + length I) by (unfold ndim; rewrite S0, app_length, upd_length; reflexivity).
    rewrite norm_axis_pos by lia.
    assert (RM : forall n, remove_nth k (upd k n B ++ I) = remove_nth k B ++ I).
    { intros n. rewrite remove_app by (rewrite upd_length; exact Hk). f_equal. rewrite upd_eq by exact Hk. change (firstn k B ++ n :: skipn (S k) B) with (firstn k B ++ ([n] ++ skipn (S k) B)).
      unfold remove_nth. rewrite firstn_app, skipn_app, firstn_length. replace (k - Nat.min k (length B)) with 0 by lia. replace (S k - Nat.min k (length B)) with 1 by lia.
      rewrite firstn_firstn, Nat.min_id, firstn_O, app_nil_r. rewrite skipn_all2 by (rewrite firstn_length; lia). reflexivity. }
    assert (FA : forallb (fun a => shape_eqb (remove_nth k (ashape a)) (remove_nth k (ashape a0)) && (ndim a =? ndim a0) && dtype_eqb (adtype a) (adtype a0)) (a0 :: l) = true).
    { apply forallb_forall. intros a Ha. apply (In_nth _ _ a0) in Ha. destruct Ha as [j [Hj <-]]. destruct (HE j a0 Hj) as [D1 [S1 _]]. rewrite D1, D0, S1, S0, !RM, shape_eqb_refl, dtype_eqb_refl.
      rewrite N0. unfold ndim. rewrite S1, app_length, upd_length, Nat.eqb_refl. reflexivity. }
    rewrite FA.
    assert (SZ : map (fun a => nth k (ashape a) 0) (a0 :: l) = ns).
    { apply (nth_ext _ _ 0 0); [rewrite map_length; exact HL|]. intros j Hj. rewrite map_length in Hj. rewrite (nth_map_any _ (a0 :: l) j a0) by exact Hj. destruct (HE j a0 Hj) as [_ [S1 _]].
      rewrite S1. rewrite app_nth1 by (rewrite upd_length; exact Hk). apply HNTH. }
    cbn zeta. rewrite SZ. eexists. split; [reflexivity|]. cbn [adtype ashape]. split; [exact D0|]. rewrite S0. rewrite upd_app by (rewrite upd_length; exact Hk). rewrite upd_upd.
    split; [reflexivity|]. split; [apply build_wfa|]. intros b' t dflt Hb Ht. rewrite get_build by (now apply inb_app_intro).
    pose proof (inb_length _ _ Hb) as LB. rewrite upd_length in LB. rewrite (app_nth1 b') by lia. destruct (locate_lt ns _ (HB' b' Hb)) as [L1 _].
    destruct (locate ns (nth k b' 0)) as [j q]. cbn [fst] in L1. rewrite upd_app by lia. rewrite (nth_indep (a0 :: l) a0 dflt) by (rewrite HL; exact L1). reflexivity.
Qed.
Lemma concat_dims_upd B n m k : k < length B -> concat_dims_ok (Z.of_nat k) (upd k n B) (upd k m B) = true.
Proof.
  intros Hk. unfold concat_dims_ok. rewrite !upd_length, Nat.eqb_refl. cbn [andb]. apply forallb_forall. intros [i [x y]] Hin. cbn [fst snd].
  destruct (Z.eqb_spec (Z.of_nat i) (Z.of_nat k)) as [E|E]; [reflexivity|]. cbn [orb]. apply Nat.eqb_eq.
  apply (In_nth _ _ (0, (0, 0))) in Hin. destruct Hin as [p [Hp EP]]. rewrite !combine_length, seq_length, !upd_length in Hp.
  rewrite combine_nth in EP by (rewrite seq_length, combine_length, !upd_length; lia). rewrite combine_nth in EP by (now rewrite !upd_length). rewrite seq_nth in EP by lia. injection EP as E1 E2 E3. cbn in E1. subst i x y.
  rewrite !nth_upd by exact Hk. destruct (Nat.eqb_spec p k); [lia|reflexivity].
Qed.
(** concatenating along batch axis [k]: element [b] of the [j]-th input is the element of the
    result whose [k]-th index is shifted by the sizes of the inputs before it; nothing else *)
Theorem C41_concat : forall c B k ns os, c <> CNil -> solid c -> 2 <= length ns -> k < length B ->
  Forall2 (fun o n => batched c (upd k n B) o) os ns ->
  exists o', obj_concat c (Z.of_nat k) os = Some o' /\ batched c (upd k (list_sum ns) B) o' /\
    (forall j b, j < length os -> inb b (upd k (nth j ns 0) B) -> elem (upd k (list_sum (firstn j ns) + nth k b 0) b) o' = elem b (nth j os ONil)) /\
    (forall b', inb b' (upd k (list_sum ns) B) -> exists j b, j < length os /\ inb b (upd k (nth j ns 0) B) /\ b' = upd k (list_sum (firstn j ns) + nth k b 0) b).
Proof.
  intros c B k ns os HN HS HL Hk HO. pose proof (Forall2_len _ _ _ HO) as LO.
  assert (HA : Forall2 (fun o B => batched c B o) os (map (fun n => upd k n B) ns)) by (clear - HO; induction HO; constructor; auto).
  assert (HNTH : forall n, nth k (upd k n B) 0 = n) by (intros n; rewrite nth_upd by exact Hk; now rewrite Nat.eqb_refl).
  destruct (lift_many _ _ _ _ _ c os (rowwise_concat B k ns ltac:(destruct ns; [cbn in HL; lia|discriminate]) Hk)) as [o' [E1 [E2 [E3 E4]]]].
  - destruct ns; [cbn in HL; lia|discriminate].
  - exact HA.
  - exists o'. split; [|split; [split; assumption|split]].
    + unfold obj_concat. destruct os as [|o1 [|o2 os]]; cbn [length] in LO; try lia. destruct ns as [|n1 [|n2 ns]]; cbn [length] in LO; try lia.
      rewrite (batch_of_spec _ _ _ HN HS HA). cbn [map].
      assert (ST : forall n, structured_type (Batch (upd k n B)) = BATCHED).
      { intros n. pose proof (upd_length k n B) as HU. destruct (upd k n B); [cbn in HU; lia|reflexivity]. }
      set (bs := Batch (upd k n2 B) :: map Batch (map (fun n => upd k n B) ns)).
      assert (F1 : forallb (fun x => stype_eqb (structured_type x) (structured_type (Batch (upd k n1 B)))) bs = true).
      { apply forallb_forall. intros x Hx. rewrite ST. assert (EX : exists n, x = Batch (upd k n B)).
        { unfold bs in Hx. destruct Hx as [<-|Hx]; [eauto|]. rewrite map_map in Hx. apply in_map_iff in Hx. destruct Hx as [n [<- _]]. eauto. }
        destruct EX as [n ->]. now rewrite ST. }
      rewrite F1. assert (F2 : forallb (fun x => match x with Batch B1 => concat_dims_ok (Z.of_nat k) (upd k n1 B) B1 | Unstr => false end) bs = true).
      { apply forallb_forall. intros x Hx. assert (EX : exists n, x = Batch (upd k n B)).
        { unfold bs in Hx. destruct Hx as [<-|Hx]; [eauto|]. rewrite map_map in Hx. apply in_map_iff in Hx. destruct Hx as [n [<- _]]. eauto. }
        destruct EX as [n ->]. now apply concat_dims_upd. }
      pose proof (upd_length k n1 B) as HU. destruct (upd k n1 B) as [|d0 B0] eqn:EU; [cbn in HU; lia|]. rewrite <- EU in *.
      destruct (Z.ltb_spec (Z.of_nat k) 0); [lia|]. rewrite HU. destruct (Z.of_nat k >=? Z.of_nat (length B))%Z eqn:EG; [apply Z.geb_le in EG; lia|]. rewrite F2. exact E1.
    + intros j b Hj Hb. pose proof (inb_length _ _ Hb) as LB. rewrite upd_length in LB. rewrite LO in Hj.
      pose proof (inb_nth _ _ k Hb) as HBK. rewrite upd_length, HNTH in HBK. specialize (HBK Hk).
      pose proof (nth_le_sum j ns (nth k b 0) Hj HBK) as HLT.
      rewrite E4 by (eapply inb_upd; [exact Hk|exact Hb|exact HLT]). rewrite nth_upd by lia. rewrite Nat.eqb_refl, locate_offset by assumption. rewrite upd_upd, upd_same by lia. reflexivity.
    + intros b' Hb. pose proof (inb_length _ _ Hb) as LB. rewrite upd_length in LB. pose proof (inb_nth _ _ k Hb) as HBK. rewrite upd_length, HNTH in HBK. specialize (HBK Hk).
      destruct (locate_lt ns _ HBK) as [L1 [L2 L3]]. exists (fst (locate ns (nth k b' 0))), (upd k (snd (locate ns (nth k b' 0))) b'). rewrite LO. split; [exact L1|]. split; [eapply inb_upd; eauto|].
      rewrite nth_upd by lia. rewrite Nat.eqb_refl, <- L3, upd_upd. symmetry. apply upd_same. lia.
Qed.
(** unbatched instances: concat stacks them *)
Theorem C41_concat_single : forall c os, c <> CNil -> solid c -> 2 <= length os -> (forall o, In o os -> batched c [] o) ->
  exists o', obj_concat c 0%Z os = Some o' /\ batched c [length os] o' /\ forall j, j < length os -> elem [j] o' = nth j os ONil.
Proof.
  intros c os HN HS HL HO. destruct (C41_stack c [] os 0 HN HS HL HO (Nat.le_refl 0)) as [o' [E1 [E2 E3]]]. exists o'. split; [|split; [exact E2|]].
  - unfold obj_concat. destruct os as [|o1 [|o2 os]]; cbn [length] in HL; try lia.
    assert (HA : Forall2 (fun o B => batched c B o) (o1 :: o2 :: os) (repeat [] (length (o1 :: o2 :: os)))).
    { clear - HO. induction (o1 :: o2 :: os) as [|o l IH]; [constructor|]. cbn [length repeat]. constructor; [apply HO; now left|]. apply IH. intros; apply HO; now right. }
    rewrite (batch_of_spec _ _ _ HN HS HA). cbn [length repeat map].
    assert (F : forallb (fun x => stype_eqb (structured_type x) (structured_type (Batch []))) (Batch [] :: map Batch (repeat [] (length os))) = true).
    { cbn [forallb structured_type stype_eqb andb]. clear. induction (length os); cbn; auto. }
    rewrite F. exact E1.
  - intros j Hj. rewrite <- (proj2 elem_nil_both (nth j os ONil) c).
    + change [j] with (insert 0 j []). apply E3; [exact Hj|constructor].
    + apply (HO (nth j os ONil)). now apply nth_In.
Qed.

(** ** One-instance operations along a non-negative batch axis *)
Ltac leaf_ndim a Hs := unfold ndim; rewrite Hs, app_length.
Theorem C41_expand_dims : forall c B o k, batched c B o -> k <= length B ->
  exists o', obj_expand_dims (Z.of_nat k) o = Some o' /\ batched c (insert k 1 B) o' /\ forall b, inb b B -> elem (insert k 0 b) o' = elem b o.
Proof.
  intros c B o k [HC HB] Hk.
  assert (HR : rowwise1 (a_expand (Z.of_nat k)) B (insert k 1 B) (fun b' => Some (remove_nth k b')) nofill).
  { apply (rowwise1_build _ _ _ _ _ (fun a idx => get a (remove_nth k idx))).
    - intros b' Hb. now apply inb_insert_inv in Hb.
    - intros a I Hs Hw. unfold a_expand. unfold ndim. rewrite Hs, app_length, norm_axis_pos by lia. now rewrite insert_app.
    - intros a I b' t Hs Hw Hb Ht. pose proof (inb_length _ _ Hb) as LB. rewrite insert_length in LB. rewrite remove_app by lia. reflexivity. }
  destruct (lift_one _ _ _ _ _ c o HR HC HB) as [o' [E1 [E2 [E3 E4]]]]. exists o'. split; [exact E1|]. split; [split; assumption|].
  intros b Hb. rewrite E4 by (apply inb_insert; auto; lia). rewrite remove_insert by (rewrite (inb_length _ _ Hb); exact Hk). reflexivity.
Qed.
(** a one-element list is stacked by adding the axis *)
Theorem C41_stack_one : forall c B o k, batched c B o -> k <= length B ->
  exists o', obj_stack c (Z.of_nat k) [o] = Some o' /\ batched c (insert k 1 B) o' /\ forall b, inb b B -> elem (insert k 0 b) o' = elem b o.
Proof. intros c B o k HO Hk. now apply C41_expand_dims. Qed.
Theorem C41_squeeze : forall c B o k, batched c (insert k 1 B) o -> k <= length B ->
  exists o', obj_squeeze (Z.of_nat k) o = Some o' /\ batched c B o' /\ forall b, inb b B -> elem b o' = elem (insert k 0 b) o.
Proof.
  intros c B o k [HC HB] Hk.
  assert (HR : rowwise1 (a_squeeze (Z.of_nat k)) (insert k 1 B) B (fun b' => Some (insert k 0 b')) nofill).
  { apply (rowwise1_build _ _ _ _ _ (fun a idx => get a (insert k 0 idx))).
    - intros b' Hb. apply inb_insert; auto; lia.
    - intros a I Hs Hw. unfold a_squeeze. unfold ndim. rewrite Hs, app_length, insert_length, norm_axis_pos by lia.
      rewrite (app_nth1 (insert k 1 B)) by (rewrite insert_length; lia). assert (EN : nth k (insert k 1 B) 0 = 1) by (unfold insert; rewrite app_nth2 by (rewrite firstn_length; lia); rewrite firstn_length; replace (k - Nat.min k (length B)) with 0 by lia; reflexivity).
      rewrite EN. cbn [Nat.eqb]. rewrite remove_app by (rewrite insert_length; lia). now rewrite remove_insert.
    - intros a I b' t Hs Hw Hb Ht. rewrite insert_app by (rewrite (inb_length _ _ Hb); exact Hk). reflexivity. }
  destruct (lift_one _ _ _ _ _ c o HR HC HB) as [o' [E1 [E2 [E3 E4]]]]. exists o'. split; [exact E1|]. split; [split; assumption|]. exact E4.
Qed.
Theorem C41_flip : forall c B o k, batched c B o -> k < length B ->
  exists o', obj_flip (Z.of_nat k) o = Some o' /\ batched c B o' /\ forall b, inb b B -> elem b o' = elem (upd k (nth k B 0 - 1 - nth k b 0) b) o.
Proof.
  intros c B o k [HC HB] Hk.
  assert (HR : rowwise1 (a_flip (Z.of_nat k)) B B (fun b => Some (upd k (nth k B 0 - 1 - nth k b 0) b)) nofill).
  { apply (rowwise1_build _ _ _ _ _ (fun a idx => get a (upd k (nth k (ashape a) 0 - 1 - nth k idx 0) idx))).
    - intros b Hb. pose proof (inb_nth _ _ k Hb Hk) as HBK. rewrite <- (upd_same k B 0 Hk) at 2. apply (inb_upd k _ (nth k B 0)); [exact Hk|now rewrite upd_same|lia].
    - intros a I Hs Hw. unfold a_flip. unfold ndim. rewrite Hs, app_length, norm_axis_pos by lia. reflexivity.
    - intros a I b t Hs Hw Hb Ht. pose proof (inb_length _ _ Hb) as LB. rewrite Hs, !app_nth1 by lia. now rewrite upd_app by lia. }
  destruct (lift_one _ _ _ _ _ c o HR HC HB) as [o' [E1 [E2 [E3 E4]]]]. exists o'. split; [exact E1|]. split; [split; assumption|]. exact E4.
Qed.
Theorem C41_roll : forall c B o shift k, batched c B o -> k < length B ->
  exists o', obj_roll shift (Z.of_nat k) o = Some o' /\ batched c B o' /\
    forall b, inb b B -> elem (upd k (Z.to_nat ((Z.of_nat (nth k b 0%nat) + shift) mod Z.of_nat (nth k B 0%nat))) b) o' = elem b o.
Proof.
  intros c B o shift k [HC HB] Hk. set (n := Z.of_nat (nth k B 0)).
  set (sr := fun (b : list nat) => upd k (Z.to_nat ((Z.of_nat (nth k b 0%nat) - shift) mod n)) b).
  assert (HR : rowwise1 (a_roll shift (Z.of_nat k)) B B (fun b => Some (sr b)) nofill).
  { apply (rowwise1_build _ _ _ _ _ (fun a idx => get a (upd k (Z.to_nat ((Z.of_nat (nth k idx 0%nat) - shift) mod Z.of_nat (nth k (ashape a) 0%nat))) idx))).
    - intros b Hb. pose proof (inb_nth _ _ k Hb Hk) as HBK. rewrite <- (upd_same k B 0 Hk). apply (inb_upd k _ (nth k B 0)); [exact Hk|now rewrite upd_same|].
      pose proof (Z.mod_pos_bound (Z.of_nat (nth k b 0) - shift) n ltac:(unfold n; lia)). unfold n in *. lia.
    - intros a I Hs Hw. unfold a_roll. unfold ndim. rewrite Hs, app_length, norm_axis_pos by lia. reflexivity.
    - intros a I b t Hs Hw Hb Ht. pose proof (inb_length _ _ Hb) as LB. rewrite Hs, !app_nth1 by lia. unfold sr. now rewrite upd_app by lia. }
  destruct (lift_one _ _ _ _ _ c o HR HC HB) as [o' [E1 [E2 [E3 E4]]]]. exists o'. split; [exact E1|]. split; [split; assumption|].
  intros b Hb. pose proof (inb_length _ _ Hb) as LB. pose proof (inb_nth _ _ k Hb Hk) as HBK.
  pose proof (Z.mod_pos_bound (Z.of_nat (nth k b 0) + shift) n ltac:(unfold n; lia)) as HM.
  rewrite E4.
  - unfold sr. rewrite nth_upd by lia. rewrite Nat.eqb_refl, upd_upd. rewrite Z2Nat.id by lia. rewrite Zminus_mod_idemp_l. replace (Z.of_nat (nth k b 0%nat) + shift - shift)%Z with (Z.of_nat (nth k b 0%nat)) by lia.
    rewrite Z.mod_small by (unfold n; lia). rewrite Nat2Z.id. now rewrite upd_same by lia.
  - rewrite <- (upd_same k B 0 Hk). apply (inb_upd k _ (nth k B 0)); [exact Hk|now rewrite upd_same|]. unfold n in *. lia.
Qed.
Theorem C41_repeat : forall c B o r k, batched c B o -> k < length B ->
  exists o', obj_repeat r (Z.of_nat k) o = Some o' /\ batched c (upd k (nth k B 0 * r) B) o' /\
    forall b i, inb b B -> i < r -> elem (upd k (nth k b 0 * r + i) b) o' = elem b o.
Proof.
  intros c B o r k [HC HB] Hk.
  assert (HR : rowwise1 (a_repeat r (Z.of_nat k)) B (upd k (nth k B 0 * r) B) (fun b => Some (upd k (nth k b 0 / r) b)) nofill).
  { apply (rowwise1_build _ _ _ _ _ (fun a idx => get a (upd k (nth k idx 0 / r) idx))).
    - intros b Hb. pose proof (inb_nth _ _ k Hb) as HBK. rewrite upd_length, nth_upd, Nat.eqb_refl in HBK by exact Hk. specialize (HBK Hk). rewrite <- (upd_same k B 0 Hk). apply (inb_upd k _ (nth k B 0 * r)); [exact Hk|exact Hb|].
      apply Nat.div_lt_upper_bound; [intros ->; lia|lia].
    - intros a I Hs Hw. unfold a_repeat. unfold ndim. rewrite Hs, app_length, norm_axis_pos by lia. rewrite app_nth1 by lia. now rewrite upd_app by lia.
    - intros a I b t Hs Hw Hb Ht. pose proof (inb_length _ _ Hb) as LB. rewrite upd_length in LB. rewrite app_nth1 by lia. now rewrite upd_app by lia. }
  destruct (lift_one _ _ _ _ _ c o HR HC HB) as [o' [E1 [E2 [E3 E4]]]]. exists o'. split; [exact E1|]. split; [split; assumption|].
  intros b i Hb Hi. pose proof (inb_length _ _ Hb) as LB. pose proof (inb_nth _ _ k Hb Hk) as HBK. rewrite E4.
  - rewrite nth_upd by lia. rewrite Nat.eqb_refl, upd_upd. rewrite Nat.div_add_l, Nat.div_small by lia. rewrite Nat.add_0_r. now rewrite upd_same by lia.
  - apply (inb_upd k _ (nth k B 0)); [exact Hk|now rewrite upd_same|nia].
Qed.
Lemma inb_prod_pos b s : inb b s -> prod s <> 0.
Proof. intros H. induction H as [|i d b s Hi H IH]; [discriminate|]. rewrite prod_cons. nia. Qed.
(** take along batch axis [k], for any way of reading an index *)
Lemma take_by : forall (read : Z -> nat -> option nat) (fill : dtype -> Z), (forall z d i, read z d = Some i -> 0 < d -> i < d) ->
  forall c B o indices k, batched c B o -> k < length B -> 0 < nth k B 0 \/ prod (ashape indices) = 0 ->
  exists o', tree_map1 (a_take_by read fill indices (Z.of_nat k)) o = Some o' /\ batched c (firstn k B ++ ashape indices ++ skipn (S k) B) o' /\
    forall p m q, inb p (firstn k B) -> inb m (ashape indices) -> inb q (skipn (S k) B) ->
      elem (p ++ m ++ q) o' = match read (get indices m) (nth k B 0) with Some i => elem (p ++ i :: q) o | None => const_obj fill [] c end.
Proof.
  intros read fill RD c B o indices k [HC HB] Hk HE. set (n := ndim indices). set (B' := firstn k B ++ ashape indices ++ skipn (S k) B).
  set (sr := fun b' : list nat => match read (get indices (firstn n (skipn k b'))) (nth k B 0) with Some i => Some (firstn k b' ++ i :: skipn (k + n) b') | None => None end).
  assert (PARTS : forall p m q : list nat, length p = k -> length m = n -> firstn k (p ++ m ++ q) = p /\ firstn n (skipn k (p ++ m ++ q)) = m /\ skipn (k + n) (p ++ m ++ q) = q).
  { intros p m q Hp Hm. split; [rewrite firstn_app, Hp, Nat.sub_diag, firstn_O, app_nil_r; now rewrite firstn_all2 by lia|]. split.
    - rewrite skipn_app, Hp, Nat.sub_diag, skipn_all2 by lia. cbn [app skipn]. rewrite firstn_app, Hm, Nat.sub_diag, firstn_O, app_nil_r. now rewrite firstn_all2 by lia.
    - rewrite skipn_app, skipn_all2 by lia. rewrite Hp. replace (k + n - k) with n by lia. cbn [app]. rewrite skipn_app, Hm, Nat.sub_diag, skipn_all2 by lia. reflexivity. }
  assert (DEC : forall b', inb b' B' -> exists p m q, b' = p ++ m ++ q /\ inb p (firstn k B) /\ inb m (ashape indices) /\ inb q (skipn (S k) B) /\ length p = k /\ length m = n).
  { intros b' Hb. unfold B' in Hb. apply inb_app_inv in Hb. destruct Hb as [p [r [-> [Hp Hr]]]]. apply inb_app_inv in Hr. destruct Hr as [m [q [-> [Hm Hq]]]]. exists p, m, q.
    pose proof (inb_length _ _ Hp) as LP. rewrite firstn_length in LP. pose proof (inb_length _ _ Hm) as LM. repeat split; auto; lia. }
  assert (JOIN : forall p i q, inb p (firstn k B) -> i < nth k B 0 -> inb q (skipn (S k) B) -> inb (p ++ i :: q) B).
  { intros p i q Hp Hi Hq. rewrite <- (firstn_skipn k B). rewrite (skipn_cons_nth k B 0 Hk). apply inb_app_intro; [exact Hp|]. now apply inb_cons. }
  assert (HR : rowwise1 (a_take_by read fill indices (Z.of_nat k)) B B' sr fill).
  { apply (rowwise1_build _ _ _ _ _ (fun a idx => match read (get indices (firstn n (skipn k idx))) (nth k (ashape a) 0) with
                          | Some i => get a (firstn k idx ++ i :: skipn (k + n) idx) | None => fill (adtype a) end)).
    - intros b' Hb. destruct (DEC b' Hb) as [p [m [q [-> [Hp [Hm [Hq [LP LM]]]]]]]]. unfold sr. destruct (PARTS p m q LP LM) as [-> [-> ->]].
      destruct (read (get indices m) (nth k B 0)) as [i|] eqn:EI; [|exact I]. apply JOIN; [exact Hp| |exact Hq]. apply (RD _ _ _ EI). destruct HE as [HE|HE]; [exact HE|]. exfalso. apply (inb_prod_pos _ _ Hm) in HE. exact HE.
    - intros a I Hs Hw. unfold a_take_by. unfold ndim at 1. rewrite Hs, app_length, norm_axis_pos by lia. cbn zeta. fold n. rewrite (app_nth1 B) by lia.
      assert (G : (nth k B 0 =? 0) && negb (prod (ashape indices) =? 0) = false) by (destruct HE as [HE|HE]; [destruct (Nat.eqb_spec (nth k B 0) 0); [lia|reflexivity]|rewrite HE; apply andb_false_r]).
      rewrite G. f_equal. f_equal. unfold B'.
      rewrite firstn_app, skipn_app. replace (k - length B) with 0 by lia. replace (S k - length B) with 0 by lia. rewrite firstn_O, skipn_O, app_nil_r, <- !app_assoc. reflexivity.
    - intros a I b' t Hs Hw Hb Ht. destruct (DEC b' Hb) as [p [m [q [-> [Hp [Hm [Hq [LP LM]]]]]]]]. unfold sr. rewrite <- !app_assoc.
      destruct (PARTS p m (q ++ t) LP LM) as [-> [-> ->]]. destruct (PARTS p m q LP LM) as [-> [-> ->]]. rewrite Hs, (app_nth1 B) by lia.
      destruct (read (get indices m) (nth k B 0)); [|reflexivity]. now rewrite <- app_assoc. }
  destruct (lift_one _ _ _ _ _ c o HR HC HB) as [o' [E1 [E2 [E3 E4]]]]. exists o'. split; [exact E1|]. split; [split; assumption|].
  intros p m q Hp Hm Hq. pose proof (inb_length _ _ Hp) as LP. rewrite firstn_length in LP. pose proof (inb_length _ _ Hm) as LM.
  rewrite E4 by (unfold B'; apply inb_app_intro; [exact Hp|]; now apply inb_app_intro). unfold sr. destruct (PARTS p m q ltac:(lia) LM) as [-> [-> ->]].
  destruct (read (get indices m) (nth k B 0)); reflexivity.
Qed.
(** take along batch axis [k]: out-of-range indices give the dtype's fill value in every field *)
Theorem C41_take : forall c B o indices k, batched c B o -> k < length B -> 0 < nth k B 0 \/ prod (ashape indices) = 0 ->
  exists o', obj_take indices (Z.of_nat k) o = Some o' /\ batched c (firstn k B ++ ashape indices ++ skipn (S k) B) o' /\
    forall p m q, inb p (firstn k B) -> inb m (ashape indices) -> inb q (skipn (S k) B) ->
      elem (p ++ m ++ q) o' = match norm_index (get indices m) (nth k B 0) with Some i => elem (p ++ i :: q) o | None => const_obj take_fill [] c end.
Proof. intros c B o indices k HB Hk HE. apply (take_by norm_index take_fill (fun z d i E _ => norm_axis_lt z d i E) c B o indices k HB Hk HE). Qed.
(** indexing with an integer array: out-of-range indices are clamped *)
Theorem C41_index_array : forall c d B o indices, batched c (d :: B) o -> d <> 0 ->
  exists o', obj_index_array indices o = Some o' /\ batched c (ashape indices ++ B) o' /\
    forall m q, inb m (ashape indices) -> inb q B -> elem (m ++ q) o' = elem (clamp_index (get indices m) d :: q) o.
Proof.
  intros c d B o indices [HC HB] Hd. set (n := ndim indices).
  assert (PARTS : forall m q : list nat, length m = n -> firstn n (m ++ q) = m /\ skipn n (m ++ q) = q).
  { intros m q Hm. split; [rewrite firstn_app, Hm, Nat.sub_diag, firstn_O, app_nil_r; now rewrite firstn_all2 by lia|]. rewrite skipn_app, Hm, Nat.sub_diag, skipn_all2 by lia. reflexivity. }
  assert (HR : rowwise1 (a_index_array indices) (d :: B) (ashape indices ++ B) (fun b' => Some (clamp_index (get indices (firstn n b')) d :: skipn n b')) nofill).
  { apply (rowwise1_build _ _ _ _ _ (fun a idx => get a (clamp_index (get indices (firstn n idx)) d :: skipn n idx))).
    - intros b' Hb. apply inb_app_inv in Hb. destruct Hb as [m [q [-> [Hm Hq]]]]. destruct (PARTS m q (inb_length _ _ Hm)) as [-> ->]. apply inb_cons. split; [unfold clamp_index; lia|exact Hq].
    - intros a I Hs Hw. unfold a_index_array. rewrite Hs. cbn [app]. destruct (Nat.eqb_spec d 0); [contradiction|]. cbn [andb]. rewrite <- app_assoc. reflexivity.
    - intros a I b' t Hs Hw Hb Ht. apply inb_app_inv in Hb. destruct Hb as [m [q [-> [Hm Hq]]]]. rewrite <- app_assoc. destruct (PARTS m q (inb_length _ _ Hm)) as [-> ->]. destruct (PARTS m (q ++ t) (inb_length _ _ Hm)) as [-> ->]. reflexivity. }
  destruct (lift_one _ _ _ _ _ c o HR HC HB) as [o' [E1 [E2 [E3 E4]]]]. exists o'. split; [exact E1|]. split; [split; assumption|].
  intros m q Hm Hq. rewrite E4 by (now apply inb_app_intro). destruct (PARTS m q (inb_length _ _ Hm)) as [-> ->]. reflexivity.
Qed.
Print Assumptions C41_concat.
