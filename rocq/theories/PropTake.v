(** * PropTake.v — property C76: take and take_along_axis with a mode and a fill value. *)
From Coq Require Import String.
From Verif Require Import Jax StructModel ArrayModel ArrayFacts ShapeModel PropShape RowsModel RowsLift PropRows PropRows2 PropRows3 PropRows4 EqModel FloatEq RowsModel2 PropRows5 PropRows6 TakeModel.
From Verif Require TableRounds PropSlice.

(** ** Specification *)
(** what index [z] reads along an axis of length [d] *)
Definition reads (m : take_mode) (z : Z) (d : nat) (r : option nat) : Prop :=
  match m with
  | MFill => ((- Z.of_nat d <= z < 0 -> r = Some (Z.to_nat (z + Z.of_nat d))) /\ (0 <= z < Z.of_nat d -> r = Some (Z.to_nat z)) /\ (z < - Z.of_nat d \/ Z.of_nat d <= z -> r = None))%Z
  | MClip => ((z < 0 -> r = Some 0%nat) /\ (0 <= z < Z.of_nat d -> r = Some (Z.to_nat z)) /\ (Z.of_nat d <= z -> r = Some (d - 1)%nat))%Z
  | MWrap => exists i q, r = Some i /\ i < d /\ (z = q * Z.of_nat d + Z.of_nat i)%Z
  end.
(** the same for take_along_axis: negative indices count from the end in both modes *)
Definition reads_along (m : take_mode) (z : Z) (d : nat) (r : option nat) : Prop :=
  match m with
  | MFill => reads MFill z d r
  | MClip => ((z < - Z.of_nat d -> r = Some 0%nat) /\ (- Z.of_nat d <= z < 0 -> r = Some (Z.to_nat (z + Z.of_nat d))) /\ (0 <= z < Z.of_nat d -> r = Some (Z.to_nat z)) /\ (Z.of_nat d <= z -> r = Some (d - 1)%nat))%Z
  | MWrap => False
  end.

Lemma norm_index_reads z d : reads MFill z d (norm_index z d).
Proof.
  cbn [reads]. unfold norm_index, norm_axis. repeat split; intros H; destruct (Z.ltb_spec z 0) as [L|L]; try lia.
  - destruct (Z.leb_spec 0 (Z.of_nat d + z)); [|lia]. do 2 f_equal. lia.
  - destruct (Z.ltb_spec z (Z.of_nat d)); [reflexivity|lia].
  - destruct (Z.leb_spec 0 (Z.of_nat d + z)); [lia|reflexivity].
  - destruct (Z.ltb_spec z (Z.of_nat d)); [lia|reflexivity].
Qed.
Lemma read_take_reads m z d : 0 < d -> reads m z d (read_take m z d).
Proof.
  intros Hd. destruct m; cbn [read_take]; [apply norm_index_reads| |].
  - cbn [reads]. repeat split; intros H; f_equal; lia.
  - cbn [reads]. exists (Z.to_nat (z mod Z.of_nat d)), (z / Z.of_nat d)%Z. split; [reflexivity|].
    pose proof (Z.mod_pos_bound z (Z.of_nat d) ltac:(lia)). pose proof (Z_div_mod_eq_full z (Z.of_nat d)). split; lia.
Qed.
Lemma read_take_lt m z d i : read_take m z d = Some i -> 0 < d -> i < d.
Proof.
  destruct m; cbn [read_take]; intros E Hd.
  - now apply norm_axis_lt in E.
  - injection E as <-. lia.
  - injection E as <-. pose proof (Z.mod_pos_bound z (Z.of_nat d) ltac:(lia)). lia.
Qed.
Lemma read_along_reads m z d : m <> MWrap -> 0 < d -> reads_along m z d (read_along m z d).
Proof.
  intros HM Hd. destruct m; [exact (norm_index_reads z d)| |congruence]. cbn [reads_along read_along]. unfold clamp_index.
  repeat split; intros H; f_equal; destruct (Z.ltb_spec z 0); lia.
Qed.
Lemma read_along_lt m z d i : read_along m z d = Some i -> 0 < d -> i < d.
Proof. destruct m; cbn [read_along]; intros E Hd; [now apply norm_axis_lt in E| |now apply norm_axis_lt in E]. injection E as <-. unfold clamp_index. destruct (Z.ltb_spec z 0); lia. Qed.

(** ** take along a batch axis, in every mode *)
Theorem C76_take : forall mode fill_value c B o indices k, batched c B o -> k < length B -> 0 < nth k B 0 ->
  exists o', obj_take_mode mode fill_value indices (Z.of_nat k) o = Some o' /\ batched c (firstn k B ++ ashape indices ++ skipn (S k) B) o' /\
    forall p m q, inb p (firstn k B) -> inb m (ashape indices) -> inb q (skipn (S k) B) ->
      exists r, reads mode (get indices m) (nth k B 0) r /\
        elem (p ++ m ++ q) o' = match r with Some i => elem (p ++ i :: q) o | None => const_obj (match fill_value with Some f => f | None => take_fill end) [] c end.
Proof.
  intros mode fv c B o indices k HB Hk Hd. destruct (take_by (read_take mode) (filler fv) (read_take_lt mode) c B o indices k HB Hk (or_introl Hd)) as (o' & E1 & E2 & E3).
  exists o'. split; [exact E1|]. split; [exact E2|]. intros p m q Hp Hm Hq. exists (read_take mode (get indices m) (nth k B 0)). split; [now apply read_take_reads|]. now apply E3.
Qed.
(** ** take of the flattened batch (axis=None), in every mode, for scalar fields *)
Theorem C76_take_flat : forall mode fill_value c B o indices, scalar_leaves c -> batched c B o -> 0 < prod B ->
  exists o', obj_take_flat_mode mode fill_value indices o = Some o' /\ batched c (ashape indices) o' /\
    forall b, inb b (ashape indices) -> exists r, reads mode (get indices b) (prod B) r /\
      elem b o' = match r with Some i => elem (unravel B i) o | None => const_obj (match fill_value with Some f => f | None => take_fill end) [] c end.
Proof.
  intros mode fv c B o indices HSL HB HE.
  assert (G : (prod B =? 0) && negb (prod (ashape indices) =? 0) = false) by (destruct (Nat.eqb_spec (prod B) 0); [lia|reflexivity]).
  destruct (lift_scalar (fun a => a_take_by (read_take mode) (filler fv) indices 0 (a_ravel a)) B (ashape indices) (fun b => option_map (unravel B) (read_take mode (get indices b) (prod B))) (filler fv) c o HSL) as (o' & E1 & E2 & E3); [|exact HB|].
  - apply (scalarwise_build _ _ _ _ _ (fun a idx => match read_take mode (get indices (firstn (ndim indices) (skipn 0 idx))) (prod B) with Some i => get (a_ravel a) (i :: skipn (ndim indices) idx) | None => filler fv (adtype a) end)).
    + intros b Hb. destruct (read_take mode (get indices b) (prod B)) as [i|] eqn:E; cbn; [|exact Logic.I]. apply unravel_inb. now apply read_take_lt in E.
    + intros a Hs Hw. unfold a_take_by, a_ravel, as_shape. unfold ndim at 1. cbn [ashape adtype length firstn skipn app nth Nat.add]. change (norm_axis 0 1) with (Some 0). cbn [firstn skipn nth Nat.add app]. rewrite Hs, G, app_nil_r. reflexivity.
    + intros a b Hs Hw Hb. cbn [skipn]. unfold ndim. rewrite <- (inb_length _ _ Hb), firstn_all, skipn_all. destruct (read_take mode (get indices b) (prod B)) as [i|] eqn:E; cbn [option_map]; [|reflexivity].
      apply read_take_lt in E; [|exact HE]. unfold get, a_ravel, as_shape. cbn [ashape adata ravel]. rewrite Hs, ravel_unravel by exact E. f_equal. unfold prod at 1. cbn. lia.
  - exists o'. split; [exact E1|]. split; [exact E2|]. intros b Hb. exists (read_take mode (get indices b) (prod B)). split; [now apply read_take_reads|]. rewrite E3 by exact Hb. destruct (read_take mode (get indices b) (prod B)); reflexivity.
Qed.

(** ** take_along_axis with a mode *)
(** the coordinates at which an array of shape [s] is read for the coordinates [b] of a larger
    shape it broadcasts to: 0 along its axes of size 1 *)
Definition shrink (s b : list nat) : list nat := map (fun p => if fst p =? 1 then 0 else snd p) (combine s b).
Lemma shrink_length s b : length s = length b -> length (shrink s b) = length s.
Proof. intros H. unfold shrink. rewrite map_length, combine_length. lia. Qed.
Lemma shrink_nth s b j : length s = length b -> nth j (shrink s b) 0 = if nth j s 0 =? 1 then 0 else nth j b 0.
Proof.
  intros H. destruct (Nat.lt_ge_cases j (length s)) as [L|L].
  - unfold shrink. rewrite (TableRounds.map_nth_lt _ _ j (0, 0)) by (rewrite combine_length; lia). rewrite combine_nth by exact H. reflexivity.
  - rewrite nth_overflow by (rewrite shrink_length by exact H; exact L). rewrite !nth_overflow by lia. now destruct (0 =? 1).
Qed.
Lemma shrink_same s b : inb b s -> shrink s b = b.
Proof.
  intros H. pose proof (inb_length _ _ H) as HL. apply (nth_ext _ _ 0 0); [rewrite shrink_length by lia; lia|]. intros j Hj. rewrite shrink_length in Hj by lia. rewrite shrink_nth by lia.
  destruct (Nat.eqb_spec (nth j s 0) 1) as [E|]; [|reflexivity]. pose proof (inb_nth _ _ j H Hj). lia.
Qed.
Lemma bcast_src_shrink s b : length s = length b -> bcast_src s b = shrink s b.
Proof. intros H. unfold bcast_src, shrink. now rewrite H, Nat.sub_diag. Qed.
Lemma bzip_some s : forall t, length s = length t -> (forall j, j < length s -> bdim (nth j s 0) (nth j t 0) <> None) ->
  exists r, bzip s t = Some r /\ length r = length s /\ forall j, j < length s -> bdim (nth j s 0) (nth j t 0) = Some (nth j r 0).
Proof.
  induction s as [|d s IH]; intros [|e t] HL HB; cbn [length] in *; try lia; [exists []; split; [reflexivity|split; [reflexivity|intros j Hj; lia]]|].
  pose proof (HB 0 ltac:(lia)) as H0. cbn [nth] in H0. destruct (bdim d e) as [x|] eqn:E; [|congruence].
  destruct (IH t ltac:(lia)) as (r & E1 & E2 & E3). { intros j Hj. apply (HB (S j)). lia. }
  exists (x :: r). cbn [bzip]. rewrite E, E1. split; [reflexivity|]. split; [cbn [length]; lia|]. intros [|j] Hj; [exact E|]. cbn [nth]. apply E3. lia.
Qed.
Lemma bzip_none s : forall t j, j < length s -> bdim (nth j s 0) (nth j t 0) = None -> length s = length t -> bzip s t = None.
Proof.
  induction s as [|d s IH]; intros [|e t] j Hj HB HL; cbn [length] in *; try lia; cbn [bzip].
  destruct j as [|j]; [cbn [nth] in HB; now rewrite HB|]. cbn [nth] in HB. rewrite (IH t j ltac:(lia) HB ltac:(lia)). now destruct (bdim d e).
Qed.
Lemma bdim_some d e : d = e \/ d = 1 \/ e = 1 -> bdim d e = Some (if d =? 1 then e else d).
Proof. unfold bdim. intros H. destruct (Nat.eqb_spec d e) as [E1|E1]; destruct (Nat.eqb_spec d 1) as [E2|E2]; [f_equal; congruence|reflexivity|reflexivity|]. destruct (Nat.eqb_spec e 1) as [E3|E3]; [reflexivity|]. exfalso. destruct H as [|[|]]; congruence. Qed.
(** indices that broadcast against the batch: along each other axis the sizes agree or one of
    them is 1; [R] is the resulting shape *)
Definition along (k : nat) (B S R : list nat) : Prop :=
  length S = length B /\ length R = length B /\ nth k R 0 = nth k S 0 /\
  forall j, j < length B -> j <> k -> (nth j B 0 = nth j S 0 \/ nth j B 0 = 1 \/ nth j S 0 = 1) /\ nth j R 0 = if nth j B 0 =? 1 then nth j S 0 else nth j B 0.
Lemma remove_nth_upd k (x : nat) l : k < length l -> remove_nth k (upd k x l) = remove_nth k l.
Proof.
  intros Hk. rewrite upd_eq by exact Hk. unfold remove_nth. rewrite firstn_app, skipn_app, firstn_length. replace (k - Nat.min k (length l)) with 0 by lia. replace (S k - Nat.min k (length l)) with 1 by lia.
  rewrite firstn_firstn, Nat.min_id, firstn_O, app_nil_r. rewrite skipn_all2 by (rewrite firstn_length; lia). reflexivity.
Qed.
Lemma take_along_scalarwise read fill k B S R indices : (forall z d i, read z d = Some i -> 0 < d -> i < d) -> k < length B -> 0 < nth k B 0 -> ashape indices = S -> along k B S R ->
  scalarwise (a_take_along_bc read fill k indices) B R (fun b => option_map (fun i => upd k i (shrink B b)) (read (get indices (shrink S b)) (nth k B 0))) fill.
Proof.
  intros HRD Hk Hd HI (LS & LR & RK & RJ). split.
  - intros b Hb. pose proof (inb_length _ _ Hb) as LB. destruct (read _ (nth k B 0)) as [i|] eqn:E; cbn [option_map]; [|exact Logic.I]. apply HRD in E; [|exact Hd].
    apply inb_of_nth; [rewrite upd_length, shrink_length by lia; reflexivity|]. intros j Hj. rewrite nth_upd by (rewrite shrink_length by lia; exact Hk). destruct (Nat.eqb_spec j k) as [->|NE]; [exact E|].
    rewrite shrink_nth by lia. destruct (RJ j Hj NE) as [RC RE]. pose proof (inb_nth _ _ j Hb ltac:(lia)) as BJ. rewrite RE in BJ. destruct (Nat.eqb_spec (nth j B 0) 1); lia.
  - intros a Hs Hw. unfold a_take_along_bc, ndim. rewrite Hs, HI, LS, Nat.eqb_refl.
    destruct (bzip_some (upd k 1 B) (upd k 1 S)) as (s & ES & LSS & NS); [rewrite !upd_length; lia| |].
    { intros j Hj. rewrite upd_length in Hj. rewrite !nth_upd by lia. destruct (Nat.eqb_spec j k) as [->|NE]; [discriminate|]. destruct (RJ j Hj NE) as [RC _]. rewrite bdim_some by tauto. discriminate. }
    rewrite ES. rewrite upd_length in LSS, NS.
    assert (NS' : forall j, j < length B -> j <> k -> nth j s 0 = nth j R 0).
    { intros j Hj NE. specialize (NS j Hj). rewrite !nth_upd in NS by lia. destruct (Nat.eqb_spec j k); [congruence|]. destruct (RJ j Hj NE) as [RC RE]. rewrite bdim_some in NS by tauto. injection NS as <-. now rewrite RE. }
    assert (ER : upd k (nth k S 0) s = R).
    { apply (nth_ext _ _ 0 0); [rewrite upd_length; lia|]. intros j Hj. rewrite upd_length in Hj. rewrite nth_upd by lia. destruct (Nat.eqb_spec j k) as [->|NE]; [now rewrite RK|apply NS'; [lia|exact NE]]. }
    set (B2 := upd k (nth k B 0) s). assert (LB2 : length B2 = length B) by (unfold B2; rewrite upd_length; lia).
    assert (NB2 : forall j, nth j B2 0 = if j =? k then nth k B 0 else nth j s 0) by (intros j; unfold B2; apply nth_upd; lia).
    rewrite ER. unfold a_broadcast_to, ndim. rewrite Hs, HI, LR, LB2, LS, Nat.leb_refl, Nat.sub_diag. cbn [skipn andb].
    replace (bcast_ok S R) with true by (symmetry; apply bcast_ok_nth; split; [lia|]; intros j Hj; destruct (Nat.eq_dec j k) as [->|NE]; [left; now rewrite RK|]; destruct (RJ j ltac:(lia) NE) as [RC RE]; rewrite RE; destruct (Nat.eqb_spec (nth j B 0) 1); [now left|]; destruct RC as [RC|[RC|RC]]; [left; lia|congruence|now right]).
    replace (bcast_ok B B2) with true by (symmetry; apply bcast_ok_nth; split; [lia|]; intros j Hj; rewrite NB2; destruct (Nat.eqb_spec j k) as [->|NE]; [now left|]; rewrite (NS' j Hj NE); destruct (RJ j Hj NE) as [RC RE]; rewrite RE; destruct (Nat.eqb_spec (nth j B 0) 1); [now right|now left]).
    unfold a_take_along_by, ndim. cbn [ashape adtype build]. rewrite LR, LB2, Nat.eqb_refl. cbn [andb].
    assert (RM : remove_nth k R = remove_nth k B2) by (unfold B2; rewrite <- ER, !remove_nth_upd by lia; reflexivity). rewrite RM, shape_eqb_refl.
    eexists. split; [reflexivity|]. split; [reflexivity|]. split; [reflexivity|]. split; [apply build_wfa|]. intros b Hb. pose proof (inb_length _ _ Hb) as LB. rewrite get_build by exact Hb.
    rewrite NB2, Nat.eqb_refl. destruct (Nat.eqb_spec (nth k B 0) 0) as [|_]; [lia|]. rewrite get_build by exact Hb. rewrite bcast_src_shrink by lia.
    destruct (read (get indices (shrink S b)) (nth k B 0)) as [i|] eqn:E; cbn [option_map]; [|reflexivity]. apply HRD in E; [|exact Hd].
    assert (IB : inb (upd k i b) B2).
    { apply inb_of_nth; [rewrite upd_length; lia|]. intros j Hj. rewrite NB2, nth_upd by lia. destruct (Nat.eqb_spec j k) as [->|NE]; [exact E|]. rewrite (NS' j ltac:(lia) NE). apply inb_nth; [exact Hb|lia]. }
    rewrite get_build by exact IB. rewrite bcast_src_shrink by (rewrite upd_length; lia).
    (* along k, an axis of size 1 has only the entry 0 *)
    f_equal. apply (nth_ext _ _ 0 0); [rewrite upd_length, !shrink_length by (rewrite ?upd_length; lia); reflexivity|]. intros j Hj. rewrite shrink_length in Hj by (rewrite upd_length; lia).
    rewrite shrink_nth by (rewrite upd_length; lia). rewrite !nth_upd by (rewrite ?shrink_length; lia). rewrite shrink_nth by lia.
    destruct (Nat.eqb_spec j k) as [->|NE]; [|reflexivity]. destruct (Nat.eqb_spec (nth k B 0) 1); lia.
Qed.
Theorem C76_take_along_broadcast : forall mode fill_value c B S R o indices k, mode <> MWrap -> scalar_leaves c -> batched c B o -> k < length B -> 0 < nth k B 0 ->
  ashape indices = S -> along k B S R ->
  exists o', obj_take_along_mode mode fill_value indices (Z.of_nat k) o = Some o' /\ batched c R o' /\
    forall b, inb b R -> exists r, reads_along mode (get indices (shrink S b)) (nth k B 0) r /\
      elem b o' = match r with Some i => elem (upd k i (shrink B b)) o | None => const_obj (match fill_value with Some f => f | None => take_fill end) [] c end.
Proof.
  intros mode fv c B S R o indices k HM HSL HB Hk Hd HI HA.
  set (f := fun a => match norm_axis (Z.of_nat k) (ndim a) with Some k0 => a_take_along_bc (read_along mode) (filler fv) k0 indices a | None => None end).
  assert (HF : obj_take_along_mode mode fv indices (Z.of_nat k) o = tree_map1 f o) by (destruct mode; [reflexivity|reflexivity|congruence]).
  destruct (take_along_scalarwise (read_along mode) (filler fv) k B S R indices (read_along_lt mode) Hk Hd HI HA) as [W1 W2].
  destruct (lift_scalar f B R (fun b => option_map (fun i => upd k i (shrink B b)) (read_along mode (get indices (shrink S b)) (nth k B 0))) (filler fv) c o HSL) as (o' & E1 & E2 & E3); [|exact HB|].
  - split; [exact W1|]. intros a Hs Hw. unfold f. unfold ndim. rewrite Hs, norm_axis_pos by exact Hk. exact (W2 a Hs Hw).
  - exists o'. rewrite HF. split; [exact E1|]. split; [exact E2|]. intros b Hb. exists (read_along mode (get indices (shrink S b)) (nth k B 0)). split; [now apply read_along_reads|]. rewrite E3 by exact Hb. destruct (read_along mode (get indices (shrink S b)) (nth k B 0)); reflexivity.
Qed.
Theorem C76_take_along : forall mode fill_value c B o indices k m, mode <> MWrap -> scalar_leaves c -> batched c B o -> k < length B -> 0 < nth k B 0 -> ashape indices = upd k m B ->
  exists o', obj_take_along_mode mode fill_value indices (Z.of_nat k) o = Some o' /\ batched c (upd k m B) o' /\
    forall b, inb b (upd k m B) -> exists r, reads_along mode (get indices b) (nth k B 0) r /\
      elem b o' = match r with Some i => elem (upd k i b) o | None => const_obj (match fill_value with Some f => f | None => take_fill end) [] c end.
Proof.
  intros mode fv c B o indices k m HM HSL HB Hk Hd HI.
  destruct (C76_take_along_broadcast mode fv c B (upd k m B) (upd k m B) o indices k HM HSL HB Hk Hd HI) as (o' & E1 & E2 & E3).
  - split; [apply upd_length|]. split; [apply upd_length|]. split; [reflexivity|]. intros j Hj NE. rewrite nth_upd by exact Hk. destruct (Nat.eqb_spec j k); [congruence|]. split; [now left|]. now destruct (nth j B 0 =? 1).
  - exists o'. split; [exact E1|]. split; [exact E2|]. intros b Hb. destruct (E3 b Hb) as (r & HR & HE). rewrite shrink_same in HR by exact Hb. exists r. split; [exact HR|]. rewrite HE. destruct r as [i|]; [|reflexivity]. f_equal.
    pose proof (inb_length _ _ Hb) as LB. rewrite upd_length in LB. apply (nth_ext _ _ 0 0); [rewrite !upd_length, shrink_length by lia; lia|]. intros j Hj. rewrite upd_length, shrink_length in Hj by lia.
    rewrite !nth_upd by (rewrite ?shrink_length; lia). destruct (Nat.eqb_spec j k) as [->|NE]; [reflexivity|]. rewrite shrink_nth by lia. destruct (Nat.eqb_spec (nth j B 0) 1) as [E|]; [|reflexivity].
    pose proof (inb_nth _ _ j Hb) as HJ. rewrite upd_length, nth_upd in HJ by exact Hk. destruct (Nat.eqb_spec j k); [congruence|]. specialize (HJ Hj). lia.
Qed.
(** sizes that do not agree raise *)
Theorem C76_take_along_refused : forall mode fill_value c B o indices k j, c <> CNil -> solid c -> scalar_leaves c -> batched c B o -> k < length B -> ndim indices = length B ->
  j < length B -> j <> k -> nth j B 0 <> nth j (ashape indices) 0 -> nth j B 0 <> 1 -> nth j (ashape indices) 0 <> 1 ->
  obj_take_along_mode mode fill_value indices (Z.of_nat k) o = None.
Proof.
  intros mode fv c B o indices k j HN HSD HSL [HC HB] Hk HI Hj NE N1 N2 N3.
  set (f := fun a => match norm_axis (Z.of_nat k) (ndim a) with Some k0 => a_take_along_bc (read_along mode) (filler fv) k0 indices a | None => None end).
  assert (HF : obj_take_along_mode mode fv indices (Z.of_nat k) o = match mode with MWrap => None | _ => tree_map1 f o end) by (destruct mode; reflexivity).
  assert (K : tree_map1 f o = None); [|rewrite HF, K; now destruct mode].
  assert (HE : forall a J, ashape a = B ++ J -> f a = None); [|apply (proj2 (PropSlice.tmap1_none _ B HE) c []); [exact HN|exact HSD|now rewrite app_nil_r]].
  intros a J Hs. unfold f, ndim. rewrite Hs, app_length, norm_axis_pos by lia. unfold a_take_along_bc, ndim. rewrite Hs, app_length. unfold ndim in HI. rewrite HI.
  destruct (Nat.eqb_spec (length B) (length B + length J)) as [L|L]; [|reflexivity]. destruct J; [|cbn [length] in L; lia]. rewrite app_nil_r.
  rewrite (bzip_none (upd k 1 B) (upd k 1 (ashape indices)) j); [reflexivity| | |]; rewrite ?upd_length; try lia. rewrite !nth_upd by lia. destruct (Nat.eqb_spec j k); [congruence|].
  unfold bdim. destruct (Nat.eqb_spec (nth j B 0) (nth j (ashape indices) 0)); [congruence|]. destruct (Nat.eqb_spec (nth j B 0) 1); [congruence|]. destruct (Nat.eqb_spec (nth j (ashape indices) 0) 1); [congruence|reflexivity].
Qed.
(** axis=None with a mode or a fill value: the flattened batch *)
Theorem C76_take_along_flat : forall mode fill_value c B o m zs dt, mode <> MWrap -> scalar_leaves c -> batched c B o -> 0 < prod B -> length zs = m ->
  exists o', obj_take_along_flat_mode mode fill_value (MkArr dt [m] zs) o = Some o' /\ batched c [m] o' /\
    forall i, i < m -> exists r, reads_along mode (nth i zs 0%Z) (prod B) r /\
      elem [i] o' = match r with Some j => elem (unravel B j) o | None => const_obj (match fill_value with Some f => f | None => take_fill end) [] c end.
Proof.
  intros mode fv c B o m zs dt HM HSL HB Hd HZ. set (ix := MkArr dt [m] zs).
  assert (GI : forall i, i < m -> get ix (shrink [m] [i]) = nth i zs 0%Z).
  { intros i Hi. unfold get, ix, shrink. cbn [ashape adata combine map fst snd ravel]. unfold prod. cbn [fold_right]. rewrite Nat.mul_1_r, Nat.add_0_r. f_equal. destruct (Nat.eqb_spec m 1); lia. }
  destruct (take_along_scalarwise (read_along mode) (filler fv) 0 [prod B] [m] [m] ix (read_along_lt mode) ltac:(cbn; lia) Hd eq_refl) as [W1 W2].
  { split; [reflexivity|]. split; [reflexivity|]. split; [reflexivity|]. intros j Hj NE. cbn [length] in Hj. lia. }
  destruct (lift_scalar (fun a => a_take_along_bc (read_along mode) (filler fv) 0 ix (a_ravel a)) B [m] (fun b => option_map (unravel B) (read_along mode (get ix (shrink [m] b)) (prod B))) (filler fv) c o HSL) as (o' & E1 & E2 & E3); [|exact HB|].
  - split.
    + intros b Hb. destruct (read_along mode _ (prod B)) as [i|] eqn:E; cbn [option_map]; [|exact Logic.I]. apply unravel_inb. now apply read_along_lt in E.
    + intros a Hs Hw. assert (SR : ashape (a_ravel a) = [prod B]) by (unfold a_ravel, as_shape; cbn [ashape]; now rewrite Hs).
      assert (WR : wfa (a_ravel a)). { unfold wfa in *. rewrite SR. unfold a_ravel, as_shape. cbn [adata]. rewrite Hw, Hs. unfold prod at 2. cbn [fold_right]. lia. }
      destruct (W2 (a_ravel a) SR WR) as (a' & F1 & F2 & F3 & F4 & F5). exists a'. split; [exact F1|]. split; [exact F2|]. split; [exact F3|]. split; [exact F4|].
      intros b Hb. rewrite (F5 b Hb). cbn [nth]. destruct (read_along mode (get ix (shrink [m] b)) (prod B)) as [i|] eqn:E; cbn [option_map]; [|reflexivity]. apply read_along_lt in E; [|exact Hd].
      assert (EB : exists i0, b = [i0]) by (inversion Hb as [|i0 d0 l0 s0 Hi0 Hl0]; inversion Hl0; eexists; reflexivity). destruct EB as (i0 & ->). unfold shrink. cbn [combine map fst snd upd firstn skipn app].
      unfold get, a_ravel, as_shape. cbn [ashape adata ravel]. rewrite Hs. rewrite ravel_unravel by exact E. f_equal. unfold prod at 1. cbn [fold_right]. lia.
  - exists o'. split; [destruct mode; [exact E1|exact E1|congruence]|]. split; [exact E2|]. intros i Hi. exists (read_along mode (nth i zs 0%Z) (prod B)). split; [now apply read_along_reads|].
    rewrite E3 by (constructor; [exact Hi|constructor]). rewrite GI by exact Hi. destruct (read_along mode (nth i zs 0%Z) (prod B)); reflexivity.
Qed.
(** giving a mode (even the default one) or a fill value makes take_along_axis raise for a
    class with a field that is not a scalar per element; without them it works (C41) *)
Lemma one_shapes (f : array -> option array) (P : list nat -> Prop) B :
  (forall a I, ashape a = B ++ I -> f a <> None -> P I) ->
  (forall d v J v', has_v (B ++ J) d v -> tmap_v (one f) v [] = Some v' -> shapes_d P J d) /\
  (forall c o J o', has_batch (B ++ J) c o -> tmap (one f) o [] = Some o' -> shapes P J c).
Proof.
  intros HP. apply desc_class_ind.
  - intros dt ish bits pb fill v J v' HV E. destruct v as [a|q]; [|destruct HV]. cbn in HV, E. cbn [shapes_d]. rewrite <- app_assoc in HV. apply (HP a _ HV). intros N0. rewrite N0 in E. discriminate.
  - intros c IH ish v J v' HV E. destruct v as [a|q]; [destruct HV|]. cbn [has_v] in HV. cbn [shapes_d]. rewrite <- app_assoc in HV. cbn [tmap_v map sequence] in E. destruct (tmap (one f) q []) as [q'|] eqn:EQ; [|discriminate]. now apply (IH q _ q').
  - intros o J o' HB E. exact Logic.I.
  - intros n d IHd r IHr o J o' HB E. destruct o as [|m v q]; [destruct HB|]. destruct HB as (_ & H1 & H2). cbn [tmap map sequence] in E.
    destruct (tmap_v (one f) v []) as [v1|] eqn:E1; [|discriminate]. destruct (tmap (one f) q []) as [q1|] eqn:E2; [|discriminate]. split; [now apply (IHd v J v1)|now apply (IHr q J q1)].
Qed.
Theorem C76_take_along_scalar_only : forall mode fill_value c B o indices axis o', batched c B o -> ndim indices = length B ->
  obj_take_along_mode mode fill_value indices axis o = Some o' -> scalar_leaves c.
Proof.
  intros mode fv c B o indices axis o' [_ HB] HI E.
  set (f := fun a => match norm_axis axis (ndim a) with Some k0 => a_take_along_bc (read_along mode) (filler fv) k0 indices a | None => None end).
  assert (HF : tree_map1 f o = Some o') by (destruct mode; [exact E|exact E|discriminate]).
  assert (HP : forall a I, ashape a = B ++ I -> f a <> None -> I = []).
  { intros a I Hs HN. unfold f in HN. destruct (norm_axis axis (ndim a)); [|congruence]. unfold a_take_along_bc in HN. rewrite HI in HN. unfold ndim in HN. rewrite Hs, app_length in HN.
    destruct (Nat.eqb_spec (length B) (length B + length I)) as [L|L]; [destruct I; [reflexivity|cbn in L; lia]|cbn in HN; congruence]. }
  apply (proj2 (one_shapes f (fun I => I = []) B HP) c o [] o'); [now rewrite app_nil_r|exact HF].
Qed.

(** ** An empty axis: a non-empty take raises, an empty one is empty *)
Lemma solid_leaf : (forall d J, solid_d d -> ~ shapes_d (fun _ => False) J d) /\ (forall c J, c <> CNil -> solid c -> ~ shapes (fun _ => False) J c).
Proof.
  apply desc_class_ind.
  - intros dt ish bits pb fill J _ H. exact H.
  - intros c IH ish J [H1 H2] H. exact (IH _ H1 H2 H).
  - intros J HN. congruence.
  - intros n d IHd r IHr J _ [H1 H2] [H3 H4]. exact (IHd _ H1 H3).
Qed.
Theorem C76_take_empty_axis : forall mode fill_value c B o indices k, batched c B o -> k < length B -> nth k B 0 = 0 ->
  (prod (ashape indices) = 0 -> exists o', obj_take_mode mode fill_value indices (Z.of_nat k) o = Some o' /\ batched c (firstn k B ++ ashape indices ++ skipn (S k) B) o') /\
  (prod (ashape indices) <> 0 -> c <> CNil -> solid c -> obj_take_mode mode fill_value indices (Z.of_nat k) o = None).
Proof.
  intros mode fv c B o indices k HB Hk H0. split.
  - intros HP. destruct (take_by (read_take mode) (filler fv) (read_take_lt mode) c B o indices k HB Hk (or_intror HP)) as (o' & E1 & E2 & _). now exists o'.
  - intros HP HN HS. destruct (obj_take_mode mode fv indices (Z.of_nat k) o) as [o'|] eqn:E; [|reflexivity]. exfalso.
    refine (proj2 solid_leaf c [] HN HS (proj2 (one_shapes (a_take_by (read_take mode) (filler fv) indices (Z.of_nat k)) (fun _ => False) B _) c o [] o' _ E)); [|rewrite app_nil_r; exact (proj2 HB)].
    intros a I Hs Hf. apply Hf. unfold a_take_by, ndim at 1. rewrite Hs, app_length, norm_axis_pos by lia. cbn zeta. rewrite app_nth1, H0 by lia. destruct (Nat.eqb_spec (prod (ashape indices)) 0); [contradiction|reflexivity].
Qed.

(** ** The default fill: True, the largest unsigned, the smallest signed integer, a NaN *)
Theorem C76_default_fill :
  take_fill DBool = 1%Z /\ (forall w z, in_dtype (DUInt w) z -> (z <= take_fill (DUInt w))%Z) /\ (forall w, 0 < w -> in_dtype (DUInt w) (take_fill (DUInt w))) /\
  (forall w z, in_dtype (DInt w) z -> (take_fill (DInt w) <= z)%Z) /\ (forall w, 0 < w -> in_dtype (DInt w) (take_fill (DInt w))) /\
  (forall w, float_width w -> in_dtype (DFloat w) (take_fill (DFloat w)) /\ is_nan w (take_fill (DFloat w)) = true).
Proof.
  split; [reflexivity|]. split; [intros w z H; cbn in *; lia|]. split.
  { intros w Hw. cbn [in_dtype take_fill]. pose proof (Z.pow_pos_nonneg 2 (Z.of_nat w)). lia. }
  split; [intros w z H; cbn in *; lia|]. split.
  { intros w Hw. cbn [in_dtype take_fill]. pose proof (Z.pow_pos_nonneg 2 (Z.of_nat w - 1)). lia. }
  intros w [-> |[-> | ->]]; (split; [|reflexivity]); cbn [in_dtype take_fill]; cbn; lia.
Qed.
(** a fill value is used as given; only the mode "fill" ever uses it *)
Theorem C76_fill_only : forall mode f g c B o indices k, mode <> MFill -> batched c B o -> k < length B -> 0 < nth k B 0 ->
  obj_take_mode mode f indices (Z.of_nat k) o = obj_take_mode mode g indices (Z.of_nat k) o.
Proof.
  intros mode f g c B o indices k HM HB Hk Hd. unfold obj_take_mode. assert (E : forall a, a_take_by (read_take mode) (filler f) indices (Z.of_nat k) a = a_take_by (read_take mode) (filler g) indices (Z.of_nat k) a).
  { intros a. unfold a_take_by. destruct (norm_axis _ _); [|reflexivity]. destruct (_ && _); [reflexivity|]. f_equal. apply build_ext. intros idx _. destruct mode; [congruence|reflexivity|reflexivity]. }
  assert (G : (forall v, tmap_v (one (a_take_by (read_take mode) (filler f) indices (Z.of_nat k))) v [] = tmap_v (one (a_take_by (read_take mode) (filler g) indices (Z.of_nat k))) v []) /\
              (forall q, tmap (one (a_take_by (read_take mode) (filler f) indices (Z.of_nat k))) q [] = tmap (one (a_take_by (read_take mode) (filler g) indices (Z.of_nat k))) q [])).
  { apply value_obj_ind; cbn [tmap_v tmap map sequence]; intros; cbn [one]; rewrite ?E; try reflexivity; [now rewrite H|]. now rewrite H, H0. }
  exact (proj2 G o).
Qed.

(** ** The hypotheses are met, and the modes differ, on a 2 x 3 batch with a vector field *)
Lemma grid_batched' : batched cell [2; 3] grid.
Proof. exact (proj1 C52_moveaxis_negative_refuted). Qed.
Definition ask : array := MkArr (DInt 32) [4] [-1; 3; -4; 1]%Z.
Example C76_modes :
  (exists o', obj_take_mode MFill None ask 1 grid = Some o' /\ elem [0; 0] o' = elem [0; 2] grid /\ elem [0; 1] o' = const_obj take_fill [] cell /\ elem [0; 2] o' = const_obj take_fill [] cell /\ elem [1; 3] o' = elem [1; 1] grid) /\
  (exists o', obj_take_mode MClip None ask 1 grid = Some o' /\ elem [0; 0] o' = elem [0; 0] grid /\ elem [0; 1] o' = elem [0; 2] grid /\ elem [0; 2] o' = elem [0; 0] grid) /\
  (exists o', obj_take_mode MWrap None ask 1 grid = Some o' /\ elem [0; 0] o' = elem [0; 2] grid /\ elem [0; 1] o' = elem [0; 0] grid /\ elem [0; 2] o' = elem [0; 2] grid) /\
  (exists o', obj_take_mode MFill (Some (fun _ => 7%Z)) ask 1 grid = Some o' /\ elem [0; 1] o' = const_obj (fun _ => 7%Z) [] cell).
Proof. repeat split; eexists; repeat split. Qed.
(** the default mode named explicitly makes take_along_axis raise where the default does not *)
Example C76_along_mode_raises : let ix := MkArr (DInt 32) [2; 3] [2; 1; 0; 0; 0; 1]%Z in
  obj_take_along_mode MFill None ix 1 grid = None /\ exists o', obj_take_along ix 1 grid = Some o' /\ elem [0; 0] o' = elem [0; 2] grid.
Proof. split; [reflexivity|]. eexists. split; reflexivity. Qed.
Definition flat_class : class := CCons "id"%string (Prim (DUInt 8) [] None false 255%Z) CNil.
Definition flat_grid : obj := OCons "id"%string (VArr (MkArr (DUInt 8) [2; 2] [10; 20; 30; 40]%Z)) ONil.
Example C76_along_modes : let ix := MkArr (DInt 32) [2; 3] [-1; 2; -3; 0; 1; 1]%Z in scalar_leaves flat_class /\ batched flat_class [2; 2] flat_grid /\
  obj_take_along_mode MFill None ix 1 flat_grid = Some (OCons "id"%string (VArr (MkArr (DUInt 8) [2; 3] [20; 255; 255; 30; 40; 40]%Z)) ONil) /\
  obj_take_along_mode MClip None ix 1 flat_grid = Some (OCons "id"%string (VArr (MkArr (DUInt 8) [2; 3] [20; 20; 10; 30; 40; 40]%Z)) ONil) /\
  obj_take_flat_mode MWrap None (MkArr (DInt 32) [2] [5; -1]%Z) flat_grid = Some (OCons "id"%string (VArr (MkArr (DUInt 8) [2] [20; 40]%Z)) ONil).
Proof. repeat split. Qed.
(** axis=None flattens every field when a mode or a fill value is given, and raises when not *)
Theorem C76_axis_none : forall c B o indices, batched c B o -> c <> CNil -> solid c ->
  xnp_take_along_axis None None indices None o = None /\
  (forall m fv, xnp_take_along_axis (Some m) fv indices None o = obj_take_along_flat_mode m fv indices o) /\
  (forall f, xnp_take_along_axis None (Some f) indices None o = obj_take_along_flat_mode MFill (Some f) indices o).
Proof.
  intros c B o indices [HC HB] HN HS. split; [|split; reflexivity]. cbn [xnp_take_along_axis].
  apply (proj2 (PropSlice.tmap1_none (fun _ => None) B (fun a J _ => eq_refl)) c []); [exact HN|exact HS|now rewrite app_nil_r].
Qed.
(** broadcasting in both directions: one row of indices for both rows; one column for each row;
    flattened; and a batch with an axis of size 1 that is repeated, which raises without a mode *)
Definition one_row : obj := OCons "id"%string (VArr (MkArr (DUInt 8) [1; 2] [10; 20]%Z)) ONil.
Example C76_along_broadcast_cases : along 1 [2; 2] [1; 2] [2; 2] /\ along 1 [2; 2] [2; 1] [2; 1] /\ along 1 [1; 2] [3; 1] [3; 1] /\ batched flat_class [1; 2] one_row /\
  obj_take_along_mode MFill None (MkArr (DInt 32) [1; 2] [-1; 0]%Z) 1 flat_grid = Some (OCons "id"%string (VArr (MkArr (DUInt 8) [2; 2] [20; 10; 40; 30]%Z)) ONil) /\
  obj_take_along_mode MFill None (MkArr (DInt 32) [2; 1] [-1; 5]%Z) 1 flat_grid = Some (OCons "id"%string (VArr (MkArr (DUInt 8) [2; 1] [20; 255]%Z)) ONil) /\
  obj_take_along_flat_mode MClip None (MkArr (DInt 32) [2] [-1; 50]%Z) flat_grid = Some (OCons "id"%string (VArr (MkArr (DUInt 8) [2] [40; 40]%Z)) ONil) /\
  xnp_take_along_axis (Some MFill) None (MkArr (DInt 32) [3; 1] [1; 0; 1]%Z) (Some 1%Z) one_row = Some (OCons "id"%string (VArr (MkArr (DUInt 8) [3; 1] [20; 10; 20]%Z)) ONil) /\
  xnp_take_along_axis None None (MkArr (DInt 32) [3; 1] [1; 0; 1]%Z) (Some 1%Z) one_row = None.
Proof.
  assert (A : forall k B S R, length S = length B -> length R = length B -> nth k R 0 = nth k S 0 ->
    forallb (fun j => (j =? k) || (((nth j B 0 =? nth j S 0) || (nth j B 0 =? 1) || (nth j S 0 =? 1)) && (nth j R 0 =? if nth j B 0 =? 1 then nth j S 0 else nth j B 0))) (seq 0 (length B)) = true -> along k B S R).
  { intros k B S R H1 H2 H3 H4. split; [exact H1|]. split; [exact H2|]. split; [exact H3|]. intros j Hj NE. rewrite forallb_forall in H4. specialize (H4 j ltac:(apply in_seq; lia)).
    apply orb_prop in H4. destruct H4 as [H4|H4]; [apply Nat.eqb_eq in H4; congruence|]. apply andb_prop in H4. destruct H4 as [H4 H5]. apply Nat.eqb_eq in H5. split; [|exact H5].
    apply orb_prop in H4. destruct H4 as [H4|H4]; [apply orb_prop in H4; destruct H4 as [H4|H4]; apply Nat.eqb_eq in H4; auto|apply Nat.eqb_eq in H4; auto]. }
  split; [apply A; reflexivity|]. split; [apply A; reflexivity|]. split; [apply A; reflexivity|]. repeat split.
Qed.
Print Assumptions C76_take. Print Assumptions C76_take_flat. Print Assumptions C76_take_along. Print Assumptions C76_take_along_scalar_only. Print Assumptions C76_take_empty_axis. Print Assumptions C76_default_fill. Print Assumptions C76_fill_only.
Print Assumptions C76_take_along_broadcast. Print Assumptions C76_take_along_flat. Print Assumptions C76_axis_none. Print Assumptions C76_take_along_refused.
