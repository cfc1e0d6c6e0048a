(** * PropTakeAlong.v — property C41 (continued): take_along_axis with indices that broadcast.

    The indices may have fewer axes than the batch (axes of size 1 are added behind) and axes of
    size 1: row [b] of the result reads the entry of the indices at the leading coordinates of [b],
    0 along the axes of size 1. *)
From Coq Require Import String.
From Verif Require Import Jax StructModel ArrayModel ArrayFacts ShapeModel PropShape RowsModel RowsLift PropRows PropRows2 PropRows3 PropRows6 SliceModel PropSlice.

(** the indices' shape with axes of size 1 behind, up to [n] axes *)
Definition behind (n : nat) (s : list nat) : list nat := s ++ repeat 1 (n - length s).
(** which entry of an array of shape [s] is used for the coordinates [b] *)
Definition leading (s b : list nat) : list nat := map (fun p => if fst p =? 1 then 0 else snd p) (combine s b).

Lemma combine_app_same {X Y} (l1 l2 : list X) (m1 m2 : list Y) : length l1 = length m1 -> combine (l1 ++ l2) (m1 ++ m2) = combine l1 m1 ++ combine l2 m2.
Proof. revert m1. induction l1 as [|x l1 IH]; intros [|y m1] H; cbn [length] in H; try lia; [reflexivity|]. cbn [app combine]. f_equal. apply IH. lia. Qed.
Lemma combine_short {X Y} (l : list X) (m : list Y) : combine l m = combine l (firstn (length l) m).
Proof. revert m. induction l as [|x l IH]; intros [|y m]; [reflexivity..|]. cbn [combine length firstn]. f_equal. apply IH. Qed.
Lemma leading_length s b : length s <= length b -> length (leading s b) = length s.
Proof. intros H. unfold leading. rewrite map_length, combine_length. lia. Qed.
Lemma leading_ones (y : list nat) : leading (repeat 1 (length y)) y = repeat 0 (length y).
Proof. unfold leading. induction y as [|i y IH]; [reflexivity|]. cbn [length repeat combine map fst snd Nat.eqb]. now f_equal. Qed.
Lemma bcast_src_behind s b t n : length b = n -> length s <= n -> bcast_src (s ++ repeat 1 (n + length t - length s)) (b ++ t) = leading s b ++ repeat 0 (n + length t - length s).
Proof.
  intros HB HS. unfold bcast_src. rewrite !app_length, repeat_length. replace (length b + length t - (length s + (n + length t - length s))) with 0 by lia. cbn [skipn].
  set (x := firstn (length s) b). set (y := skipn (length s) b ++ t). assert (EY : length y = n + length t - length s) by (unfold y; rewrite app_length, skipn_length; lia).
  assert (EX : length x = length s) by (unfold x; rewrite firstn_length; lia). replace (b ++ t) with (x ++ y) by (unfold x, y; now rewrite app_assoc, firstn_skipn). rewrite <- EY. rewrite combine_app_same by (now symmetry). rewrite map_app. f_equal; [|exact (leading_ones y)].
  unfold leading. now rewrite (combine_short s b).
Qed.
Lemma bcast_ok_behind s T J : bcast_ok s T = true -> bcast_ok (s ++ repeat 1 (length J)) (T ++ J) = true.
Proof.
  intros H. apply bcast_ok_nth in H. destruct H as [HL HN]. apply bcast_ok_nth. rewrite !app_length, repeat_length. split; [lia|]. intros k Hk. destruct (Nat.lt_ge_cases k (length s)) as [L|L].
  - rewrite !app_nth1 by lia. now apply HN.
  - right. rewrite app_nth2 by lia. apply nth_repeat_lt. lia.
Qed.
Theorem C41_take_along_broadcast : forall c B o indices k, batched c B o -> k < length B -> 0 < nth k B 0 -> wfa indices -> ndim indices <= length B ->
  let S := behind (length B) (ashape indices) in let m := nth k S 0 in
  bcast_ok S (upd k m B) = true ->
  exists o', obj_take_along indices (Z.of_nat k) o = Some o' /\ batched c (upd k m B) o' /\
    forall b, inb b (upd k m B) ->
      elem b o' = match norm_index (get indices (leading (ashape indices) b)) (nth k B 0) with Some i => elem (upd k i b) o | None => const_obj take_fill [] c end.
Proof.
  intros c B o indices k [HC HB] Hk HP HW HI S m HO.
  assert (LS : length S = length B) by (unfold S, behind; rewrite app_length, repeat_length; unfold ndim in HI; lia).
  set (sr := fun b => match norm_index (get indices (leading (ashape indices) b)) (nth k B 0) with Some i => Some (upd k i b) | None => None end).
  assert (HR : rowwise1 (leaf_take_along indices (Z.of_nat k)) B (upd k m B) sr take_fill).
  { split.
    - intros b Hb. unfold sr. destruct (norm_index _ _) as [i|] eqn:E; [|exact Logic.I]. apply norm_axis_lt in E. rewrite <- (upd_same k B 0 Hk). eapply inb_upd; eauto.
    - intros a J Hs Hw. assert (NA : ndim a = length B + length J) by (unfold ndim; now rewrite Hs, app_length).
      unfold leaf_take_along. rewrite NA, norm_axis_pos by lia. destruct (Nat.ltb_spec (length B + length J) (ndim indices)); [lia|].
      unfold a_reshape. rewrite prod_app, prod_repeat1, Nat.mul_1_r, Nat.eqb_refl.
      set (e := MkArr (adtype indices) (ashape indices ++ repeat 1 (length B + length J - ndim indices)) (adata indices)).
      assert (SE : ashape e = S ++ repeat 1 (length J)).
      { unfold e, S, behind. cbn [ashape]. rewrite <- app_assoc, <- repeat_app. f_equal. f_equal. unfold ndim in *. lia. }
      assert (NK : nth k (ashape e) 0 = m) by (rewrite SE, app_nth1 by lia; reflexivity).
      rewrite NK, Hs. rewrite upd_app by exact Hk. unfold a_broadcast_to at 1. unfold ndim at 1 2. rewrite SE, !app_length, repeat_length, upd_length, LS.
      destruct (Nat.leb_spec (length B + length J) (length B + length J)); [|lia]. rewrite Nat.sub_diag. cbn [skipn]. rewrite bcast_ok_behind by exact HO. cbn [andb].
      set (e' := build _ _ _). assert (SE' : ashape e' = upd k m B ++ J) by reflexivity.
      assert (GE : forall b t, inb b (upd k m B) -> inb t J -> get e' (b ++ t) = get indices (leading (ashape indices) b)).
      { intros b t Hb Ht. pose proof (inb_length _ _ Hb) as LB. rewrite upd_length in LB. pose proof (inb_length _ _ Ht) as LT. unfold e'. rewrite get_build by (now apply inb_app_intro). rewrite <- SE. unfold e. cbn [ashape].
        rewrite <- LT. unfold ndim in *. rewrite (bcast_src_behind _ b t (length B)) by (first [exact LB|exact HI]). unfold get. cbn [ashape adata].
        rewrite ravel_app by (rewrite leading_length; lia). rewrite prod_repeat1, ravel_zeros. f_equal. lia. }
      unfold a_take_along, a_take_along_by. unfold ndim. rewrite SE', Hs, !app_length, upd_length, Nat.eqb_refl. cbn [andb].
      assert (RM : remove_nth k (upd k m B ++ J) = remove_nth k (B ++ J)).
      { rewrite !remove_app by (rewrite ?upd_length; exact Hk). f_equal. rewrite upd_eq by exact Hk.
        unfold remove_nth. rewrite firstn_app, skipn_app, firstn_length. replace (k - Nat.min k (length B)) with 0 by lia. replace (Datatypes.S k - Nat.min k (length B)) with 1 by lia.
        rewrite firstn_firstn, Nat.min_id, firstn_O, app_nil_r. rewrite skipn_all2 by (rewrite firstn_length; lia). reflexivity. }
      rewrite RM, shape_eqb_refl. eexists. split; [reflexivity|]. cbn [adtype ashape]. split; [reflexivity|]. split; [exact SE'|]. split; [apply build_wfa|].
      intros b t Hb Ht. rewrite get_build by (rewrite ?SE'; now apply inb_app_intro). rewrite GE by assumption. rewrite app_nth1 by exact Hk. destruct (Nat.eqb_spec (nth k B 0) 0) as [Z0|_]; [lia|]. unfold sr.
      pose proof (inb_length _ _ Hb) as LB. rewrite upd_length in LB.
      destruct (norm_index (get indices (leading (ashape indices) b)) (nth k B 0)) as [i|]; [|reflexivity]. now rewrite upd_app by lia. }
  destruct (lift_one _ _ _ _ _ c o HR HC HB) as [o' [E1 [E2 [E3 E4]]]]. exists o'. split; [exact E1|]. split; [split; assumption|].
  intros b Hb. rewrite E4 by exact Hb. unfold sr. destruct (norm_index _ (nth k B 0)); reflexivity.
Qed.
(** the common use: for a batch of shape (n, m), one index per row picks one element of each row,
    the same in every field *)
Theorem C41_take_along_pick : forall c n m o zs, batched c [n; m] o -> 0 < m -> length zs = n ->
  exists o', obj_take_along (MkArr (DInt 32) [n] zs) 1 o = Some o' /\ batched c [n; 1] o' /\
    forall i, i < n -> elem [i; 0] o' = match norm_index (nth i zs 0%Z) m with Some j => elem [i; j] o | None => const_obj take_fill [] c end.
Proof.
  intros c n m o zs HB Hm HL. destruct (C41_take_along_broadcast c [n; m] o (MkArr (DInt 32) [n] zs) 1 HB ltac:(cbn; lia) Hm) as (o' & E & B & F).
  - unfold wfa. cbn [ashape adata prod fold_right]. lia.
  - cbn. lia.
  - cbn [behind ashape length Nat.sub repeat app nth upd firstn skipn]. apply bcast_ok_refl.
  - exists o'. split; [exact E|]. split; [exact B|]. intros i Hi. rewrite (F [i; 0]) by (cbn [behind ashape length Nat.sub repeat app nth upd firstn skipn]; constructor; [exact Hi|constructor; [lia|constructor]]).
    cbn [ashape leading combine map fst snd nth]. assert (G : get (MkArr (DInt 32) [n] zs) [if n =? 1 then 0 else i] = nth i zs 0%Z).
    { unfold get. cbn [ashape adata ravel]. unfold prod. cbn [fold_right]. rewrite Nat.mul_1_r, Nat.add_0_r. f_equal. destruct (Nat.eqb_spec n 1); lia. }
    rewrite G. destruct (norm_index _ m); reflexivity.
Qed.
(** indices that do not broadcast raise *)
Theorem C41_take_along_refused : forall c B o indices k, c <> CNil -> solid c -> batched c B o -> k < length B -> ndim indices <= length B ->
  let S := behind (length B) (ashape indices) in bcast_ok S (upd k (nth k S 0) B) = false -> obj_take_along indices (Z.of_nat k) o = None.
Proof.
  intros c B o indices k HN HS [HC HB] Hk HI S HO.
  assert (LS : length S = length B) by (unfold S, behind; rewrite app_length, repeat_length; unfold ndim in HI; lia).
  assert (HE : forall a J, ashape a = B ++ J -> leaf_take_along indices (Z.of_nat k) a = None); [intros a J Hs|apply (proj2 (tmap1_none _ B HE) c []); [exact HN|exact HS|now rewrite app_nil_r]].
  assert (NA : ndim a = length B + length J) by (unfold ndim; now rewrite Hs, app_length).
  unfold leaf_take_along. rewrite NA, norm_axis_pos by lia. destruct (Nat.ltb_spec (length B + length J) (ndim indices)); [lia|].
  unfold a_reshape. rewrite prod_app, prod_repeat1, Nat.mul_1_r, Nat.eqb_refl.
  set (e := MkArr (adtype indices) (ashape indices ++ repeat 1 (length B + length J - ndim indices)) (adata indices)).
  assert (SE : ashape e = S ++ repeat 1 (length J)).
  { unfold e, S, behind. cbn [ashape]. rewrite <- app_assoc, <- repeat_app. f_equal. f_equal. unfold ndim in *. lia. }
  assert (NK : nth k (ashape e) 0 = nth k S 0) by (rewrite SE, app_nth1 by lia; reflexivity).
  rewrite NK, Hs. rewrite upd_app by exact Hk. unfold a_broadcast_to at 1. unfold ndim at 1 2. rewrite SE, !app_length, repeat_length, upd_length, LS.
  destruct (Nat.leb_spec (length B + length J) (length B + length J)); [|lia]. rewrite Nat.sub_diag. cbn [skipn andb].
  destruct (bcast_ok (S ++ _) _) eqn:E; [exfalso|reflexivity]. apply bcast_ok_nth in E. destruct E as [_ E].
  assert (K : bcast_ok S (upd k (nth k S 0) B) = true); [|congruence]. apply bcast_ok_nth. rewrite upd_length. split; [exact LS|]. intros i Hi. specialize (E i). rewrite app_length, !app_nth1 in E by (rewrite ?upd_length; lia). apply E. lia.
Qed.
(** non-vacuity *)
Theorem C41_take_along_witness : exists o o', batched PropRows4.cell [2] o /\ o = PropRows4.cell2 1 /\ obj_take_along (MkArr (DInt 32) [1] [-1]%Z) 0 o = Some o' /\ elem [0] o' = elem [1] o.
Proof. exists (PropRows4.cell2 1). eexists. split; [split; vm_compute; repeat split|]. split; [reflexivity|]. split; vm_compute; reflexivity. Qed.
Print Assumptions C41_take_along_broadcast.
