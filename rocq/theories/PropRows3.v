(** * PropRows3.v — property C41 (third part): split, take_along_axis, [.at[...].set],
    pad and where; and the cases in which the element-wise reading fails. *)
From Coq Require Import String.
From Verif Require Import Jax StructModel ArrayModel ArrayFacts ShapeModel PropShape RowsModel RowsLift PropRows PropRows2.

(** ** split *)
Lemma first_leaf_both :
  (forall d v B, solid_d d -> conforms_v d v -> has_v B d v -> exists a I, first_leaf_v v = Some a /\ ashape a = B ++ I) /\
  (forall c o B, c <> CNil -> solid c -> conforms c o -> has_batch B c o -> exists a I, first_leaf o = Some a /\ ashape a = B ++ I).
Proof.
  apply desc_class_ind.
  - intros dt ish bits pb fill v B _ HC HH. destruct v as [a|]; [|destruct HC]. exists a, ish. auto.
  - intros c IH ish v B [HN HS] HC HH. destruct v as [|o]; [destruct HC|]. destruct (IH o (B ++ ish) HN HS HC HH) as [a [I [E1 E2]]]. exists a, (ish ++ I). rewrite app_assoc. auto.
  - congruence.
  - intros n d IHd r _ o B _ [S1 _] HC HH. destruct o as [|m v q]; [destruct HC|]. destruct HC as [_ [C1 _]]. destruct HH as [_ [H1 _]].
    destruct (IHd v B S1 C1 H1) as [a [I [E1 E2]]]. exists a, I. cbn [first_leaf]. rewrite E1. auto.
Qed.
Lemma cut_points_in d how ps p : cut_points d how = Some ps -> In p ps -> fst p + snd p <= d.
Proof.
  unfold cut_points. destruct how as [n|cuts].
  - destruct (Nat.eqb_spec n 0); [discriminate|]. cbn [orb]. destruct (Nat.eqb_spec (d mod n) 0) as [Em|]; [|discriminate]. cbn [negb]. intros E. injection E as <-. intros H. apply in_map_iff in H. destruct H as [i [<- Hi]].
    apply in_seq in Hi. cbn [fst snd]. assert (d = n * (d / n)) by (pose proof (Nat.div_mod d n ltac:(lia)); lia). nia.
  - intros E H. assert (EQ : ps = map (fun p => (fst p, snd p - fst p)) (combine (0 :: map (Nat.min d) cuts) (map (Nat.min d) cuts ++ [d]))) by congruence. clear E. rewrite EQ in H.
    apply in_map_iff in H. destruct H as [[x y] [<- Hxy]]. cbn [fst snd].
    assert (HX : x <= d).
    { apply in_combine_l in Hxy. destruct Hxy as [<-|Hx]; [lia|]. apply in_map_iff in Hx. destruct Hx as [z [<- _]]. lia. }
    assert (HY : y <= d).
    { apply in_combine_r in Hxy. apply in_app_iff in Hxy. destruct Hxy as [Hy|[<-|[]]]; [|lia]. apply in_map_iff in Hy. destruct Hy as [z [<- _]]. lia. }
    lia.
Qed.
Lemma sequence_all {X} (l : list (option X)) (P : nat -> X -> Prop) : (forall i, i < length l -> exists x, nth i l None = Some x /\ P i x) ->
  exists xs, sequence l = Some xs /\ length xs = length l /\ forall i d, i < length l -> P i (nth i xs d).
Proof.
  revert P. induction l as [|y l IH]; intros P H; [exists []; repeat split; intros; cbn in *; lia|].
  destruct (IH (fun i => P (S i))) as [xs [E [HL HP]]]; [intros i Hi; apply (H (S i)); cbn; lia|].
  destruct (H 0 ltac:(cbn; lia)) as [x [Ex Px]]. cbn in Ex. subst y. exists (x :: xs). cbn [sequence]. rewrite E. cbn [option_map length]. split; [reflexivity|]. split; [lia|].
  intros [|i] d Hi; cbn; [exact Px|]. apply HP. cbn in Hi. lia.
Qed.
(** the pieces partition the axis as [cut_points] says, and each piece holds whole elements *)
Theorem C41_split : forall c B o k how ps, c <> CNil -> solid c -> batched c B o -> k < length B -> cut_points (nth k B 0) how = Some ps ->
  exists l, obj_split how (Z.of_nat k) o = Some l /\ length l = length ps /\
    forall i, i < length ps -> let p := nth i ps (0, 0) in
      batched c (upd k (snd p) B) (nth i l ONil) /\
      forall b, inb b (upd k (snd p) B) -> elem b (nth i l ONil) = elem (upd k (fst p + nth k b 0) b) o.
Proof.
  intros c B o k how ps HN HS [HC HB] Hk EC. unfold obj_split. destruct (proj2 first_leaf_both c o B HN HS HC HB) as [a [I [EF EA]]]. rewrite EF.
  assert (SPLIT : forall a I, ashape a = B ++ I -> a_split how (Z.of_nat k) a = Some (map (fun p => a_slice k (fst p) (snd p) a) ps)).
  { intros a0 I0 Hs. unfold a_split. unfold ndim. rewrite Hs, app_length, norm_axis_pos by lia. rewrite app_nth1 by lia. now rewrite EC. }
  rewrite (SPLIT a I EA), map_length.
  destruct (sequence_all (map (fun i => tree_map1 (piece how (Z.of_nat k) i) o) (seq 0 (length ps)))
     (fun i o' => batched c (upd k (snd (nth i ps (0, 0))) B) o' /\ forall b, inb b (upd k (snd (nth i ps (0, 0))) B) -> elem b o' = elem (upd k (fst (nth i ps (0, 0)) + nth k b 0) b) o)) as [l [E1 [E2 E3]]].
  - intros i Hi. rewrite map_length, seq_length in Hi. rewrite (nth_map_any _ (seq 0 (length ps)) i 0) by (now rewrite seq_length). rewrite seq_nth by exact Hi. cbn [Nat.add].
    set (p := nth i ps (0, 0)). assert (HP : fst p + snd p <= nth k B 0) by (apply (cut_points_in _ how ps); [exact EC|now apply nth_In]).
    assert (HR : rowwise1 (piece how (Z.of_nat k) i) B (upd k (snd p) B) (fun b => Some (upd k (fst p + nth k b 0) b)) nofill).
    { apply (rowwise1_build _ _ _ _ _ (fun a idx => get a (upd k (fst p + nth k idx 0) idx))).
      - intros b Hb. pose proof (inb_nth _ _ k Hb) as HBK. rewrite upd_length, nth_upd, Nat.eqb_refl in HBK by exact Hk. specialize (HBK Hk).
        rewrite <- (upd_same k B 0 Hk). apply (inb_upd k _ (snd p)); [exact Hk|exact Hb|lia].
      - intros a0 I0 Hs Hw. unfold piece. rewrite (SPLIT a0 I0 Hs). rewrite nth_error_map, (nth_error_nth' ps (0, 0) Hi). fold p. cbn [option_map]. unfold a_slice. rewrite Hs. now rewrite upd_app by lia.
      - intros a0 I0 b t Hs Hw Hb Ht. pose proof (inb_length _ _ Hb) as LB. rewrite upd_length in LB. rewrite app_nth1 by lia. now rewrite upd_app by lia. }
    destruct (lift_one _ _ _ _ _ c o HR HC HB) as [o' [F1 [F2 [F3 F4]]]]. exists o'. split; [exact F1|]. split; [split; assumption|exact F4].
  - exists l. rewrite map_length, seq_length in E2, E3. split; [exact E1|]. split; [exact E2|]. intros i Hi. cbn zeta. now apply E3.
Qed.

(** ** take_along_axis *)
Lemma prod_repeat1 n : prod (repeat 1 n) = 1.
Proof. induction n; cbn [repeat]; [reflexivity|]. rewrite prod_cons, IHn. reflexivity. Qed.
Lemma ravel_zeros n : ravel (repeat 1 n) (repeat 0 n) = 0.
Proof. induction n; cbn [repeat ravel]; [reflexivity|]. rewrite IHn. lia. Qed.
Lemma bcast_ok_parts s t n I : length I = n -> s = t -> bcast_ok (s ++ repeat 1 n) (t ++ I) = true.
Proof.
  intros HL ->. induction t as [|d t IH]; cbn [app bcast_ok]; [|rewrite Nat.eqb_refl; exact IH].
  revert n HL. induction I as [|x I IH]; intros [|n] HL; try discriminate; [reflexivity|]. cbn [repeat bcast_ok]. rewrite orb_true_r. cbn [andb]. apply IH. cbn in HL. lia.
Qed.
Lemma bcast_src_parts s b t n : inb b s -> length t = n -> bcast_src (s ++ repeat 1 n) (b ++ t) = b ++ repeat 0 n.
Proof.
  intros Hb HL. unfold bcast_src. rewrite !app_length, repeat_length, (inb_length _ _ Hb), HL, Nat.sub_diag, skipn_O.
  induction Hb as [|i d b s Hi Hb IH]; cbn [app combine map fst snd].
  - revert n HL. induction t as [|x t IH]; intros [|n] HL; try discriminate; [reflexivity|]. cbn [repeat combine map fst snd Nat.eqb]. f_equal. apply IH. cbn in HL. lia.
  - rewrite IH. f_equal. destruct (Nat.eqb_spec d 1); [lia|reflexivity].
Qed.
Theorem C41_take_along_axis : forall c B o indices k m, batched c B o -> k < length B -> 0 < nth k B 0 -> wfa indices -> ashape indices = upd k m B ->
  exists o', obj_take_along indices (Z.of_nat k) o = Some o' /\ batched c (upd k m B) o' /\
    forall b, inb b (upd k m B) ->
      elem b o' = match norm_index (get indices b) (nth k B 0) with Some i => elem (upd k i b) o | None => const_obj take_fill [] c end.
Proof.
  intros c B o indices k m [HC HB] Hk HP HW HI.
  set (sr := fun b => match norm_index (get indices b) (nth k B 0) with Some i => Some (upd k i b) | None => None end).
  assert (HR : rowwise1 (leaf_take_along indices (Z.of_nat k)) B (upd k m B) sr take_fill).
  { split.
    - intros b Hb. unfold sr. destruct (norm_index _ _) as [i|] eqn:E; [|exact I]. apply norm_axis_lt in E. rewrite <- (upd_same k B 0 Hk). eapply inb_upd; eauto.
    - intros a I Hs Hw. assert (NA : ndim a = length B + length I) by (unfold ndim; now rewrite Hs, app_length). assert (NI : ndim indices = length B) by (unfold ndim; now rewrite HI, upd_length).
      unfold leaf_take_along. rewrite NA, norm_axis_pos by lia. rewrite NI. destruct (Nat.ltb_spec (length B + length I) (length B)); [lia|].
      replace (length B + length I - length B) with (length I) by lia. unfold a_reshape. rewrite prod_app, prod_repeat1, Nat.mul_1_r, Nat.eqb_refl.
      set (e := MkArr (adtype indices) (ashape indices ++ repeat 1 (length I)) (adata indices)).
      assert (SE : ashape e = upd k m B ++ repeat 1 (length I)) by (unfold e; cbn; now rewrite HI).
      assert (NK : nth k (ashape e) 0 = m) by (rewrite SE, app_nth1 by (rewrite upd_length; lia); rewrite nth_upd, Nat.eqb_refl by exact Hk; reflexivity).
      rewrite NK, Hs. rewrite upd_app by exact Hk. unfold a_broadcast_to at 1. unfold ndim at 1 2. rewrite SE, !app_length, repeat_length.
      destruct (Nat.leb_spec (length (upd k m B) + length I) (length (upd k m B) + length I)); [|lia]. rewrite Nat.sub_diag, skipn_O, bcast_ok_parts by reflexivity. cbn [andb].
      set (e' := build _ _ _). assert (SE' : ashape e' = upd k m B ++ I) by reflexivity.
      assert (GE : forall b t, inb b (upd k m B) -> inb t I -> get e' (b ++ t) = get indices b).
      { intros b t Hb Ht. unfold e'. rewrite get_build by (now apply inb_app_intro). rewrite bcast_src_parts by (auto; now apply inb_length). unfold get. rewrite SE. cbn [e adata].
        rewrite ravel_app by (apply inb_length; exact Hb). rewrite prod_repeat1, ravel_zeros, HI. f_equal. lia. }
      unfold a_take_along, a_take_along_by. unfold ndim. rewrite SE', Hs, !app_length, upd_length, Nat.eqb_refl. cbn [andb].
      assert (RM : remove_nth k (upd k m B ++ I) = remove_nth k (B ++ I)).
      { rewrite !remove_app by (rewrite ?upd_length; exact Hk). f_equal. rewrite upd_eq by exact Hk.
        unfold remove_nth. rewrite firstn_app, skipn_app, firstn_length. replace (k - Nat.min k (length B)) with 0 by lia. replace (S k - Nat.min k (length B)) with 1 by lia.
        rewrite firstn_firstn, Nat.min_id, firstn_O, app_nil_r. rewrite skipn_all2 by (rewrite firstn_length; lia). reflexivity. }
      rewrite RM, shape_eqb_refl. eexists. split; [reflexivity|]. cbn [adtype ashape]. split; [reflexivity|]. split; [exact SE'|]. split; [apply build_wfa|].
      intros b t Hb Ht. rewrite get_build by (rewrite ?SE'; now apply inb_app_intro). rewrite GE by assumption. rewrite app_nth1 by exact Hk. destruct (Nat.eqb_spec (nth k B 0) 0) as [Z0|_]; [lia|]. unfold sr.
      pose proof (inb_length _ _ Hb) as LB. rewrite upd_length in LB.
      destruct (norm_index (get indices b) (nth k B 0)) as [i|]; [|reflexivity]. now rewrite upd_app by lia. }
  destruct (lift_one _ _ _ _ _ c o HR HC HB) as [o' [E1 [E2 [E3 E4]]]]. exists o'. split; [exact E1|]. split; [split; assumption|].
  intros b Hb. rewrite E4 by exact Hb. unfold sr. destruct (norm_index (get indices b) (nth k B 0)); reflexivity.
Qed.

(** ** [.at[box].set(instance)] *)
Definition two (f : array -> array -> option array) (l : list array) : option array := match l with [a; b] => f a b | _ => None end.
Lemma set_box_tmap box :
  (forall v w v', tmap_v (two (fun a b => a_set_box box b a)) v [w] = Some v' -> set_box_v box v w = v') /\
  (forall o q o', tmap (two (fun a b => a_set_box box b a)) o [q] = Some o' -> set_box box o q = o').
Proof.
  apply value_obj_ind.
  - intros a w v' E. cbn [tmap_v map sequence] in E. destruct w as [b|]; [|discriminate]. cbn [as_arr option_map two] in E. cbn [set_box_v]. destruct (a_set_box box b a); [|discriminate]. now injection E as <-.
  - intros o IH w v' E. cbn [tmap_v map sequence] in E. destruct w as [|q]; [discriminate|]. cbn [as_obj option_map] in E. cbn [set_box_v]. destruct (tmap _ o [q]) as [o'|] eqn:EO; [|discriminate].
    cbn [option_map] in E. injection E as <-. f_equal. now apply IH.
  - intros q o' E. cbn [tmap] in E. destruct (forallb is_nil [q]); [|discriminate]. injection E as <-. reflexivity.
  - intros n v IHv r IHr q o' E. cbn [tmap map sequence] in E. destruct q as [|m w s]; [discriminate|]. cbn [head_field] in E. destruct (String.eqb m n); [|discriminate]. cbn [option_map map fst snd] in E.
    destruct (tmap_v _ v [w]) as [v'|] eqn:EV; [|discriminate]. destruct (tmap _ r [s]) as [r'|] eqn:ER; [|discriminate]. injection E as <-. cbn [set_box]. f_equal; auto.
Qed.
Lemma combine_firstn_r {X Y} (l : list X) (m : list Y) n : length m = n -> combine l m = combine (firstn n l) m.
Proof. revert m n. induction l as [|x l IH]; intros [|y m] [|n] H; cbn in *; try discriminate; try reflexivity. f_equal. apply IH. lia. Qed.
Definition offset (box : list (nat * nat)) (b : list nat) : list nat := map (fun q => fst q - fst (snd q)) (combine b box) ++ skipn (length box) b.
(** the box lies inside the batch shape *)
Definition box_ok (box : list (nat * nat)) (B : list nat) : Prop := length box <= length B /\ Forall2 (fun p d => fst p + snd p <= d) box (firstn (length box) B).
Lemma bcast_id s b : inb b s -> bcast_src s b = b.
Proof. intros Hb. pose proof (bcast_src_parts s b [] 0 Hb eq_refl) as H. cbn [repeat] in H. now rewrite !app_nil_r in H. Qed.
Lemma bcast_ok_refl s : bcast_ok s s = true.
Proof. induction s; cbn; [reflexivity|]. now rewrite Nat.eqb_refl. Qed.
Lemma in_box_spec box b B : box_ok box B -> inb b B -> in_box box b = true -> inb (offset box b) (map snd box ++ skipn (length box) B).
Proof.
  intros [HL HF] Hb HIN. unfold offset. apply inb_app_intro; [|now apply inb_skipn]. unfold in_box in HIN.
  rewrite (combine_firstn_r b box (length box) eq_refl) in *. pose proof (inb_firstn (length box) b B Hb) as HB. revert HB HF HIN.
  generalize (firstn (length box) b) as u, (firstn (length box) B) as w. intros u w HB HF. clear HL. revert u HB. induction HF as [|p d box w Hp HF IH]; intros u HB HIN.
  - inversion HB; subst. constructor.
  - inversion HB as [|i d' u' w' Hi HB']; subst. cbn [combine map fst snd forallb] in *. apply andb_true_iff in HIN. destruct HIN as [H1 H2]. apply andb_true_iff in H1. destruct H1 as [H0 H1].
    apply Nat.leb_le in H0. apply Nat.ltb_lt in H1. apply inb_cons. split; [lia|]. apply IH; auto.
Qed.
Lemma combine_app_box {X Y} (b t : list X) (box : list Y) : length box <= length b -> combine (b ++ t) box = combine b box.
Proof. intros H. rewrite (combine_firstn_r (b ++ t) box _ eq_refl), (combine_firstn_r b box _ eq_refl). rewrite firstn_app. replace (length box - length b) with 0 by lia. rewrite firstn_O. now rewrite app_nil_r. Qed.
Lemma box_ok_check box B I : box_ok box B -> forallb (fun q => fst (snd q) + snd (snd q) <=? fst q) (combine (B ++ I) box) = true.
Proof.
  intros [HL HF]. rewrite combine_app_box by exact HL. rewrite (combine_firstn_r B box _ eq_refl). clear HL. revert HF. generalize (firstn (length box) B) as w. intros w HF.
  induction HF as [|p d box w Hp HF IH]; [reflexivity|]. cbn [combine forallb fst snd]. destruct (Nat.leb_spec (fst p + snd p) d); [exact IH|lia].
Qed.
Lemma skipn_app_le {X} n (l r : list X) : n <= length l -> skipn n (l ++ r) = skipn n l ++ r.
Proof. intros H. rewrite skipn_app. now replace (n - length l) with 0 by lia. Qed.
Lemma bcast_ok_suffix s pre : bcast_ok s (skipn (length (pre ++ s) - length s) (pre ++ s)) = true.
Proof. rewrite app_length. replace (length pre + length s - length s) with (length pre) by lia. rewrite skipn_app, skipn_all, Nat.sub_diag. apply bcast_ok_refl. Qed.
Lemma bcast_src_suffix s pre t : inb t s -> bcast_src s (pre ++ t) = t.
Proof.
  intros Ht. transitivity (bcast_src s t); [|now apply bcast_id]. unfold bcast_src. rewrite app_length, (inb_length _ _ Ht), Nat.sub_diag.
  replace (length pre + length s - length s) with (length pre) by lia. rewrite skipn_app, skipn_all, Nat.sub_diag. reflexivity.
Qed.
(** the value's batch shape [V] is the box's, or the value is one element *)
Definition box_shape (box : list (nat * nat)) (B : list nat) : list nat := map snd box ++ skipn (length box) B.
Lemma rowwise_set box B V : box_ok box B -> V = box_shape box B \/ V = [] ->
  rowwise (two (fun a v => a_set_box box v a)) [B; V] B
    (fun b => if in_box box b then Some (1, if length V =? 0 then [] else offset box b) else Some (0, b)) nofill.
Proof.
  intros HK HV. destruct HK as [HL HF]. assert (HK : box_ok box B) by (split; assumption). split.
  - intros b Hb. destruct (in_box box b) eqn:E; cbn [length nth]; [split; [lia|]|split; [lia|exact Hb]].
    destruct HV as [->| ->]; [|constructor]. pose proof (in_box_spec box b B HK Hb E) as H. fold (box_shape box B) in H.
    destruct (Nat.eqb_spec (length (box_shape box B)) 0) as [E0|]; [|exact H]. destruct (box_shape box B); [|discriminate]. constructor.
  - intros dt I l _ HA. inversion HA as [|a B0 l1 Bs1 [A1 [A2 A3]] HA1]; subst. inversion HA1 as [|v V0 l2 Bs2 [V1 [V2 V3]] HA2]; subst. inversion HA2; subst. cbn [two].
    unfold a_set_box. unfold ndim at 1. rewrite A2, app_length. destruct (Nat.leb_spec (length box) (length B + length I)); [|lia]. rewrite box_ok_check by exact HK. cbn [andb].
    rewrite skipn_app_le by exact HL. rewrite app_assoc. fold (box_shape box B). unfold a_broadcast_to at 1.
    assert (HS : exists pre, box_shape box B ++ I = pre ++ ashape v).
    { rewrite V2. destruct HV as [->| ->]; [exists []; reflexivity|exists (box_shape box B); reflexivity]. }
    destruct HS as [pre HS]. unfold ndim at 1 2. rewrite HS, bcast_ok_suffix. destruct (Nat.leb_spec (length (ashape v)) (length (pre ++ ashape v))) as [_|H']; [|rewrite app_length in H'; lia]. cbn [andb].
    eexists. split; [reflexivity|]. split; [reflexivity|]. split; [reflexivity|]. split; [apply build_wfa|].
    intros b t dflt Hb Ht. rewrite get_build by (now apply inb_app_intro). pose proof (inb_length _ _ Hb) as LB.
    unfold in_box at 1. rewrite combine_app_box by lia. fold (in_box box b). destruct (in_box box b) eqn:E; [|reflexivity]. cbn [nth].
    rewrite skipn_app_le by lia. rewrite app_assoc. fold (offset box b). pose proof (in_box_spec box b B HK Hb E) as HO. fold (box_shape box B) in HO.
    rewrite <- HS. rewrite get_build by (apply inb_app_intro; assumption). f_equal. rewrite V2. destruct HV as [->| ->].
    + rewrite bcast_id by (apply inb_app_intro; assumption). destruct (Nat.eqb_spec (length (box_shape box B)) 0) as [E0|]; [|reflexivity].
      apply inb_length in HO. destruct (offset box b); [reflexivity|cbn in HO; lia].
    + cbn [length Nat.eqb app]. now apply bcast_src_suffix.
Qed.
Theorem C41_at_set : forall c B o box V v, batched c B o -> box_ok box B -> batched c V v -> V = box_shape box B ->
  let o' := set_box box o v in
  batched c B o' /\
  (forall b, inb b B -> in_box box b = true -> inb (offset box b) V /\ elem b o' = elem (offset box b) v) /\
  (forall b, inb b B -> in_box box b = false -> elem b o' = elem b o).
Proof.
  intros c B o box V v [HC HB] HK [HCv HBv] HV o'.
  destruct (lift_many _ _ _ _ _ c [o; v] (rowwise_set box B V HK (or_introl HV))) as [o2 [E1 [E2 [E3 E4]]]]; [discriminate|repeat constructor; assumption|].
  cbn [tree_mapn] in E1. apply (proj2 (set_box_tmap box)) in E1. fold o' in E1. subst o2. split; [split; assumption|]. split.
  - intros b Hb E. pose proof (in_box_spec box b B HK Hb E) as HO. fold (box_shape box B) in HO. rewrite <- HV in HO. split; [exact HO|]. rewrite E4 by exact Hb. rewrite E. cbn [nth].
    destruct (Nat.eqb_spec (length V) 0) as [E0|]; [|reflexivity]. apply inb_length in HO. destruct (offset box b); [reflexivity|cbn in HO; lia].
  - intros b Hb E. rewrite E4 by exact Hb. now rewrite E.
Qed.
(** one element written to every position of the box *)
Theorem C41_at_set_one : forall c B o box v, batched c B o -> box_ok box B -> batched c [] v ->
  let o' := set_box box o v in
  batched c B o' /\
  (forall b, inb b B -> in_box box b = true -> elem b o' = v) /\
  (forall b, inb b B -> in_box box b = false -> elem b o' = elem b o).
Proof.
  intros c B o box v [HC HB] HK [HCv HBv] o'.
  destruct (lift_many _ _ _ _ _ c [o; v] (rowwise_set box B [] HK (or_intror eq_refl))) as [o2 [E1 [E2 [E3 E4]]]]; [discriminate|repeat constructor; assumption|].
  cbn [tree_mapn] in E1. apply (proj2 (set_box_tmap box)) in E1. fold o' in E1. subst o2. split; [split; assumption|]. split.
  - intros b Hb E. rewrite E4 by exact Hb. rewrite E. cbn [nth length Nat.eqb]. now apply (proj2 elem_nil_both v c).
  - intros b Hb E. rewrite E4 by exact Hb. now rewrite E.
Qed.

(** ** pad: the old elements, shifted, among default elements *)
Definition pad_shape (B : list nat) (pads : list (nat * nat)) : list nat := map (fun q => fst q + fst (snd q) + snd (snd q)) (combine B pads).
Definition pad_box (B : list nat) (pads : list (nat * nat)) : list (nat * nat) := map (fun q => (fst (snd q), fst q)) (combine B pads).
(** the position [b] of the padded batch that element [s] of the original moves to *)
Definition shifted (pads : list (nat * nat)) (s : list nat) : list nat := map (fun q => fst q + fst (snd q)) (combine s pads).
Lemma pad_box_ok B pads : length pads = length B -> box_ok (pad_box B pads) (pad_shape B pads) /\ box_shape (pad_box B pads) (pad_shape B pads) = B.
Proof.
  intros HL. unfold box_ok, box_shape, pad_box, pad_shape. rewrite !map_length, !combine_length.
  rewrite firstn_all2, skipn_all2, app_nil_r by (rewrite map_length, combine_length; lia). split; [split; [lia|]|].
  - revert pads HL. induction B as [|d B IH]; intros [|p pads] HL; cbn in *; try lia; constructor; [cbn; lia|]. apply IH. lia.
  - revert pads HL. induction B as [|d B IH]; intros [|p pads] HL; cbn in *; try lia; [reflexivity|]. f_equal. apply IH. lia.
Qed.
Lemma shifted_in B pads s : length pads = length B -> inb s B ->
  inb (shifted pads s) (pad_shape B pads) /\ in_box (pad_box B pads) (shifted pads s) = true /\ offset (pad_box B pads) (shifted pads s) = s.
Proof.
  intros HL Hs. revert pads HL. induction Hs as [|i d s B Hi Hs IH]; intros [|p pads] HL; cbn in HL; try lia; [repeat split; constructor|].
  destruct (IH pads ltac:(lia)) as [H1 [H2 H3]]. split; [|split].
  - constructor; [cbn; lia|exact H1].
  - unfold in_box, pad_box, shifted in *. cbn [combine map forallb fst snd] in *. rewrite H2. destruct (Nat.leb_spec (fst p) (i + fst p)), (Nat.ltb_spec (i + fst p) (fst p + d)); try lia; reflexivity.
  - unfold offset, pad_box, shifted in *. cbn [combine map fst snd length skipn app] in *. rewrite H3. f_equal. lia.
Qed.
Lemma in_pad_box B pads b : length pads = length B -> inb b (pad_shape B pads) -> in_box (pad_box B pads) b = true -> exists s, inb s B /\ b = shifted pads s.
Proof.
  revert pads b. induction B as [|d B IH]; intros [|p pads] b HL Hb E; cbn in HL; try lia.
  - inversion Hb; subst. exists []. split; [constructor|reflexivity].
  - unfold pad_shape in Hb. cbn [combine map fst snd] in Hb. inversion Hb as [|i e b' B' Hi Hb']; subst.
    unfold in_box, pad_box in E. cbn [combine map fst snd forallb] in E. apply andb_true_iff in E. destruct E as [E1 E2]. apply andb_true_iff in E1. destruct E1 as [E0 E1]. apply Nat.leb_le in E0. apply Nat.ltb_lt in E1.
    destruct (IH pads b' ltac:(lia) Hb' E2) as [s [Hs ->]]. exists ((i - fst p) :: s). split; [constructor; [lia|exact Hs]|]. unfold shifted. cbn [combine map fst snd]. f_equal. lia.
Qed.
Theorem C41_pad : forall c B o pads, c <> CNil -> solid c -> batched c B o -> B <> [] -> length pads = length B ->
  exists o', obj_pad c pads o = Some o' /\ batched c (pad_shape B pads) o' /\
    (forall s, inb s B -> elem (shifted pads s) o' = elem s o) /\
    (forall b, inb b (pad_shape B pads) -> (forall s, inb s B -> b <> shifted pads s) -> elem b o' = default_obj [] c).
Proof.
  intros c B o pads HN HS HB HB0 HL. destruct HB as [HC HH]. unfold obj_pad. rewrite (proj2 (C40_reports c o B HN HS HC) HH). destruct B as [|d B]; [congruence|]. rewrite HL, Nat.eqb_refl.
  destruct (forallb _ pads) eqn:E0.
  - assert (P0 : pads = repeat (0, 0) (length (d :: B))).
    { rewrite <- HL. clear - E0. induction pads as [|[x y] pads IH]; [reflexivity|]. cbn in E0. apply andb_true_iff in E0. destruct E0 as [E1 E2]. apply andb_true_iff in E1. destruct E1 as [E3 E4].
      apply Nat.eqb_eq in E3, E4. subst. cbn [length repeat]. f_equal. auto. }
    assert (SH : forall (s B0 : list nat), length s = length B0 -> shifted (repeat (0, 0) (length B0)) s = s).
    { intros s B0. revert B0. induction s as [|i s IH]; intros [|e B0] HE; cbn in HE; try lia; [reflexivity|]. unfold shifted in *. cbn [length repeat combine map fst snd]. rewrite Nat.add_0_r. f_equal. apply IH. lia. }
    assert (PS : forall B0 : list nat, pad_shape B0 (repeat (0, 0) (length B0)) = B0).
    { induction B0 as [|e B0 IH]; [reflexivity|]. unfold pad_shape in *. cbn [length repeat combine map fst snd]. rewrite IH, !Nat.add_0_r. reflexivity. }
    rewrite P0. rewrite PS. exists o. split; [reflexivity|]. split; [split; assumption|]. split.
    + intros s Hs. now rewrite SH by (now apply inb_length).
    + intros b Hb Hno. exfalso. apply (Hno b Hb). now rewrite SH by (now apply inb_length).
  - destruct (pad_box_ok (d :: B) pads HL) as [HK HSH].
    destruct (proj2 default_both c (pad_shape (d :: B) pads)) as [D1 D2].
    fold (pad_box (d :: B) pads). fold (pad_shape (d :: B) pads).
    destruct (C41_at_set c (pad_shape (d :: B) pads) (default_obj (pad_shape (d :: B) pads) c) (pad_box (d :: B) pads) (d :: B) o) as [F1 [F2 F3]].
    { split; assumption. } { exact HK. } { split; assumption. } { symmetry. exact HSH. }
    eexists. split; [reflexivity|]. split; [exact F1|]. split.
    + intros s Hs. destruct (shifted_in (d :: B) pads s HL Hs) as [G1 [G2 G3]]. destruct (F2 _ G1 G2) as [_ F4]. rewrite F4. now rewrite G3.
    + intros b Hb Hno. destruct (in_box (pad_box (d :: B) pads) b) eqn:E.
      * exfalso. destruct (in_pad_box _ _ _ HL Hb E) as [s [Hs ->]]. now apply (Hno s Hs).
      * rewrite F3 by assumption. now apply C41_default_elem.
Qed.
(** one element padded to a batch *)
Theorem C41_pad_one : forall c o x y, c <> CNil -> solid c -> batched c [] o ->
  exists o', obj_pad c [(x, y)] o = Some o' /\
    if (x =? 0) && (y =? 0) then o' = o
    else batched c [1 + x + y] o' /\ forall i, i < 1 + x + y -> elem [i] o' = if i =? x then o else default_obj [] c.
Proof.
  intros c o x y HN HS [HC HH]. unfold obj_pad. rewrite (proj2 (C40_reports c o [] HN HS HC) HH).
  destruct ((x =? 0) && (y =? 0)); [exists o; auto|]. eexists. split; [reflexivity|].
  destruct (proj2 default_both c [1 + x + y]) as [D1 D2].
  assert (HK : box_ok [(x, 1)] [1 + x + y]) by (split; [cbn; lia|]; constructor; [cbn; lia|constructor]).
  destruct (C41_at_set_one c [1 + x + y] (default_obj [1 + x + y] c) [(x, 1)] o (conj D1 D2) HK (conj HC HH)) as [F1 [F2 F3]]. split; [exact F1|].
  intros i Hi. assert (Hb : inb [i] [1 + x + y]) by (constructor; [exact Hi|constructor]). destruct (Nat.eqb_spec i x) as [->|Hne].
  - apply F2; [exact Hb|]. unfold in_box. cbn [combine forallb fst snd]. destruct (Nat.leb_spec x x), (Nat.ltb_spec x (x + 1)); try lia; reflexivity.
  - rewrite F3; [now apply C41_default_elem|exact Hb|]. unfold in_box. cbn [combine forallb fst snd]. destruct (Nat.leb_spec x i), (Nat.ltb_spec i (x + 1)); try lia; reflexivity.
Qed.

(** ** where *)
Lemma rowwise_where (PI : list nat -> Prop) cond B (sel : list nat -> bool) :
  (forall I, PI I -> bcast_ok (ashape cond) (skipn (length (B ++ I) - ndim cond) (B ++ I)) = true /\ ndim cond <= length (B ++ I)) ->
  (forall I b t, PI I -> inb b B -> inb t I -> (get cond (bcast_src (ashape cond) (b ++ t)) =? 0)%Z = negb (sel b)) ->
  rowwise_on PI (leaf_where cond) [B; B] B (fun b => Some (if sel b then 0 else 1, b)) nofill.
Proof.
  intros H1 H2. split.
  - intros b Hb. destruct (sel b); cbn [length nth]; (split; [lia|exact Hb]).
  - intros dt I l HP HA. inversion HA as [|x B0 l1 Bs1 [A1 [A2 A3]] HA1]; subst. inversion HA1 as [|y V0 l2 Bs2 [V1 [V2 V3]] HA2]; subst. inversion HA2; subst. cbn [leaf_where].
    destruct (H1 I HP) as [K1 K2]. unfold a_broadcast_to. rewrite A2, K1. destruct (Nat.leb_spec (ndim cond) (length (B ++ I))); [|lia]. cbn [andb].
    unfold ndim at 1 2. rewrite V2, Nat.sub_diag, skipn_O, bcast_ok_refl, Nat.leb_refl. cbn [andb]. unfold a_where. cbn [ashape adtype build]. rewrite A2, shape_eqb_refl, V1, dtype_eqb_refl. cbn [andb].
    eexists. split; [reflexivity|]. split; [reflexivity|]. split; [reflexivity|]. split; [apply build_wfa|].
    intros b t dflt Hb Ht. assert (HI : inb (b ++ t) (B ++ I)) by (now apply inb_app_intro). rewrite get_build by exact HI.
    rewrite !get_build by exact HI. rewrite (H2 I b t HP Hb Ht). rewrite bcast_id by exact HI. destruct (sel b); reflexivity.
Qed.
(** a scalar condition selects one of the two instances as a whole *)
Theorem C41_where_scalar : forall c B x y cond, batched c B x -> batched c B y -> ashape cond = [] ->
  exists o', obj_where cond x y = Some o' /\ batched c B o' /\ forall b, inb b B -> elem b o' = if (get cond [] =? 0)%Z then elem b y else elem b x.
Proof.
  intros c B x y cond [HC HH] [HCy HHy] Hs.
  assert (HR : rowwise (leaf_where cond) [B; B] B (fun b => Some (if negb (get cond [] =? 0)%Z then 0 else 1, b)) nofill).
  { apply (rowwise_where _ cond B (fun _ => negb (get cond [] =? 0)%Z)).
    - intros I _. unfold ndim. rewrite Hs. cbn [length]. rewrite Nat.sub_0_r, skipn_all. split; [reflexivity|lia].
    - intros I b t _ Hb Ht. rewrite Hs. unfold bcast_src. cbn [combine map]. now rewrite negb_involutive. }
  destruct (lift_many _ _ _ _ _ c [x; y] HR) as [o' [E1 [E2 [E3 E4]]]]; [discriminate|repeat constructor; assumption|].
  exists o'. split; [exact E1|]. split; [split; assumption|]. intros b Hb. rewrite E4 by exact Hb. destruct (get cond [] =? 0)%Z; reflexivity.
Qed.
(** a condition of the batch shape selects element by element, for classes all of whose
    leaves are scalar per element *)
Definition scalar_leaves (c : class) : Prop := shapes (fun I => I = []) [] c.
Theorem C41_where : forall c B x y cond, scalar_leaves c -> batched c B x -> batched c B y -> ashape cond = B ->
  exists o', obj_where cond x y = Some o' /\ batched c B o' /\ forall b, inb b B -> elem b o' = if (get cond b =? 0)%Z then elem b y else elem b x.
Proof.
  intros c B x y cond HSL [HC HH] [HCy HHy] Hs.
  assert (HR : rowwise_on (fun I => I = []) (leaf_where cond) [B; B] B (fun b => Some (if negb (get cond b =? 0)%Z then 0 else 1, b)) nofill).
  { apply (rowwise_where _ cond B (fun b => negb (get cond b =? 0)%Z)).
    - intros I ->. unfold ndim. rewrite Hs, app_nil_r, Nat.sub_diag, skipn_O. split; [apply bcast_ok_refl|lia].
    - intros I b t -> Hb Ht. inversion Ht; subst. rewrite app_nil_r, bcast_id by exact Hb. now rewrite negb_involutive. }
  destruct (lift_many_on _ _ _ _ _ _ c [x; y] HR HSL) as [o' [E1 [E2 [E3 E4]]]]; [discriminate|repeat constructor; assumption|].
  exists o'. split; [exact E1|]. split; [split; assumption|]. intros b Hb. rewrite E4 by exact Hb. destruct (get cond b =? 0)%Z; reflexivity.
Qed.
