(** * PropPadStat.v — property C54: padding with a statistic keeps the rows but makes up rows whose
      fields come from different rows. *)
From Coq Require Import String.
From Verif Require Import Jax StructModel ArrayModel ArrayFacts ShapeModel PropShape RowsModel RowsLift PropRows PropRows2 PropRows3 PropRows4 EqModel FloatEq PropEq RowsModel2 PropRows5 PropRows6 PropRows8 PropCompare PadStatModel.

(** ** One array *)
Lemma upd_mid {X} (l : list X) y x r : upd (length l) x (l ++ y :: r) = l ++ x :: r.
Proof. rewrite upd_eq by (rewrite app_length; cbn; lia). rewrite firstn_app, Nat.sub_diag, firstn_all, firstn_O, app_nil_r. f_equal. f_equal. rewrite skipn_app. rewrite skipn_all2 by lia. replace (S (length l) - length l) with 1 by lia. reflexivity. Qed.
Lemma nth_mid {X} (l : list X) y r d : nth (length l) (l ++ y :: r) d = y.
Proof. rewrite app_nth2, Nat.sub_diag by lia. reflexivity. Qed.
Lemma app_length_one {X} (l : list X) x : length (l ++ [x]) = S (length l).
Proof. rewrite app_length. cbn. lia. Qed.
Lemma wfa_build' dt s f : wfa (build dt s f).
Proof. unfold wfa, build. cbn [adata ashape]. now rewrite map_length, seq_length. Qed.
Section St.
Variable fl : filling.
Lemma stat_axis_shape U d R x y a : ashape a = U ++ d :: R -> ashape (pad_stat_axis fl (length U) x y a) = U ++ (x + (d + y)) :: R.
Proof. intros E. unfold pad_stat_axis. cbn [ashape build]. now rewrite E, nth_mid, upd_mid. Qed.
Lemma stat_axis_get U d R x y a u i v : ashape a = U ++ d :: R -> inb u U -> i < x + (d + y) -> inb v R ->
  get (pad_stat_axis fl (length U) x y a) (u ++ i :: v) =
  if (x <=? i) && (i <? x + d) then get a (u ++ (i - x) :: v) else fl x y i (adtype a) (map (fun j => get a (u ++ j :: v)) (seq 0 d)).
Proof.
  intros E Hu Hi Hv. unfold pad_stat_axis. rewrite E, nth_mid, upd_mid. rewrite get_build by (apply inb_app_intro; [exact Hu|constructor; assumption]).
  rewrite <- (inb_length _ _ Hu). rewrite nth_mid. cbv zeta. rewrite upd_mid. destruct ((x <=? i) && (i <? x + d)); [reflexivity|]. f_equal. apply map_ext. intros j. now rewrite upd_mid.
Qed.
Lemma stat_axis_zero U d R a : wfa a -> ashape a = U ++ d :: R -> pad_stat_axis fl (length U) 0 0 a = a.
Proof.
  intros W E. rewrite <- (build_get a W) at 2. unfold pad_stat_axis. rewrite E, nth_mid, upd_mid. cbn [Nat.add]. rewrite Nat.add_0_r. apply build_ext. intros idx Hx.
  apply inb_app_inv in Hx. destruct Hx as (u & w & -> & Hu & Hw). inversion Hw as [|i ? v ? Hi Hv]; subst. rewrite <- (inb_length _ _ Hu), nth_mid. cbv zeta. rewrite upd_mid. cbn [Nat.leb andb Nat.add]. destruct (Nat.ltb_spec i d); [|lia]. now rewrite Nat.sub_0_r.
Qed.
Lemma stats_zero J : forall U a, wfa a -> ashape a = U ++ J -> pad_stats fl (length U) (zeros (length J)) a = a.
Proof.
  induction J as [|d J IH]; intros U a W E; [reflexivity|]. unfold zeros in *. cbn [length repeat pad_stats fst snd]. rewrite (stat_axis_zero U d J a W E). rewrite <- (app_length_one U d). apply IH; [exact W|now rewrite E, <- app_assoc].
Qed.
Lemma stats_keeps R : forall pads U a, length pads = length R -> wfa a -> ashape a = U ++ R ->
  let r := pad_stats fl (length U) pads a in
  adtype r = adtype a /\ ashape r = U ++ pad_shape R pads /\ wfa r /\ forall u v, inb u U -> inb v R -> get r (u ++ shifted pads v) = get a (u ++ v).
Proof.
  induction R as [|d R IH]; intros [|[x y] pads] U a HL W E; try discriminate; cbn zeta.
  - cbn [pad_stats]. split; [reflexivity|]. split; [exact E|]. split; [exact W|]. intros u v Hu Hv. inversion Hv; subst. reflexivity.
  - cbn [pad_stats fst snd]. set (a1 := pad_stat_axis fl (length U) x y a). pose proof (stat_axis_shape U d R x y a E) as E1. fold a1 in E1.
    assert (E2 : ashape a1 = (U ++ [x + (d + y)]) ++ R) by now rewrite E1, <- app_assoc. injection HL as HL.
    destruct (IH pads (U ++ [x + (d + y)]) a1 HL (wfa_build' _ _ _) E2) as (F1 & F2 & F3 & F4). rewrite app_length_one in *.
    split; [rewrite F1; reflexivity|]. split; [rewrite F2, <- app_assoc; unfold pad_shape; cbn [combine map fst snd app]; do 2 f_equal; lia|]. split; [exact F3|].
    intros u v Hu Hv. inversion Hv as [|i ? v' ? Hi Hv']; subst. change (shifted ((x, y) :: pads) (i :: v')) with (i + x :: shifted pads v').
    specialize (F4 (u ++ [i + x]) v'). rewrite <- !app_assoc in F4. cbn [app] in F4. rewrite F4; [|apply inb_app_intro; [exact Hu|constructor; [lia|constructor]]|exact Hv'].
    unfold a1. rewrite (stat_axis_get U d R) by (auto; lia). destruct (Nat.leb_spec x (i + x)); [|lia]. destruct (Nat.ltb_spec (i + x) (x + d)); [|lia]. cbn [andb]. now replace (i + x - x) with i by lia.
Qed.
End St.

(** ** From arrays to instances: an operation that moves some of the rows *)
Section Part.
Variables (f : array -> option array) (B B' : list nat) (rel : list nat -> list nat -> Prop) (P : array -> Prop).
Definition moves : Prop :=
  (forall b s, inb b B' -> rel b s -> inb s B) /\
  forall a J, ashape a = B ++ J -> wfa a -> P a -> exists a', f a = Some a' /\ adtype a' = adtype a /\ ashape a' = B' ++ J /\ wfa a' /\
    forall b s t, inb b B' -> rel b s -> inb t J -> get a' (b ++ t) = get a (s ++ t).
Hypothesis HM : moves.
Lemma lift_part_both :
  (forall d J v, conforms_v d v -> has_v (B ++ J) d v -> Forall P (arrays_v v) ->
     exists v', tmap_v (one f) v [] = Some v' /\ conforms_v d v' /\ has_v (B' ++ J) d v' /\ (forall b s, inb b B' -> rel b s -> elem_v b v' = elem_v s v) /\ map f (arrays_v v) = map Some (arrays_v v')) /\
  (forall c J o, conforms c o -> has_batch (B ++ J) c o -> Forall P (arrays o) ->
     exists o', tmap (one f) o [] = Some o' /\ conforms c o' /\ has_batch (B' ++ J) c o' /\ (forall b s, inb b B' -> rel b s -> elem b o' = elem s o) /\ map f (arrays o) = map Some (arrays o')).
Proof.
  destruct HM as [HS HF]. apply desc_class_ind.
  - intros dt ish bits pb fill J [a|o] HC HH HP; [|destruct HC]. cbn [conforms_v has_v arrays_v] in *. destruct HC as [<- W]. rewrite <- app_assoc in HH. apply Forall_inv in HP.
    destruct (HF a (J ++ ish) HH W HP) as (a' & E1 & E2 & E3 & E4 & E5). exists (VArr a'). cbn [tmap_v map sequence option_map one]. rewrite E1. split; [reflexivity|]. split; [split; [exact E2|exact E4]|]. split; [now rewrite E3, app_assoc|].
    split; [|reflexivity]. intros b s Hb Hs. cbn [elem_v]. f_equal. pose proof (HS b s Hb Hs) as HI.
    rewrite (sub_shape b a' B' (J ++ ish)), (sub_shape s a B (J ++ ish)) by auto. rewrite E2. apply build_ext. intros t Ht. now apply E5.
  - intros c IH ish J [a|o] HC HH HP; [destruct HC|]. cbn [conforms_v has_v arrays_v] in *. rewrite <- app_assoc in HH. destruct (IH (J ++ ish) o HC HH HP) as (o' & E1 & E2 & E3 & E4 & E5).
    exists (VObj o'). cbn [tmap_v map sequence]. rewrite E1. split; [reflexivity|]. split; [exact E2|]. split; [now rewrite <- app_assoc|]. split; [|exact E5]. intros b s Hb Hs. cbn [elem_v]. f_equal. now apply E4.
  - intros J [|n v r] HC HH HP; [|destruct HC]. exists ONil. repeat split; auto.
  - intros n d IHd r IHr J [|m v o] HC HH HP; [destruct HC|]. cbn [conforms has_batch arrays] in *. destruct HC as [-> [C1 C2]]. destruct HH as [_ [H1 H2]]. apply Forall_app in HP. destruct HP as [P1 P2].
    destruct (IHd J v C1 H1 P1) as (v' & E1 & E2 & E3 & E4 & E5). destruct (IHr J o C2 H2 P2) as (o' & F1 & F2 & F3 & F4 & F5). exists (OCons m v' o'). cbn [tmap map sequence]. rewrite E1, F1.
    split; [reflexivity|]. split; [cbn; auto|]. split; [cbn; auto|]. split; [intros b s Hb Hs; cbn [elem]; now rewrite (E4 b s Hb Hs), (F4 b s Hb Hs)|]. cbn [arrays]. now rewrite !map_app, E5, F5.
Qed.
Lemma lift_part c o : batched c B o -> Forall P (arrays o) ->
  exists o', tree_map1 f o = Some o' /\ batched c B' o' /\ (forall b s, inb b B' -> rel b s -> elem b o' = elem s o) /\ map f (arrays o) = map Some (arrays o').
Proof.
  intros [HC HB] HP. destruct (proj2 lift_part_both c [] o HC) as (o' & E1 & E2 & E3 & E4 & E5); [now rewrite app_nil_r|exact HP|]. rewrite app_nil_r in E3. exists o'. split; [exact E1|]. split; [split; assumption|auto].
Qed.
End Part.

(** ** Statements *)
Definition nonempty (a : array) : Prop := Forall (fun d => d <> 0) (ashape a).
Lemma leaf_moves fl B pads : length pads = length B -> moves (leaf_pad_stat fl pads) B (pad_shape B pads) (fun b s => inb s B /\ b = shifted pads s) nonempty.
Proof.
  intros HL. split; [intros b s _ [H _]; exact H|]. intros a J E W HP. unfold leaf_pad_stat, ndim. rewrite E, app_length, HL. destruct (Nat.ltb_spec (length B + length J) (length B)); [lia|].
  replace (length B + length J - length B) with (length J) by lia. change (repeat (0, 0) (length J)) with (zeros (length J)). unfold a_pad_stat, ndim. rewrite E, !app_length, HL. unfold zeros at 1. rewrite repeat_length, Nat.eqb_refl. cbn [negb].
  assert (HE : existsb (Nat.eqb 0) (B ++ J) = false).
  { rewrite <- E. apply not_true_is_false. intros H1. apply existsb_exists in H1. destruct H1 as (d & Hd & H1). unfold nonempty in HP. rewrite Forall_forall in HP. apply Nat.eqb_eq in H1. subst d. now apply (HP 0 Hd). }
  rewrite HE. assert (HLL : length (pads ++ zeros (length J)) = length (B ++ J)) by (rewrite !app_length, HL; unfold zeros; now rewrite repeat_length).
  destruct (stats_keeps fl (B ++ J) (pads ++ zeros (length J)) [] a HLL W E) as (F1 & F2 & F3 & F4). cbn [length app] in *. eexists. split; [reflexivity|]. split; [exact F1|]. split.
  - rewrite F2. unfold pad_shape. rewrite combine_app_eq by (symmetry; exact HL). rewrite map_app. f_equal. clear. induction J as [|d J IH]; [reflexivity|]. unfold zeros in *. cbn [length repeat combine map fst snd]. rewrite IH. f_equal. lia.
  - split; [exact F3|]. intros b s t Hb [Hs ->] Ht. specialize (F4 [] (s ++ t) ltac:(constructor) ltac:(apply inb_app_intro; assumption)). cbn [app] in F4. rewrite <- F4. f_equal. unfold shifted. rewrite combine_app_eq by (rewrite (inb_length _ _ Hs); symmetry; exact HL). rewrite map_app. f_equal.
    rewrite <- (inb_length _ _ Ht). clear. induction t as [|i t IH]; [reflexivity|]. unfold zeros in *. cbn [length repeat combine map fst snd]. rewrite <- IH. f_equal. lia.
Qed.
Lemma shifted_zeros s n : length s = n -> shifted (zeros n) s = s.
Proof. intros <-. unfold shifted, zeros. induction s as [|i s IH]; [reflexivity|]. cbn [length repeat combine map fst snd]. rewrite IH. f_equal. lia. Qed.
(** whatever the padding entries, the rows of the batch keep their contents and move together *)
Theorem C54_pad_stat : forall fl c B o pads, c <> CNil -> solid c -> batched c B o -> B <> [] -> length pads = length B -> Forall nonempty (arrays o) ->
  exists o', obj_pad_stat c fl pads o = Some o' /\ batched c (pad_shape B pads) o' /\ forall s, inb s B -> elem (shifted pads s) o' = elem s o.
Proof.
  intros fl c B o pads HN HS [HC HH] HB HL HP. unfold obj_pad_stat. rewrite (proj2 (C40_reports c o B HN HS HC) HH). destruct (forallb _ pads) eqn:E0.
  - rewrite (pads_zero _ E0), HL, pad_shape_zero. exists o. split; [reflexivity|]. split; [split; assumption|]. intros s Hs. now rewrite shifted_zeros by now apply inb_length.
  - destruct B as [|d B]; [congruence|]. destruct (lift_part _ _ _ _ _ (leaf_moves fl (d :: B) pads HL) c o (conj HC HH) HP) as (o' & E1 & E2 & E3 & E4). exists o'. split; [exact E1|]. split; [exact E2|]. intros s Hs. apply E3; [|auto].
    exact (proj1 (shifted_in (d :: B) pads s HL Hs)).
Qed.
(** one padded axis: every padding entry is computed from the entries of that field at that
    place, over all rows *)
Theorem C54_pad_stat_entries : forall fl c n R o x y, c <> CNil -> solid c -> batched c (n :: R) o -> x + y <> 0 -> Forall nonempty (arrays o) ->
  exists o', obj_pad_stat c fl ((x, y) :: zeros (length R)) o = Some o' /\ length (arrays o') = length (arrays o) /\
  forall k a a' i q, nth_error (arrays o) k = Some a -> nth_error (arrays o') k = Some a' -> i < x + (n + y) -> inb q (tl (ashape a)) ->
    get a' (i :: q) = if (x <=? i) && (i <? x + n) then get a (i - x :: q) else fl x y i (adtype a) (map (fun j => get a (j :: q)) (seq 0 n)).
Proof.
  intros fl c n R o x y HN HS [HC HH] HXY HP. assert (HL : length ((x, y) :: zeros (length R)) = length (n :: R)) by (unfold zeros; cbn [length]; now rewrite repeat_length).
  unfold obj_pad_stat. rewrite (proj2 (C40_reports c o (n :: R) HN HS HC) HH). cbn [forallb fst snd]. replace ((x =? 0) && (y =? 0)) with false by (destruct (Nat.eqb_spec x 0), (Nat.eqb_spec y 0); cbn; try reflexivity; lia). cbn [andb].
  destruct (lift_part _ _ _ _ _ (leaf_moves fl (n :: R) _ HL) c o (conj HC HH) HP) as (o' & E1 & E2 & _ & E4). exists o'. split; [exact E1|]. split; [apply (f_equal (@length _)) in E4; rewrite !map_length in E4; congruence|].
  intros k a a' i q Ha Ha' Hi Hq. assert (EA : leaf_pad_stat fl ((x, y) :: zeros (length R)) a = Some a').
  { assert (X : nth_error (map (leaf_pad_stat fl ((x, y) :: zeros (length R))) (arrays o)) k = Some (Some a')) by (rewrite E4; now apply map_nth_error). rewrite (map_nth_error _ _ _ Ha) in X. congruence. }
  destruct (Forall_forall (fun a => exists I, ashape a = (n :: R) ++ I) (arrays o)) as [X _]. destruct (X (proj2 (batch_prefix (n :: R)) c o [] ltac:(rewrite app_nil_r; exact HH)) a (nth_error_In _ _ Ha)) as (J & EJ). clear X. rewrite EJ in Hq. cbn [app tl] in Hq.
  unfold leaf_pad_stat, a_pad_stat, ndim in EA. rewrite EJ in EA. cbn [length app] in EA. destruct (_ <? _) in EA; [discriminate|]. destruct (negb _) in EA; [discriminate|]. destruct (existsb _ _) in EA; [discriminate|]. injection EA as <-.
  cbn [pad_stats fst snd]. rewrite app_length.
  pose proof (stat_axis_shape fl [] n (R ++ J) x y a EJ) as ES. cbn [length app] in ES.
  replace (zeros (length R) ++ repeat (0, 0) (length R + length J - length (zeros (length R)))) with (zeros (length (R ++ J))).
  2:{ unfold zeros. rewrite repeat_length, app_length, repeat_app. do 2 f_equal. lia. }
  rewrite (stats_zero fl (R ++ J) [x + (n + y)] (pad_stat_axis fl 0 x y a) (wfa_build' _ _ _) ES : pad_stats fl 1 _ _ = _). exact (stat_axis_get fl [] n (R ++ J) x y a [] i q EJ ltac:(constructor) Hi Hq).
Qed.
(** a single instance: with one row every row of the result is that row *)
Lemma one_moves fl x y : (forall x y i dt z, fl x y i dt [z] = z) -> moves (leaf_pad_stat fl [(x, y)]) [1] [x + (1 + y)] (fun b s => s = [0]) nonempty.
Proof.
  intros HST. split; [intros b s _ ->; constructor; [lia|constructor]|]. intros a J E W HP. destruct (leaf_moves fl [1] [(x, y)] eq_refl) as [_ HM]. destruct (HM a J E W HP) as (a' & E1 & E2 & E3 & E4 & _). exists a'.
  split; [exact E1|]. split; [exact E2|]. split; [rewrite E3; cbn; do 2 f_equal; lia|]. split; [exact E4|]. intros b s t Hb -> Ht. inversion Hb as [|i ? b0 ? Hi Hb0]; subst. inversion Hb0; subst.
  unfold leaf_pad_stat, a_pad_stat, ndim in E1. rewrite E in E1. cbn [length app] in E1. destruct (_ <? _) in E1; [discriminate|]. destruct (negb _) in E1; [discriminate|]. destruct (existsb _ _) in E1; [discriminate|]. injection E1 as <-.
  cbn [pad_stats fst snd]. rewrite Nat.sub_0_r. pose proof (stat_axis_shape fl [] 1 J x y a E) as ES. cbn [length app] in ES. change (repeat (0, 0) (length J)) with (zeros (length J)).
  rewrite (stats_zero fl J [x + (1 + y)] (pad_stat_axis fl 0 x y a) (wfa_build' _ _ _) ES : pad_stats fl 1 _ _ = _). pose proof (stat_axis_get fl [] 1 J x y a [] i t E ltac:(constructor) Hi Ht) as G. cbn [app length seq map] in *. rewrite G, HST. destruct ((x <=? i) && (i <? x + 1)) eqn:EI; [|reflexivity].
  apply andb_prop in EI. destruct EI as [E5 E6]. apply Nat.leb_le in E5. apply Nat.ltb_lt in E6. now replace (i - x) with 0 by lia.
Qed.
Lemma nonempty_both B : Forall (fun d => d <> 0) B ->
  (forall d J v, shapes_d (Forall (fun d => d <> 0)) J d -> has_v (B ++ J) d v -> Forall nonempty (arrays_v v)) /\
  (forall c J o, shapes (Forall (fun d => d <> 0)) J c -> has_batch (B ++ J) c o -> Forall nonempty (arrays o)).
Proof.
  intros HB. apply desc_class_ind.
  - intros dt ish bits pb fill J [a|o] HS HH; [|destruct HH]. cbn [has_v shapes_d arrays_v] in *. constructor; [|constructor]. unfold nonempty. rewrite HH, <- app_assoc. now apply Forall_app.
  - intros c IH ish J [a|o] HS HH; [destruct HH|]. cbn [has_v shapes_d arrays_v] in *. apply (IH (J ++ ish)); [exact HS|now rewrite app_assoc].
  - intros J [|n v r] HS HH; [constructor|destruct HH].
  - intros n d IHd r IHr J [|m v o] HS HH; [destruct HH|]. cbn [has_batch shapes arrays] in *. destruct HS as [S1 S2]. destruct HH as [_ [H1 H2]]. apply Forall_app. split; [now apply (IHd J)|now apply (IHr J)].
Qed.
Theorem C54_pad_stat_one : forall fl c o x y, (forall x y i dt z, fl x y i dt [z] = z) -> c <> CNil -> solid c -> batched c [] o -> x + y <> 0 -> shapes (Forall (fun d => d <> 0)) [] c ->
  exists o', obj_pad_stat c fl [(x, y)] o = Some o' /\ batched c [x + (1 + y)] o' /\ forall i, i < x + (1 + y) -> elem [i] o' = o.
Proof.
  intros fl c o x y HST HN HS HO HXY HSH. unfold obj_pad_stat. rewrite (proj2 (C40_reports c o [] HN HS (proj1 HO)) (proj2 HO)). cbn [forallb fst snd].
  replace ((x =? 0) && (y =? 0) && true) with false by (destruct (Nat.eqb_spec x 0), (Nat.eqb_spec y 0); cbn; try reflexivity; lia).
  destruct (C41_expand_dims c [] o 0 HO (Nat.le_refl _)) as (o1 & F1 & F2 & F4). cbn in F1. rewrite F1. cbn [obind].
  assert (HP : Forall nonempty (arrays o1)) by (apply (proj2 (nonempty_both [1] ltac:(repeat constructor; discriminate)) c [] o1 HSH); rewrite app_nil_r; exact (proj2 F2)).
  destruct (lift_part _ _ _ _ _ (one_moves fl x y HST) c o1 F2 HP) as (o' & E1 & E2 & E3 & _). exists o'. split; [exact E1|]. split; [exact E2|]. intros i Hi. rewrite (E3 [i] [0]); [|constructor; [exact Hi|constructor]|reflexivity].
  specialize (F4 []). cbn in F4. rewrite F4 by constructor. apply (proj2 elem_nil_both o c (proj1 HO)).
Qed.
(** ** [stat_length] *)
(** [stat_length=m]: the entries before are the statistic of the first [m] rows (of all, if there
    are fewer), those after of the last [m]; 0 raises *)
Theorem C54_pad_stat_length : forall st m c n R o x y, c <> CNil -> solid c -> batched c (n :: R) o -> x + y <> 0 -> Forall nonempty (arrays o) -> m <> 0 ->
  exists o', obj_pad_stat_length c st m ((x, y) :: zeros (length R)) o = Some o' /\ batched c (x + (n + y) :: R) o' /\ length (arrays o') = length (arrays o) /\
  forall k a a' i q, nth_error (arrays o) k = Some a -> nth_error (arrays o') k = Some a' -> i < x + (n + y) -> inb q (tl (ashape a)) ->
    get a' (i :: q) = if i <? x then st (adtype a) (map (fun j => get a (j :: q)) (seq 0 (Nat.min m n)))
                      else if i <? x + n then get a (i - x :: q)
                      else st (adtype a) (map (fun j => get a (j :: q)) (seq (n - m) (Nat.min m n))).
Proof.
  intros st m c n R o x y HN HS HO HXY HP Hm. unfold obj_pad_stat_length. destruct (Nat.eqb_spec m 0); [contradiction|]. cbn [andb].
  destruct (C54_pad_stat_entries (stat_of m st) c n R o x y HN HS HO HXY HP) as (o' & E1 & E2 & E3).
  destruct (C54_pad_stat (stat_of m st) c (n :: R) o ((x, y) :: zeros (length R)) HN HS HO) as (o2 & F1 & F2 & _); [discriminate|unfold zeros; cbn [length]; now rewrite repeat_length|exact HP|].
  rewrite E1 in F1. injection F1 as <-. exists o'. split; [exact E1|]. split.
  { replace (x + (n + y) :: R) with (pad_shape (n :: R) ((x, y) :: zeros (length R))); [exact F2|]. unfold pad_shape. cbn [combine map fst snd]. f_equal; [lia|]. clear. induction R as [|d R IH]; [reflexivity|]. unfold zeros in *. cbn [length repeat combine map fst snd]. rewrite IH. f_equal. lia. }
  split; [exact E2|]. intros k a a' i q Ha Ha' Hi Hq. rewrite (E3 k a a' i q Ha Ha' Hi Hq). unfold stat_of. rewrite map_length, seq_length.
  assert (FS : forall b k0, firstn k0 (seq b n) = seq b (Nat.min k0 n)) by (clear; intros b k0; revert b n; induction k0 as [|k0 IH]; intros b [|n]; [reflexivity|reflexivity|reflexivity|]; cbn [firstn seq Nat.min]; now rewrite IH).
  assert (SS : forall b k0, skipn k0 (seq b n) = seq (b + k0) (n - k0)) by (clear; intros b k0; revert b n; induction k0 as [|k0 IH]; intros b [|n]; [reflexivity|cbn [skipn]; rewrite Nat.add_0_r, Nat.sub_0_r; reflexivity|reflexivity|]; cbn [skipn seq Nat.sub]; rewrite IH; f_equal; lia).
  rewrite firstn_map, skipn_map, FS, SS. replace (n - (n - m)) with (Nat.min m n) by lia. cbn [Nat.add].
  destruct (Nat.leb_spec x i), (Nat.ltb_spec i (x + n)), (Nat.ltb_spec i x); cbn [andb]; try reflexivity; lia.
Qed.
Theorem C54_pad_stat_length_zero : forall c st pads o, Exists (fun p => fst p <> 0 \/ snd p <> 0) pads -> obj_pad_stat_length c st 0 pads o = None.
Proof.
  intros c st pads o H. unfold obj_pad_stat_length. cbn [Nat.eqb andb]. replace (forallb _ pads) with false; [reflexivity|]. symmetry. apply not_true_is_false. intros K. rewrite forallb_forall in K. apply Exists_exists in H. destruct H as ([x y] & HI & HD). specialize (K _ HI). cbn [fst snd] in *.
  apply andb_prop in K. destruct K as [K1 K2]. apply Nat.eqb_eq in K1, K2. lia.
Qed.
(** [stat_length=1] (and a statistic of one number that is that number) repeats the first and the
    last row: no row is made up *)
Lemma edge_moves st n R x y : (forall dt z, st dt [z] = z) -> n <> 0 ->
  moves (leaf_pad_stat (stat_of 1 st) ((x, y) :: zeros (length R))) (n :: R) (x + (n + y) :: R) (fun b s => s = (if hd 0 b <? x then 0 else if hd 0 b <? x + n then hd 0 b - x else n - 1) :: tl b) nonempty.
Proof.
  intros HST Hn. split. { intros b s Hb ->. inversion Hb as [|i ? q ? Hi Hq]; subst. cbn [hd tl]. constructor; [|exact Hq]. destruct (Nat.ltb_spec i x); [lia|]. destruct (Nat.ltb_spec i (x + n)); lia. }
  intros a J E W HP. assert (HL : length ((x, y) :: zeros (length R)) = length (n :: R)) by (unfold zeros; cbn [length]; now rewrite repeat_length).
  destruct (leaf_moves (stat_of 1 st) (n :: R) _ HL) as [_ HM]. destruct (HM a J E W HP) as (a' & E1 & E2 & E3 & E4 & _). exists a'.
  split; [exact E1|]. split; [exact E2|]. split.
  { rewrite E3. cbn [app]. unfold pad_shape. cbn [combine map fst snd app]. f_equal; [lia|]. f_equal. clear. induction R as [|d R IH]; [reflexivity|]. unfold zeros in *. cbn [length repeat combine map fst snd]. rewrite IH. f_equal. lia. }
  split; [exact E4|]. intros b s t Hb -> Ht. inversion Hb as [|i ? q ? Hi Hq]; subst. cbn [hd tl app].
  unfold leaf_pad_stat, a_pad_stat, ndim in E1. rewrite E in E1. cbn [length app] in E1. destruct (_ <? _) in E1; [discriminate|]. destruct (negb _) in E1; [discriminate|]. destruct (existsb _ _) in E1; [discriminate|]. injection E1 as <-.
  cbn [pad_stats fst snd]. rewrite app_length. pose proof (stat_axis_shape (stat_of 1 st) [] n (R ++ J) x y a E) as ES. cbn [length app] in ES.
  replace (zeros (length R) ++ repeat (0, 0) (length R + length J - length (zeros (length R)))) with (zeros (length (R ++ J))).
  2:{ unfold zeros. rewrite repeat_length, app_length, repeat_app. do 2 f_equal. lia. }
  rewrite (stats_zero (stat_of 1 st) (R ++ J) [x + (n + y)] (pad_stat_axis (stat_of 1 st) 0 x y a) (wfa_build' _ _ _) ES : pad_stats (stat_of 1 st) 1 _ _ = _).
  pose proof (stat_axis_get (stat_of 1 st) [] n (R ++ J) x y a [] i (q ++ t) E ltac:(constructor) Hi ltac:(apply inb_app_intro; assumption)) as G. cbn [app length] in G. rewrite G. unfold stat_of. rewrite map_length, seq_length.
  destruct n as [|n]; [contradiction|]. destruct (Nat.leb_spec x i) as [L1|L1], (Nat.ltb_spec i (x + S n)) as [L2|L2], (Nat.ltb_spec i x) as [L3|L3]; cbn [andb]; try lia; try reflexivity.
  - rewrite skipn_map. replace (skipn (S n - 1) (seq 0 (S n))) with [n]; [cbn [map]; rewrite HST; do 2 f_equal; lia|]. replace (S n - 1) with n by lia. rewrite seq_S, skipn_app, skipn_all2 by (rewrite seq_length; lia). rewrite seq_length, Nat.sub_diag. reflexivity.
  - cbn [seq map firstn]. now rewrite HST.
Qed.
Theorem C54_pad_stat_length_one : forall st c n R o x y, (forall dt z, st dt [z] = z) -> c <> CNil -> solid c -> batched c (n :: R) o -> x + y <> 0 -> n <> 0 -> Forall nonempty (arrays o) ->
  exists o', obj_pad_stat_length c st 1 ((x, y) :: zeros (length R)) o = Some o' /\ batched c (x + (n + y) :: R) o' /\
  forall i q, i < x + (n + y) -> inb q R -> elem (i :: q) o' = elem ((if i <? x then 0 else if i <? x + n then i - x else n - 1) :: q) o.
Proof.
  intros st c n R o x y HST HN HS HO HXY Hn HP. unfold obj_pad_stat_length, obj_pad_stat. cbn [Nat.eqb andb]. rewrite (proj2 (C40_reports c o (n :: R) HN HS (proj1 HO)) (proj2 HO)).
  cbn [forallb fst snd]. replace ((x =? 0) && (y =? 0)) with false by (destruct (Nat.eqb_spec x 0), (Nat.eqb_spec y 0); cbn; try reflexivity; lia). cbn [andb].
  destruct (lift_part _ _ _ _ _ (edge_moves st n R x y HST Hn) c o HO HP) as (o' & E1 & E2 & E3 & _). exists o'. split; [exact E1|]. split; [exact E2|]. intros i q Hi Hq. exact (E3 (i :: q) _ ltac:(constructor; assumption) eq_refl).
Qed.
(** refutation: the padding row of "maximum" is no row of the batch: its fields come from
    different rows *)
Definition mixed : obj := (OCons "id" (arr8 [2] [1; 2]%Z) (OCons "pos" (arr8 [2; 2] [9; 9; 3; 3]%Z) ONil))%string.
Theorem C54_pad_maximum_refuted : batched cell [2] mixed /\ Forall nonempty (arrays mixed) /\
  exists o', obj_pad_stat cell (stat stat_max) [(0, 1)] mixed = Some o' /\ batched cell [3] o' /\
    elem [2] o' = (OCons "id" (arr8 [] [2]%Z) (OCons "pos" (arr8 [2] [9; 9]%Z) ONil))%string /\ forall i, i < 2 -> elem [2] o' <> elem [i] mixed.
Proof.
  split; [split; cbn; unfold wfa; cbn; auto 10|]. split; [repeat constructor; discriminate|]. eexists. split; [reflexivity|]. split; [split; cbn; unfold wfa; cbn; auto 10|]. split; [reflexivity|].
  intros [|[|i]] Hi; [vm_compute; congruence|vm_compute; congruence|lia].
Qed.
Example C54_stat_case : shapes (Forall (fun d => d <> 0)) [] cell /\ (forall dt z, stat_max dt [z] = z) /\ (forall dt z, stat_min dt [z] = z) /\
  exists o', obj_pad_stat cell (stat stat_min) [(1, 0); (0, 1)] grid = Some o' /\ batched cell [3; 4] o' /\ elem [1; 0] o' = elem [0; 0] grid.
Proof. split; [cbn; repeat split; repeat constructor; discriminate|]. split; [reflexivity|]. split; [reflexivity|]. eexists. split; [reflexivity|]. split; [split; cbn; unfold wfa; cbn; auto 10|reflexivity]. Qed.
Example C54_stat_length_case : Forall nonempty (arrays mixed) /\ (forall dt z, stat_max dt [z] = z) /\
  exists o', obj_pad_stat_length cell stat_max 1 [(1, 1)] mixed = Some o' /\ batched cell [4] o' /\ elem [0] o' = elem [0] mixed /\ elem [3] o' = elem [1] mixed.
Proof. split; [repeat constructor; discriminate|]. split; [reflexivity|]. eexists. split; [reflexivity|]. split; [split; cbn; unfold wfa; cbn; auto 10|]. split; reflexivity. Qed.
Print Assumptions C54_pad_stat_length. Print Assumptions C54_pad_stat_length_zero. Print Assumptions C54_pad_stat_length_one.
Print Assumptions C54_pad_stat. Print Assumptions C54_pad_stat_entries. Print Assumptions C54_pad_stat_one. Print Assumptions C54_pad_maximum_refuted.
