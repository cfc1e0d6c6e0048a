(** * PropSoa4.v — property C86: an indexed update of an instance changes whole rows or
      nothing at all, whatever the batch shape of the values. *)
From Coq Require Import String.
From Verif Require Import Jax StructModel ArrayModel ArrayFacts ShapeModel PropShape RowsModel RowsLift PropRows PropRows2 PropRows3 PropRows6.
From Verif Require Import EqModel PromoteModel QueueModel QueueSpec StableSort GroupFirst UpdateModel PropUpdate SoaModel UpdateAnyModel PropCompare PropSoa PropSoa2 PropSoa3.

(** ** Broadcasting of fields *)
Lemma bcast_ok_app s : forall t K, length s = length t -> bcast_ok (s ++ K) (t ++ K) = bcast_ok s t.
Proof.
  induction s as [|d s IH]; intros [|e t] K HL; try discriminate; [apply bcast_ok_refl|]. cbn [app bcast_ok]. rewrite IH by (cbn [length] in HL; lia). reflexivity.
Qed.
Lemma combine_app' {X Y} (l1 l2 : list X) (m1 m2 : list Y) : length l1 = length m1 -> combine (l1 ++ l2) (m1 ++ m2) = combine l1 m1 ++ combine l2 m2.
Proof. revert m1. induction l1 as [|a l1 IH]; intros [|b m1] H; cbn [length] in H; try discriminate; [reflexivity|]. cbn [app combine]. f_equal. apply IH. lia. Qed.
(** all the fields of one class broadcast, or none does *)
Lemma bc_app V T K : bc (V ++ K) (T ++ K) <-> bc V T.
Proof.
  unfold bc. rewrite !app_length. assert (E : length T + length K - (length V + length K) = length T - length V) by lia. rewrite E.
  split; intros [H1 H2]; (split; [lia|]); rewrite skipn_app in *; replace (length T - length V - length T) with 0 in * by lia; cbn [skipn] in *; rewrite bcast_ok_app in *; try exact H2; rewrite skipn_length; lia.
Qed.
Lemma bcast_src_app V K b t : length V <= length b -> inb t K -> bcast_src (V ++ K) (b ++ t) = bcast_src V b ++ t.
Proof.
  intros HL Ht. unfold bcast_src at 1 2. pose proof (inb_length _ _ Ht) as LT. rewrite !app_length, LT. replace (length b + length K - (length V + length K)) with (length b - length V) by lia.
  rewrite skipn_app. replace (length b - length V - length b) with 0 by lia. cbn [skipn]. rewrite combine_app' by (rewrite skipn_length; lia). rewrite map_app. f_equal.
  pose proof (bcast_id K t Ht) as E. unfold bcast_src in E. rewrite LT, Nat.sub_diag in E. exact E.
Qed.
Lemma broadcast_to_bc t a : (exists w, a_broadcast_to t a = Some w) <-> bc (ashape a) t.
Proof.
  unfold a_broadcast_to, bc, ndim. destruct (Nat.leb_spec (length (ashape a)) (length t)) as [H|H]; cbn [andb].
  - destruct (bcast_ok _ _); split; [intros _; split; [exact H|reflexivity]|intros _; eexists; reflexivity|intros [w E]; discriminate|intros [_ E]; discriminate].
  - split; [intros [w E]; discriminate|intros [E _]; lia].
Qed.

(** ** The update of every row *)
Definition set_src_bc (n : nat) (idx : array) (V : list nat) (b : list nat) : option (nat * list nat) :=
  match last_hit n (adata idx) (hd 0 b) with Some j => Some (1, bcast_src V (unravel (ashape idx) j ++ tl b)) | None => Some (0, b) end.
Lemma rowwise_at_set_bc n R idx V : wfa idx -> bc V (ashape idx ++ R) -> rowwise (two (fun a v => a_at_set idx v a)) [n :: R; V] (n :: R) (set_src_bc n idx V) nofill.
Proof.
  intros HW HV. split.
  - intros b Hb. unfold set_src_bc. destruct b as [|i b]; [inversion Hb|]. apply inb_cons in Hb. destruct Hb as [Hi Hb]. cbn [hd tl].
    destruct (last_hit n (adata idx) i) as [j|] eqn:E; cbn [length nth]; [split; [lia|]|split; [lia|apply inb_cons; auto]].
    destruct HV as [V1 V2]. apply (bcast_src_inb V (ashape idx ++ R)); [exact V2|exact V1|].
    apply inb_app_intro; [|exact Hb]. apply unravel_inb. apply last_hit_lt in E. unfold wfa in HW. lia.
  - intros dt J l _ HA. inversion HA as [|a B0 l1 Bs1 [A1 [A2 A3]] HA1]; subst. inversion HA1 as [|v V0 l2 Bs2 [V1 [V2 V3]] HA2]; subst. inversion HA2; subst. cbn [two].
    unfold a_at_set. rewrite A2. cbn [app]. destruct (proj2 (broadcast_to_bc (ashape idx ++ R ++ J) v)) as [w EW].
    { rewrite V2, app_assoc. now apply bc_app. }
    rewrite EW. eexists. split; [reflexivity|]. split; [reflexivity|]. split; [reflexivity|]. split; [apply build_wfa|].
    intros b t dflt Hb Ht. destruct b as [|i b]; [inversion Hb|]. pose proof Hb as Hb0. apply inb_cons in Hb. destruct Hb as [Hi Hb]. cbn [app].
    rewrite get_build by (apply inb_cons; split; [exact Hi|now apply inb_app_intro]). unfold set_src_bc. cbn [hd tl].
    destruct (last_hit n (adata idx) i) as [j|] eqn:E; cbn [nth]; [|reflexivity].
    assert (HU : inb (unravel (ashape idx) j) (ashape idx)) by (apply unravel_inb; apply last_hit_lt in E; unfold wfa in HW; lia).
    unfold a_broadcast_to in EW. destruct (_ && _) in EW; [|discriminate]. injection EW as <-. rewrite get_build by (apply inb_app_intro; [exact HU|now apply inb_app_intro]).
    rewrite V2, (app_assoc (unravel _ _)). rewrite bcast_src_app; [reflexivity| |exact Ht]. destruct HV as [HV _]. rewrite app_length, (inb_length _ _ HU), (inb_length _ _ Hb), <- app_length. exact HV.
Qed.
Lemma last_hit_some n is i j : last_hit n is i = Some j -> exists z, nth_error is j = Some z /\ norm_index z n = Some i.
Proof.
  revert j. induction is as [|z is IH]; intros j E; cbn [last_hit] in E; [discriminate|]. destruct (last_hit n is i) as [k|].
  - injection E as <-. cbn [nth_error]. now apply IH.
  - destruct (norm_index z n) as [k|] eqn:EN; [|discriminate]. destruct (Nat.eqb_spec k i) as [Ek|]; [|discriminate]. rewrite Ek in EN. injection E as <-. exists z. split; [reflexivity|exact EN].
Qed.
Lemma last_hit_none n is i : last_hit n is i = None -> forall j z, nth_error is j = Some z -> norm_index z n <> Some i.
Proof.
  induction is as [|z is IH]; intros E j y Hj; cbn [last_hit] in E; [destruct j; discriminate|]. destruct (last_hit n is i) as [k|]; [discriminate|].
  destruct j as [|j]; cbn [nth_error] in Hj; [|now apply (IH eq_refl j)]. injection Hj as <-. destruct (norm_index z n) as [k|]; [|discriminate]. destruct (Nat.eqb_spec k i) as [Ek|NE]; [discriminate|]. congruence.
Qed.
(** the [i]-th row is addressed by the entry of [idx] at multi-index [u] *)
Definition addresses (n : nat) (idx : array) (u : list nat) (i : nat) : Prop := inb u (ashape idx) /\ norm_index (get idx u) n = Some i.
(** [o.at[idx].set(values)] with values whose batch shape broadcasts to the one addressed: a row
    that is addressed becomes, in all of its fields, the row of the values for one of the entries
    that address it; every other row is as before *)
Theorem C86_set : forall c n R o idx v V, batched c (n :: R) o -> wfa idx -> batched c V v -> bc V (ashape idx ++ R) ->
  let o' := obj_at_set idx o v in
  batched c (n :: R) o' /\
  forall i, i < n ->
    (exists u, addresses n idx u i /\ forall q, inb q R -> elem (i :: q) o' = elem (bcast_src V (u ++ q)) v) \/
    ((forall u, ~ addresses n idx u i) /\ forall q, inb q R -> elem (i :: q) o' = elem (i :: q) o).
Proof.
  intros c n R o idx v V [HC HB] HW [HCv HBv] HV o'.
  destruct (lift_many _ _ _ _ _ c [o; v] (rowwise_at_set_bc n R idx V HW HV)) as [o2 [E1 [E2 [E3 E4]]]]; [discriminate|repeat constructor; assumption|].
  cbn [tree_mapn] in E1. apply (proj2 (set_each_tmap _)) in E1. change (o' = o2) in E1. subst o2. split; [split; assumption|].
  intros i Hi. destruct (last_hit n (adata idx) i) as [j|] eqn:E.
  - left. exists (unravel (ashape idx) j). pose proof (last_hit_lt _ _ _ _ E) as Hj. destruct (last_hit_some _ _ _ _ E) as (z & Z1 & Z2).
    assert (HU : inb (unravel (ashape idx) j) (ashape idx)) by (apply unravel_inb; unfold wfa in HW; lia).
    split; [split; [exact HU|]|].
    + unfold get. rewrite ravel_unravel by (unfold wfa in HW; lia). rewrite (nth_error_nth _ _ _ Z1). exact Z2.
    + intros q Hq. rewrite E4 by (apply inb_cons; auto). unfold set_src_bc. cbn [hd tl]. rewrite E. reflexivity.
  - right. split.
    + intros u [U1 U2]. unfold get in U2. pose proof (ravel_lt _ _ U1) as HR. assert (HX : nth_error (adata idx) (ravel (ashape idx) u) = Some (nth (ravel (ashape idx) u) (adata idx) 0%Z)) by (apply nth_error_nth'; unfold wfa in HW; lia).
      exact (last_hit_none _ _ _ E _ _ HX U2).
    + intros q Hq. rewrite E4 by (apply inb_cons; auto). unfold set_src_bc. cbn [hd tl]. rewrite E. reflexivity.
Qed.

(** ** Values that do not fit *)
Lemma set_each_none2 (g : array -> array -> option array) B V : (forall w a I, ashape a = B ++ I -> ashape w = V ++ I -> g w a = None) ->
  (forall d J x y, has_v (B ++ J) d x -> has_v (V ++ J) d y -> set_each_v g x y = x) /\ (forall c J x y, has_batch (B ++ J) c x -> has_batch (V ++ J) c y -> set_each g x y = x).
Proof.
  intros Hg. apply desc_class_ind.
  - intros dt ish bits pb fill J x y B1 B2. destruct x as [a|], y as [b|]; cbn [has_v] in *; try contradiction. cbn [set_each_v]. rewrite (Hg b a (J ++ ish)); [reflexivity| |]; now rewrite app_assoc.
  - intros c0 IH ish J x y B1 B2. destruct x as [a|x], y as [b|y]; cbn [has_v] in *; try contradiction. cbn [set_each_v]. rewrite (IH (J ++ ish)); [reflexivity| |]; now rewrite app_assoc.
  - intros J x y B1 B2. destruct x; [reflexivity|destruct B1].
  - intros nm d IHd r IHr J x y B1 B2. destruct x as [|nx x rx]; [destruct B1|]. destruct y as [|ny y ry]; [destruct B2|]. cbn [has_batch] in *. destruct B1 as [_ [B1 B1']], B2 as [_ [B2 B2']]. cbn [set_each]. now rewrite (IHd J), (IHr J).
Qed.
Lemma tmap_none2 (f : list array -> option array) B V : (forall a b I, ashape a = B ++ I -> ashape b = V ++ I -> f [a; b] = None) ->
  (forall d J x y, solid_d d -> has_v (B ++ J) d x -> has_v (V ++ J) d y -> tmap_v f x [y] = None) /\
  (forall c J x y, c <> CNil -> solid c -> has_batch (B ++ J) c x -> has_batch (V ++ J) c y -> tmap f x [y] = None).
Proof.
  intros HE. apply desc_class_ind.
  - intros dt ish bits pb fill J x y _ B1 B2. destruct x as [a|], y as [b|]; cbn [has_v] in *; try contradiction. cbn [tmap_v map sequence as_arr option_map]. rewrite (HE a b (J ++ ish)); [reflexivity| |]; now rewrite app_assoc.
  - intros c0 IH ish J x y [S1 S2] B1 B2. destruct x as [a|x], y as [b|y]; cbn [has_v] in *; try contradiction. cbn [tmap_v map sequence as_obj option_map].
    rewrite (IH (J ++ ish) x y); try assumption; try reflexivity; now rewrite app_assoc.
  - intros J x y H. congruence.
  - intros nm d IHd r IHr J x y _ [S1 S2] B1 B2. destruct x as [|nx x rx]; [destruct B1|]. destruct y as [|ny y ry]; [destruct B2|]. cbn [has_batch] in *.
    destruct B1 as [<- [B1 B1']], B2 as [<- [B2 B2']]. cbn [tmap map sequence head_field]. rewrite String.eqb_refl. cbn [sequence option_map map fst snd].
    rewrite (IHd J x y) by assumption. reflexivity.
Qed.
Lemma at_set_unfit n R idx V J w a : ~ bc V (ashape idx ++ R) -> ashape a = (n :: R) ++ J -> ashape w = V ++ J -> a_at_set idx w a = None.
Proof.
  intros HV HA HB. unfold a_at_set. rewrite HA. cbn [app]. destruct (a_broadcast_to _ w) eqn:E; [|reflexivity]. exfalso. apply HV. apply (bc_app V (ashape idx ++ R) J). rewrite <- HB, <- app_assoc. apply broadcast_to_bc. eexists. exact E.
Qed.
(** values whose batch shape does not broadcast to the one addressed: the update raises in every
    field, every error is swallowed, and nothing at all changes *)
Theorem C86_unfit_is_silent : forall c n R o idx v V, batched c (n :: R) o -> batched c V v -> ~ bc V (ashape idx ++ R) -> obj_at_set idx o v = o.
Proof.
  intros c n R o idx v V [HC HB] [HCv HBv] HV. unfold obj_at_set.
  apply (proj2 (set_each_none2 _ (n :: R) V (fun w a J H1 H2 => at_set_unfit n R idx V J w a HV H1 H2)) c []); now rewrite app_nil_r.
Qed.
(** a single instance of scalar fields has no axis to index: nothing changes *)
Lemma set_single_both idx :
  (forall d J x y, shapes_d (fun I => I = []) J d -> has_v J d x -> set_each_v (a_at_set idx) x y = x) /\
  (forall c J x y, shapes (fun I => I = []) J c -> has_batch J c x -> set_each (a_at_set idx) x y = x).
Proof.
  apply desc_class_ind.
  - intros dt ish bits pb fill J x y HS B1. destruct x as [a|]; cbn [has_v] in *; [|contradiction]. destruct y as [b|]; cbn [set_each_v]; [|reflexivity]. cbn [shapes_d] in HS. unfold a_at_set. now rewrite B1, HS.
  - intros c0 IH ish J x y HS B1. destruct x as [a|x]; cbn [has_v] in *; [contradiction|]. destruct y as [b|y]; cbn [set_each_v]; [reflexivity|]. now rewrite (IH (J ++ ish)).
  - intros J x y _ B1. destruct x; [reflexivity|destruct B1].
  - intros nm d IHd r IHr J x y [S1 S2] B1. destruct x as [|nx x rx]; [destruct B1|]. destruct y as [|ny y ry]; cbn [set_each]; [reflexivity|]. destruct B1 as [_ [B1 B1']]. now rewrite (IHd J), (IHr J).
Qed.
Theorem C86_single_scalars : forall c o idx v, scalar_leaves c -> batched c [] o -> obj_at_set idx o v = o.
Proof. intros c o idx v HSL [HC HB]. exact (proj2 (set_single_both idx) c [] o v HSL HB). Qed.

(** ** Conditional updates *)
Lemma last_hit_winner n indices condition p : length indices = length condition -> length condition <> 0 -> p < n ->
  last_hit n (safe_indices n indices condition) p = winner indices condition p.
Proof.
  intros HL Hm Hp. set (m := length condition) in *.
  destruct (C37_first_true_wins (option nat) (repeat None n) indices condition (map Some (seq 0 m))) as [K1 K2]; [exact HL|rewrite map_length, seq_length; reflexivity|].
  specialize (K2 p None). rewrite repeat_length in K2. specialize (K2 Hp). unfold update_array in K2. fold m in K2. destruct (Nat.eqb_spec m 0); [contradiction|]. rewrite repeat_length in K2.
  change (nth p (jsets (repeat None n) (safe_indices n indices condition) (map Some (seq 0 m))) None = match winner indices condition p with Some i => nth i (map Some (seq 0 m)) None | None => nth p (repeat None n) None end) in K2.
  assert (LS : length (safe_indices n indices condition) = m).
  { unfold safe_indices. cbn zeta. rewrite map_length, combine_length, scatter_back_length. pose proof (isort_perm (fun a b => (nth a (true_indices n indices condition) 0 <=? nth b (true_indices n indices condition) 0)%Z) (seq 0 (length condition))) as HP.
    apply Permutation_length in HP. rewrite HP, seq_length. fold m. lia. }
  rewrite jsets_last in K2 by (rewrite ?map_length, ?seq_length, ?repeat_length; assumption). rewrite repeat_length in K2.
  assert (NS : forall i, i < m -> nth i (map Some (seq 0 m)) None = Some i).
  { intros i Hi. rewrite (nth_indep _ None (Some 0)) by (now rewrite map_length, seq_length). rewrite map_nth, seq_nth by exact Hi. reflexivity. }
  assert (NR : nth p (repeat (@None nat) n) None = None) by apply nth_repeat.
  assert (BJ : forall j, last_hit n (safe_indices n indices condition) p = Some j -> j < m) by (intros j E; apply last_hit_lt in E; lia).
  assert (BI : forall i, winner indices condition p = Some i -> i < m) by (intros i E; unfold winner in E; apply find_some in E; destruct E as [E _]; apply in_seq in E; lia).
  destruct (last_hit n (safe_indices n indices condition) p) as [j|] eqn:E1; destruct (winner indices condition p) as [i|] eqn:E2.
  - rewrite (NS j (BJ j eq_refl)), (NS i (BI i eq_refl)) in K2. exact K2.
  - rewrite (NS j (BJ j eq_refl)) in K2. etransitivity; [|exact NR]. exact K2.
  - rewrite (NS i (BI i eq_refl)) in K2. rewrite <- K2. symmetry. exact NR.
  - reflexivity.
Qed.
(** [o.at[indices].set_as_condition(condition, values)] and [update_on_condition]: with values
    that broadcast to one row per update, the row of the first true update wins in all fields *)
Theorem C86_condition : forall c n R o indices condition v V, batched c (n :: R) o -> wfa indices -> wfa condition -> ashape condition = ashape indices ->
  index_room (adtype indices) n -> prod (ashape condition) <> 0 -> batched c V v -> bc V (prod (ashape condition) :: R) ->
  let o' := obj_at_set_as_condition indices condition o v in
  obj_update_on_condition indices condition o v = Some o' /\ batched c (n :: R) o' /\
  forall p q, p < n -> inb q R -> elem (p :: q) o' = match winner (adata indices) (truth condition) p with Some i => elem (bcast_src V (i :: q)) v | None => elem (p :: q) o end.
Proof.
  intros c n R o indices condition v V HO HWI HWC HSH HRM Hm [HCv HBv] HV o'. set (m := prod (ashape condition)) in *. set (zs := safe_indices n (adata indices) (truth condition)).
  destruct HO as [HC HB]. assert (L1 : length (truth condition) = m) by (unfold truth; rewrite map_length; exact HWC).
  assert (L2 : length (adata indices) = m) by (unfold m; rewrite HSH; exact HWI).
  assert (HL : length zs = m) by (apply (safe_is indices condition HWI HWC HSH)).
  assert (HW : wfa (ivec zs)) by (unfold wfa; cbn; lia).
  assert (HV' : bc V (ashape (ivec zs) ++ R)) by (cbn [ivec ashape app]; rewrite HL; exact HV).
  assert (EXT : forall dt I l, row_args dt I l [n :: R; V] -> two (fun a w => a_at_set (ivec zs) w a) l = two (fun a w => a_update indices condition w a) l).
  { intros dt J l HA. inversion HA as [|a B0 l1 Bs1 [A1 [A2 A3]] HA1]; subst. inversion HA1 as [|w V0 l2 Bs2 [V1 [V2 V3]] HA2]; subst. inversion HA2; subst. cbn [two].
    unfold a_update. fold m. destruct (Nat.eqb_spec m 0); [contradiction|]. rewrite HSH, shape_eqb_refl, A2. cbn [app]. rewrite (proj2 (counts_room _ _) HRM). reflexivity. }
  destruct (lift_many _ _ _ _ _ c [o; v] (rowwise_ext _ _ _ _ _ _ EXT (rowwise_at_set_bc n R (ivec zs) V HW HV'))) as [o2 [E1 [E2 [E3 E4]]]]; [discriminate|repeat constructor; assumption|].
  cbn [tree_mapn] in E1. pose proof E1 as EU. apply (proj2 (set_each_tmap _)) in E1. change (o' = o2) in E1. subst o2. split; [unfold obj_update_on_condition; cbn [tree_mapn]; exact EU|]. split; [split; assumption|].
  intros p q Hp Hq. rewrite E4 by (apply inb_cons; auto). unfold set_src_bc. cbn [hd tl ivec adata ashape]. unfold zs. rewrite last_hit_winner by (try assumption; lia).
  destruct (winner (adata indices) (truth condition) p) as [i|] eqn:EW; [|reflexivity]. cbn [nth]. do 2 f_equal.
  unfold winner in EW. apply find_some in EW. destruct EW as [EW _]. apply in_seq in EW. rewrite safe_is by assumption. fold m. cbn [unravel app]. f_equal. unfold prod. cbn [fold_right]. rewrite Nat.div_1_r. reflexivity.
Qed.
Lemma update_unfit n R indices condition V J w a : wfa indices -> wfa condition -> prod (ashape condition) <> 0 ->
  ashape condition <> ashape indices \/ ~ bc V (prod (ashape condition) :: R) -> ashape a = (n :: R) ++ J -> ashape w = V ++ J -> a_update indices condition w a = None.
Proof.
  intros HWI HWC Hm HU HA HB. unfold a_update. destruct (Nat.eqb_spec (prod (ashape condition)) 0); [contradiction|]. destruct (shape_eqb (ashape condition) (ashape indices)) eqn:ES; [|reflexivity].
  apply shape_eqb_eq in ES. destruct HU as [HU|HU]; [contradiction|]. rewrite HA. cbn [app]. destruct (counts _ _); [|reflexivity].
  apply (at_set_unfit n R _ V J); [|exact HA|exact HB]. cbn [ivec ashape]. rewrite safe_is by assumption. exact HU.
Qed.
(** otherwise — another batch shape of values, or conditions and indices of different shapes —
    [set_as_condition] changes nothing at all and [update_on_condition] raises *)
Theorem C86_condition_unfit : forall c n R o indices condition v V, batched c (n :: R) o -> wfa indices -> wfa condition -> prod (ashape condition) <> 0 -> batched c V v ->
  ashape condition <> ashape indices \/ ~ bc V (prod (ashape condition) :: R) ->
  obj_at_set_as_condition indices condition o v = o /\ (c <> CNil -> solid c -> obj_update_on_condition indices condition o v = None).
Proof.
  intros c n R o indices condition v V [HC HB] HWI HWC Hm [HCv HBv] HU. split.
  - unfold obj_at_set_as_condition. apply (proj2 (set_each_none2 _ (n :: R) V (fun w a J H1 H2 => update_unfit n R indices condition V J w a HWI HWC Hm HU H1 H2)) c []); now rewrite app_nil_r.
  - intros HN HS. unfold obj_update_on_condition. cbn [tree_mapn].
    apply (proj2 (tmap_none2 _ (n :: R) V (fun a w J H1 H2 => update_unfit n R indices condition V J w a HWI HWC Hm HU H1 H2)) c []); rewrite ?app_nil_r; assumption.
Qed.

(** ** One array as values *)
(** all the arrays of an instance *)
Lemma set_all_arrays f : (forall v, arrays_v (set_all_v f v) = map (fun a => match f a with Some a' => a' | None => a end) (arrays_v v)) /\
  (forall o, arrays (set_all f o) = map (fun a => match f a with Some a' => a' | None => a end) (arrays o)).
Proof.
  apply value_obj_ind.
  - intros a. cbn [set_all_v arrays_v map]. destruct (f a); reflexivity.
  - intros o IH. cbn [set_all_v arrays_v]. exact IH.
  - reflexivity.
  - intros n v IHv r IHr. cbn [set_all arrays]. now rewrite IHv, IHr, map_app.
Qed.
Lemma set_all_batched f B : (forall a a' J, ashape a = B ++ J -> wfa a -> f a = Some a' -> adtype a' = adtype a /\ ashape a' = ashape a /\ wfa a') ->
  (forall d J v, conforms_v d v -> has_v (B ++ J) d v -> conforms_v d (set_all_v f v) /\ has_v (B ++ J) d (set_all_v f v)) /\
  (forall c J o, conforms c o -> has_batch (B ++ J) c o -> conforms c (set_all f o) /\ has_batch (B ++ J) c (set_all f o)).
Proof.
  intros HF. apply desc_class_ind.
  - intros dt ish bits pb fill J [a|o] C H; [|destruct C]. cbn [set_all_v]. destruct (f a) as [a'|] eqn:E; [|split; [exact C|exact H]]. cbn [conforms_v has_v] in *. destruct C as [C1 C2].
    destruct (HF a a' (J ++ ish)) as (H1 & H2 & H3); [now rewrite app_assoc|exact C2|exact E|]. repeat split; congruence.
  - intros c IH ish J [a|o] C H; [destruct C|]. cbn [set_all_v conforms_v has_v] in *. rewrite <- app_assoc in *. now apply IH.
  - intros J [|n v r] C H; [split; exact C|destruct C].
  - intros n d IHd r IHr J [|m v q] C H; [destruct C|]. cbn [set_all conforms has_batch] in *. destruct C as (C0 & C1 & C2), H as (H0 & H1 & H2). destruct (IHd J v C1 H1), (IHr J q C2 H2). repeat split; assumption.
Qed.
Lemma at_set_keeps idx v a a' : a_at_set idx v a = Some a' -> adtype a' = adtype a /\ ashape a' = ashape a /\ wfa a'.
Proof.
  unfold a_at_set. destruct (ashape a) as [|n ish]; [discriminate|]. destruct (a_broadcast_to _ v); [|discriminate]. intros E. injection E as <-. split; [reflexivity|]. split; [reflexivity|apply build_wfa].
Qed.
Lemma get_a_conv t w ix : inb ix (ashape w) -> wfa w -> get (a_conv t w) ix = conv (adtype w) t (get w ix).
Proof. intros Hi HW. unfold get, a_conv. cbn [adata ashape]. rewrite (nth_indep _ 0%Z (conv (adtype w) t 0%Z)) by (rewrite map_length; unfold wfa in HW; pose proof (ravel_lt _ _ Hi); lia). apply map_nth. Qed.
(** [o.at[idx].set(w)], [w] an array: field by field.  A field whose own shape [w] broadcasts to
    takes [w] at every addressed row; every other field is left as it was *)
Theorem C86_array : forall c n R o idx w, batched c (n :: R) o -> wfa idx -> wfa w ->
  let o' := obj_at_set_array idx w o in
  batched c (n :: R) o' /\ length (arrays o') = length (arrays o) /\
  forall k a a', nth_error (arrays o) k = Some a -> nth_error (arrays o') k = Some a' ->
    (~ bc (ashape w) (ashape idx ++ tl (ashape a)) -> a' = a) /\
    (bc (ashape w) (ashape idx ++ tl (ashape a)) -> adtype a' = adtype a /\ ashape a' = ashape a /\
      forall i, i < hd 0 (ashape a) ->
        (exists u, addresses (hd 0 (ashape a)) idx u i /\ forall t, inb t (tl (ashape a)) -> get a' (i :: t) = conv (adtype w) (adtype a) (get w (bcast_src (ashape w) (u ++ t)))) \/
        ((forall u, ~ addresses (hd 0 (ashape a)) idx u i) /\ forall t, inb t (tl (ashape a)) -> get a' (i :: t) = get a (i :: t))).
Proof.
  intros c n R o idx w [HC HB] HWI HW o'. split.
  { assert (HBn : has_batch ((n :: R) ++ []) c o) by (now rewrite app_nil_r). destruct (proj2 (set_all_batched (fun a => a_at_set idx (a_conv (adtype a) w) a) (n :: R) (fun a a' J _ _ E => at_set_keeps _ _ _ _ E)) c [] o HC HBn) as [K1 K2]. split; [exact K1|]. now rewrite app_nil_r in K2. }
  unfold o', obj_at_set_array. rewrite (proj2 (set_all_arrays _)). split; [apply map_length|]. intros k a a' Ha Ha'. rewrite nth_error_map, Ha in Ha'. cbn [option_map] in Ha'. injection Ha' as <-.
  set (w' := a_conv (adtype a) w). assert (SW : ashape w' = ashape w) by reflexivity. split.
  - intros HN. unfold a_at_set. destruct (ashape a) as [|m I]; [reflexivity|]. cbn [tl] in HN. destruct (a_broadcast_to (ashape idx ++ I) w') eqn:E; [|reflexivity]. exfalso. apply HN. rewrite <- SW. apply broadcast_to_bc. eexists. exact E.
  - intros HBC. unfold a_at_set. destruct (ashape a) as [|m I] eqn:EA.
    { cbn [hd tl]. split; [reflexivity|]. split; [exact EA|]. intros i Hi. lia. }
    cbn [hd tl] in *. assert (HBC' : bc (ashape w') (ashape idx ++ I)) by exact HBC. apply broadcast_to_bc in HBC'. destruct HBC' as [x EX]. rewrite EX. split; [reflexivity|]. split; [reflexivity|]. intros i Hi.
    destruct (last_hit m (adata idx) i) as [j|] eqn:E.
    + left. exists (unravel (ashape idx) j). pose proof (last_hit_lt _ _ _ _ E) as Hj. destruct (last_hit_some _ _ _ _ E) as (z & Z1 & Z2).
      assert (HU : inb (unravel (ashape idx) j) (ashape idx)) by (apply unravel_inb; unfold wfa in HWI; lia).
      split; [split; [exact HU|]; unfold get; rewrite ravel_unravel by (unfold wfa in HWI; lia); rewrite (nth_error_nth _ _ _ Z1); exact Z2|].
      intros t Ht. rewrite get_build by (apply inb_cons; auto). cbn [hd tl]. rewrite E. unfold a_broadcast_to in EX. destruct (_ && _) in EX; [|discriminate]. injection EX as <-.
      rewrite get_build by (now apply inb_app_intro). change (ashape w') with (ashape w); unfold w'; apply get_a_conv; [|exact HW]. destruct HBC as [V1 V2]. apply (bcast_src_inb _ (ashape idx ++ I)); [exact V2|exact V1|now apply inb_app_intro].
    + right. split.
      * intros u [U1 U2]. unfold get in U2. pose proof (ravel_lt _ _ U1) as HR. assert (HX : nth_error (adata idx) (ravel (ashape idx) u) = Some (nth (ravel (ashape idx) u) (adata idx) 0%Z)) by (apply nth_error_nth'; unfold wfa in HWI; lia).
        exact (last_hit_none _ _ _ E _ _ HX U2).
      * intros t Ht. rewrite get_build by (apply inb_cons; auto). cbn [hd tl]. rewrite E. reflexivity.
Qed.

(** [o.at[indices].set_as_condition(condition, w)], [w] an array: field by field.  A field for
    which [w] broadcasts to one entry per update takes, at every row some true update addresses,
    the entry of the first such update; every other field is left as it was *)
Theorem C86_array_condition : forall c n R o indices condition w, batched c (n :: R) o -> wfa indices -> wfa condition -> wfa w ->
  ashape condition = ashape indices -> index_room (adtype indices) n -> prod (ashape condition) <> 0 ->
  let m := prod (ashape condition) in let o' := obj_at_set_as_condition_array indices condition w o in
  batched c (n :: R) o' /\ length (arrays o') = length (arrays o) /\
  forall k a a', nth_error (arrays o) k = Some a -> nth_error (arrays o') k = Some a' ->
    (~ bc (ashape w) (m :: tl (ashape a)) -> a' = a) /\
    (bc (ashape w) (m :: tl (ashape a)) -> adtype a' = adtype a /\ ashape a' = ashape a /\
      forall p q, p < n -> inb q (tl (ashape a)) ->
        get a' (p :: q) = match winner (adata indices) (truth condition) p with Some i => conv (adtype w) (adtype a) (get w (bcast_src (ashape w) (i :: q))) | None => get a (p :: q) end).
Proof.
  intros c n R o indices condition w [HC HB] HWI HWC HW HSH HRM Hm m o'. set (zs := safe_indices n (adata indices) (truth condition)).
  assert (L1 : length (truth condition) = m) by (unfold truth; rewrite map_length; exact HWC).
  assert (L2 : length (adata indices) = m) by (unfold m; rewrite HSH; exact HWI).
  assert (HL : length zs = m) by (apply (safe_is indices condition HWI HWC HSH)).
  assert (HBn : has_batch ((n :: R) ++ []) c o) by (now rewrite app_nil_r).
  assert (KE : forall a a' J, ashape a = (n :: R) ++ J -> wfa a -> a_update indices condition (a_conv (adtype a) w) a = Some a' -> adtype a' = adtype a /\ ashape a' = ashape a /\ wfa a').
  { intros a a' J EA WA. unfold a_update. fold m. destruct (Nat.eqb_spec m 0); [contradiction|]. rewrite HSH, shape_eqb_refl, EA. cbn [app]. destruct (counts _ _); [|discriminate]. intros E. pose proof (at_set_keeps _ _ _ _ E) as K. rewrite EA in K. exact K. }
  split.
  { destruct (proj2 (set_all_batched (fun a => a_update indices condition (a_conv (adtype a) w) a) (n :: R) KE) c [] o HC HBn) as [K1 K2]. split; [exact K1|]. now rewrite app_nil_r in K2. }
  unfold o', obj_at_set_as_condition_array. rewrite (proj2 (set_all_arrays _)). split; [apply map_length|]. intros k a a' Ha Ha'. rewrite nth_error_map, Ha in Ha'. cbn [option_map] in Ha'. injection Ha' as <-.
  pose proof (proj2 (batch_prefix (n :: R)) c o [] HBn) as HP. rewrite Forall_forall in HP. destruct (HP a (nth_error_In _ _ Ha)) as [J EA]. cbn [app] in EA.
  set (w' := a_conv (adtype a) w). assert (SW : ashape w' = ashape w) by reflexivity.
  assert (EU : a_update indices condition w' a = a_at_set (ivec zs) w' a).
  { unfold a_update. fold m. destruct (Nat.eqb_spec m 0); [contradiction|]. rewrite HSH, shape_eqb_refl, EA. rewrite (proj2 (counts_room _ _) HRM). reflexivity. }
  rewrite EU. unfold a_at_set. rewrite EA. cbn [tl]. cbn [ivec ashape adata app]. rewrite HL. split.
  - intros HN. destruct (a_broadcast_to (m :: R ++ J) w') eqn:E; [|reflexivity]. exfalso. apply HN. rewrite <- SW. apply broadcast_to_bc. eexists. exact E.
  - intros HBC. assert (HBC' : bc (ashape w') (m :: R ++ J)) by exact HBC. apply broadcast_to_bc in HBC'. destruct HBC' as [x EX]. rewrite EX. split; [reflexivity|]. split; [reflexivity|]. intros p q Hp Hq.
    rewrite get_build by (apply inb_cons; auto). cbn [hd tl]. unfold zs. rewrite last_hit_winner by (try assumption; lia).
    destruct (winner (adata indices) (truth condition) p) as [i|] eqn:EW; [|reflexivity].
    unfold winner in EW. apply find_some in EW. destruct EW as [EW _]. apply in_seq in EW.
    assert (EUN : unravel [m] i ++ q = i :: q) by (cbn [unravel app]; f_equal; unfold prod; cbn [fold_right]; apply Nat.div_1_r). rewrite EUN.
    assert (HIN : inb (i :: q) (m :: R ++ J)) by (apply inb_cons; split; [lia|exact Hq]).
    unfold a_broadcast_to in EX. destruct (_ && _) in EX; [|discriminate]. injection EX as <-.
    rewrite get_build by exact HIN. change (ashape w') with (ashape w). unfold w'. apply get_a_conv; [|exact HW]. destruct HBC as [V1 V2]. apply (bcast_src_inb _ (m :: R ++ J)); [exact V2|exact V1|exact HIN].
Qed.
(** with no updates at all, or conditions and indices of different shapes, nothing changes *)
Theorem C86_array_condition_unfit : forall o indices condition w, prod (ashape condition) = 0 \/ ashape condition <> ashape indices ->
  obj_at_set_as_condition_array indices condition w o = o.
Proof.
  intros o indices condition w HU. unfold obj_at_set_as_condition_array.
  assert (K : forall a, match a_update indices condition (a_conv (adtype a) w) a with Some a' => a' | None => a end = a).
  { intros a. unfold a_update. destruct (Nat.eqb_spec (prod (ashape condition)) 0) as [E|E]; [reflexivity|]. destruct (shape_eqb (ashape condition) (ashape indices)) eqn:ES; [|reflexivity]. apply shape_eqb_eq in ES. destruct HU; contradiction. }
  apply (proj2 (value_obj_ind (fun v => set_all_v (fun a => a_update indices condition (a_conv (adtype a) w) a) v = v) (fun o => set_all (fun a => a_update indices condition (a_conv (adtype a) w) a) o = o)
    ltac:(intros a; cbn [set_all_v]; specialize (K a); destruct (a_update _ _ _ a); [now f_equal|reflexivity])
    ltac:(intros q IH; cbn [set_all_v]; now rewrite IH) ltac:(reflexivity) ltac:(intros f v IHv r IHr; cbn [set_all]; now rewrite IHv, IHr)) o).
Qed.

(** ** Torn updates *)
(** refutation: with an array as values the rows need not stay whole: three new numbers for three
    rows change their [id] and leave their [pos]; nothing is raised *)
Theorem C86_array_is_torn_refuted :
  let o := cells [3] [1; 2; 3]%Z in
  batched cell [3] o /\ obj_at_set_array (MkArr (DInt 32) [3] [0; 1; 2]%Z) (arr8 [3] [7; 8; 9]%Z) o =
    (OCons "id" (VArr (arr8 [3] [7; 8; 9]%Z)) (OCons "pos" (VArr (arr8 [3; 2] [101; 102; 102; 103; 103; 104]%Z)) ONil))%string.
Proof. cbn zeta. split; [split; [|repeat split]; repeat split|]. reflexivity. Qed.
(** refutation: a single instance with a tensor field: the tensor is indexed, the scalar is kept *)
Theorem C86_single_is_torn_refuted : batched cell [] (cells [] [1]%Z) /\ batched cell [] (cells [] [5]%Z) /\
  obj_at_set (MkArr (DInt 32) [2] [1; 0]%Z) (cells [] [1]%Z) (cells [] [5]%Z) = (OCons "id" (VArr (arr8 [] [1]%Z)) (OCons "pos" (VArr (arr8 [2] [106; 105]%Z)) ONil))%string.
Proof. split; [split; [|repeat split]; repeat split|]. split; [split; [|repeat split]; repeat split|]. reflexivity. Qed.

(** ** Concrete uses *)
(** three updates of three rows, the first of them off; the second wins over the third; the
    numbers fit the field [id] and not the field [pos] *)
Example C86_array_condition_case :
  let o := cells [3] [1; 2; 3]%Z in let idx := MkArr (DInt 32) [3] [1; 1; 1]%Z in let cond := MkArr DBool [3] [0; 1; 1]%Z in
  batched cell [3] o /\ index_room (DInt 32) 3 /\ winner [1; 1; 1]%Z (truth cond) 1 = Some 1 /\ winner [1; 1; 1]%Z (truth cond) 0 = None /\
  bc [3] (3 :: []) /\ ~ bc [3] (3 :: [2]) /\
  arrays (obj_at_set_as_condition_array idx cond (arr8 [3] [7; 8; 9]%Z) o) = [arr8 [3] [1; 8; 3]%Z; arr8 [3; 2] [101; 102; 102; 103; 103; 104]%Z].
Proof.
  cbn zeta. split; [split; [|repeat split]; repeat split|]. split; [reflexivity|]. split; [reflexivity|]. split; [reflexivity|]. split; [split; [cbn; lia|reflexivity]|].
  split; [intros [_ H]; discriminate|reflexivity].
Qed.
(** one row of values for four addressed rows; a batch shape that does not fit *)
Example C86_case :
  let o := cells [3] [1; 2; 3]%Z in let idx := MkArr (DInt 32) [2; 2] [0; -1; 0; 7]%Z in
  bc [1] ([2; 2] ++ []) /\ batched cell [1] (cells [1] [9]%Z) /\ obj_at_set idx o (cells [1] [9]%Z) = cells [3] [9; 2; 9]%Z /\
  bc [2; 1] ([2; 2] ++ []) /\ obj_at_set idx o (cells [2; 1] [8; 9]%Z) = cells [3] [9; 2; 8]%Z /\
  ~ bc [3] ([2; 2] ++ []) /\ obj_at_set idx o (cells [3] [7; 8; 9]%Z) = o.
Proof.
  cbn zeta. split; [split; [cbn; lia|reflexivity]|]. split; [split; [|repeat split]; repeat split|]. split; [reflexivity|]. split; [split; [cbn; lia|reflexivity]|]. split; [reflexivity|].
  split; [|reflexivity]. intros [_ H]. discriminate.
Qed.
Example C86_condition_case :
  let o := cells [3; 1] [1; 2; 3]%Z in let idx := MkArr (DInt 32) [3] [1; 1; 2]%Z in let cond := MkArr DBool [3] [0; 1; 1]%Z in
  batched cell [3; 1] o /\ bc [3; 1] (3 :: [1]) /\ obj_at_set_as_condition idx cond o (cells [3; 1] [7; 8; 9]%Z) = cells [3; 1] [1; 8; 9]%Z /\
  ~ bc [3] (2 :: [1]) /\ obj_at_set_as_condition (MkArr (DInt 32) [2] [1; 1]%Z) (MkArr DBool [2] [0; 1]%Z) o (cells [3] [7; 8; 9]%Z) = o.
Proof.
  cbn zeta. split; [split; [|repeat split]; repeat split|]. split; [split; [cbn; lia|reflexivity]|]. split; [reflexivity|]. split; [|reflexivity]. intros [_ H]. discriminate.
Qed.
Print Assumptions C86_set. Print Assumptions C86_unfit_is_silent. Print Assumptions C86_single_scalars. Print Assumptions C86_condition. Print Assumptions C86_condition_unfit. Print Assumptions C86_array. Print Assumptions C86_array_condition. Print Assumptions C86_array_condition_unfit.
