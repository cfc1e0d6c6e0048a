(** * PropMixed2.v — property C73: the operations on instances whose arrays differ in dtype. *)
From Coq Require Import String.
From Verif Require Import Jax StructModel ArrayModel ArrayFacts ShapeModel PropShape RowsModel RowsLift PropRows PropRows2 PropRows3 PropRows4 EqModel FloatEq PropEq RowsModel2 PropRows5 PropRows6 PropRows7 CompareModel PropCompare PropSafeCast PropBlock PromoteModel FloatRound PropPromote PropMixed.

Lemma loose_variant_both : (forall d s v, loose_v s d v -> exists d', variant_d d d' /\ conforms_v d' v /\ has_v s d' v) /\ (forall c s o, loose s c o -> exists c', variant c c' /\ batched c' s o).
Proof.
  apply desc_class_ind.
  - intros dt ish bits pb fill s [a|o] H; [|destruct H]. destruct H as [H1 H2]. exists (Prim (adtype a) ish bits pb fill). cbn. auto.
  - intros c IH ish s [a|o] H; [destruct H|]. destruct (IH _ _ H) as (c' & H1 & H2 & H3). exists (Nest c' ish). cbn. auto.
  - intros s [|] H; [|destruct H]. exists CNil. split; [exact Coq.Init.Logic.I|]. split; exact Coq.Init.Logic.I.
  - intros n d IHd r IHr s [|m v q] H; [destruct H|]. destruct H as (<- & H1 & H2). destruct (IHd _ _ H1) as (d' & A1 & A2 & A3). destruct (IHr _ _ H2) as (c' & B1 & B2 & B3). exists (CCons n d' c'). split; [cbn; auto|]. split; cbn; auto.
Qed.
Lemma loose_get c B o : c <> CNil -> solid c -> loose B c o -> get_batch c o = Some (Batch B).
Proof.
  intros HN HS HL. destruct (proj2 loose_variant_both c B o HL) as (c' & HV & HC & HB). rewrite <- (variant_get c c' o HV). destruct (proj2 variant_solid c c' HV) as [K1 K2]. apply (C40_reports c' o B); auto.
Qed.
Lemma batch_of_loose c Bs os : c <> CNil -> solid c -> Forall2 (fun o B => loose B c o) os Bs -> batch_of c os = Some (map Batch Bs).
Proof. intros HN HS HO. unfold batch_of. induction HO as [|o B os Bs H HO IH]; [reflexivity|]. cbn [map sequence]. rewrite (loose_get c B o HN HS H), IH. reflexivity. Qed.
Definition two_or_more (os : list obj) : Prop := 2 <= length os.
Lemma stack_p_eq x64 c c' axis os qs bs : two_or_more os -> length qs = length os -> batch_of c os = bs -> batch_of c' qs = bs -> (forall f, tree_mapn (promoted x64 f) os = tree_mapn f qs) ->
  obj_stack_p x64 c axis os = obj_stack c' axis qs.
Proof.
  intros H2 HL <- E2 HF. unfold obj_stack_p, obj_stack. destruct os as [|o1 [|o2 os]]; cbn in H2; try (unfold two_or_more in H2; cbn in H2; lia). destruct qs as [|q1 [|q2 qs]]; cbn in HL; try lia. rewrite E2, HF. reflexivity.
Qed.
Lemma concat_p_eq x64 c c' axis os qs bs : two_or_more os -> length qs = length os -> batch_of c os = bs -> batch_of c' qs = bs -> (forall f, tree_mapn (promoted x64 f) os = tree_mapn f qs) ->
  obj_concat_p x64 c axis os = obj_concat c' axis qs.
Proof.
  intros H2 HL E1 E2 HF. pose proof (stack_p_eq x64 c c' axis os qs bs H2 HL E1 E2 HF) as ES. unfold obj_concat_p, obj_concat. destruct os as [|o1 [|o2 os]]; cbn in H2; try (unfold two_or_more in H2; cbn in H2; lia). destruct qs as [|q1 [|q2 qs]]; cbn in HL; try lia. rewrite E1, E2, HF, ES. reflexivity.
Qed.
Lemma Forall2_map_r {X Y W} (R : X -> W -> Prop) (g : Y -> W) l m : Forall2 (fun x y => R x (g y)) l m <-> Forall2 R l (map g m).
Proof. split; [induction 1; cbn; constructor; auto|]. revert m. induction l as [|x l IH]; intros [|y m] H; inversion H; subst; constructor; auto. Qed.
(** ** concat, stack, where, equal *)
Theorem C73_concat : forall x64 c B k ns os, c <> CNil -> solid c -> 2 <= length ns -> k < length B -> Forall2 (fun o n => loose (upd k n B) c o) os ns ->
  exists c' qs r, variant c c' /\ (forall i q, nth_error qs i = Some q -> each (brought x64 i) os q) /\ length qs = length os /\
    obj_concat_p x64 c (Z.of_nat k) os = Some r /\ batched c' (upd k (list_sum ns) B) r /\
    (forall j b, j < length os -> inb b (upd k (nth j ns 0) B) -> elem (upd k (list_sum (firstn j ns) + nth k b 0) b) r = elem b (nth j qs ONil)) /\
    (forall b', inb b' (upd k (list_sum ns) B) -> exists j b, j < length os /\ inb b (upd k (nth j ns 0) B) /\ b' = upd k (list_sum (firstn j ns) + nth k b 0) b).
Proof.
  intros x64 c B k ns os HN HS HL Hk HO. pose proof (Forall2_len _ _ _ HO) as LO. set (Bs := map (fun n => upd k n B) ns). assert (HA : Forall2 (fun o B => loose B c o) os Bs) by exact (proj1 (Forall2_map_r (fun o B => loose B c o) (fun n => upd k n B) os ns) HO).
  destruct (C73_bring x64 c os Bs ltac:(intros ->; cbn in LO; lia) HA) as (c' & qs & HV & HB & HE & HF). pose proof (Forall2_len _ _ _ HB) as LQ. unfold Bs in LQ. rewrite map_length in LQ. destruct (proj2 variant_solid c c' HV) as [K1 K2].
  destruct (C41_concat c' B k ns qs (K1 HN) (K2 HS) HL Hk) as (r & E1 & E2 & E3 & E4); [exact (proj2 (Forall2_map_r (fun q B => batched c' B q) _ _ _) HB)|].
  exists c', qs, r. split; [exact HV|]. split; [exact HE|]. split; [congruence|]. split; [|split; [exact E2|]].
  - rewrite <- E1. apply (concat_p_eq x64 c c' _ os qs (Some (map Batch Bs))); [unfold two_or_more; lia|congruence|now apply batch_of_loose|exact (batch_of_spec _ _ _ (K1 HN) (K2 HS) HB)|exact HF].
  - rewrite LO, <- LQ. split; [exact E3|exact E4].
Qed.
Theorem C73_stack : forall x64 c B os k, c <> CNil -> solid c -> 2 <= length os -> (forall o, In o os -> loose B c o) -> k <= length B ->
  exists c' qs r, variant c c' /\ (forall i q, nth_error qs i = Some q -> each (brought x64 i) os q) /\ length qs = length os /\
    obj_stack_p x64 c (Z.of_nat k) os = Some r /\ batched c' (insert k (length os) B) r /\
    forall j b, j < length os -> inb b B -> elem (insert k j b) r = elem b (nth j qs ONil).
Proof.
  intros x64 c B os k HN HS HL HO Hk. set (Bs := repeat B (length os)).
  assert (HA : Forall2 (fun o B => loose B c o) os Bs) by (unfold Bs; clear - HO; induction os as [|o os IH]; [constructor|]; cbn [length repeat]; constructor; [apply HO; now left|apply IH; intros; apply HO; now right]).
  destruct (C73_bring x64 c os Bs ltac:(intros ->; cbn in HL; lia) HA) as (c' & qs & HV & HB & HE & HF). pose proof (Forall2_len _ _ _ HB) as LQ. unfold Bs in LQ. rewrite repeat_length in LQ. destruct (proj2 variant_solid c c' HV) as [K1 K2].
  destruct (C41_stack c' B qs k (K1 HN) (K2 HS) ltac:(lia)) as (r & E1 & E2 & E3); [|exact Hk|].
  { unfold Bs in HB. clear - HB. revert HB. generalize (length os) as n. intros n HB. remember (repeat B n) as Cs eqn:EB. revert n EB. induction HB as [|q B' qs Cs H HB IH]; intros n EB o Ho; [destruct Ho|]. destruct n as [|n]; [discriminate|]. cbn in EB. injection EB as -> EB. destruct Ho as [<- |Ho]; [exact H|now apply (IH n)]. }
  exists c', qs, r. split; [exact HV|]. split; [exact HE|]. split; [exact LQ|]. split; [|rewrite LQ in *; split; [exact E2|exact E3]].
  rewrite <- E1. apply (stack_p_eq x64 c c' _ os qs (Some (map Batch Bs))); [exact HL|exact LQ|now apply batch_of_loose|exact (batch_of_spec _ _ _ (K1 HN) (K2 HS) HB)|exact HF].
Qed.
Lemma bring_two x64 c B x y : loose B c x -> loose B c y -> exists c' x' y', variant c c' /\ batched c' B x' /\ batched c' B y' /\ each (brought x64 0) [x; y] x' /\ each (brought x64 1) [x; y] y' /\
  forall f, tree_mapn (promoted x64 f) [x; y] = tree_mapn f [x'; y'].
Proof.
  intros HX HY. destruct (C73_bring x64 c [x; y] [B; B] ltac:(discriminate)) as (c' & qs & HV & HB & HE & HF); [repeat constructor; assumption|]. inversion HB as [|x' ? l1 ? Hx HB1]; subst. inversion HB1 as [|y' ? l2 ? Hy HB2]; subst. inversion HB2; subst.
  exists c', x', y'. split; [exact HV|]. split; [exact Hx|]. split; [exact Hy|]. split; [now apply HE|]. split; [now apply (HE 1)|exact HF].
Qed.
(** [where] chooses between the two converted elements; an element that is chosen whole may still
    change dtype *)
Theorem C73_where : forall x64 c B x y cond, loose B c x -> loose B c y -> (ashape cond = [] \/ (scalar_leaves c /\ ashape cond = B)) ->
  exists c' x' y' r, variant c c' /\ each (brought x64 0) [x; y] x' /\ each (brought x64 1) [x; y] y' /\ obj_where_p x64 cond x y = Some r /\ batched c' B r /\
    forall b, inb b B -> elem b r = if (get cond (match ashape cond with [] => [] | _ => b end) =? 0)%Z then elem b y' else elem b x'.
Proof.
  intros x64 c B x y cond HX HY HC. destruct (bring_two x64 c B x y HX HY) as (c' & x' & y' & HV & Bx & By & Ex & Ey & HF). unfold obj_where_p. rewrite HF. destruct HC as [HC|[HS HC]].
  - destruct (C41_where_scalar c' B x' y' cond Bx By HC) as (r & E1 & E2 & E3). exists c', x', y', r. rewrite HC. repeat (split; [assumption|]). exact E3.
  - destruct (C41_where c' B x' y' cond (proj2 (variant_shapes _) c c' [] HV HS) Bx By HC) as (r & E1 & E2 & E3). exists c', x', y', r. repeat (split; [assumption|]). intros b Hb. rewrite E3 by exact Hb. rewrite HC. destruct B; [inversion Hb; subst|]; reflexivity.
Qed.
Theorem C73_equal : forall x64 c B o q, loose B c o -> loose B c q ->
  exists c' o' q' r, variant c c' /\ each (brought x64 0) [o; q] o' /\ each (brought x64 1) [o; q] q' /\ obj_equal_p x64 o q = Some r /\ batched (retype boolt c') B r /\ each (says_close elt_eqb) [o'; q'] r.
Proof.
  intros x64 c B o q HX HY. destruct (bring_two x64 c B o q HX HY) as (c' & o' & q' & HV & Bx & By & Ex & Ey & HF). unfold obj_equal_p. rewrite HF. destruct (C70_isclose elt_eqb c' B o' q' Bx By) as (r & E1 & E2 & E3 & _). exists c', o', q', r. repeat (split; [assumption|]). exact E3.
Qed.
(** ** result_type and astype *)
Theorem C73_result_type : forall x64 c os Bs, os <> [] -> Forall2 (fun o B => loose B c o) os Bs ->
  exists q, each (brought x64 0) os q /\ obj_result_type x64 os = Some (map adtype (arrays q)).
Proof.
  intros x64 c os Bs HN HO. destruct (C73_bring x64 c os Bs HN HO) as (c' & qs & HV & HB & HE & HF). destruct qs as [|q qs]; [exfalso; apply HN; pose proof (Forall2_len _ _ _ HB); pose proof (Forall2_len _ _ _ HO); destruct os; [reflexivity|cbn in *; lia]|]. exists q. specialize (HE 0 q eq_refl). split; [exact HE|].
  unfold obj_result_type. set (f := fun l => Some (MkArr (result_type x64 (map adtype l)) [] [0%Z])).
  assert (K : (forall u vs, vs <> [] -> each_v (brought x64 0) vs u -> exists w, tmapn_v f vs = Some w /\ map adtype (arrays_v w) = map adtype (arrays_v u)) /\ (forall r os, os <> [] -> each (brought x64 0) os r -> exists w, tree_mapn f os = Some w /\ map adtype (arrays w) = map adtype (arrays r))).
  { clear. apply value_obj_ind.
    - intros x vs NV (l & -> & a & E1 & E2 & _). rewrite tmapn_arr. destruct l as [|b l]; [now contradiction NV|]. eexists. split; [reflexivity|]. cbn. now rewrite E2.
    - intros r IH vs NV (os & -> & H). destruct (IH os) as (w & E1 & E2); [intros ->; now apply NV|exact H|]. exists (VObj w). rewrite tmapn_obj, E1. split; [reflexivity|exact E2].
    - intros os NO H. cbn [each] in H. exists ONil. split; [|reflexivity]. destruct os as [|o os]; [congruence|]. inversion H as [|? ? <- H']; subst. cbn [tree_mapn tmap]. assert (forallb is_nil os = true) as ->; [|reflexivity]. apply forallb_forall. intros z Hz. rewrite Forall_forall in H'. now rewrite <- (H' z Hz).
    - intros n u IHu r IHr os NO (vs & ps & HL & -> & H1 & H2). assert (NV : vs <> []) by (intros ->; now apply NO). assert (NP : ps <> []) by (intros ->; destruct vs; [congruence|discriminate]). destruct (IHu vs NV H1) as (w & W1 & W2). destruct (IHr ps NP H2) as (z & Z1 & Z2).
      exists (OCons n w z). rewrite tmapn_cons by exact HL. destruct vs as [|v vs]; [congruence|]. rewrite W1, Z1. split; [reflexivity|]. cbn [arrays]. now rewrite !map_app, W2, Z2. }
  destruct (proj2 K q os HN HE) as (w & -> & EW). cbn [option_map]. now rewrite EW.
Qed.
Definition cast_to (t : dtype) (l : list array) (x : array) : Prop :=
  match l with [a] => adtype x = t /\ ashape x = ashape a /\ entries x (fun idx z => z = conv (adtype a) t (get a idx)) | _ => False end.
Theorem C73_astype : forall c B o t, loose B c o -> exists c' r, variant c c' /\ obj_astype_p t o = Some r /\ batched c' B r /\ each (cast_to t) [o] r.
Proof.
  intros c B o t HO. destruct (proj2 loose_variant_both c B o HO) as (c1 & HV & HB). set (f := one (fun a => Some (a_conv t a))).
  destruct (each_lift B [idt] (fun _ => t) f (fun _ => f) (fun _ => True) (cast_to t)) with (c := c1) (os := [o]) as (r & E1 & E2 & E3 & _).
  - intros dt0 J l _ HA.
    destruct (pointwise_leaf B [idt] (fun _ => t) f (fun dt zs => match zs with [x] => conv dt t x | _ => 0%Z end)) with (dt := dt0) (I := J) (l := l) as (x & F1 & F2 & F3 & F4 & F5 & F6).
    + intros b dt1 K m HA'. inversion HA' as [|a t1 l1 ts1 (A1 & A2 & A3) HA1]; subst. inversion HA1; subst. unfold f. cbn [one]. f_equal. unfold a_conv. rewrite (map_build (conv (adtype a) t) t a A3), A2. unfold idt in A1. rewrite A1. reflexivity.
    + exact HA.
    + exists x. split; [exact F1|]. split; [exact F2|]. split; [exact F3|]. split; [exact F4|]. split; [|exact F6]. inversion HA as [|a t1 l1 ts1 (A1 & A2 & A3) HA1]; subst. inversion HA1; subst.
      cbn [cast_to]. split; [reflexivity|]. split; [congruence|]. intros idx HI. rewrite F5 by exact HI. cbn [map]. unfold idt in A1. now rewrite A1.
  - apply shapes_True.
  - discriminate.
  - unfold idt. constructor; [|constructor]. now rewrite (proj2 retype_id_both).
  - exists (retype (fun _ => t) c1), r. split; [|split; [exact E1|split; [exact E2|exact E3]]].
    assert (K : (forall d d', variant_d d d' -> variant_d d (retype_d (fun _ => t) d')) /\ (forall c c', variant c c' -> variant c (retype (fun _ => t) c'))).
    { clear. apply desc_class_ind.
      - intros dt ish bits pb fill [? ? ? ? ?|]; cbn; auto.
      - intros c IH ish [|]; cbn; [auto|]. intros [-> H]. auto.
      - intros [|]; cbn; auto.
      - intros n d IHd r IHr [|]; cbn; [auto|]. intros (-> & H1 & H2). auto. }
    now apply (proj2 K).
Qed.
