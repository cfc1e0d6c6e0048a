(** * PropSoa2.v — property C45, continued: [.at[indices].set_as_condition(...)] on instances,
      one instance broadcast to many positions, examples. *)
From Coq Require Import String.
From Verif Require Import Jax StructModel ArrayModel ArrayFacts ShapeModel PropShape RowsModel RowsLift PropRows PropRows2 PropRows3.
From Verif Require Import QueueModel QueueSpec StableSort GroupFirst UpdateModel PropUpdate SoaModel PropSoa.

Lemma rowwise_ext f g Bs B' src fl : (forall dt I l, row_args dt I l Bs -> f l = g l) -> rowwise f Bs B' src fl -> rowwise g Bs B' src fl.
Proof. intros HE [H1 H2]. split; [exact H1|]. intros dt J l HP HA. rewrite <- (HE dt J l HA). now apply H2. Qed.
Definition set_src_one (n : nat) (idx : array) (b : list nat) : option (nat * list nat) :=
  match last_hit n (adata idx) (hd 0 b) with Some j => Some (1, []) | None => Some (0, b) end.
Lemma rowwise_at_set_one n R idx : wfa idx -> rowwise (two (fun a v => a_at_set idx v a)) [n :: R; []] (n :: R) (set_src_one n idx) nofill.
Proof.
  intros HW. split.
  - intros b Hb. unfold set_src_one. destruct (last_hit n (adata idx) (hd 0 b)) as [j|] eqn:E; cbn [length nth]; [split; [lia|apply inb_nil]|split; [lia|exact Hb]].
  - intros dt J l _ HA. inversion HA as [|a B0 l1 Bs1 [A1 [A2 A3]] HA1]; subst. inversion HA1 as [|v V0 l2 Bs2 [V1 [V2 V3]] HA2]; subst. inversion HA2; subst. cbn [two].
    unfold a_at_set. rewrite A2. cbn [app] in *. unfold a_broadcast_to. rewrite app_assoc. pose proof (bcast_ok_suffix (ashape v) (ashape idx ++ R)) as HK. rewrite <- V2. unfold ndim. rewrite HK.
    destruct (Nat.leb_spec (length (ashape v)) (length ((ashape idx ++ R) ++ ashape v))) as [_|H]; [|rewrite app_length in H; lia]. cbn [andb].
    eexists. split; [reflexivity|]. split; [reflexivity|]. split; [reflexivity|]. split; [apply build_wfa|].
    intros b t dflt Hb Ht. destruct b as [|i b]; [inversion Hb|]. pose proof Hb as Hb0. apply inb_cons in Hb. destruct Hb as [Hi Hb]. cbn [app].
    rewrite get_build by (apply inb_cons; split; [exact Hi|now apply inb_app_intro]). unfold set_src_one. cbn [hd tl].
    destruct (last_hit n (adata idx) i) as [j|] eqn:E; cbn [nth app]; [|reflexivity].
    rewrite app_assoc, get_build; [now rewrite bcast_src_suffix|].
    apply inb_app_intro; [|exact Ht]. apply inb_app_intro; [apply unravel_inb; apply last_hit_lt in E; unfold wfa in HW; lia|exact Hb].
Qed.
(** one instance written to every position addressed by an index array of any shape *)
Theorem C45_set_broadcast : forall c n R o idx v, batched c (n :: R) o -> wfa idx -> batched c [] v ->
  let o' := obj_at_set idx o v in
  batched c (n :: R) o' /\
  (forall i q, i < n -> inb q R -> elem (i :: q) o' = if existsb (fun z => match norm_index z n with Some k => k =? i | None => false end) (adata idx) then v else elem (i :: q) o).
Proof.
  intros c n R o idx v [HC HB] HW [HCv HBv] o'.
  destruct (lift_many _ _ _ _ _ c [o; v] (rowwise_at_set_one n R idx HW)) as [o2 [E1 [E2 [E3 E4]]]]; [discriminate|repeat constructor; assumption|].
  cbn [tree_mapn] in E1. apply (proj2 (set_each_tmap _)) in E1. change (o' = o2) in E1. subst o2. split; [split; assumption|].
  intros i q Hi Hq. rewrite E4 by (apply inb_cons; auto). unfold set_src_one. cbn [hd].
  assert (K : forall l, existsb (fun z => match norm_index z n with Some k => k =? i | None => false end) l = match last_hit n l i with Some _ => true | None => false end).
  { induction l as [|z l IH]; [reflexivity|]. cbn [existsb last_hit]. rewrite IH. destruct (last_hit n l i); [apply orb_true_r|]. destruct (norm_index z n) as [k|]; [|reflexivity]. destruct (k =? i); reflexivity. }
  rewrite K. destruct (last_hit n (adata idx) i); cbn [nth]; [|reflexivity]. apply (single_elem c). split; assumption.
Qed.
Print Assumptions C45_set_broadcast.

(** the dtype of the indices is an integer dtype that has the number of rows *)
Definition index_room (d : dtype) (n : nat) : Prop :=
  match d with
  | DUInt w => (Z.of_nat n < 2 ^ Z.of_nat w)%Z
  | DInt w => (Z.of_nat n < 2 ^ (Z.of_nat w - 1))%Z
  | DBool | DFloat _ => False
  end.
Lemma counts_room d n : counts d n = true <-> index_room d n.
Proof. destruct d; cbn [counts index_room]; try (split; [discriminate|contradiction]); apply Z.ltb_lt. Qed.

Section Cond.
Variables (c : class) (n : nat) (o v : obj) (indices condition : array).
Hypothesis HO : batched c [n] o.
Hypothesis HWI : wfa indices.
Hypothesis HWC : wfa condition.
Hypothesis HSH : ashape condition = ashape indices.
Hypothesis HRM : index_room (adtype indices) n.
Let m := prod (ashape condition).
Lemma truth_len : length (truth condition) = m.
Proof. unfold truth. rewrite map_length. exact HWC. Qed.
Lemma ind_len : length (adata indices) = m.
Proof. unfold m. rewrite HSH. exact HWI. Qed.
Lemma safe_is k : length (safe_indices k (adata indices) (truth condition)) = m.
Proof.
  unfold safe_indices. cbn zeta. rewrite map_length, combine_length, scatter_back_length. pose proof (isort_perm (fun a b => (nth a (true_indices k (adata indices) (truth condition)) 0 <=? nth b (true_indices k (adata indices) (truth condition)) 0)%Z) (seq 0 (length (truth condition)))) as HP.
  apply Permutation_length in HP. rewrite HP, seq_length, truth_len, ind_len. lia.
Qed.
Lemma update_is {A} (arr vs : list A) : m <> 0 -> update_array arr (adata indices) (truth condition) vs = jsets arr (safe_indices (length arr) (adata indices) (truth condition)) vs.
Proof. intros Hm. unfold update_array. rewrite truth_len. destruct (Nat.eqb_spec m 0); [contradiction|]. unfold safe_indices. rewrite truth_len. reflexivity. Qed.
Let o' := obj_at_set_as_condition indices condition o v.
Lemma update_set2 V : m <> 0 -> batched c V v -> (V = [m] \/ V = []) -> o' = obj_at_set (ivec (safe_indices n (adata indices) (truth condition))) o v /\ obj_update_on_condition indices condition o v = Some o'.
Proof.
  intros Hm [HCv HBv] HV. destruct HO as [HC HB]. set (zs := safe_indices n (adata indices) (truth condition)).
  assert (HW : wfa (ivec zs)) by (unfold wfa; cbn; lia). assert (HL : length zs = m) by (apply safe_is).
  assert (EXT : forall dt I l, row_args dt I l [[n]; V] -> two (fun a w => a_at_set (ivec zs) w a) l = two (fun a w => a_update indices condition w a) l).
  { intros dt J l HA. inversion HA as [|a B0 l1 Bs1 [A1 [A2 A3]] HA1]; subst. inversion HA1 as [|w V0 l2 Bs2 [V1 [V2 V3]] HA2]; subst. inversion HA2; subst. cbn [two].
    unfold a_update. fold m. destruct (Nat.eqb_spec m 0); [contradiction|]. rewrite HSH, shape_eqb_refl, A2. cbn [app]. rewrite (proj2 (counts_room _ _) HRM). reflexivity. }
  assert (EX : exists src, rowwise (two (fun a w => a_at_set (ivec zs) w a)) [[n]; V] [n] src nofill).
  { destruct HV as [->| ->]; [exists (set_src n (ivec zs)); rewrite <- HL; exact (rowwise_at_set n [] (ivec zs) HW)|exists (set_src_one n (ivec zs)); exact (rowwise_at_set_one n [] (ivec zs) HW)]. }
  destruct EX as [src HR].
  destruct (lift_many _ _ _ _ _ c [o; v] HR) as [o1 [E1 [_ [_ G1]]]]; [discriminate|repeat constructor; assumption|].
  destruct (lift_many _ _ _ _ _ c [o; v] (rowwise_ext _ _ _ _ _ _ EXT HR)) as [o2 [E2 [_ [_ G2]]]]; [discriminate|repeat constructor; assumption|].
  cbn [tree_mapn] in E1, E2.
  assert (o1 = o2).
  { assert (TE : forall f g, (forall dt I l, row_args dt I l [[n]; V] -> f l = g l) -> tmap f o [v] = tmap g o [v]).
    { intros f g HE. clear - HC HB HCv HBv HE.
      assert (K : (forall d J x y, conforms_v d x -> has_v ([n] ++ J) d x -> conforms_v d y -> has_v (V ++ J) d y -> tmap_v f x [y] = tmap_v g x [y]) /\
                  (forall c J x y, conforms c x -> has_batch ([n] ++ J) c x -> conforms c y -> has_batch (V ++ J) c y -> tmap f x [y] = tmap g x [y])).
      { apply desc_class_ind.
        - intros dt ish bits pb fill J x y C1 B1 C2 B2. destruct x as [a|], y as [b|]; cbn [conforms_v has_v] in *; try contradiction. destruct C1 as [D1 W1], C2 as [D2 W2]. cbn [tmap_v map sequence as_arr option_map].
          rewrite (HE dt (J ++ ish) [a; b]); [reflexivity|]. constructor; [|constructor; [|constructor]]; (split; [assumption|]; split; [now rewrite app_assoc|assumption]).
        - intros c0 IH ish J x y C1 B1 C2 B2. destruct x as [a|x], y as [b|y]; cbn [conforms_v has_v] in *; try contradiction. cbn [tmap_v map sequence as_obj option_map].
          rewrite (IH (J ++ ish) x y); try assumption; try reflexivity; now rewrite app_assoc.
        - intros J x y C1 B1 C2 B2. destruct x; [|destruct C1]. destruct y; [|destruct C2]. reflexivity.
        - intros nm d IHd r IHr J x y C1 B1 C2 B2. destruct x as [|nx x rx]; [destruct C1|]. destruct y as [|ny y ry]; [destruct C2|]. cbn [conforms has_batch] in *.
          destruct C1 as [-> [C1 C1']], C2 as [-> [C2 C2']], B1 as [_ [B1 B1']], B2 as [_ [B2 B2']]. cbn [tmap map sequence head_field]. rewrite String.eqb_refl. cbn [sequence option_map map fst snd].
          rewrite (IHd J x y), (IHr J rx ry) by assumption. reflexivity. }
      apply (proj2 K c [] o v); try assumption; now rewrite app_nil_r. }
    rewrite (TE _ _ EXT) in E1. congruence. }
  apply (proj2 (set_each_tmap (a_at_set (ivec zs)))) in E1. pose proof E2 as E3. apply (proj2 (set_each_tmap (a_update indices condition))) in E2. unfold o', obj_at_set_as_condition, obj_at_set. split; [congruence|]. unfold obj_update_on_condition. cbn [tree_mapn]. rewrite E2. exact E3.
Qed.
Lemma update_set V : m <> 0 -> batched c V v -> (V = [m] \/ V = []) -> o' = obj_at_set (ivec (safe_indices n (adata indices) (truth condition))) o v.
Proof. intros Hm HV H. exact (proj1 (update_set2 V Hm HV H)). Qed.
Lemma set_each_id (g : array -> array -> option array) : (forall w a, g w a = Some a) -> (forall x y, set_each_v g x y = x) /\ (forall x y, set_each g x y = x).
Proof.
  intros Hg. apply value_obj_ind.
  - intros a [b|y]; cbn [set_each_v]; [now rewrite Hg|reflexivity].
  - intros x IH [b|y]; cbn [set_each_v]; [reflexivity|now rewrite IH].
  - intros y. reflexivity.
  - intros nm x IHx r IHr [|ny y ry]; cbn [set_each]; [reflexivity|]. now rewrite IHx, IHr.
Qed.
Lemma update_none : m = 0 -> o' = o.
Proof.
  intros Hm. unfold o', obj_at_set_as_condition. apply (proj2 (set_each_id (a_update indices condition) ltac:(intros w a; unfold a_update; fold m; rewrite Hm; reflexivity))).
Qed.
(** the rows after the call are those of the conditional update on the list of rows *)
Lemma cond_rows : batched c [m] v -> batched c [n] o' /\ rows n o' = update_array (rows n o) (adata indices) (truth condition) (rows m v).
Proof.
  intros HV. destruct (Nat.eq_dec m 0) as [Hm|Hm].
  - rewrite update_none by exact Hm. split; [exact HO|]. unfold update_array. rewrite truth_len, Hm. reflexivity.
  - rewrite (update_set [m] Hm HV (or_introl eq_refl)), update_is by exact Hm. rewrite rows_length.
    pose proof (C45_set_many c n o (safe_indices n (adata indices) (truth condition)) v HO) as H. rewrite safe_is in H. exact (H HV).
Qed.
Lemma cond_rows_one : batched c [] v -> batched c [n] o' /\ rows n o' = update_array (rows n o) (adata indices) (truth condition) (repeat v m).
Proof.
  intros HV. destruct (Nat.eq_dec m 0) as [Hm|Hm].
  - rewrite update_none by exact Hm. split; [exact HO|]. unfold update_array. rewrite truth_len, Hm. reflexivity.
  - rewrite (update_set [] Hm HV (or_intror eq_refl)), update_is by exact Hm. rewrite rows_length. set (zs := safe_indices n (adata indices) (truth condition)).
    assert (HW : wfa (ivec zs)) by (unfold wfa; cbn; lia). destruct (C45_set_broadcast c n [] o (ivec zs) v HO HW HV) as [H1 H2]. split; [exact H1|].
    apply rows_eq; [now rewrite jsets_length, rows_length|]. intros i d Hi. rewrite jsets_last by (rewrite ?repeat_length, ?rows_length; first [exact Hi|apply safe_is]). rewrite rows_length, rows_nth by exact Hi.
    rewrite (H2 i [] Hi inb_nil). cbn [ivec adata].
    assert (K : forall l, existsb (fun z => match norm_index z n with Some k => k =? i | None => false end) l = match last_hit n l i with Some _ => true | None => false end).
    { induction l as [|z l IH]; [reflexivity|]. cbn [existsb last_hit]. rewrite IH. destruct (last_hit n l i); [apply orb_true_r|]. destruct (norm_index z n) as [k|]; [|reflexivity]. destruct (k =? i); reflexivity. }
    rewrite K. destruct (last_hit n zs i) as [j|] eqn:E; [|reflexivity]. apply last_hit_lt in E. unfold zs in E. rewrite safe_is in E.
    rewrite (nth_indep _ d v) by (now rewrite repeat_length). apply nth_repeat.
Qed.
End Cond.
(** the first update whose condition is true wins, with all the fields of one instance *)
Theorem C45_set_as_condition : forall c n o indices condition v, batched c [n] o ->
  wfa indices -> wfa condition -> ashape condition = ashape indices -> index_room (adtype indices) n -> batched c [prod (ashape condition)] v ->
  let o' := obj_at_set_as_condition indices condition o v in
  batched c [n] o' /\
  forall p, p < n -> elem [p] o' = match winner (adata indices) (truth condition) p with Some i => elem [i] v | None => elem [p] o end.
Proof.
  intros c n o indices condition v HO HWI HWC HSH HRM HV o'. destruct (cond_rows c n o v indices condition HO HWI HWC HSH HRM HV) as [H1 H2]. split; [exact H1|].
  fold o' in H1, H2. pose proof (truth_len condition HWC) as L1. pose proof (ind_len indices condition HWI HSH) as L2.
  destruct (C37_first_true_wins obj (rows n o) (adata indices) (truth condition) (rows (prod (ashape condition)) v)) as [K1 K2]; [congruence|rewrite rows_length; congruence|].
  intros p Hp. specialize (K2 p o). rewrite rows_length in K2. specialize (K2 Hp). rewrite <- H2 in K2. rewrite rows_nth in K2 by exact Hp. rewrite K2.
  destruct (winner (adata indices) (truth condition) p) as [i|] eqn:E; [|now rewrite rows_nth]. apply rows_nth. unfold winner in E. apply find_some in E. destruct E as [E _]. apply in_seq in E. lia.
Qed.
Print Assumptions C45_set_as_condition.
Theorem C45_set_as_condition_one : forall c n o indices condition v, batched c [n] o ->
  wfa indices -> wfa condition -> ashape condition = ashape indices -> index_room (adtype indices) n -> batched c [] v ->
  let o' := obj_at_set_as_condition indices condition o v in
  batched c [n] o' /\
  forall p, p < n -> elem [p] o' = match winner (adata indices) (truth condition) p with Some _ => v | None => elem [p] o end.
Proof.
  intros c n o indices condition v HO HWI HWC HSH HRM HV o'. destruct (cond_rows_one c n o v indices condition HO HWI HWC HSH HRM HV) as [H1 H2]. split; [exact H1|].
  fold o' in H1, H2. pose proof (truth_len condition HWC) as L1. pose proof (ind_len indices condition HWI HSH) as L2.
  destruct (C37_first_true_wins obj (rows n o) (adata indices) (truth condition) (repeat v (prod (ashape condition)))) as [K1 K2]; [congruence|rewrite repeat_length; congruence|].
  intros p Hp. specialize (K2 p v). rewrite rows_length in K2. specialize (K2 Hp). rewrite <- H2 in K2. rewrite rows_nth in K2 by exact Hp. rewrite K2.
  destruct (winner (adata indices) (truth condition) p) as [i|] eqn:E; [|now rewrite rows_nth]. apply nth_repeat.
Qed.
Print Assumptions C45_set_as_condition_one.

(** false claim: "with indices, condition and values of one two-dimensional batch shape, the
    positions whose condition is true are updated": the indices are flattened but the values
    are not, so the update raises on every field, which is swallowed — nothing is written *)
Definition arr8 (s : list nat) (d : list Z) : array := MkArr (DUInt 8) s d.
Definition cell : class := (CCons "id" (Prim (DUInt 8) [] None false 0%Z) (CCons "pos" (Prim (DUInt 8) [2] None false 0%Z) CNil))%string.
Definition cells (s : list nat) (ids : list Z) : obj :=
  (OCons "id" (VArr (arr8 s ids)) (OCons "pos" (VArr (arr8 (s ++ [2]) (flat_map (fun z => [z + 100; z + 101]%Z) ids))) ONil))%string.
Theorem C45_two_dimensional_condition_refuted :
  let o := cells [4] [0; 0; 0; 0]%Z in let v := cells [2; 2] [1; 2; 3; 4]%Z in
  let idx := arr8 [2; 2] [0; 1; 2; 3]%Z in let cond := MkArr DBool [2; 2] [1; 1; 1; 1]%Z in
  batched cell [4] o /\ batched cell [2; 2] v /\ ashape idx = ashape cond /\ obj_at_set_as_condition idx cond o v = o.
Proof. cbn zeta. repeat split; vm_compute; reflexivity. Qed.
Print Assumptions C45_two_dimensional_condition_refuted.

(** examples *)
Example C45_queue_example :
  let ops := [OEnqueue (cells [3] [1; 2; 3]%Z); ODequeue 1; OEnqueue (cells [] [9]%Z); OPeek 2; ODequeue 3; OEnqueue (cells [2] [5; 6]%Z); OGet 1; OClear] in
  Forall (qop_ok cell) ops /\ q_legal 6 0 [] (map (qop_of cell) ops) /\
  option_map (map (fun p : option obj * Z => match fst p with Some o => Some (get_batch cell o) | None => None end)) (oq_run cell (oq_build cell 6) ops) =
    Some [None; Some (Some (Batch [])); None; Some (Some (Batch [2])); Some (Some (Batch [3])); None; Some (Some (Batch [])); None] /\
  option_map (fun tr => nth_error tr 6) (oq_run cell (oq_build cell 6) ops) = Some (Some (Some (cells [] [6]%Z), 2%Z)).
Proof.
  cbn zeta. split; [|split; [|split; vm_compute; reflexivity]].
  - repeat apply Forall_cons; try exact I; try apply Forall_nil; cbn [qop_ok]; unfold item_ok.
    + right. exists 3. repeat split; vm_compute; reflexivity.
    + left. repeat split; vm_compute; reflexivity.
    + right. exists 2. repeat split; vm_compute; reflexivity.
  - cbn. lia.
Qed.
Example C45_condition_example :
  let o := cells [4] [0; 0; 0; 0]%Z in let v := cells [5] [1; 2; 3; 4; 5]%Z in
  obj_at_set_as_condition (MkArr (DInt 32) [5] [2; 2; 0; 9; 2]%Z) (MkArr DBool [5] [0; 1; 1; 1; 1]%Z) o v = 
    (OCons "id" (VArr (arr8 [4] [3; 0; 2; 0]%Z)) (OCons "pos" (VArr (arr8 [4; 2] [103; 104; 100; 101; 102; 103; 100; 101]%Z)) ONil))%string.
Proof. vm_compute. reflexivity. Qed.
