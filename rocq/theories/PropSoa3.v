(** * PropSoa3.v — properties C37, C45: conditional updates of instances; the dtype of the
      indices. *)
From Coq Require Import String.
From Verif Require Import Jax StructModel ArrayModel ArrayFacts ShapeModel PropShape RowsModel RowsLift PropRows PropRows2 PropRows3.
From Verif Require Import QueueModel QueueSpec StableSort GroupFirst UpdateModel PropUpdate SoaModel PropSoa PropSoa2.

(** nothing happens to an instance when every one of its arrays is kept *)
Lemma tmap_keep (f : list array -> option array) B V : (forall a b, f [a; b] = Some a) ->
  (forall d J x y, conforms_v d x -> has_v (B ++ J) d x -> conforms_v d y -> has_v (V ++ J) d y -> tmap_v f x [y] = Some x) /\
  (forall c J x y, conforms c x -> has_batch (B ++ J) c x -> conforms c y -> has_batch (V ++ J) c y -> tmap f x [y] = Some x).
Proof.
  intros HE. apply desc_class_ind.
  - intros dt ish bits pb fill J x y C1 B1 C2 B2. destruct x as [a|], y as [b|]; cbn [conforms_v has_v] in *; try contradiction. cbn [tmap_v map sequence as_arr option_map]. now rewrite HE.
  - intros c0 IH ish J x y C1 B1 C2 B2. destruct x as [a|x], y as [b|y]; cbn [conforms_v has_v] in *; try contradiction. cbn [tmap_v map sequence as_obj option_map].
    rewrite (IH (J ++ ish) x y); try assumption; try reflexivity; now rewrite app_assoc.
  - intros J x y C1 B1 C2 B2. destruct x; [|destruct C1]. destruct y; [|destruct C2]. reflexivity.
  - intros nm d IHd r IHr J x y C1 B1 C2 B2. destruct x as [|nx x rx]; [destruct C1|]. destruct y as [|ny y ry]; [destruct C2|]. cbn [conforms has_batch] in *.
    destruct C1 as [-> [C1 C1']], C2 as [-> [C2 C2']], B1 as [_ [B1 B1']], B2 as [_ [B2 B2']]. cbn [tmap map sequence head_field]. rewrite String.eqb_refl. cbn [sequence option_map map fst snd].
    rewrite (IHd J x y), (IHr J rx ry) by assumption. reflexivity.
Qed.
Lemma update_no_updates indices condition a w : prod (ashape condition) = 0 -> a_update indices condition w a = Some a.
Proof. intros H. unfold a_update. now rewrite H. Qed.
Lemma update_no_room indices condition a w n ish : prod (ashape condition) <> 0 -> ~ index_room (adtype indices) n -> ashape a = n :: ish -> a_update indices condition w a = None.
Proof.
  intros Hm HR HA. unfold a_update. destruct (Nat.eqb_spec (prod (ashape condition)) 0); [contradiction|]. destruct (shape_eqb _ _); [|reflexivity]. rewrite HA.
  destruct (counts (adtype indices) n) eqn:E; [|reflexivity]. apply counts_room in E. contradiction.
Qed.

Lemma on_condition_is c n o indices condition v V : batched c [n] o -> wfa indices -> wfa condition -> ashape condition = ashape indices -> index_room (adtype indices) n ->
  batched c V v -> (V = [prod (ashape condition)] \/ V = []) ->
  obj_update_on_condition indices condition o v = Some (obj_at_set_as_condition indices condition o v).
Proof.
  intros HO HWI HWC HSH HRM HV HE. destruct (Nat.eq_dec (prod (ashape condition)) 0) as [Hm|Hm].
  - rewrite (update_none o v indices condition Hm). unfold obj_update_on_condition. cbn [tree_mapn]. destruct HO as [HC HB], HV as [HCv HBv].
    apply (proj2 (tmap_keep _ [n] V (fun a b => update_no_updates indices condition a b Hm)) c []); rewrite ?app_nil_r; assumption.
  - exact (proj2 (update_set2 c n o v indices condition HO HWI HWC HSH HRM V Hm HV HE)).
Qed.
(** [xnp.update_on_condition(o, indices, condition, values)] and
    [o.at[indices].set_as_condition(condition, values)] are the same call when the dtype of the
    indices has room for the number of rows: it never raises, and row [p] becomes the row of
    the first update that addresses [p] with a true condition *)
Theorem C37_instances : forall c n o indices condition v, batched c [n] o ->
  wfa indices -> wfa condition -> ashape condition = ashape indices -> index_room (adtype indices) n -> batched c [prod (ashape condition)] v ->
  exists o', obj_update_on_condition indices condition o v = Some o' /\ obj_at_set_as_condition indices condition o v = o' /\ batched c [n] o' /\
    forall p, p < n -> elem [p] o' = match winner (adata indices) (truth condition) p with Some i => elem [i] v | None => elem [p] o end.
Proof.
  intros c n o indices condition v HO HWI HWC HSH HRM HV. eexists. split; [exact (on_condition_is c n o indices condition v _ HO HWI HWC HSH HRM HV (or_introl eq_refl))|]. split; [reflexivity|].
  exact (C45_set_as_condition c n o indices condition v HO HWI HWC HSH HRM HV).
Qed.
Theorem C37_instances_one : forall c n o indices condition v, batched c [n] o ->
  wfa indices -> wfa condition -> ashape condition = ashape indices -> index_room (adtype indices) n -> batched c [] v ->
  exists o', obj_update_on_condition indices condition o v = Some o' /\ obj_at_set_as_condition indices condition o v = o' /\ batched c [n] o' /\
    forall p, p < n -> elem [p] o' = match winner (adata indices) (truth condition) p with Some _ => v | None => elem [p] o end.
Proof.
  intros c n o indices condition v HO HWI HWC HSH HRM HV. eexists. split; [exact (on_condition_is c n o indices condition v _ HO HWI HWC HSH HRM HV (or_intror eq_refl))|]. split; [reflexivity|].
  exact (C45_set_as_condition_one c n o indices condition v HO HWI HWC HSH HRM HV).
Qed.

(** ** Indices of a dtype without room *)
Lemma set_each_none (g : array -> array -> option array) n : (forall w a ish, ashape a = n :: ish -> g w a = None) ->
  (forall d J x y, has_v ([n] ++ J) d x -> set_each_v g x y = x) /\ (forall c J x y, has_batch ([n] ++ J) c x -> set_each g x y = x).
Proof.
  intros Hg. apply desc_class_ind.
  - intros dt ish bits pb fill J x y B1. destruct x as [a|]; cbn [has_v] in B1; [|contradiction]. destruct y as [b|]; cbn [set_each_v]; [|reflexivity]. now rewrite (Hg b a (J ++ ish)) by exact B1.
  - intros c0 IH ish J x y B1. destruct x as [a|x]; cbn [has_v] in B1; [contradiction|]. destruct y as [b|y]; cbn [set_each_v]; [reflexivity|]. rewrite (IH (J ++ ish)); [reflexivity|]. now rewrite app_assoc.
  - intros J x y B1. destruct x; [reflexivity|destruct B1].
  - intros nm d IHd r IHr J x y B1. destruct x as [|nx x rx]; [destruct B1|]. cbn [has_batch] in B1. destruct B1 as [_ [B1 B1']]. destruct y as [|ny y ry]; cbn [set_each]; [reflexivity|]. rewrite (IHd J) by exact B1. rewrite (IHr J) by exact B1'. reflexivity.
Qed.
Lemma tmap_none (f : list array -> option array) n V : (forall a b ish, ashape a = n :: ish -> f [a; b] = None) ->
  (forall d J x y, solid_d d -> has_v ([n] ++ J) d x -> has_v (V ++ J) d y -> tmap_v f x [y] = None) /\
  (forall c J x y, c <> CNil -> solid c -> has_batch ([n] ++ J) c x -> has_batch (V ++ J) c y -> tmap f x [y] = None).
Proof.
  intros HE. apply desc_class_ind.
  - intros dt ish bits pb fill J x y _ B1 B2. destruct x as [a|], y as [b|]; cbn [has_v] in *; try contradiction. cbn [tmap_v map sequence as_arr option_map]. now rewrite (HE a b (J ++ ish)) by exact B1.
  - intros c0 IH ish J x y [S1 S2] B1 B2. destruct x as [a|x], y as [b|y]; cbn [has_v] in *; try contradiction. cbn [tmap_v map sequence as_obj option_map].
    rewrite (IH (J ++ ish) x y); try assumption; try reflexivity; now rewrite app_assoc.
  - intros J x y H. congruence.
  - intros nm d IHd r IHr J x y _ [S1 S2] B1 B2. destruct x as [|nx x rx]; [destruct B1|]. destruct y as [|ny y ry]; [destruct B2|]. cbn [has_batch] in *.
    destruct B1 as [<- [B1 B1']], B2 as [<- [B2 B2']]. cbn [tmap map sequence head_field]. rewrite String.eqb_refl. cbn [sequence option_map map fst snd].
    rewrite (IHd J x y) by assumption. reflexivity.
Qed.
(** then [update_on_condition] raises, although every index may name a row *)
Theorem C37_no_room_raises : forall c n o indices condition v V, c <> CNil -> solid c -> batched c [n] o -> batched c V v ->
  prod (ashape condition) <> 0 -> ~ index_room (adtype indices) n -> obj_update_on_condition indices condition o v = None.
Proof.
  intros c n o indices condition v V HN HS [HC HB] [HCv HBv] Hm HR. unfold obj_update_on_condition. cbn [tree_mapn].
  apply (proj2 (tmap_none _ n V (fun a b ish E => update_no_room indices condition a b n ish Hm HR E)) c []); rewrite ?app_nil_r; assumption.
Qed.
(** refutation: and [.at[indices].set_as_condition] silently changes nothing, whatever the
    conditions and values are *)
Theorem C45_no_room_is_silent_refuted : forall c n o indices condition v, batched c [n] o ->
  prod (ashape condition) <> 0 -> ~ index_room (adtype indices) n -> obj_at_set_as_condition indices condition o v = o.
Proof.
  intros c n o indices condition v [HC HB] Hm HR. unfold obj_at_set_as_condition.
  apply (proj2 (set_each_none _ n (fun w a ish E => update_no_room indices condition a w n ish Hm HR E)) c []). now rewrite app_nil_r.
Qed.

(** e.g. 128 rows and int8 indices (0 and 5, both rows), or float32 indices *)
Definition column (l : list Z) : obj := (OCons "id" (VArr (MkArr (DUInt 32) [length l] l)) ONil)%string.
Definition column_class : class := (CCons "id" (Prim (DUInt 32) [] None false 0%Z) CNil)%string.
Definition updates (d : dtype) (n : nat) : obj := obj_at_set_as_condition (MkArr d [2] [0; 5]%Z) (MkArr DBool [2] [1; 1]%Z) (column (repeat 7%Z n)) (column [1; 2]%Z).
Example C45_no_room_case : ~ index_room (DInt 8) 128 /\ updates (DInt 8) 128 = column (repeat 7%Z 128) /\
  index_room (DInt 8) 127 /\ updates (DInt 8) 127 = column (1 :: repeat 7 4 ++ 2 :: repeat 7 121)%Z /\
  updates (DFloat 32) 10 = column (repeat 7%Z 10) /\
  obj_update_on_condition (MkArr (DInt 8) [2] [0; 5]%Z) (MkArr DBool [2] [1; 1]%Z) (column (repeat 7%Z 128)) (column [1; 2]%Z) = None.
Proof. split; [vm_compute; discriminate|]. split; [reflexivity|]. split; [reflexivity|]. split; [reflexivity|]. split; reflexivity. Qed.
Example C37_instances_case : batched column_class [127] (column (repeat 7%Z 127)) /\ batched column_class [2] (column [1; 2]%Z).
Proof. split; (split; [|repeat split]); repeat split. Qed.
Print Assumptions C37_instances. Print Assumptions C37_no_room_raises. Print Assumptions C45_no_room_is_silent_refuted.
