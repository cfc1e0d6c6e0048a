(** * PropForeign.v — property C86: an instance of another class as the values of an indexed update
      reaches exactly the nested fields whose class it is an instance of. *)
From Coq Require Import String.
From Verif Require Import Jax StructModel ArrayModel ArrayFacts ShapeModel PropShape RowsModel RowsLift PropRows PropRows2 PropRows3 PropRows6 PropInverse.
From Verif Require Import UpdateModel SoaModel PropSoa PropSoa2 PropSoa3 PropSoa4 AggModel UpdateForeignModel.

Section S.
Variable mine : list string -> bool.
Variable f : array -> array -> option array.
Let sv := set_value_v mine f.
Lemma set_value_attr o : forall path q n, get_attr_o (set_value mine f path o q) n = option_map (fun v => sv (path ++ [n]) v q) (get_attr_o o n).
Proof.
  unfold sv. induction o as [|m v r IH]; intros path q n; [reflexivity|].
  cbn [set_value get_attr_o]. destruct (String.eqb_spec n m) as [->|NE]; [reflexivity|apply IH].
Qed.
(** no nested field on the way to [p] has the class of the values *)
Definition not_before (pre p : list string) : Prop := forall a b, p = a ++ b -> b <> [] -> mine (pre ++ a) = false.
Lemma not_before_tail pre n p : not_before pre (n :: p) -> not_before (pre ++ [n]) p.
Proof. intros H a b E Hb. rewrite <- app_assoc. apply (H (n :: a) b); [cbn; now rewrite E|exact Hb]. Qed.
Lemma path_spec p : forall pre v q, not_before pre p ->
  get_path_v (sv pre v q) p =
  match get_path_v v p with Some (VObj o) => Some (if mine (pre ++ p) then VObj (set_each f o q) else VObj (set_value mine f (pre ++ p) o q)) | x => x end.
Proof.
  induction p as [|n p IH]; intros pre v q HN.
  - cbn [get_path_v]. rewrite app_nil_r. unfold sv. destruct v as [a|o]; cbn [set_value_v]; [reflexivity|]. now destruct (mine pre).
  - destruct v as [a|o]; [reflexivity|]. assert (M : mine pre = false) by (specialize (HN [] (n :: p) eq_refl); rewrite app_nil_r in HN; apply HN; discriminate).
    unfold sv. cbn [set_value_v]. rewrite M. cbn [get_path_v]. rewrite set_value_attr. destruct (get_attr_o o n) as [w|]; [|reflexivity]. cbn [option_map].
    rewrite IH by now apply not_before_tail. now rewrite <- app_assoc.
Qed.
Lemma instance_path o q : VObj (set_instance mine f o q) = sv [] (VObj o) q.
Proof. unfold set_instance, sv. cbn [set_value_v]. now destruct (mine []). Qed.
Lemma kept_both : (forall p, mine p = false) -> (forall v path q, sv path v q = v) /\ (forall o path q, set_value mine f path o q = o).
Proof.
  intros HM. unfold sv. apply value_obj_ind.
  - reflexivity.
  - intros o IH path q. cbn [set_value_v]. now rewrite HM, IH.
  - reflexivity.
  - intros n v IHv r IHr path q. cbn [set_value]. now rewrite IHv, IHr.
Qed.
End S.

(** ** The same class: C86_set applies *)
Theorem C86_own_class : forall mine idx o q, mine [] = true -> obj_at_set_instance mine idx o q = obj_at_set idx o q.
Proof. intros mine idx o q H. unfold obj_at_set_instance, set_instance. now rewrite H. Qed.
(** ** A class that is neither that of the instance nor that of a nested field: nothing happens,
    and nothing is raised *)
Theorem C86_foreign_is_silent : forall mine idx indices condition o q, (forall p, mine p = false) ->
  obj_at_set_instance mine idx o q = o /\ obj_at_set_as_condition_instance mine indices condition o q = o.
Proof.
  intros mine idx indices condition o q H. unfold obj_at_set_as_condition_instance, obj_at_set_instance, set_instance. rewrite H.
  split; [exact (proj2 (kept_both mine (a_at_set idx) H) o [] q)|exact (proj2 (kept_both mine (a_update indices condition) H) o [] q)].
Qed.
(** ** Otherwise: [x.at[idx].set(v)] reaches the nested fields whose class [v] is an instance of,
    the outermost ones, each as if it had been updated itself; the arrays elsewhere keep their
    contents and no field appears or disappears *)
Theorem C86_foreign : forall mine idx o q p, not_before mine [] p ->
  match get_path_v (VObj o) p with
  | None => get_path_v (VObj (obj_at_set_instance mine idx o q)) p = None
  | Some (VArr a) => get_path_v (VObj (obj_at_set_instance mine idx o q)) p = Some (VArr a)
  | Some (VObj n) => exists n', get_path_v (VObj (obj_at_set_instance mine idx o q)) p = Some (VObj n') /\ (mine p = true -> n' = obj_at_set idx n q)
  end.
Proof.
  intros mine idx o q p HN. unfold obj_at_set_instance. rewrite instance_path. rewrite path_spec by exact HN. cbn [app]. destruct (get_path_v (VObj o) p) as [[a|n]|]; [reflexivity| |reflexivity].
  destruct (mine p) eqn:M; eexists; (split; [reflexivity|]); [reflexivity|discriminate].
Qed.
Theorem C86_foreign_condition : forall mine indices condition o q p, not_before mine [] p ->
  match get_path_v (VObj o) p with
  | None => get_path_v (VObj (obj_at_set_as_condition_instance mine indices condition o q)) p = None
  | Some (VArr a) => get_path_v (VObj (obj_at_set_as_condition_instance mine indices condition o q)) p = Some (VArr a)
  | Some (VObj n) => exists n', get_path_v (VObj (obj_at_set_as_condition_instance mine indices condition o q)) p = Some (VObj n') /\ (mine p = true -> n' = obj_at_set_as_condition indices condition n q)
  end.
Proof.
  intros mine indices condition o q p HN. unfold obj_at_set_as_condition_instance. rewrite instance_path. rewrite path_spec by exact HN. cbn [app]. destruct (get_path_v (VObj o) p) as [[a|n]|]; [reflexivity| |reflexivity].
  destruct (mine p) eqn:M; eexists; (split; [reflexivity|]); [reflexivity|discriminate].
Qed.
(** ** Refutation: a row of a class with a nested field is half replaced by a value of the class of
    that field, and nothing is raised.  [holder]: a number and a [cell] *)
Definition holder : class := (CCons "n" (Prim (DUInt 8) [] None false 0%Z) (CCons "at" (Nest cell []) CNil))%string.
Definition holders (s : list nat) (ids : list Z) : obj := (OCons "n" (VArr (arr8 s ids)) (OCons "at" (VObj (cells s ids)) ONil))%string.
Definition is_at (p : list string) : bool := match p with [n] => String.eqb n "at" | _ => false end.
Theorem C86_foreign_is_torn_refuted :
  batched holder [3] (holders [3] [1; 2; 3]%Z) /\ batched cell [] (cells [] [9]%Z) /\
  let o' := obj_at_set_instance is_at (iscal 1) (holders [3] [1; 2; 3]%Z) (cells [] [9]%Z) in
  batched holder [3] o' /\ elem [1] o' = (OCons "n" (VArr (arr8 [] [2]%Z)) (OCons "at" (VObj (cells [] [9]%Z)) ONil))%string /\
  elem [0] o' = elem [0] (holders [3] [1; 2; 3]%Z) /\ elem [2] o' = elem [2] (holders [3] [1; 2; 3]%Z).
Proof. split; [split; cbn; unfold wfa; cbn; auto 12|]. split; [split; cbn; unfold wfa; cbn; auto 12|]. cbn zeta. split; [split; vm_compute; auto 12|]. split; [reflexivity|]. split; reflexivity. Qed.
Example C86_foreign_case : not_before is_at [] ["at"%string] /\ is_at ["at"%string] = true /\ ~ not_before is_at [] ["at"; "id"]%string /\ not_before is_at [] ["n"%string].
Proof.
  split; [|split; [reflexivity|split]].
  - intros a b E Hb. destruct a as [|x a]; [reflexivity|]. destruct a; [destruct b; [congruence|discriminate]|destruct a; discriminate].
  - intros H. specialize (H ["at"%string] ["id"%string] eq_refl ltac:(discriminate)). discriminate.
  - intros a b E Hb. destruct a as [|x a]; [reflexivity|]. destruct a; [destruct b; [congruence|discriminate]|destruct a; discriminate].
Qed.
Print Assumptions C86_own_class. Print Assumptions C86_foreign_is_silent. Print Assumptions C86_foreign. Print Assumptions C86_foreign_condition. Print Assumptions C86_foreign_is_torn_refuted.
