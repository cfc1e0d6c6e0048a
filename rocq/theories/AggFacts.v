(** * AggFacts.v — the rows of a packed batch are the packed elements. *)
From Coq Require Import String.
From Verif Require Import Jax HashModel HashProofs BitpackModel BitpackSpec BitpackProofs BitpackAgg StructModel ArrayModel ArrayFacts ShapeModel PropShape RowsModel RowsLift PropRows AggModel AggKernel.

(** an element of StructModel.v as an instance of BitpackModel.v *)
Fixpoint v_inst (v : value) : ifield := match v with VArr a => ILeaf (map u32 (adata a)) | VObj o => INested (obj_inst o) end
with obj_inst (o : obj) : instance := match o with ONil => INil | OCons n v r => ICons n (v_inst v) (obj_inst r) end.

Lemma obj_list_ind (P : obj -> Prop) : P ONil -> (forall n v r, P r -> P (OCons n v r)) -> forall o, P o.
Proof. intros H0 H1. fix IH 1. intros [|n v r]; [exact H0|apply H1, IH]. Qed.
Lemma get_attr_inst o n : get_attr (obj_inst o) n = option_map v_inst (get_attr_o o n).
Proof. induction o as [|m v r IH] using obj_list_ind; [reflexivity|]. cbn. destruct (String.eqb n m); [reflexivity|exact IH]. Qed.
Lemma get_path_inst p : forall v, get_path (v_inst v) p = option_map v_inst (get_path_v v p).
Proof.
  induction p as [|n p IH]; intros v; [reflexivity|]. destruct v as [a|o]; [reflexivity|]. cbn [get_path get_path_v v_inst]. rewrite get_attr_inst.
  destruct (get_attr_o o n) as [w|]; [apply IH|reflexivity].
Qed.
Lemma get_attr_elem b o n : get_attr_o (elem b o) n = option_map (elem_v b) (get_attr_o o n).
Proof. induction o as [|m v r IH] using obj_list_ind; [reflexivity|]. cbn. destruct (String.eqb n m); [reflexivity|exact IH]. Qed.
Lemma get_path_elem b p : forall v, get_path_v (elem_v b v) p = option_map (elem_v b) (get_path_v v p).
Proof.
  induction p as [|n p IH]; intros v; [reflexivity|]. destruct v as [a|o]; [reflexivity|]. cbn [get_path_v elem_v]. rewrite get_attr_elem.
  destruct (get_attr_o o n) as [w|]; [apply IH|reflexivity].
Qed.
Lemma get_path_v_app root p q : get_path_v root (p ++ q) = match get_path_v root p with Some f => get_path_v f q | None => None end.
Proof.
  revert root. induction p as [|n p IH]; intros root; [reflexivity|]. cbn [app get_path_v].
  destruct root as [v|i]; [reflexivity|]. destruct (get_attr_o i n); [apply IH|reflexivity].
Qed.
(** the array of every leaf *)
Definition leaf_array (root : value) (B : list nat) (s : leafspec) : Prop :=
  exists a ish, get_path_v root (lpath s) = Some (VArr a) /\ wfa a /\ ashape a = (B ++ ish)%list /\ prod ish = lnvalues s.
Lemma walk_arrays root B :
  (forall d f v prefix off, agg_d d = Some f -> conforms_v d v -> has_v B d v -> good_field f -> get_path_v root prefix = Some v ->
     Forall (leaf_array root B) (fst (walk_field prefix off f))) /\
  (forall c fs o prefix off, agg_c c = Some fs -> conforms c o -> has_batch B c o -> good_class fs ->
     (forall n x, In n (BitpackSpec.names fs) -> get_attr_o o n = Some x -> get_path_v root (prefix ++ [n]) = Some x) ->
     Forall (leaf_array root B) (fst (walk prefix off fs))).
Proof.
  apply desc_class_ind.
  - intros dt ish [b|] pb fill f [a|o] prefix off E HC HB HG HP; try contradiction; try discriminate. cbn in E. injection E as <-. cbn in *. constructor; [|constructor].
    exists a, ish. cbn. repeat split; auto. apply HC.
  - intros c IH [|] f [a|o] prefix off E HC HB HG HP; try contradiction; cbn [agg_d] in E; try discriminate. destruct (agg_c c) as [fs|] eqn:EC; [|discriminate]. injection E as <-.
    cbn [walk_field conforms_v has_v good_field] in *. rewrite app_nil_r in HB. apply (IH fs o); auto. intros n x _ HA. rewrite get_path_v_app, HP. cbn [get_path_v]. now rewrite HA.
  - intros fs o prefix off E _ _ _ _. cbn in E. injection E as <-. constructor.
  - intros n d IHd r IHr fs o prefix off E HC HB HG HP. cbn [agg_c] in E. destruct (agg_d d) as [f|] eqn:ED; [|discriminate]. destruct (agg_c r) as [fr|] eqn:ER; [|discriminate]. injection E as <-.
    destruct o as [|m v q]; [contradiction|]. cbn [conforms has_batch good_class] in *. destruct HC as (<- & C1 & C2), HB as (_ & B1 & B2), HG as (G1 & G2 & G3). cbn [walk].
    assert (HPV : get_path_v root (prefix ++ [n]) = Some v).
    { apply (HP n v); [now left|]. cbn. now rewrite String.eqb_refl. }
    pose proof (IHd f v (prefix ++ [n])%list off eq_refl C1 B1 G2 HPV) as K1. destruct (walk_field (prefix ++ [n]) off f) as [s1 off1].
    assert (HPR : forall n0 x0, In n0 (BitpackSpec.names fr) -> get_attr_o q n0 = Some x0 -> get_path_v root (prefix ++ [n0]) = Some x0).
    { intros n0 x0 Hin Ha. apply HP; [now right|]. cbn. destruct (String.eqb_spec n0 n) as [->|_]; [contradiction|exact Ha]. }
    pose proof (IHr fr q prefix off1 eq_refl C2 B2 G3 HPR) as K2. destruct (walk prefix off1 fr) as [s2 off2]. cbn [fst] in *. apply Forall_app. now split.
Qed.
Lemma agg_is_instance :
  (forall d f v, agg_d d = Some f -> conforms_v d v -> has_v [] d v -> is_field f (v_inst v)) /\
  (forall c fs o, agg_c c = Some fs -> conforms c o -> has_batch [] c o -> is_instance fs (obj_inst o)).
Proof.
  apply desc_class_ind.
  - intros dt ish [b|] pb fill f [a|o] E HC HB; try contradiction; try discriminate. cbn in E. injection E as <-. cbn in *. rewrite map_length. destruct HC as [_ ->]. now rewrite HB.
  - intros c IH [|] f [a|o] E HC HB; try contradiction; cbn [agg_d] in E; try discriminate. destruct (agg_c c) as [fs|] eqn:EC; [|discriminate]. injection E as <-.
    cbn [conforms_v has_v] in *. rewrite app_nil_r in HB. now apply (IH fs o).
  - intros fs [|] E HC HB; try contradiction. cbn in E. injection E as <-. constructor.
  - intros n d IHd r IHr fs o E HC HB. cbn [agg_c] in E. destruct (agg_d d) as [f|] eqn:ED; [|discriminate]. destruct (agg_c r) as [fr|] eqn:ER; [|discriminate]. injection E as <-.
    destruct o as [|m v q]; [contradiction|]. cbn [conforms has_batch] in *. destruct HC as (<- & C1 & C2), HB as (_ & B1 & B2). cbn. split; [reflexivity|]. split; [now apply IHd|now apply IHr].
Qed.

(** ** Slices *)
Lemma nth_chunks {A} (k : nat) : forall n (l : list A) r, r < n -> nth r (chunks n k l) [] = firstn k (skipn (r * k) l).
Proof.
  induction n as [|n IH]; intros l r Hr; [lia|]. destruct r as [|r]; [reflexivity|]. cbn [chunks nth]. rewrite IH by lia. f_equal. cbn [Nat.mul]. generalize (r * k). clear. intros m. revert l.
  induction k as [|k IH]; intros l; [reflexivity|]. destruct l as [|x l]; [now rewrite !skipn_nil|]. cbn [skipn Nat.add]. apply IH.
Qed.
Lemma chunks_length {A} k : forall n (l : list A), length (chunks n k l) = n.
Proof. induction n as [|n IH]; intros l; cbn; auto. Qed.
Lemma concat_chunks {A} k : forall n (l : list A), length l = n * k -> concat (chunks n k l) = l.
Proof.
  induction n as [|n IH]; intros l HL; [destruct l; [reflexivity|discriminate]|]. cbn [chunks concat]. rewrite IH; [apply firstn_skipn|]. rewrite skipn_length. cbn in HL. lia.
Qed.
Lemma chunks_flat_map {A} (g : nat -> list A) k : (forall r, length (g r) = k) -> forall n m, chunks n k (flat_map g (seq m n)) = map g (seq m n).
Proof.
  intros HG. induction n as [|n IH]; intros m; [reflexivity|]. cbn [seq flat_map chunks map].
  assert (E1 : firstn k (g m ++ flat_map g (seq (S m) n)) = g m) by (rewrite firstn_app, (HG m), Nat.sub_diag; cbn [firstn]; rewrite app_nil_r; apply firstn_all2; rewrite (HG m); lia).
  assert (E2 : skipn k (g m ++ flat_map g (seq (S m) n)) = flat_map g (seq (S m) n)) by (rewrite skipn_app, (HG m), Nat.sub_diag, skipn_all2 by (rewrite (HG m); lia); reflexivity).
  rewrite E1, E2, IH. reflexivity.
Qed.
Lemma sub_data b a B ish : wfa a -> ashape a = (B ++ ish)%list -> inb b B ->
  adata (sub b a) = firstn (prod ish) (skipn (ravel B b * prod ish) (adata a)).
Proof.
  intros W ES Hb. pose proof (inb_length _ _ Hb) as HL. pose proof (ravel_lt _ _ Hb) as HR. unfold sub, build. cbn [adata]. rewrite ES, HL, skipn_app, skipn_all, Nat.sub_diag. cbn [skipn app].
  assert (HD : length (adata a) = prod B * prod ish) by (rewrite W, ES; apply prod_app).
  assert (HB : ravel B b * prod ish + prod ish <= prod B * prod ish) by nia.
  apply (nth_ext _ _ 0%Z 0%Z).
  - rewrite map_length, seq_length, firstn_length, skipn_length. lia.
  - intros k Hk. rewrite map_length, seq_length in Hk. rewrite (nth_indep _ _ (get a (b ++ unravel ish 0))) by (rewrite map_length, seq_length; exact Hk).
    rewrite (map_nth (fun k => get a (b ++ unravel ish k))), seq_nth by exact Hk. unfold get. rewrite ES, ravel_app by exact HL. cbn [Nat.add]. rewrite ravel_unravel by exact Hk.
    assert (E : forall (l : list Z) m j d, nth (m + j) l d = nth j (skipn m l) d).
    { clear. intros l m. revert l. induction m as [|m IH]; intros l j d; [reflexivity|]. destruct l as [|x l]; [cbn; now destruct j|]. apply IH. }
    rewrite E. set (t := skipn (ravel B b * prod ish) (adata a)). transitivity (nth k (firstn (prod ish) t ++ skipn (prod ish) t) 0%Z); [now rewrite firstn_skipn|]. apply app_nth1. unfold t. rewrite firstn_length, skipn_length. lia.
Qed.
Lemma w32_u32 z : w32 (u32 z) = u32 z.
Proof.
  unfold w32, u32. apply N.mod_small. change W32 with (Z.to_N (2 ^ 32)). pose proof (Z.mod_pos_bound z (2 ^ 32) ltac:(lia)). apply Z2N.inj_lt; lia.
Qed.
Lemma seq_opt_map {X Y} (f : X -> option Y) (g : X -> Y) l : (forall s, In s l -> f s = Some (g s)) -> seq_opt (map f l) = Some (map g l).
Proof. induction l as [|x l IH]; intros H; [reflexivity|]. cbn. rewrite H by (now left). rewrite IH by (intros; apply H; now right). reflexivity. Qed.
Lemma flat_map_map {X Y Z0} (f : X -> Y) (g : Y -> list Z0) l : flat_map g (map f l) = flat_map (fun x => g (f x)) l.
Proof. induction l as [|x l IH]; [reflexivity|]. cbn. now rewrite IH. Qed.
Lemma flat_map_ext_in {X Y} (f g : X -> list Y) l : (forall x, In x l -> f x = g x) -> flat_map f l = flat_map g l.
Proof. induction l as [|x l IH]; intros H; [reflexivity|]. cbn. rewrite H by (now left). f_equal. apply IH. intros y Hy. apply H. now right. Qed.
