(** * PropRows6.v — property C52 (second part): vstack, hstack, dstack, column_stack, atleast_*,
    and the whole-array variants. *)
From Coq Require Import String.
From Verif Require Import Jax StructModel ArrayModel ArrayFacts ShapeModel PropShape RowsModel RowsLift PropRows PropRows2 PropRows3 PropRows4 EqModel RowsModel2 PropRows5.

Lemma prod1 n : prod [n] = n.
Proof. unfold prod. cbn. lia. Qed.
(** ** Joining along an axis *)
(** the instance [o'] is the inputs joined along batch axis [k]: element [b] of the [j]-th
    input is the element of [o'] whose [k]-th index is shifted by the sizes of the inputs
    before it, and [o'] has no other elements *)
Definition joined (c : class) (k : nat) (B : list nat) (ns : list nat) (os : list obj) (o' : obj) : Prop :=
  batched c (upd k (list_sum ns) B) o' /\
  (forall j b, j < length os -> inb b (upd k (nth j ns 0) B) -> elem (upd k (list_sum (firstn j ns) + nth k b 0) b) o' = elem b (nth j os ONil)) /\
  (forall b', inb b' (upd k (list_sum ns) B) -> exists j b, j < length os /\ inb b (upd k (nth j ns 0) B) /\ b' = upd k (list_sum (firstn j ns) + nth k b 0) b).
(** the instance [o'] is the inputs stacked along a new batch axis [k] *)
Definition stacked (c : class) (k : nat) (B : list nat) (os : list obj) (o' : obj) : Prop :=
  batched c (insert k (length os) B) o' /\ forall j b, j < length os -> inb b B -> elem (insert k j b) o' = elem b (nth j os ONil).

Lemma rowwise_on_ext (PI : list nat -> Prop) f g Bs B' src fl : (forall dt I l, PI I -> row_args dt I l Bs -> f l = g l) -> rowwise_on PI g Bs B' src fl -> rowwise_on PI f Bs B' src fl.
Proof. intros HE [H1 H2]. split; [exact H1|]. intros dt J l HP RA. rewrite (HE dt J l HP RA). now apply H2. Qed.
Lemma rowwise_on_weaken (PI : list nat -> Prop) f Bs B' src fl : rowwise f Bs B' src fl -> rowwise_on PI f Bs B' src fl.
Proof. intros [H1 H2]. split; [exact H1|]. intros dt J l _ RA. now apply H2. Qed.
Lemma join_lift (PI : list nat -> Prop) f c B k ns os : shapes PI [] c -> ns <> [] -> k < length B ->
  (forall dt I l, PI I -> row_args dt I l (map (fun n => upd k n B) ns) -> f l = a_concat (Z.of_nat k) l) ->
  Forall2 (fun o n => batched c (upd k n B) o) os ns -> exists o', tree_mapn f os = Some o' /\ joined c k B ns os o'.
Proof.
  intros HSH HNE Hk HE HO. pose proof (Forall2_len _ _ _ HO) as LO.
  assert (HA : Forall2 (fun o B => batched c B o) os (map (fun n => upd k n B) ns)) by (clear - HO; induction HO; constructor; auto).
  assert (HNTH : forall n, nth k (upd k n B) 0 = n) by (intros n; rewrite nth_upd by exact Hk; now rewrite Nat.eqb_refl).
  pose proof (rowwise_on_ext PI f _ _ _ _ _ HE (rowwise_on_weaken PI _ _ _ _ _ (rowwise_concat B k ns HNE Hk))) as HR.
  destruct (lift_many_on _ _ _ _ _ _ c os HR HSH) as (o' & E1 & E2 & E3 & E4); [destruct ns; [congruence|discriminate]|exact HA|].
  exists o'. split; [exact E1|]. split; [split; assumption|]. split.
  - intros j b Hj Hb. pose proof (inb_length _ _ Hb) as LB. rewrite upd_length in LB. rewrite LO in Hj.
    pose proof (inb_nth _ _ k Hb) as HBK. rewrite upd_length, HNTH in HBK. specialize (HBK Hk). pose proof (nth_le_sum j ns (nth k b 0) Hj HBK) as HLT.
    rewrite E4 by (eapply inb_upd; [exact Hk|exact Hb|exact HLT]). rewrite nth_upd by lia. rewrite Nat.eqb_refl, locate_offset by assumption. rewrite upd_upd, upd_same by lia. reflexivity.
  - intros b' Hb. pose proof (inb_length _ _ Hb) as LB. rewrite upd_length in LB. pose proof (inb_nth _ _ k Hb) as HBK. rewrite upd_length, HNTH in HBK. specialize (HBK Hk).
    destruct (locate_lt ns _ HBK) as [L1 [L2 L3]]. exists (fst (locate ns (nth k b' 0))), (upd k (snd (locate ns (nth k b' 0))) b'). rewrite LO. split; [exact L1|]. split; [eapply inb_upd; eauto|].
    rewrite nth_upd by lia. rewrite Nat.eqb_refl, <- L3, upd_upd. symmetry. apply upd_same. lia.
Qed.
Lemma map_id_in {X} (f : X -> X) l : (forall x, In x l -> f x = x) -> map f l = l.
Proof. intros H. rewrite <- (map_id l) at 2. apply map_ext_in, H. Qed.
Lemma row_args_shape dt J l Bs a : row_args dt J l Bs -> In a l -> exists B, In B Bs /\ ashape a = B ++ J.
Proof.
  intros HA. induction HA as [|x B l Bs (H1 & H2 & H3) HA IH]; intros Ha; [destruct Ha|]. destruct Ha as [<-|Ha]; [exists B; split; [now left|exact H2]|].
  destruct (IH Ha) as (B2 & K1 & K2). exists B2. split; [now right|exact K2].
Qed.
Lemma args_ndim dt J l k B ns a : row_args dt J l (map (fun n => upd k n B) ns) -> In a l -> ndim a = length B + length J.
Proof.
  intros HA Ha. destruct (row_args_shape _ _ _ _ _ HA Ha) as (B2 & H1 & H2). apply in_map_iff in H1. destruct H1 as (n & <- & _). unfold ndim. now rewrite H2, app_length, upd_length.
Qed.
Lemma atleast_2d_id a : 2 <= ndim a -> a_atleast_2d a = a.
Proof. unfold ndim, a_atleast_2d. destruct (ashape a) as [|? [|? ?]]; cbn; intros; [lia..|reflexivity]. Qed.
Lemma atleast_1d_id a : 1 <= ndim a -> a_atleast_1d a = a.
Proof. unfold ndim, a_atleast_1d. destruct (ashape a) as [|? ?]; cbn; intros; [lia..|reflexivity]. Qed.
Lemma atleast_3d_id a : 3 <= ndim a -> a_atleast_3d a = a.
Proof. unfold ndim, a_atleast_3d. destruct (ashape a) as [|? [|? [|? ?]]]; cbn; intros; [lia..|reflexivity]. Qed.
Lemma column_id a : 2 <= ndim a -> a_column a = a.
Proof. unfold ndim, a_column. destruct (ashape a) as [|? [|? ?]]; cbn; intros; [lia..|reflexivity]. Qed.
Definition tensor_leaves (c : class) : Prop := shapes (fun I => I <> []) [] c.

Lemma shapes_impl (P Q : list nat -> Prop) : (forall J, P J -> Q J) -> forall c J, shapes P J c -> shapes Q J c.
Proof.
  intros H. assert (HA : (forall d J, shapes_d P J d -> shapes_d Q J d) /\ (forall c J, shapes P J c -> shapes Q J c)); [|exact (proj2 HA)].
  apply desc_class_ind; cbn; intros; auto. intuition.
Qed.

(** vstack joins along the first batch axis, when the batch has two axes or every field of
    an element has an axis of its own *)
Theorem C52_vstack : forall c B ns os, ns <> [] -> 2 <= length B \/ (length B = 1 /\ tensor_leaves c) ->
  Forall2 (fun o n => batched c (upd 0 n B) o) os ns -> exists o', obj_vstack os = Some o' /\ joined c 0 B ns os o'.
Proof.
  intros c B ns os HNE HD HO. unfold obj_vstack.
  apply (join_lift (fun J => 2 <= length B + length J)); [|exact HNE|destruct HD; lia| |exact HO].
  - destruct HD as [HD|[HD HT]].
    + apply (shapes_impl (fun _ => True)); [intros; lia|apply shapes_True].
    + apply (shapes_impl (fun J => J <> [])); [|exact HT]. intros [|x J] HJ; [congruence|cbn; lia].
  - intros dt J l HP RA. unfold a_vstack. rewrite map_id_in; [reflexivity|]. intros a Ha. apply atleast_2d_id. rewrite (args_ndim _ _ _ _ _ _ _ RA Ha). exact HP.
Qed.
(** hstack joins along the second batch axis, and column_stack too *)
Theorem C52_hstack : forall c B ns os, ns <> [] -> 2 <= length B ->
  Forall2 (fun o n => batched c (upd 1 n B) o) os ns -> exists o', obj_hstack os = Some o' /\ joined c 1 B ns os o'.
Proof.
  intros c B ns os HNE HD HO. unfold obj_hstack. apply (join_lift (fun _ => True)); [apply shapes_True|exact HNE|lia| |exact HO].
  intros dt J l _ RA. unfold a_hstack. rewrite map_id_in; [|intros a Ha; apply atleast_1d_id; rewrite (args_ndim _ _ _ _ _ _ _ RA Ha); lia].
  destruct l as [|a l]; [reflexivity|]. rewrite (args_ndim _ _ _ _ _ _ _ RA (or_introl eq_refl)). destruct (Nat.eqb_spec (length B + length J) 1); [lia|reflexivity].
Qed.
Theorem C52_column_stack : forall c B ns os, ns <> [] -> 2 <= length B ->
  Forall2 (fun o n => batched c (upd 1 n B) o) os ns -> exists o', obj_column_stack os = Some o' /\ joined c 1 B ns os o'.
Proof.
  intros c B ns os HNE HD HO. unfold obj_column_stack. apply (join_lift (fun _ => True)); [apply shapes_True|exact HNE|lia| |exact HO].
  intros dt J l _ RA. unfold a_column_stack. rewrite map_id_in; [reflexivity|]. intros a Ha; apply column_id; rewrite (args_ndim _ _ _ _ _ _ _ RA Ha); lia.
Qed.
(** dstack joins along the third batch axis *)
Theorem C52_dstack : forall c B ns os, ns <> [] -> 3 <= length B ->
  Forall2 (fun o n => batched c (upd 2 n B) o) os ns -> exists o', obj_dstack os = Some o' /\ joined c 2 B ns os o'.
Proof.
  intros c B ns os HNE HD HO. unfold obj_dstack. apply (join_lift (fun _ => True)); [apply shapes_True|exact HNE|lia| |exact HO].
  intros dt J l _ RA. unfold a_dstack. rewrite map_id_in; [reflexivity|]. intros a Ha; apply atleast_3d_id; rewrite (args_ndim _ _ _ _ _ _ _ RA Ha); lia.
Qed.
(** ** One batch axis and scalar fields *)
Lemma reshape_lift f pre c n B1 k os : scalar_leaves c -> os <> [] -> k < length B1 -> nth k B1 0 = 0 ->
  (forall l, f l = a_concat (Z.of_nat k) (map pre l)) ->
  (forall a, ashape a = [n] -> pre a = as_shape (upd k 1 B1) a) ->
  prod (upd k 1 B1) = n -> (forall i b, inb b (upd k i B1) -> ravel (upd k 1 B1) (upd k 0 b) < n) ->
  (forall o, In o os -> batched c [n] o) ->
  exists o', tree_mapn f os = Some o' /\ batched c (upd k (length os) B1) o' /\
    forall b, inb b (upd k (length os) B1) -> elem b o' = elem [ravel (upd k 1 B1) (upd k 0 b)] (nth (nth k b 0) os ONil).
Proof.
  intros HSL HNE Hk H0 HF HP HPR HRV HO. set (m := length os).
  assert (HSUM : list_sum (repeat 1 m) = m) by (generalize m; clear; intros q; induction q as [|q IH]; [reflexivity|]; cbn [repeat]; change (list_sum (1 :: repeat 1 q)) with (1 + list_sum (repeat 1 q)); lia).
  assert (HLOC : forall j, j < m -> locate (repeat 1 m) j = (j, 0)).
  { intros j Hj. replace j with (list_sum (firstn j (repeat 1 m)) + 0) at 1.
    - apply locate_offset; [rewrite repeat_length; exact Hj|rewrite nth_repeat_lt by exact Hj; lia].
    - clear - Hj. revert Hj. generalize m. induction j as [|j IH]; intros [|q] Hj; cbn [firstn repeat]; [cbn; lia..|]. change (list_sum (1 :: firstn j (repeat 1 q))) with (1 + list_sum (firstn j (repeat 1 q))). specialize (IH q ltac:(lia)). lia. }
  assert (HNE1 : repeat 1 m <> []) by (unfold m; destruct os; [congruence|discriminate]).
  destruct (rowwise_concat B1 k (repeat 1 m) HNE1 Hk) as [C1 C2]. rewrite HSUM in *.
  assert (HR : rowwise_on (fun J => J = []) f (repeat [n] m) (upd k m B1) (fun b => Some (nth k b 0, [ravel (upd k 1 B1) (upd k 0 b)])) nofill).
  { split.
    - intros b Hb. rewrite repeat_length. pose proof (inb_nth _ _ k Hb) as HBK. rewrite upd_length, nth_upd, Nat.eqb_refl in HBK by exact Hk. specialize (HBK Hk). split; [exact HBK|]. rewrite nth_repeat_lt by exact HBK.
      constructor; [|constructor]. now apply (HRV m).
    - intros dt J l -> RA. rewrite HF.
      assert (RA' : row_args dt [] (map pre l) (map (fun n => upd k n B1) (repeat 1 m))).
      { clear - RA HP HPR. unfold row_args in *. revert RA. generalize m. intros q. revert l. induction q as [|q IH]; intros l RA; inversion RA; subst; cbn [repeat map]; constructor.
        - match goal with H : _ /\ _ /\ _ |- _ => destruct H as (A1 & A2 & A3) end. cbn [app] in A2. rewrite HP by exact A2. unfold as_shape. cbn. unfold wfa in *. cbn. rewrite app_nil_r. repeat split; [exact A1|]. rewrite A3, A2. cbn. unfold prod at 1. cbn. lia.
        - now apply IH. }
      destruct (C2 dt [] (map pre l) Logic.I RA') as (a' & E1 & E2 & E3 & E4 & E5). exists a'. split; [exact E1|]. split; [exact E2|]. split; [exact E3|]. split; [exact E4|].
      intros b t dflt Hb Ht. rewrite (E5 b t (pre dflt) Hb Ht). pose proof (inb_nth _ _ k Hb) as HBK. rewrite upd_length, nth_upd, Nat.eqb_refl in HBK by exact Hk. specialize (HBK Hk). rewrite HLOC by exact HBK.
      inversion Ht; subst. rewrite !app_nil_r. rewrite map_nth. pose proof (Forall2_len _ _ _ RA) as LL. rewrite repeat_length in LL.
      pose proof (Forall2_nth _ _ _ (nth k b 0) dflt [] RA ltac:(lia)) as HX. cbn beta in HX. rewrite nth_repeat_lt in HX by exact HBK. destruct HX as (X1 & X2 & X3). cbn [app] in X2.
      rewrite HP by exact X2. unfold get, as_shape. cbn [ashape adata]. rewrite X2. f_equal. cbn [ravel]. unfold prod at 1. cbn [fold_right]. lia. }
  destruct (lift_many_on _ _ _ _ _ _ c os HR HSL) as (o' & E1 & E2 & E3 & E4).
  - unfold m. destruct os; [congruence|discriminate].
  - unfold m. clear - HO. induction os as [|x os IH]; [constructor|]. cbn [length repeat]. constructor; [apply HO; now left|]. apply IH. intros; apply HO; now right.
  - exists o'. split; [exact E1|]. split; [split; assumption|]. exact E4.
Qed.
(** with scalar fields only, vstack of batches of one axis stacks them as rows, column_stack as
    columns, and hstack joins them *)
Theorem C52_vstack_scalar : forall c n os, scalar_leaves c -> os <> [] -> (forall o, In o os -> batched c [n] o) ->
  exists o', obj_vstack os = Some o' /\ stacked c 0 [n] os o'.
Proof.
  intros c n os HSL HNE HO. destruct (reshape_lift a_vstack a_atleast_2d c n [0; n] 0 os HSL HNE ltac:(cbn; lia) eq_refl (fun _ => eq_refl)) as (o' & E1 & E2 & E3).
  - intros a Ha. unfold a_atleast_2d. rewrite Ha. reflexivity.
  - cbn. unfold prod. cbn. lia.
  - intros i b Hb. inversion Hb as [|x ? y ? H1 H2]; subst. inversion H2 as [|z ? w ? H3 H4]; subst. inversion H4; subst. cbn. unfold prod; cbn. lia.
  - exact HO.
  - exists o'. split; [exact E1|]. split; [exact E2|]. intros j b Hj Hb. inversion Hb as [|x ? y ? H1 H2]; subst. inversion H2; subst.
    rewrite E3 by (cbn; constructor; [exact Hj|constructor; [exact H1|constructor]]). cbn. do 2 f_equal. unfold prod; cbn. lia.
Qed.
Theorem C52_column_stack_scalar : forall c n os, scalar_leaves c -> os <> [] -> (forall o, In o os -> batched c [n] o) ->
  exists o', obj_column_stack os = Some o' /\ stacked c 1 [n] os o'.
Proof.
  intros c n os HSL HNE HO. destruct (reshape_lift a_column_stack a_column c n [n; 0] 1 os HSL HNE ltac:(cbn; lia) eq_refl (fun _ => eq_refl)) as (o' & E1 & E2 & E3).
  - intros a Ha. unfold a_column. rewrite Ha. reflexivity.
  - cbn. unfold prod. cbn. lia.
  - intros i b Hb. inversion Hb as [|x ? y ? H1 H2]; subst. inversion H2 as [|z ? w ? H3 H4]; subst. inversion H4; subst. cbn. unfold prod; cbn. lia.
  - exact HO.
  - exists o'. split; [exact E1|]. split; [exact E2|]. intros j b Hj Hb. inversion Hb as [|x ? y ? H1 H2]; subst. inversion H2; subst.
    rewrite E3 by (cbn; constructor; [exact H1|constructor; [exact Hj|constructor]]). cbn. do 2 f_equal. unfold prod; cbn. lia.
Qed.
Theorem C52_hstack_scalar : forall c ns os, scalar_leaves c -> ns <> [] -> Forall2 (fun o n => batched c [n] o) os ns ->
  exists o', obj_hstack os = Some o' /\ joined c 0 [0] ns os o'.
Proof.
  intros c ns os HSL HNE HO. unfold obj_hstack. apply (join_lift (fun J => J = [])); [exact HSL|exact HNE|cbn; lia| |].
  - intros dt J l -> RA. assert (HN : forall a, In a l -> ndim a = 1) by (intros a Ha; rewrite (args_ndim _ _ _ _ _ _ _ RA Ha); reflexivity).
    unfold a_hstack. rewrite map_id_in; [|intros a Ha; apply atleast_1d_id; rewrite (HN a Ha); lia].
    destruct l as [|a l]; [reflexivity|]. rewrite (HN a (or_introl eq_refl)). reflexivity.
  - exact HO.
Qed.

(** ** Whole-array variants on classes whose fields are scalar per element *)
Definition scalarwise (f : array -> option array) (B B' : list nat) (src : list nat -> option (list nat)) (fl : dtype -> Z) : Prop :=
  (forall b', inb b' B' -> match src b' with Some b => inb b B | None => True end) /\
  forall a, ashape a = B -> wfa a -> exists a', f a = Some a' /\ adtype a' = adtype a /\ ashape a' = B' /\ wfa a' /\
    forall b', inb b' B' -> get a' b' = match src b' with Some b => get a b | None => fl (adtype a) end.
Lemma lift_scalar f B B' src fl c o : scalar_leaves c -> scalarwise f B B' src fl -> batched c B o ->
  exists o', tree_map1 f o = Some o' /\ batched c B' o' /\ forall b', inb b' B' -> elem b' o' = match src b' with Some b => elem b o | None => const_obj fl [] c end.
Proof.
  intros HSL [H1 H2] [HC HB].
  destruct (lift_many_on (fun J => J = []) (one f) [B] B' (fun b' => option_map (fun b => (0, b)) (src b')) fl c [o]) as (o' & E1 & E2 & E3 & E4).
  - split.
    + intros b' Hb. specialize (H1 b' Hb). destruct (src b'); cbn; [split; [lia|exact H1]|exact Logic.I].
    + intros dt J l -> HA. inversion HA as [|a B0 l' Bs' (A1 & A2 & A3) HA']; subst. inversion HA'; subst. rewrite app_nil_r in A2.
      destruct (H2 a A2 A3) as (a' & F1 & F2 & F3 & F4 & F5). exists a'. cbn [one]. rewrite app_nil_r. split; [exact F1|]. split; [exact F2|]. split; [exact F3|]. split; [exact F4|].
      intros b' t dflt Hb Ht. inversion Ht; subst. rewrite app_nil_r, (F5 b' Hb). destruct (src b'); cbn [option_map nth]; [now rewrite app_nil_r|reflexivity].
  - exact HSL.
  - discriminate.
  - repeat constructor; auto.
  - exists o'. split; [exact E1|]. split; [split; assumption|]. intros b' Hb. rewrite (E4 b' Hb). destruct (src b'); reflexivity.
Qed.
Lemma scalarwise_build f B B' src fl (F : array -> list nat -> Z) :
  (forall b', inb b' B' -> match src b' with Some b => inb b B | None => True end) ->
  (forall a, ashape a = B -> wfa a -> f a = Some (build (adtype a) B' (F a))) ->
  (forall a b', ashape a = B -> wfa a -> inb b' B' -> F a b' = match src b' with Some b => get a b | None => fl (adtype a) end) -> scalarwise f B B' src fl.
Proof.
  intros H1 H2 H3. split; [exact H1|]. intros a Hs Hw. exists (build (adtype a) B' (F a)). split; [now apply H2|]. split; [reflexivity|]. split; [reflexivity|]. split; [apply build_wfa|].
  intros b' Hb. rewrite get_build by exact Hb. now apply H3.
Qed.
(** reinterpreting the shape of the arrays keeps the elements in row-major order *)
Lemma scalarwise_shape f B B' : prod B' = prod B -> (forall a, ashape a = B -> f a = Some (as_shape B' a)) ->
  scalarwise f B B' (fun b' => Some (unravel B (ravel B' b'))) nofill.
Proof.
  intros HP HF. split.
  - intros b' Hb. apply unravel_inb. rewrite <- HP. now apply ravel_lt.
  - intros a Hs Hw. exists (as_shape B' a). split; [now apply HF|]. split; [reflexivity|]. split; [reflexivity|]. split; [unfold wfa, as_shape in *; cbn; rewrite Hw, Hs; auto|].
    intros b' Hb. unfold get, as_shape. cbn [ashape adata]. rewrite Hs, ravel_unravel; [reflexivity|]. rewrite <- HP. now apply ravel_lt.
Qed.
Lemma bcast_src_inb s t b : bcast_ok s (skipn (length t - length s) t) = true -> length s <= length t -> inb b t -> inb (bcast_src s b) s.
Proof.
  intros H1 H2 Hb. unfold bcast_src. rewrite (inb_length _ _ Hb). pose proof (inb_skipn (length t - length s) _ _ Hb) as HI. revert H1 HI.
  generalize (skipn (length t - length s) b). generalize (skipn (length t - length s) t). clear. induction s as [|d s IH]; intros [|e t] b H1 HI; cbn in H1; try discriminate; [constructor|].
  inversion HI; subst. apply andb_true_iff in H1. destruct H1 as [H1 H2]. cbn [combine map fst snd]. constructor; [|now apply (IH t)].
  destruct (Nat.eqb_spec d 1); [lia|]. rewrite orb_false_r in H1. apply Nat.eqb_eq in H1; lia.
Qed.
(** broadcast_to copies the element the broadcasting rules select *)
Theorem C52_broadcast_to : forall c B o s, scalar_leaves c -> batched c B o -> length B <= length s -> bcast_ok B (skipn (length s - length B) s) = true ->
  exists o', obj_broadcast_to s o = Some o' /\ batched c s o' /\ forall b, inb b s -> elem b o' = elem (bcast_src B b) o.
Proof.
  intros c B o s HSL HB HL HO. destruct (lift_scalar (a_broadcast_to s) B s (fun b => Some (bcast_src B b)) nofill c o HSL) as (o' & E1 & E2 & E3); [|exact HB|exists o'; auto].
  apply (scalarwise_build _ _ _ _ _ (fun a idx => get a (bcast_src (ashape a) idx))).
  - intros b Hb. now apply (bcast_src_inb B s).
  - intros a Hs Hw. unfold a_broadcast_to, ndim. rewrite Hs, HO. destruct (Nat.leb_spec (length B) (length s)); [reflexivity|lia].
  - intros a b Hs Hw Hb. now rewrite Hs.
Qed.
(** flip of every axis; squeeze of every axis of size one; take and concatenate with axis=None *)
Lemma map_rev_inb B b : inb b B -> inb (map (fun p => snd p - 1 - fst p) (combine b B)) B.
Proof. intros H. induction H as [|i d b B Hi H IH]; [constructor|]. cbn [combine map fst snd]. constructor; [lia|exact IH]. Qed.
Theorem C52_flip_all : forall c B o, scalar_leaves c -> batched c B o ->
  exists o', obj_flip_all o = Some o' /\ batched c B o' /\ forall b, inb b B -> elem b o' = elem (map (fun p => snd p - 1 - fst p) (combine b B)) o.
Proof.
  intros c B o HSL HB. destruct (lift_scalar (fun a => Some (a_flip_all a)) B B (fun b => Some (map (fun p => snd p - 1 - fst p) (combine b B))) nofill c o HSL) as (o' & E1 & E2 & E3); [|exact HB|exists o'; auto].
  apply (scalarwise_build _ _ _ _ _ (fun a idx => get a (map (fun p => snd p - 1 - fst p) (combine idx (ashape a))))).
  - intros b Hb. now apply map_rev_inb.
  - intros a Hs Hw. unfold a_flip_all. now rewrite Hs.
  - intros a b Hs Hw Hb. now rewrite Hs.
Qed.
Lemma prod_squeeze B : prod (filter (fun d => negb (d =? 1)) B) = prod B.
Proof. induction B as [|d B IH]; [reflexivity|]. cbn [filter]. rewrite prod_cons. destruct (Nat.eqb_spec d 1) as [->|]; cbn [negb]; [lia|]. rewrite prod_cons. lia. Qed.
Theorem C52_squeeze_all : forall c B o, scalar_leaves c -> batched c B o -> let B' := filter (fun d => negb (d =? 1)) B in
  exists o', obj_squeeze_all o = Some o' /\ batched c B' o' /\ forall b, inb b B' -> elem b o' = elem (unravel B (ravel B' b)) o.
Proof.
  intros c B o HSL HB B'. destruct (lift_scalar (fun a => Some (a_squeeze_all a)) B B' (fun b => Some (unravel B (ravel B' b))) nofill c o HSL) as (o' & E1 & E2 & E3); [|exact HB|exists o'; auto].
  apply scalarwise_shape; [apply prod_squeeze|]. intros a Hs. unfold a_squeeze_all, as_shape. now rewrite Hs.
Qed.
Theorem C52_take_flat : forall c B o indices, scalar_leaves c -> batched c B o -> 0 < prod B \/ prod (ashape indices) = 0 ->
  exists o', obj_take_default indices o = Some o' /\ batched c (ashape indices) o' /\
    forall b, inb b (ashape indices) -> elem b o' = match norm_index (get indices b) (prod B) with Some i => elem (unravel B i) o | None => const_obj take_fill [] c end.
Proof.
  intros c B o indices HSL HB HE.
  assert (G : (prod B =? 0) && negb (prod (ashape indices) =? 0) = false) by (destruct HE as [HE|HE]; [destruct (Nat.eqb_spec (prod B) 0); [lia|reflexivity]|rewrite HE; apply andb_false_r]).
  destruct (lift_scalar (a_take_flat indices) B (ashape indices) (fun b => option_map (unravel B) (norm_index (get indices b) (prod B))) take_fill c o HSL) as (o' & E1 & E2 & E3); [|exact HB|].
  - apply (scalarwise_build _ _ _ _ _ (fun a idx => match norm_index (get indices (firstn (ndim indices) (skipn 0 idx))) (prod B) with Some i => get (a_ravel a) (i :: skipn (ndim indices) idx) | None => take_fill (adtype a) end)).
    + intros b Hb. destruct (norm_index (get indices b) (prod B)) as [i|] eqn:E; cbn; [|exact Logic.I]. apply unravel_inb. now apply norm_axis_lt in E.
    + intros a Hs Hw. unfold a_take_flat, a_take, a_take_by, a_ravel, as_shape. unfold ndim at 1. cbn [ashape adtype length firstn skipn app nth Nat.add]. change (norm_axis 0 1) with (Some 0). cbn [firstn skipn nth Nat.add app]. rewrite Hs, G, app_nil_r. reflexivity.
    + intros a b Hs Hw Hb. cbn [skipn]. unfold ndim. rewrite <- (inb_length _ _ Hb), firstn_all, skipn_all. destruct (norm_index (get indices b) (prod B)) as [i|] eqn:E; cbn [option_map]; [|reflexivity].
      apply norm_axis_lt in E. unfold get, a_ravel, as_shape. cbn [ashape adata ravel]. rewrite Hs, ravel_unravel by exact E. f_equal. unfold prod at 1. cbn. lia.
  - exists o'. split; [exact E1|]. split; [exact E2|]. intros b Hb. rewrite E3 by exact Hb. destruct (norm_index (get indices b) (prod B)); reflexivity.
Qed.
Theorem C52_concat_flat : forall c Bs os, scalar_leaves c -> Bs <> [] -> Forall2 (fun o B => batched c B o) os Bs ->
  exists o', obj_concat_flat os = Some o' /\ batched c [list_sum (map prod Bs)] o' /\
    forall j b, j < length os -> inb b (nth j Bs []) -> elem [list_sum (firstn j (map prod Bs)) + ravel (nth j Bs []) b] o' = elem b (nth j os ONil).
Proof.
  intros c Bs os HSL HNE HO. pose proof (Forall2_len _ _ _ HO) as LO. set (ns := map prod Bs). assert (LN : length ns = length Bs) by apply map_length.
  assert (HNE1 : ns <> []) by (unfold ns; destruct Bs; [congruence|discriminate]).
  destruct (rowwise_concat [0] 0 ns HNE1 ltac:(cbn; lia)) as [C1 C2]. change (upd 0 (list_sum ns) [0]) with [list_sum ns] in *.
  assert (HN : forall j, j < length ns -> nth j ns 0 = prod (nth j Bs [])) by (intros j Hj; unfold ns; rewrite (nth_map_any prod Bs j []) by lia; reflexivity).
  assert (HR : rowwise_on (fun J => J = []) a_concat_flat Bs [list_sum ns] (fun b => let '(j, q) := locate ns (nth 0 b 0) in Some (j, unravel (nth j Bs []) q)) nofill).
  { split.
    - intros b Hb. pose proof (inb_nth _ _ 0 Hb ltac:(cbn; lia)) as HBK. cbn [nth] in HBK. destruct (locate_lt ns _ HBK) as (L1 & L2 & _). destruct (locate ns (nth 0 b 0)) as [j q]. cbn [fst snd] in *.
      split; [lia|]. apply unravel_inb. now rewrite <- HN.
    - intros dt J l -> RA. unfold a_concat_flat.
      assert (RA' : row_args dt [] (map a_ravel l) (map (fun n => upd 0 n [0]) ns)).
      { unfold ns. clear - RA. unfold row_args in *. induction RA as [|a B l Bs (A1 & A2 & A3) RA IH]; [constructor|]. cbn [map]. constructor; [|exact IH].
        rewrite app_nil_r in A2. unfold a_ravel, as_shape. cbn. split; [exact A1|]. unfold upd. cbn. rewrite A2. split; [reflexivity|]. unfold wfa in *. cbn [adata ashape]. rewrite A3, A2. symmetry. apply prod1. }
      destruct (C2 dt [] (map a_ravel l) Logic.I RA') as (a' & E1 & E2 & E3 & E4 & E5). exists a'. split; [exact E1|]. split; [exact E2|]. split; [exact E3|]. split; [exact E4|].
      intros b t dflt Hb Ht. rewrite (E5 b t (a_ravel dflt) Hb Ht). pose proof (inb_nth _ _ 0 Hb ltac:(cbn; lia)) as HBK. cbn [nth] in HBK. destruct (locate_lt ns _ HBK) as (L1 & L2 & _). destruct (locate ns (nth 0 b 0)) as [j q]. cbn [fst snd] in *.
      inversion Ht; subst. rewrite !app_nil_r, map_nth. pose proof (Forall2_nth _ _ _ j dflt [] RA) as HX. cbn beta in HX. rewrite (Forall2_len _ _ _ RA) in HX. specialize (HX ltac:(lia)). destruct HX as (X1 & X2 & X3). rewrite app_nil_r in X2.
      inversion Hb as [|x ? y ? H1 H2]; subst. inversion H2; subst. unfold upd. cbn [firstn skipn app]. unfold get, a_ravel, as_shape. cbn [ashape adata ravel]. rewrite HN in L2 by exact L1. rewrite X2, ravel_unravel by exact L2. f_equal. unfold prod at 1. cbn. lia. }
  destruct (lift_many_on _ _ _ _ _ _ c os HR HSL HNE HO) as (o' & E1 & E2 & E3 & E4). exists o'. split; [exact E1|]. split; [split; assumption|].
  intros j b Hj Hb. rewrite LO in Hj. assert (HQ : ravel (nth j Bs []) b < nth j ns 0) by (rewrite HN by lia; now apply ravel_lt).
  rewrite E4 by (constructor; [apply nth_le_sum; [lia|exact HQ]|constructor]). cbn [nth]. rewrite locate_offset by (auto; lia). rewrite unravel_ravel by exact Hb. reflexivity.
Qed.
(** ** atleast_1d, atleast_2d, atleast_3d *)
(** on scalar fields: the shapes NumPy documents, elements in the same order *)
Definition atleast_shape (d : nat) (B : list nat) : list nat :=
  match d, B with
  | 1, [] => [1]
  | 2, [] => [1; 1] | 2, [n] => [1; n]
  | 3, [] => [1; 1; 1] | 3, [n] => [1; n; 1] | 3, [n; m] => [n; m; 1]
  | _, _ => B
  end.
Definition atleast_fun (d : nat) : array -> array := match d with 1 => a_atleast_1d | 2 => a_atleast_2d | _ => a_atleast_3d end.
Theorem C52_atleast_scalar : forall c B o d, scalar_leaves c -> batched c B o -> 1 <= d <= 3 ->
  exists o', obj_atleast (atleast_fun d) o = Some o' /\ batched c (atleast_shape d B) o' /\
    forall b, inb b (atleast_shape d B) -> elem b o' = elem (unravel B (ravel (atleast_shape d B) b)) o.
Proof.
  intros c B o d HSL HB Hd. unfold obj_atleast.
  destruct (lift_scalar (fun a => Some (atleast_fun d a)) B (atleast_shape d B) (fun b => Some (unravel B (ravel (atleast_shape d B) b))) nofill c o HSL) as (o' & E1 & E2 & E3); [|exact HB|exists o'; auto].
  assert (HI : forall a, as_shape (ashape a) a = a) by (intros [? ? ?]; reflexivity).
  apply scalarwise_shape.
  - destruct d as [|[|[|[|d]]]]; try lia; destruct B as [|n [|m [|p B]]]; cbn; rewrite ?prod_cons; cbn; unfold prod; cbn; lia.
  - intros a Hs. destruct d as [|[|[|[|d]]]]; try lia; cbn [atleast_fun]; unfold a_atleast_1d, a_atleast_2d, a_atleast_3d; rewrite Hs; destruct B as [|n [|m [|p B]]]; cbn [atleast_shape]; rewrite <- ?Hs, ?HI; reflexivity.
Qed.
(** nothing happens to an instance with enough batch axes, whatever its fields *)
Lemma tmap_same_both f B :
  (forall a J, ashape a = B ++ J -> f a = Some a) ->
  (forall d v J, has_v (B ++ J) d v -> tmap_v (one f) v [] = Some v) /\ (forall c o J, has_batch (B ++ J) c o -> tmap (one f) o [] = Some o).
Proof.
  intros HF. apply desc_class_ind.
  - intros dt ish bits pb fill [a|o] J H; [|destruct H]. cbn in H. cbn. rewrite (HF a (J ++ ish)%list) by (now rewrite H, app_assoc). reflexivity.
  - intros c IH ish [a|o] J H; [destruct H|]. cbn in H. cbn. rewrite (IH o (J ++ ish)%list) by (now rewrite app_assoc). reflexivity.
  - intros [|n v r] J H; [reflexivity|destruct H].
  - intros n d IHd r IHr [|m v q] J H; [destruct H|]. destruct H as (E & H1 & H2). cbn [tmap map sequence]. cbn [fst snd map]. now rewrite (IHd v J H1), (IHr q J H2).
Qed.
Theorem C52_atleast : forall c B o d, batched c B o -> 1 <= d <= 3 -> d <= length B -> obj_atleast (atleast_fun d) o = Some o.
Proof.
  intros c B o d [HC HB] Hd HL. unfold obj_atleast, tree_map1.
  assert (HF : forall a J, ashape a = B ++ J -> Some (atleast_fun d a) = Some a).
  { intros a J Ha. assert (HN : length B <= ndim a) by (unfold ndim; rewrite Ha, app_length; lia).
    f_equal. destruct d as [|[|[|[|d]]]]; try lia; cbn [atleast_fun]; [apply atleast_1d_id|apply atleast_2d_id|apply atleast_3d_id]; lia. }
  apply (proj2 (tmap_same_both (fun a => Some (atleast_fun d a)) B HF) c o []). now rewrite app_nil_r.
Qed.

(** ** tile, broadcast_arrays *)
(** tile: a list of repetitions shorter than the batch applies to the last axes, a longer one
    adds axes in front *)
Definition padl (n : nat) (l : list nat) : list nat := repeat 1 (n - length l) ++ l.
Lemma mod_inb s b : (forall k, k < length s -> 0 < nth k s 0) -> length b = length s -> inb (map (fun p => fst p mod snd p) (combine b s)) s.
Proof.
  revert b. induction s as [|d s IH]; intros [|i b] HP HL; cbn in HL; try lia; [constructor|]. cbn [combine map fst snd]. constructor.
  - apply Nat.mod_upper_bound. specialize (HP 0 ltac:(cbn; lia)). cbn in HP. lia.
  - apply IH; [|lia]. intros k Hk. apply (HP (S k)). cbn. lia.
Qed.
Lemma inb_prod_pos s r b : length r = length s -> inb b (map (fun p => fst p * snd p) (combine s r)) -> forall k, k < length s -> 0 < nth k s 0.
Proof.
  revert r b. induction s as [|d s IH]; intros [|e r] b HL Hb k Hk; cbn [length] in *; try lia. cbn [combine map fst snd] in Hb. inversion Hb as [|i x b' y H1 H2]; subst. destruct k; cbn [nth]; [destruct d; lia|]. apply (IH r b'); [lia|exact H2|lia].
Qed.
Theorem C52_tile : forall c B o reps, scalar_leaves c -> batched c B o ->
  let n := Nat.max (length B) (length reps) in
  exists o', obj_tile reps o = Some o' /\ batched c (map (fun p => fst p * snd p) (combine (padl n B) (padl n reps))) o' /\
    forall b, inb b (map (fun p => fst p * snd p) (combine (padl n B) (padl n reps))) ->
      elem b o' = elem (skipn (n - length B) (map (fun p => fst p mod snd p) (combine b (padl n B)))) o.
Proof.
  intros c B o reps HSL HB n. assert (LB : length (padl n B) = n) by (unfold padl; rewrite app_length, repeat_length; lia). assert (LR : length (padl n reps) = n) by (unfold padl; rewrite app_length, repeat_length; lia).
  destruct (lift_scalar (fun a => Some (a_tile reps a)) B (map (fun p => fst p * snd p) (combine (padl n B) (padl n reps))) (fun b => Some (skipn (n - length B) (map (fun p => fst p mod snd p) (combine b (padl n B))))) nofill c o HSL) as (o' & E1 & E2 & E3); [|exact HB|exists o'; auto].
  apply (scalarwise_build _ _ _ _ _ (fun a idx => get a (skipn (n - length B) (map (fun p => fst p mod snd p) (combine idx (padl n B)))))).
  - intros b Hb. assert (HI : inb (map (fun p => fst p mod snd p) (combine b (padl n B))) (padl n B)).
    { apply mod_inb; [apply (inb_prod_pos _ (padl n reps) b); [lia|exact Hb]|]. rewrite (inb_length _ _ Hb), map_length, combine_length. lia. }
    apply (inb_skipn (n - length B)) in HI. assert (SK : skipn (n - length B) (padl n B) = B).
    { unfold padl. rewrite skipn_app, repeat_length, Nat.sub_diag, skipn_all2 by (rewrite repeat_length; lia). reflexivity. }
    rewrite SK in HI. exact HI.
  - intros a Hs Hw. unfold a_tile, ndim. rewrite Hs. reflexivity.
  - reflexivity.
Qed.

Lemma bcast_ok_nth s t : bcast_ok s t = true <-> length s = length t /\ forall k, k < length s -> nth k s 0 = nth k t 0 \/ nth k s 0 = 1.
Proof.
  revert t. induction s as [|d s IH]; intros [|e t]; cbn [bcast_ok length]; split; try discriminate; try (intros [H _]; discriminate).
  - intros _. split; [reflexivity|]. intros k Hk. lia.
  - reflexivity.
  - rewrite andb_true_iff, IH, orb_true_iff, !Nat.eqb_eq. intros [H1 [H2 H3]]. split; [lia|]. intros [|k] Hk; cbn [nth]; [exact H1|]. apply H3. lia.
  - intros [H1 H2]. rewrite andb_true_iff, IH, orb_true_iff, !Nat.eqb_eq. split; [apply (H2 0); lia|]. split; [lia|]. intros k Hk. apply (H2 (S k)). lia.
Qed.
Definition bc (s t : list nat) : Prop := length s <= length t /\ bcast_ok s (skipn (length t - length s) t) = true.
Lemma bc_nth s t : bc s t <-> length s <= length t /\ forall k, k < length s -> nth k s 0 = nth (length t - length s + k) t 0 \/ nth k s 0 = 1.
Proof.
  unfold bc. rewrite bcast_ok_nth, skipn_length. assert (HS : forall k, nth k (skipn (length t - length s) t) 0 = nth (length t - length s + k) t 0).
  { intros k. generalize (length t - length s). clear. intros q. revert t. induction q as [|q IH]; intros t; [reflexivity|]. destruct t; [destruct k; reflexivity|]. cbn. apply IH. }
  split; [intros (H1 & H2 & H3)|intros (H1 & H2)].
  - split; [exact H1|]. intros k Hk. rewrite <- HS. now apply H3.
  - split; [exact H1|]. split; [lia|]. intros k Hk. rewrite HS. now apply H2.
Qed.
Lemma bc_trans r s t : bc r s -> bc s t -> bc r t.
Proof.
  rewrite !bc_nth. intros [A1 A2] [B1 B2]. split; [lia|]. intros k Hk. destruct (A2 k Hk) as [E|E]; [|now right]. destruct (B2 (length s - length r + k) ltac:(lia)) as [F|F]; [|right; congruence].
  left. rewrite E, F. f_equal. lia.
Qed.
Lemma bzip_spec s t r : bzip s t = Some r -> length s = length r /\ length t = length r /\ forall k, k < length r -> (nth k s 0 = nth k r 0 \/ nth k s 0 = 1) /\ (nth k t 0 = nth k r 0 \/ nth k t 0 = 1).
Proof.
  revert t r. induction s as [|d s IH]; intros [|e t] r H; cbn [bzip] in H; try discriminate.
  - injection H as <-. cbn. repeat split; intros; lia.
  - destruct (bdim d e) as [x|] eqn:E; [|discriminate]. destruct (bzip s t) as [q|] eqn:E2; [|discriminate]. injection H as <-. destruct (IH t q E2) as (L1 & L2 & L3). cbn [length].
    split; [lia|]. split; [lia|]. intros [|k] Hk; cbn [nth]; [|apply L3; lia].
    unfold bdim in E. destruct (Nat.eqb_spec d e); [injection E as <-; auto|]. destruct (Nat.eqb_spec d 1); [injection E as <-; auto|]. destruct (Nat.eqb_spec e 1); [injection E as <-; auto|discriminate].
Qed.
Lemma nth_padded n s k : k < length s -> nth (n - length s + k) (repeat 1 (n - length s) ++ s) 0 = nth k s 0.
Proof. intros H. rewrite app_nth2 by (rewrite repeat_length; lia). rewrite repeat_length. f_equal. lia. Qed.
Lemma bshape_bc s t r : bshape s t = Some r -> bc s r /\ bc t r.
Proof.
  unfold bshape. set (n := Nat.max (length s) (length t)). intros H. apply bzip_spec in H. destruct H as (L1 & L2 & L3). rewrite app_length, repeat_length in L1, L2.
  rewrite !bc_nth. split; (split; [lia|]); intros k Hk.
  - destruct (L3 (n - length s + k) ltac:(lia)) as [H _]. rewrite nth_padded in H by exact Hk. replace (length r - length s + k) with (n - length s + k) by lia. exact H.
  - destruct (L3 (n - length t + k) ltac:(lia)) as [_ H]. rewrite nth_padded in H by exact Hk. replace (length r - length t + k) with (n - length t + k) by lia. exact H.
Qed.
Lemma bshapes_bc l : forall r, bshapes l = Some r -> forall s, In s l -> bc s r.
Proof.
  induction l as [|x l IH]; intros r H s Hs; [destruct Hs|]. cbn [bshapes] in H. destruct (bshapes l) as [q|]; [|discriminate]. cbn [obind] in H. apply bshape_bc in H. destruct H as [H1 H2].
  destruct Hs as [<-|Hs]; [exact H1|]. apply (bc_trans _ q); [now apply IH|exact H2].
Qed.
Lemma Forall2_map_eq {X Y} (f : X -> Y) l m : Forall2 (fun x y => f x = y) l m -> map f l = m.
Proof. induction 1; cbn; congruence. Qed.
Theorem C52_broadcast_arrays : forall c Bs os s, scalar_leaves c -> Bs <> [] -> Forall2 (fun o B => batched c B o) os Bs -> bshapes Bs = Some s ->
  exists os', obj_broadcast_arrays os = Some os' /\ length os' = length os /\ forall i, i < length os ->
    batched c s (nth i os' ONil) /\ forall b, inb b s -> elem b (nth i os' ONil) = elem (bcast_src (nth i Bs []) b) (nth i os ONil).
Proof.
  intros c Bs os s HSL HNE HO HBS. pose proof (Forall2_len _ _ _ HO) as LO. unfold obj_broadcast_arrays.
  set (P := fun i o' => batched c s o' /\ forall b, inb b s -> elem b o' = elem (bcast_src (nth i Bs []) b) (nth i os ONil)).
  destruct (sequence_all (map (fun i => tree_mapn (a_broadcast_nth i) os) (seq 0 (length os))) P) as (os' & E1 & E2 & E3).
  - rewrite map_length, seq_length. intros i Hi. rewrite (nth_map_any (fun i => tree_mapn (a_broadcast_nth i) os) (seq 0 (length os)) i 0) by (now rewrite seq_length). rewrite seq_nth by exact Hi. cbn [Nat.add].
    assert (HBC : bc (nth i Bs []) s) by (apply (bshapes_bc Bs s HBS), nth_In; lia). destruct HBC as [BC1 BC2].
    assert (HR : rowwise_on (fun J => J = []) (a_broadcast_nth i) Bs s (fun b => Some (i, bcast_src (nth i Bs []) b)) nofill).
    { split; [intros b Hb; split; [lia|now apply (bcast_src_inb _ s)]|]. intros dt J l -> RA.
      assert (SH : map ashape l = Bs) by (clear - RA; apply Forall2_map_eq; induction RA as [|a B l Bs (A1 & A2 & A3) RA IH]; constructor; [now rewrite app_nil_r in A2|exact IH]).
      pose proof (Forall2_len _ _ _ RA) as LL. unfold a_broadcast_nth. rewrite SH, HBS. cbn [obind]. destruct l as [|a0 l0]; [cbn in LL; lia|].
      rewrite (nth_error_nth' (a0 :: l0) a0) by lia. cbn [obind]. pose proof (Forall2_nth _ _ _ i a0 [] RA ltac:(lia)) as HX. cbn beta in HX. destruct HX as (X1 & X2 & X3). rewrite app_nil_r in X2.
      unfold a_broadcast_to, ndim. rewrite X2, BC2. destruct (Nat.leb_spec (length (nth i Bs [])) (length s)); [|lia]. cbn [andb]. eexists. split; [reflexivity|]. split; [exact X1|]. split; [cbn; now rewrite app_nil_r|]. split; [apply build_wfa|].
      intros b t dflt Hb Ht. inversion Ht; subst. rewrite !app_nil_r, get_build by exact Hb. rewrite (nth_indep _ dflt a0) by (cbn [length] in *; lia). reflexivity. }
    destruct (lift_many_on _ _ _ _ _ _ c os HR HSL HNE HO) as (o' & F1 & F2 & F3 & F4). exists o'. split; [exact F1|]. split; [split; assumption|exact F4].
  - exists os'. rewrite map_length, seq_length in *. split; [exact E1|]. split; [exact E2|]. intros i Hi. exact (E3 i ONil Hi).
Qed.

(** ** Where the element-wise reading fails *)
(** one batch axis, scalar and tensor fields in one class: the call is accepted, the fields
    are joined along different axes and the result is not a batch of the class *)
Theorem C52_mixed_stack_refuted :
  (exists o', obj_vstack [cell2 1; cell2 2] = Some o' /\ get_batch cell o' = Some Unstr) /\
  (exists o', obj_hstack [cell2 1; cell2 2] = Some o' /\ get_batch cell o' = Some Unstr) /\
  (exists o', obj_dstack [cell2 1; cell2 2] = Some o' /\ get_batch cell o' = Some Unstr) /\
  (exists o', obj_column_stack [cell2 1; cell2 2] = Some o' /\ get_batch cell o' = Some Unstr) /\
  (exists o', obj_concat_flat [cell2 1; cell2 2] = Some o' /\ get_batch cell o' = Some Unstr) /\
  (exists o', obj_atleast a_atleast_1d (default_obj [] cell) = Some o' /\ get_batch cell o' = Some Unstr).
Proof. repeat (split; [eexists; split; reflexivity|]). eexists; split; reflexivity. Qed.
(** [xnp.take(o, indices)] without an axis, [xnp.take_along_axis(o, indices)] without an axis *)
Theorem C52_default_axis_refuted :
  (exists o', obj_take_default (MkArr (DInt 32) [1] [1]%Z) (cell2 1) = Some o' /\ get_batch cell o' = Some Unstr) /\
  (exists o', obj_take_along_default (MkArr (DInt 32) [2] [1; 0]%Z) (cell2 1) = Some o' /\ get_batch cell o' = Some Unstr).
Proof. split; eexists; split; reflexivity. Qed.
(** a negative axis of moveaxis reaches into the elements: the result has the expected batch
    shape but its elements are not elements of the input *)
Definition grid : obj := (OCons "id" (arr8 [2; 3] [1; 2; 3; 4; 5; 6]%Z) (OCons "pos" (arr8 [2; 3; 2] [1; 2; 3; 4; 5; 6; 7; 8; 9; 10; 11; 12]%Z) ONil))%string.
Theorem C52_moveaxis_negative_refuted : batched cell [2; 3] grid /\
  exists o', obj_moveaxis [0%Z] [(-1)%Z] grid = Some o' /\ batched cell [3; 2] o' /\ forall b, inb b [2; 3] -> elem [0; 0] o' <> elem b grid.
Proof.
  split; [split; cbn; unfold wfa; cbn; auto 10|]. eexists. split; [reflexivity|]. split; [split; cbn; unfold wfa; cbn; auto 10|].
  intros b Hb. inversion Hb as [|i ? x y H1 H2]; subst. inversion H2 as [|j ? z w H3 H4]; subst. inversion H4; subst.
  destruct i as [|[|i]]; [..|lia]; destruct j as [|[|[|j]]]; try lia; vm_compute; congruence.
Qed.
(** ** Concrete uses of the positive theorems *)
Example C52_example_move : exists o', obj_moveaxis [0%Z] [1%Z] grid = Some o' /\ batched cell [3; 2] o' /\ elem [2; 1] o' = elem [1; 2] grid.
Proof. eexists. split; [reflexivity|]. split; [split; cbn; unfold wfa; cbn; auto 10|reflexivity]. Qed.
Example C52_example_rot : Nat.iter 1 (quarter 0 1) ([2; 3], [0; 2]) = ([3; 2], [0; 0]) /\
  exists o', obj_rot90 5 (0%Z, 1%Z) grid = Some o' /\ batched cell [3; 2] o' /\ elem [0; 0] o' = elem [0; 2] grid.
Proof. split; [reflexivity|]. eexists. split; [reflexivity|]. split; [split; cbn; unfold wfa; cbn; auto 10|reflexivity]. Qed.
Example C52_example_vstack : exists o', obj_vstack [grid; grid] = Some o' /\ batched cell [4; 3] o' /\ elem [3; 1] o' = elem [1; 1] grid /\
  exists o'', obj_hstack [grid; grid] = Some o'' /\ batched cell [2; 6] o'' /\ elem [1; 4] o'' = elem [1; 1] grid.
Proof.
  eexists. split; [reflexivity|]. split; [split; cbn; unfold wfa; cbn; auto 10|]. split; [reflexivity|]. eexists. split; [reflexivity|]. split; [split; cbn; unfold wfa; cbn; auto 10|reflexivity].
Qed.
Definition tag : class := (CCons "id" (Prim (DUInt 8) [] None false 0%Z) CNil)%string.
Example C52_example_scalar : scalar_leaves tag /\ batched tag [2] (OCons "id"%string (arr8 [2] [7; 8]%Z) ONil) /\ bshapes [[2]; [3; 1]] = Some [3; 2] /\
  exists o', obj_column_stack [OCons "id"%string (arr8 [2] [7; 8]%Z) ONil; OCons "id"%string (arr8 [2] [9; 10]%Z) ONil] = Some o' /\ elem [1; 0] o' = OCons "id"%string (arr8 [] [8]%Z) ONil.
Proof. split; [cbn; auto|]. split; [split; cbn; unfold wfa; cbn; auto|]. split; [reflexivity|]. eexists. split; reflexivity. Qed.
Print Assumptions C52_moveaxis. Print Assumptions C52_rot90. Print Assumptions C52_roll_axes. Print Assumptions C52_vstack. Print Assumptions C52_column_stack_scalar. Print Assumptions C52_broadcast_arrays.
