(** * PropRows7.v — property C53: operations that act on every array element by element. *)
From Coq Require Import String.
From Verif Require Import Jax StructModel ArrayModel ArrayFacts ShapeModel PropShape RowsModel RowsLift PropRows PropRows2 PropRows3 PropRows4 EqModel FloatEq PropEq RowsModel2 PropRows5 PropRows6.

(** ** Specification *)
(** every array of [r] is related to the arrays of the inputs at the same place *)
Fixpoint each_v (R : list array -> array -> Prop) (vs : list value) (u : value) {struct u} : Prop :=
  match u with
  | VArr x => exists l, vs = map VArr l /\ R l x
  | VObj r => exists os, vs = map VObj os /\ each R os r
  end
with each (R : list array -> array -> Prop) (os : list obj) (r : obj) {struct r} : Prop :=
  match r with
  | ONil => Forall (eq ONil) os
  | OCons n u r' => exists vs qs, length vs = length qs /\ os = map (fun p => OCons n (fst p) (snd p)) (combine vs qs) /\ each_v R vs u /\ each R qs r'
  end.
(** the class with another dtype for every array *)
Fixpoint retype_d (t : dtype -> dtype) (d : desc) : desc := match d with Prim dt ish bits pb fill => Prim (t dt) ish bits pb fill | Nest c ish => Nest (retype t c) ish end
with retype (t : dtype -> dtype) (c : class) : class := match c with CNil => CNil | CCons n d r => CCons n (retype_d t d) (retype t r) end.
Lemma retype_id_both : (forall d, retype_d (fun x => x) d = d) /\ (forall c, retype (fun x => x) c = c).
Proof. apply desc_class_ind; cbn; intros; congruence. Qed.

Section Each.
Variables (B : list nat) (ts : list (dtype -> dtype)) (t' : dtype -> dtype) (f : list array -> option array) (fe : list nat -> list array -> option array) (PI : list nat -> Prop) (R : list array -> array -> Prop).
Definition leaf_args (b : list nat) (dt : dtype) (I : list nat) (l : list array) : Prop := Forall2 (fun a (t : dtype -> dtype) => adtype a = t dt /\ ashape a = b ++ I /\ wfa a) l ts.
Hypothesis HF : forall dt I l, PI I -> leaf_args B dt I l -> exists x, f l = Some x /\ adtype x = t' dt /\ ashape x = B ++ I /\ wfa x /\ R l x /\
  forall b, inb b B -> fe b (map (sub b) l) = Some (sub b x).
Definition eargs_v (J : list nat) (d : desc) (vs : list value) : Prop := Forall2 (fun v t => conforms_v (retype_d t d) v /\ has_v (B ++ J) (retype_d t d) v) vs ts.
Definition eargs_o (J : list nat) (c : class) (os : list obj) : Prop := Forall2 (fun o t => conforms (retype t c) o /\ has_batch (B ++ J) (retype t c) o) os ts.
Lemma eprim J dt ish bits pb fill vs : eargs_v J (Prim dt ish bits pb fill) vs -> exists l, vs = map VArr l /\ leaf_args B dt (J ++ ish) l.
Proof.
  unfold eargs_v, leaf_args. generalize ts as tt. intros tt H. induction H as [|v t vs ts' [HC HH] H IH]; [exists []; auto|]. cbn [retype_d] in HC, HH.
  destruct v as [a|o]; [|destruct HC]. destruct IH as [l [-> IH]]. exists (a :: l). split; [reflexivity|]. constructor; [|exact IH]. cbn in HC, HH. destruct HC. rewrite <- app_assoc in HH. auto.
Qed.
Lemma enest J c ish vs : eargs_v J (Nest c ish) vs -> exists os, vs = map VObj os /\ eargs_o (J ++ ish) c os.
Proof.
  unfold eargs_v, eargs_o. generalize ts as tt. intros tt H. induction H as [|v t vs ts' [HC HH] H IH]; [exists []; auto|]. cbn [retype_d] in HC, HH.
  destruct v as [a|o]; [destruct HC|]. destruct IH as [l [-> IH]]. exists (o :: l). split; [reflexivity|]. constructor; [|exact IH]. cbn in HC, HH. rewrite <- app_assoc in HH. auto.
Qed.
Lemma econs J n d r os : eargs_o J (CCons n d r) os -> exists vs qs, os = map (fun p => OCons n (fst p) (snd p)) (combine vs qs) /\ length vs = length qs /\ eargs_v J d vs /\ eargs_o J r qs.
Proof.
  unfold eargs_v, eargs_o. generalize ts as tt. intros tt H. induction H as [|o t os ts' [HC HH] H IH]; [exists [], []; repeat split; constructor|]. cbn [retype] in HC, HH.
  destruct o as [|m v q]; [destruct HC|]. destruct IH as [vs [qs [-> [HL [IH1 IH2]]]]]. destruct HC as [<- [C1 C2]]. destruct HH as [_ [H1 H2]].
  exists (v :: vs), (q :: qs). cbn. repeat split; auto.
Qed.
Lemma enil J os : eargs_o J CNil os -> Forall (eq ONil) os.
Proof. unfold eargs_o. generalize ts as tt. intros tt H. induction H as [|o t os ts' [HC HH] H IH]; constructor; [destruct o; [reflexivity|destruct HC]|exact IH]. Qed.
Lemma each_both :
  (forall d J v vs, shapes_d PI J d -> eargs_v J d (v :: vs) -> exists u, tmap_v f v vs = Some u /\ conforms_v (retype_d t' d) u /\ has_v (B ++ J) (retype_d t' d) u /\ each_v R (v :: vs) u /\
     forall b, inb b B -> tmap_v (fe b) (elem_v b v) (map (elem_v b) vs) = Some (elem_v b u)) /\
  (forall c J o os, shapes PI J c -> eargs_o J c (o :: os) -> exists r, tmap f o os = Some r /\ conforms (retype t' c) r /\ has_batch (B ++ J) (retype t' c) r /\ each R (o :: os) r /\
     forall b, inb b B -> tmap (fe b) (elem b o) (map (elem b) os) = Some (elem b r)).
Proof.
  apply desc_class_ind.
  - intros dt ish bits pb fill J v vs HP HA. destruct (eprim _ _ _ _ _ _ _ HA) as [l [EL RA]]. destruct l as [|a l]; [discriminate|]. cbn [map] in EL. injection EL as -> ->.
    destruct (HF dt (J ++ ish) (a :: l) HP RA) as (x & E1 & E2 & E3 & E4 & E5 & E6). exists (VArr x). cbn [tmap_v].
    assert (SQ : forall m, sequence (map as_arr (map VArr m)) = Some m) by (intros m; apply sequence_map; clear; induction m; cbn; constructor; auto).
    rewrite SQ, E1. split; [reflexivity|]. split; [split; [exact E2|exact E4]|]. split; [cbn; now rewrite E3, app_assoc|]. split; [exists (a :: l); split; [reflexivity|exact E5]|].
    intros b Hb. cbn [elem_v tmap_v]. replace (map (elem_v b) (map VArr l)) with (map VArr (map (sub b) l)) by (now rewrite !map_map). rewrite SQ. specialize (E6 b Hb). cbn [map] in E6. rewrite E6. reflexivity.
  - intros c IH ish J v vs HP HA. destruct (enest _ _ _ _ HA) as [os [EL RA]]. destruct os as [|o os]; [discriminate|]. cbn [map] in EL. injection EL as -> ->.
    destruct (IH (J ++ ish) o os HP RA) as (r & E1 & E2 & E3 & E4 & E5). exists (VObj r). cbn [tmap_v].
    assert (SQ : forall m, sequence (map as_obj (map VObj m)) = Some m) by (intros m; apply sequence_map; clear; induction m; cbn; constructor; auto).
    rewrite SQ, E1. split; [reflexivity|]. split; [exact E2|]. split; [cbn; now rewrite <- app_assoc|]. split; [exists (o :: os); split; [reflexivity|exact E4]|].
    intros b Hb. cbn [elem_v tmap_v]. replace (map (elem_v b) (map VObj os)) with (map VObj (map (elem b) os)) by (now rewrite !map_map). rewrite SQ, (E5 b Hb). reflexivity.
  - intros J o os HP HA. pose proof (enil _ _ HA) as HN. inversion HN as [|? ? <- HN']; subst. exists ONil. cbn [tmap].
    assert (FB : forallb is_nil os = true) by (apply forallb_forall; intros x Hx; rewrite Forall_forall in HN'; now rewrite <- (HN' x Hx)).
    rewrite FB. split; [reflexivity|]. split; [exact Logic.I|]. split; [exact Logic.I|]. split; [exact HN|]. intros b Hb. cbn [elem tmap].
    assert (FB' : forallb is_nil (map (elem b) os) = true) by (apply forallb_forall; intros x Hx; apply in_map_iff in Hx; destruct Hx as (y & <- & Hy); rewrite Forall_forall in HN'; now rewrite <- (HN' y Hy)).
    now rewrite FB'.
  - intros n d IHd r IHr J o os HP HA. destruct (econs _ _ _ _ _ HA) as [vs [qs [EL [HL [RV RO]]]]]. destruct vs as [|v vs]; [discriminate|]. destruct qs as [|q qs]; [discriminate|].
    cbn [combine map fst snd] in EL. injection EL as -> ->. cbn [length] in HL. injection HL as HL. destruct HP as [HP1 HP2].
    destruct (IHd J v vs HP1 RV) as (u & E1 & E2 & E3 & E4 & E5). destruct (IHr J q qs HP2 RO) as (r' & F1 & F2 & F3 & F4 & F5). exists (OCons n u r'). cbn [tmap].
    assert (SQ : forall (l : list (value * obj)), sequence (map (head_field n) (map (fun p => OCons n (fst p) (snd p)) l)) = Some l)
      by (intros m; apply sequence_map; clear; induction m as [|[x y] l IH]; cbn; constructor; [cbn; now rewrite String.eqb_refl|exact IH]).
    rewrite SQ, combine_fst, combine_snd by exact HL. rewrite E1, F1. split; [reflexivity|]. split; [cbn; auto|]. split; [cbn; auto|]. split.
    + exists (v :: vs), (q :: qs). split; [cbn; lia|]. split; [reflexivity|]. split; assumption.
    + intros b Hb. cbn [elem tmap].
      assert (EM : map (elem b) (map (fun p : value * obj => OCons n (fst p) (snd p)) (combine vs qs)) = map (fun p => OCons n (fst p) (snd p)) (combine (map (elem_v b) vs) (map (elem b) qs))).
      { clear. revert qs. induction vs as [|x vs IH]; intros [|y qs]; cbn; try reflexivity. f_equal. apply IH. }
      rewrite EM, SQ, combine_fst, combine_snd by (now rewrite !map_length). rewrite (E5 b Hb), (F5 b Hb). reflexivity.
Qed.
Lemma each_lift c os : shapes PI [] c -> ts <> [] -> Forall2 (fun o t => batched (retype t c) B o) os ts ->
  exists r, tree_mapn f os = Some r /\ batched (retype t' c) B r /\ each R os r /\ forall b, inb b B -> tree_mapn (fe b) (map (elem b) os) = Some (elem b r).
Proof.
  intros HP HN HO. destruct os as [|o os]; [inversion HO; congruence|]. destruct (proj2 each_both c [] o os HP) as (r & E1 & E2 & E3 & E4 & E5).
  { unfold eargs_o. clear - HO. induction HO as [|x t l ts' [H1 H2] HO IH]; constructor; [rewrite app_nil_r; split; assumption|exact IH]. }
  rewrite app_nil_r in E3. exists r. split; [exact E1|]. split; [split; assumption|]. split; [exact E4|]. exact E5.
Qed.
End Each.
(** an array function that computes every entry from the entries of its arguments *)
Lemma pointwise_leaf B ts t' f (phi : dtype -> list Z -> Z) :
  (forall b dt I l, leaf_args ts b dt I l -> f l = Some (build (t' dt) (b ++ I) (fun idx => phi dt (map (fun a => get a idx) l)))) ->
  forall dt I l, leaf_args ts B dt I l -> exists x, f l = Some x /\ adtype x = t' dt /\ ashape x = B ++ I /\ wfa x /\
    (forall idx, inb idx (ashape x) -> get x idx = phi dt (map (fun a => get a idx) l)) /\ forall b, inb b B -> f (map (sub b) l) = Some (sub b x).
Proof.
  intros H dt J l HA. set (X := build (t' dt) (B ++ J) (fun idx => phi dt (map (fun a => get a idx) l))). exists X. split; [apply (H B dt J l HA)|]. split; [reflexivity|]. split; [reflexivity|]. split; [apply build_wfa|]. split; [intros idx Hi; unfold X in *; now rewrite get_build|].
  intros b Hb. assert (HA' : leaf_args ts [] dt J (map (sub b) l)).
  { unfold leaf_args in *. clear - HA Hb. induction HA as [|a t l ts (A1 & A2 & A3) HA IH]; [constructor|]. cbn [map]. constructor; [|exact IH]. rewrite (sub_shape b a B J Hb A2). cbn. split; [exact A1|]. split; [reflexivity|apply build_wfa]. }
  rewrite (H [] dt J _ HA'). f_equal. cbn [app]. rewrite (sub_shape b X B J Hb eq_refl). unfold X. cbn [adtype build]. apply build_ext. intros t Ht. rewrite get_build by (now apply inb_app_intro). f_equal. rewrite map_map.
  clear - HA Hb Ht. unfold leaf_args in HA. induction HA as [|a u l ts (A1 & A2 & A3) HA IH]; [reflexivity|]. cbn [map]. f_equal; [|exact IH]. rewrite (sub_shape b a B J Hb A2), get_build by exact Ht. reflexivity.
Qed.

(** ** equal and not_equal *)
Definition b2z (x : bool) : Z := if x then 1%Z else 0%Z.
Definition idt (dt : dtype) : dtype := dt.
Definition boolt (_ : dtype) : dtype := DBool.
Lemma compare_leaf g b dt J l : leaf_args [idt; idt] b dt J l ->
  a_compare_arr g l = Some (build DBool (b ++ J) (fun idx => b2z (match map (fun a => get a idx) l with [x; y] => g dt x y | _ => false end))).
Proof.
  intros HA. inversion HA as [|x t1 l1 ts1 (A1 & A2 & A3) HA1]; subst. inversion HA1 as [|y t2 l2 ts2 (V1 & V2 & V3) HA2]; subst. inversion HA2; subst. cbn [a_compare_arr].
  unfold idt in *. pose proof (bshape_batch [] (b ++ J)) as HS. cbn [app] in HS. rewrite A2, V2, HS. cbn [obind]. unfold a_compare. rewrite A1, V1, dtype_eqb_refl, A2, V2, HS.
  pose proof (broadcast_batch [] (b ++ J) x A2) as E1. cbn [app length skipn] in E1. pose proof (broadcast_batch [] (b ++ J) y V2) as E2. cbn [app length skipn] in E2. rewrite E1, E2.
  cbn [option_map]. f_equal. unfold build. cbn [adata]. rewrite combine_map_same, !map_map. reflexivity.
Qed.
Definition entries (x : array) (P : list nat -> Z -> Prop) : Prop := forall idx, inb idx (ashape x) -> P idx (get x idx).
(** the arrays of the result hold 1 where the inputs hold the same number, else 0 *)
Definition says_equal (positive : bool) (l : list array) (x : array) : Prop :=
  match l with
  | [a; b] => ashape x = ashape a /\ ashape b = ashape a /\ adtype b = adtype a /\
      (valid_array a -> valid_array b -> entries x (fun idx z => (z = b2z positive <-> same_elt (adtype a) (get a idx) (get b idx)) /\ (z = 0%Z \/ z = 1%Z)))
  | _ => False
  end.
Definition compared (pos : bool) (g : dtype -> Z -> Z -> bool) (l : list array) (x : array) : Prop :=
  says_equal pos l x /\ exists (a b : array) (bs : list bool), l = [a; b] /\ a_compare g a b = Some bs /\ adata x = map b2z bs.
Lemma compare_each (g : dtype -> Z -> Z -> bool) (pos : bool) c B o q : batched c B o -> batched c B q -> (forall dt x y, g dt x y = if pos then elt_eqb dt x y else negb (elt_eqb dt x y)) ->
  exists r, tree_mapn (a_compare_arr g) [o; q] = Some r /\ batched (retype boolt c) B r /\
    each (compared pos g) [o; q] r /\
    forall b, inb b B -> tree_mapn (a_compare_arr g) [elem b o; elem b q] = Some (elem b r).
Proof.
  intros HO HQ HG.
  destruct (each_lift B [idt; idt] boolt (a_compare_arr g) (fun _ => a_compare_arr g) (fun _ => True) (compared pos g)) with (c := c) (os := [o; q]) as (r & E1 & E2 & E3 & E4).
  - intros dt J l _ HA. destruct (pointwise_leaf B [idt; idt] boolt (a_compare_arr g) (fun dt zs => b2z (match zs with [x; y] => g dt x y | _ => false end)) (compare_leaf g) dt J l HA) as (x & F1 & F2 & F3 & F4 & F5 & F6).
    exists x. split; [exact F1|]. split; [exact F2|]. split; [exact F3|]. split; [exact F4|]. split; [|exact F6].
    inversion HA as [|a t1 l1 ts1 (A1 & A2 & A3) HA1]; subst. inversion HA1 as [|b t2 l2 ts2 (V1 & V2 & V3) HA2]; subst. inversion HA2; subst. unfold idt in *. split.
    + cbn [says_equal]. split; [congruence|]. split; [congruence|]. split; [congruence|]. intros Va Vb idx HI. rewrite F5 by exact HI. cbn [map]. rewrite HG.
      assert (Ia : inb idx (ashape a)) by (rewrite A2, <- F3; exact HI). assert (Ib : inb idx (ashape b)) by (rewrite V2, <- F3; exact HI).
      pose proof (same_elt_spec (adtype a) (get a idx) (get b idx) (valid_get a idx Va A3 Ia)) as HSE. pose proof (valid_get b idx Vb V3 Ib) as HVb. rewrite V1, <- A1 in HVb. specialize (HSE HVb (proj2 Va)). rewrite <- A1.
      destruct pos; destruct (elt_eqb (adtype a) (get a idx) (get b idx)); cbn [b2z negb]; (split; [|auto]); rewrite <- HSE; split; intros; congruence.
    + cbn [a_compare_arr] in F1. destruct (bshape (ashape a) (ashape b)) as [s|]; [|discriminate]. cbn [obind] in F1. destruct (a_compare g a b) as [bs|] eqn:EC; [|discriminate]. injection F1 as <-. exists a, b, bs. split; [reflexivity|]. split; [exact EC|reflexivity].
  - apply shapes_True.
  - discriminate.
  - unfold idt. constructor; [|constructor; [|constructor]]; rewrite (proj2 retype_id_both); assumption.
  - exists r. split; [exact E1|]. split; [exact E2|]. split; [exact E3|]. exact E4.
Qed.
Lemma each_impl (R R' : list array -> array -> Prop) : (forall l x, R l x -> R' l x) -> (forall u vs, each_v R vs u -> each_v R' vs u) /\ (forall r os, each R os r -> each R' os r).
Proof.
  intros H. apply value_obj_ind; cbn.
  - intros a vs (l & E & HR). eauto.
  - intros o IH vs (os & E & HR). eauto.
  - auto.
  - intros n v IHv r IHr os (vs & qs & HL & E & H1 & H2). exists vs, qs. auto.
Qed.
Theorem C53_equal : forall c B o q, batched c B o -> batched c B q ->
  exists r, obj_equal o q = Some r /\ batched (retype boolt c) B r /\ each (says_equal true) [o; q] r /\
    forall b, inb b B -> obj_equal (elem b o) (elem b q) = Some (elem b r).
Proof.
  intros c B o q HO HQ. destruct (compare_each elt_eqb true c B o q HO HQ (fun _ _ _ => eq_refl)) as (r & E1 & E2 & E3 & E4). exists r. split; [exact E1|]. split; [exact E2|]. split; [|exact E4].
  refine (proj2 (each_impl _ _ _) r _ E3). intros l x [H _]. exact H.
Qed.
Theorem C53_not_equal : forall c B o q, batched c B o -> batched c B q ->
  exists r, obj_not_equal o q = Some r /\ batched (retype boolt c) B r /\ each (says_equal false) [o; q] r /\
    forall b, inb b B -> obj_not_equal (elem b o) (elem b q) = Some (elem b r).
Proof.
  intros c B o q HO HQ. destruct (compare_each (fun dt x y => negb (elt_eqb dt x y)) false c B o q HO HQ (fun _ _ _ => eq_refl)) as (r & E1 & E2 & E3 & E4). exists r. split; [exact E1|]. split; [exact E2|]. split; [|exact E4].
  refine (proj2 (each_impl _ _ _) r _ E3). intros l x [H _]. exact H.
Qed.
(** [==] is true exactly when every array of [xnp.equal] is all ones *)
Lemma each2_arrays R : (forall u v w, each_v R [v; w] u -> Forall2 (fun p x => R [fst p; snd p] x) (combine (arrays_v v) (arrays_v w)) (arrays_v u) /\ length (arrays_v v) = length (arrays_v w)) /\
  (forall r o q, each R [o; q] r -> Forall2 (fun p x => R [fst p; snd p] x) (combine (arrays o) (arrays q)) (arrays r) /\ length (arrays o) = length (arrays q)).
Proof.
  apply value_obj_ind.
  - intros x v w (l & E & HR). destruct l as [|a [|b [|]]]; try discriminate. cbn in E. injection E as -> ->. cbn. split; [repeat constructor; exact HR|reflexivity].
  - intros r IH v w (os & E & HR). destruct os as [|a [|b [|]]]; try discriminate. cbn in E. injection E as -> ->. cbn. now apply IH.
  - intros o q H. inversion H as [|? ? <- H1]; subst. inversion H1 as [|? ? <- H2]; subst. cbn. split; constructor.
  - intros n u IHu r IHr o q (vs & qs & HL & E & H1 & H2). destruct vs as [|v [|w [|]]], qs as [|x [|y [|]]]; try discriminate. cbn in E. injection E as -> ->. cbn [arrays].
    destruct (IHu v w H1) as [F1 L1]. destruct (IHr x y H2) as [F2 L2]. split; [|rewrite !app_length; lia].
    assert (EC : forall (x y u t : list array), length x = length u -> combine (x ++ y) (u ++ t) = (combine x u ++ combine y t)%list).
    { clear. induction x as [|k x IH]; intros y [|k' u] t E; cbn in *; try discriminate; [reflexivity|]. f_equal. apply IH. lia. }
    rewrite EC by exact L1. now apply Forall2_app.
Qed.
Theorem C53_equal_all : forall c B o q r, batched c B o -> batched c B q -> arrays o <> [] -> obj_equal o q = Some r ->
  exists v, obj_eq o q = Some v /\ (v = true <-> Forall (fun x => Forall (eq 1%Z) (adata x)) (arrays r)).
Proof.
  intros c B o q r HO HQ HN HE. destruct (compare_each elt_eqb true c B o q HO HQ (fun _ _ _ => eq_refl)) as (r' & E1 & _ & E3 & _). unfold obj_equal in HE. rewrite HE in E1. injection E1 as <-.
  destruct (proj2 (each2_arrays _) r o q E3) as [F L].
  assert (F' : Forall2 (fun p x => exists bs, a_compare elt_eqb (fst p) (snd p) = Some bs /\ adata x = map b2z bs) (combine (arrays o) (arrays q)) (arrays r)).
  { eapply Forall2_impl; [|exact F]. intros [a b] x [_ (a' & b' & bs & EQ & K1 & K2)]. cbn in EQ. injection EQ as <- <-. exists bs. auto. }
  assert (HB : forall bs, forallb (fun x => x) bs = true <-> Forall (eq 1%Z) (map b2z bs)).
  { clear. induction bs as [|b bs IH]; cbn; [split; auto|]. rewrite andb_true_iff, IH. split; [intros [-> H]; constructor; [reflexivity|exact H]|]. intros H. inversion H; subst. split; [destruct b; [reflexivity|discriminate]|assumption]. }
  assert (HF : Forall2 (fun a b => exists v, leaf_eq a b = Some v /\ (v = true <-> leaf_eq a b = Some true)) (arrays o) (arrays q)).
  { clear - F' L. revert F' L. generalize (arrays o) (arrays q) (arrays r). induction l as [|a l IH]; intros [|b l0] l1 F' L; try discriminate; [constructor|]. cbn [combine] in F'. inversion F' as [|? x ? ? (bs & K1 & K2) F'']; subst. constructor; [|apply (IH l0 l'); [exact F''|cbn in L; lia]].
    unfold leaf_eq. cbn [fst snd] in K1. rewrite K1. cbn. eexists. split; [reflexivity|]. split; congruence. }
  destruct (zip_eq c o q _ (proj1 HO) (proj1 HQ) HN HF) as (v & EV & HV). exists v. split; [exact EV|]. rewrite HV. clear - F' L HB. revert F' L. generalize (arrays o) (arrays q) (arrays r). induction l as [|a l IH]; intros [|b l0] l1 F' L; try discriminate.
  - cbn in F'. inversion F'; subst. split; constructor.
  - cbn [combine] in F'. inversion F' as [|? x ? l2 (bs & K1 & K2) F'']; subst. rewrite Forall2_cons_iff. rewrite (IH l0 l2 F'' ltac:(cbn in L; lia)). cbn [fst snd] in K1. unfold leaf_eq. rewrite K1. cbn [option_map].
    split; [intros [H1 H2]; constructor; [rewrite K2; apply HB; congruence|exact H2]|]. intros H. inversion H as [|? ? H1 H2]; subst. split; [|exact H2]. f_equal. apply HB. now rewrite <- K2.
Qed.

(** ** full_like, zeros_like, ones_like *)
Lemma full_like_both fl B :
  (forall d J v, conforms_v d v -> has_v (B ++ J) d v -> tmap_v (one (fun a => Some (full (adtype a) (ashape a) (fl (adtype a))))) v [] = Some (const_v fl (B ++ J) d)) /\
  (forall c J o, conforms c o -> has_batch (B ++ J) c o -> tmap (one (fun a => Some (full (adtype a) (ashape a) (fl (adtype a))))) o [] = Some (const_obj fl (B ++ J) c)).
Proof.
  apply desc_class_ind.
  - intros dt ish bits pb fill J [a|o] HC HH; [|destruct HC]. cbn in HC, HH. destruct HC as [HD HW]. cbn [tmap_v map sequence one const_v]. now rewrite HD, HH.
  - intros c IH ish J [a|o] HC HH; [destruct HC|]. cbn in HC, HH. cbn [tmap_v map sequence const_v]. rewrite <- app_assoc in HH. rewrite (IH (J ++ ish) o HC HH). now rewrite app_assoc.
  - intros J [|n v o] HC HH; [reflexivity|destruct HC].
  - intros n d IHd r IHr J [|m v o] HC HH; [destruct HC|]. destruct HC as [<- [C1 C2]]. destruct HH as [_ [H1 H2]]. cbn [tmap map sequence const_obj]. rewrite (IHd J v C1 H1), (IHr J o C2 H2). reflexivity.
Qed.
(** every array keeps its shape and dtype and is filled with the one value *)
Theorem C53_full_like : forall c B o fl, batched c B o -> obj_full_like fl o = Some (const_obj fl B c).
Proof. intros c B o fl [HC HH]. pose proof (proj2 (full_like_both fl B) c [] o HC) as E. rewrite app_nil_r in E. exact (E HH). Qed.
Lemma const_batched_both fl B : (forall d J, conforms_v d (const_v fl (B ++ J) d) /\ has_v (B ++ J) d (const_v fl (B ++ J) d)) /\ (forall c J, conforms c (const_obj fl (B ++ J) c) /\ has_batch (B ++ J) c (const_obj fl (B ++ J) c)).
Proof.
  apply desc_class_ind.
  - intros dt ish bits pb fill J. cbn. unfold wfa, full. cbn. rewrite repeat_length. auto.
  - intros c IH ish J. cbn. rewrite <- app_assoc. apply IH.
  - cbn. auto.
  - intros n d IHd r IHr J. cbn. destruct (IHd J), (IHr J). auto.
Qed.
Lemma const_elem_both fl B b : inb b B -> (forall d J, elem_v b (const_v fl (B ++ J) d) = const_v fl J d) /\ (forall c J, elem b (const_obj fl (B ++ J) c) = const_obj fl J c).
Proof.
  intros Hb. apply desc_class_ind; cbn [const_v const_obj elem elem_v].
  - intros. f_equal. rewrite <- app_assoc. now apply full_sub.
  - intros c IH ish J. rewrite <- app_assoc. f_equal. apply IH.
  - reflexivity.
  - intros n d IHd r IHr J. now rewrite IHd, IHr.
Qed.
Theorem C53_full_like_elem : forall c B o fl, batched c B o -> exists r, obj_full_like fl o = Some r /\ batched c B r /\
  forall b, inb b B -> elem b r = const_obj fl [] c /\ obj_full_like fl (elem b o) = Some (elem b r).
Proof.
  intros c B o fl HO. exists (const_obj fl B c). split; [now apply C53_full_like|]. split; [pose proof (proj2 (const_batched_both fl B) c []) as H; rewrite app_nil_r in H; exact H|].
  intros b Hb. pose proof (proj2 (const_elem_both fl B b Hb) c []) as E. rewrite app_nil_r in E. split; [exact E|]. rewrite E. apply C53_full_like. exact (elem_batched c B o b HO Hb).
Qed.
(** [ones_like]: the pattern stored in a float field is the number one *)
Definition float_one (w : nat) : Z := (2 ^ (man_bits w + 2 ^ (Z.of_nat w - 2 - man_bits w) - 2))%Z.
Theorem C53_ones_like : forall dt, match dt with DFloat w => float_width w -> fval w (one_of dt) = Some (float_one w) /\ in_dtype dt (one_of dt) | _ => one_of dt = 1%Z end.
Proof. intros [|w|w|w]; try reflexivity. intros [-> | [-> | ->]]; (split; [reflexivity|]); cbn; lia. Qed.

(** ** astype between integer and boolean dtypes *)
Definition non_float (dt : dtype) : Prop := match dt with DFloat _ => False | DBool => True | DUInt w | DInt w => 1 <= w end.
(** [z'] is [z] converted to [dt]: in range and congruent, or the truth value *)
Definition casted (dt : dtype) (z z' : Z) : Prop :=
  match dt with
  | DBool => z' = b2z (negb (z =? 0)%Z)
  | DUInt w => (0 <= z' < 2 ^ Z.of_nat w /\ z' mod 2 ^ Z.of_nat w = z mod 2 ^ Z.of_nat w)%Z
  | DInt w => (- 2 ^ (Z.of_nat w - 1) <= z' < 2 ^ (Z.of_nat w - 1) /\ z' mod 2 ^ Z.of_nat w = z mod 2 ^ Z.of_nat w)%Z
  | DFloat _ => False
  end.
Lemma wrap_bounds w z : 1 <= w -> (- 2 ^ (Z.of_nat w - 1) <= wrap w z < 2 ^ (Z.of_nat w - 1))%Z /\ (wrap w z mod 2 ^ Z.of_nat w = z mod 2 ^ Z.of_nat w)%Z.
Proof.
  intros HW. unfold wrap. assert (E2 : (2 ^ Z.of_nat w = 2 * 2 ^ (Z.of_nat w - 1))%Z) by (rewrite <- Z.pow_succ_r by lia; f_equal; lia).
  assert (HP : (0 < 2 ^ (Z.of_nat w - 1))%Z) by (apply Z.pow_pos_nonneg; lia). set (h := (2 ^ (Z.of_nat w - 1))%Z) in *. rewrite E2.
  pose proof (Z.mod_pos_bound z (2 * h) ltac:(lia)) as HB. destruct (Z.ltb_spec (z mod (2 * h)) h).
  - split; [lia|]. apply Z.mod_mod. lia.
  - split; [lia|]. replace (z mod (2 * h) - 2 * h)%Z with (z mod (2 * h) + (-1) * (2 * h))%Z by lia. rewrite Z.mod_add by lia. apply Z.mod_mod. lia.
Qed.
Lemma cast_spec dt z : non_float dt -> casted dt z (cast dt z).
Proof.
  destruct dt as [|w|w|w]; cbn [non_float casted cast]; intros H; [destruct (z =? 0)%Z; reflexivity| | |contradiction].
  - assert (0 < 2 ^ Z.of_nat w)%Z by (apply Z.pow_pos_nonneg; lia). split; [now apply Z.mod_pos_bound|apply Z.mod_mod; lia].
  - now apply wrap_bounds.
Qed.
(** a value that fits is kept *)
Theorem C53_casted_fits : forall dt z z', non_float dt -> in_dtype dt z -> casted dt z z' -> z' = z.
Proof.
  intros [|w|w|w] z z'; cbn [non_float casted in_dtype]; intros HN HI HC; try contradiction.
  - rewrite HC. destruct HI as [-> | ->]; reflexivity.
  - destruct HC as [HB HC]. rewrite !Z.mod_small in HC by assumption. exact HC.
  - destruct HC as [HB HC]. assert (E2 : (2 ^ Z.of_nat w = 2 * 2 ^ (Z.of_nat w - 1))%Z) by (rewrite <- Z.pow_succ_r by lia; f_equal; lia). rewrite E2 in HC. set (h := (2 ^ (Z.of_nat w - 1))%Z) in *.
    assert (HP : (0 < 2 * h)%Z) by lia. pose proof (Z.div_mod z (2 * h) ltac:(lia)) as D1. pose proof (Z.div_mod z' (2 * h) ltac:(lia)) as D2. rewrite HC in D2.
    assert (HQ : (z' - z = 2 * h * (z' / (2 * h) - z / (2 * h)))%Z) by lia. set (q := (z' / (2 * h) - z / (2 * h))%Z) in *. clearbody q h. clear D1 D2 HC E2. assert (q = 0)%Z by nia. subst q. lia.
Qed.
Lemma map_build g t a : wfa a -> MkArr t (ashape a) (map g (adata a)) = build t (ashape a) (fun idx => g (get a idx)).
Proof.
  intros HW. pose proof (build_get a HW) as E. unfold build in *. f_equal. apply (f_equal adata) in E. cbn in E. rewrite <- E at 1. now rewrite map_map.
Qed.
Definition converted (dt : dtype) (l : list array) (x : array) : Prop :=
  match l with
  | [a] => adtype x = dt /\ ashape x = ashape a /\ (non_float (adtype a) -> entries x (fun idx z => casted dt (get a idx) z))
  | _ => False
  end.
Theorem C53_astype : forall c B o dt, non_float dt -> batched c B o ->
  exists r, obj_astype dt o = Some r /\ batched (retype (fun _ => dt) c) B r /\ each (converted dt) [o] r /\
    forall b, inb b B -> obj_astype dt (elem b o) = Some (elem b r).
Proof.
  intros c B o dt HN HO. set (f := one (fun a => Some (a_astype dt a))).
  destruct (each_lift B [idt] (fun _ => dt) f (fun _ => f) (fun _ => True) (converted dt)) with (c := c) (os := [o]) as (r & E1 & E2 & E3 & E4).
  - intros dt0 J l _ HA.
    destruct (pointwise_leaf B [idt] (fun _ => dt) f (fun _ zs => match zs with [x] => cast dt x | _ => 0%Z end)) with (dt := dt0) (I := J) (l := l) as (x & F1 & F2 & F3 & F4 & F5 & F6).
    + intros b dt1 K m HA'. inversion HA' as [|a t1 l1 ts1 (A1 & A2 & A3) HA1]; subst. inversion HA1; subst. unfold f. cbn [one]. f_equal. unfold a_astype. rewrite (map_build (cast dt) dt a A3), A2. reflexivity.
    + exact HA.
    + exists x. split; [exact F1|]. split; [exact F2|]. split; [exact F3|]. split; [exact F4|]. split; [|exact F6]. inversion HA as [|a t1 l1 ts1 (A1 & A2 & A3) HA1]; subst. inversion HA1; subst.
      cbn [converted]. split; [reflexivity|]. split; [congruence|]. intros _ idx HI. rewrite F5 by exact HI. cbn [map]. now apply cast_spec.
  - apply shapes_True.
  - discriminate.
  - unfold idt. constructor; [|constructor]. now rewrite (proj2 retype_id_both).
  - exists r. split; [exact E1|]. split; [exact E2|]. split; [exact E3|]. exact E4.
Qed.

(** ** where with an instance of conditions *)
Definition selected (l : list array) (x : array) : Prop :=
  match l with
  | [cd; p; q] => adtype x = adtype p /\ ashape x = ashape p /\ ashape cd = ashape p /\ ashape q = ashape p /\
      entries x (fun idx z => z = if (get cd idx =? 0)%Z then get q idx else get p idx)
  | _ => False
  end.
Theorem C53_where_conditions : forall c B cond x y, batched (retype boolt c) B cond -> batched c B x -> batched c B y ->
  exists r, obj_where_obj cond x y = Some r /\ batched c B r /\ each selected [cond; x; y] r /\
    forall b, inb b B -> obj_where_obj (elem b cond) (elem b x) (elem b y) = Some (elem b r).
Proof.
  intros c B cond x y HC HX HY.
  destruct (each_lift B [boolt; idt; idt] idt leaf_where_obj (fun _ => leaf_where_obj) (fun _ => True) selected) with (c := c) (os := [cond; x; y]) as (r & E1 & E2 & E3 & E4).
  - intros dt0 J l _ HA.
    destruct (pointwise_leaf B [boolt; idt; idt] idt leaf_where_obj (fun _ zs => match zs with [k; p; q] => if (k =? 0)%Z then q else p | _ => 0%Z end)) with (dt := dt0) (I := J) (l := l) as (u & F1 & F2 & F3 & F4 & F5 & F6).
    + intros b dt1 K m HA'. inversion HA' as [|k t1 l1 ts1 (A1 & A2 & A3) HA1]; subst. inversion HA1 as [|p t2 l2 ts2 (P1 & P2 & P3) HA2]; subst. inversion HA2 as [|q t3 l3 ts3 (Q1 & Q2 & Q3) HA3]; subst. inversion HA3; subst.
      cbn [leaf_where_obj]. unfold a_where. unfold idt in *. rewrite A2, P2, Q2, P1, Q1, shape_eqb_refl, dtype_eqb_refl. reflexivity.
    + exact HA.
    + exists u. split; [exact F1|]. split; [exact F2|]. split; [exact F3|]. split; [exact F4|]. split; [|exact F6].
      inversion HA as [|k t1 l1 ts1 (A1 & A2 & A3) HA1]; subst. inversion HA1 as [|p t2 l2 ts2 (P1 & P2 & P3) HA2]; subst. inversion HA2 as [|q t3 l3 ts3 (Q1 & Q2 & Q3) HA3]; subst. inversion HA3; subst. unfold idt in *.
      cbn [selected]. split; [congruence|]. split; [congruence|]. split; [congruence|]. split; [congruence|]. intros idx HI. now rewrite F5.
  - apply shapes_True.
  - discriminate.
  - unfold idt. constructor; [exact HC|]. constructor; [|constructor; [|constructor]]; rewrite (proj2 retype_id_both); assumption.
  - unfold idt in E2. rewrite (proj2 retype_id_both) in E2. exists r. split; [exact E1|]. split; [exact E2|]. split; [exact E3|]. exact E4.
Qed.

(** ** where_no_broadcast with an array condition *)
Theorem C53_where_strict : forall c B x y cond, scalar_leaves c -> batched c B x -> batched c B y -> ashape cond = B ->
  exists o', obj_where_strict cond x y = Some o' /\ batched c B o' /\ forall b, inb b B -> elem b o' = if (get cond b =? 0)%Z then elem b y else elem b x.
Proof.
  intros c B x y cond HSL [HC HH] [HCy HHy] Hs.
  assert (HR : rowwise_on (fun I => I = []) (leaf_where_strict cond) [B; B] B (fun b => Some (if negb (get cond b =? 0)%Z then 0 else 1, b)) nofill).
  { split.
    - intros b Hb. destruct (get cond b =? 0)%Z; cbn [length nth negb]; (split; [lia|exact Hb]).
    - intros dt J l -> HA. inversion HA as [|p B0 l1 Bs1 [A1 [A2 A3]] HA1]; subst. inversion HA1 as [|q V0 l2 Bs2 [V1 [V2 V3]] HA2]; subst. inversion HA2; subst. rewrite app_nil_r in *. cbn [leaf_where_strict].
      unfold a_where. rewrite A2, V2, V1, shape_eqb_refl, dtype_eqb_refl. cbn [andb]. eexists. split; [reflexivity|]. split; [reflexivity|]. split; [reflexivity|]. split; [apply build_wfa|].
      intros b t dflt Hb Ht. inversion Ht; subst. rewrite app_nil_r, get_build by exact Hb. destruct (get cond b =? 0)%Z; reflexivity. }
  destruct (lift_many_on _ _ _ _ _ _ c [x; y] HR HSL) as [o' [E1 [E2 [E3 E4]]]]; [discriminate|repeat constructor; assumption|].
  exists o'. split; [exact E1|]. split; [split; assumption|]. intros b Hb. rewrite E4 by exact Hb. destruct (get cond b =? 0)%Z; reflexivity.
Qed.
(** it raises unless every array has the shape of the condition: with a condition of the batch
    shape, any field with a non-scalar element makes it raise *)
Lemma strict_both cond B :
  (forall d J v w, conforms_v d v -> conforms_v d w -> has_v (B ++ J) d v -> has_v (B ++ J) d w ->
     ((exists u, tmap_v (leaf_where_strict cond) v [w] = Some u) <-> Forall (fun a => ashape a = ashape cond) (arrays_v v))) /\
  (forall c J o q, conforms c o -> conforms c q -> has_batch (B ++ J) c o -> has_batch (B ++ J) c q ->
     ((exists u, tmap (leaf_where_strict cond) o [q] = Some u) <-> Forall (fun a => ashape a = ashape cond) (arrays o))).
Proof.
  apply desc_class_ind.
  - intros dt ish bits pb fill J [a|o] [b|q] HC HD HH HK; try destruct HC; try destruct HD. cbn in *. unfold a_where. rewrite HH, HK, H, H1, shape_eqb_refl, dtype_eqb_refl, andb_true_r, andb_true_r. split.
    + intros [u E]. constructor; [|constructor]. destruct (shape_eqb (ashape cond) ((B ++ J) ++ ish)) eqn:ES; [|discriminate]. apply shape_eqb_eq in ES. congruence.
    + intros HF. inversion HF; subst. rewrite HH in H5. rewrite <- H5, shape_eqb_refl. eexists. reflexivity.
  - intros c IH ish J [a|o] [b|q] HC HD HH HK; try destruct HC; try destruct HD. cbn in HC, HD, HH, HK. rewrite <- app_assoc in HH, HK. cbn [arrays_v tmap_v map as_obj sequence option_map]. rewrite <- (IH (J ++ ish) o q HC HD HH HK).
    split; intros [u E]; [destruct (tmap (leaf_where_strict cond) o [q]) as [r|]; [eexists; reflexivity|discriminate E]|rewrite E; eexists; reflexivity].
  - intros J [|n v o] [|m w q] HC HD HH HK; try destruct HC; try destruct HD. cbn. split; [constructor|]. intros _. eexists. reflexivity.
  - intros n d IHd r IHr J [|m v o] [|m' w q] HC HD HH HK; try (destruct HC; fail); try (destruct HD; fail). destruct HC as [<- [C1 C2]], HD as [<- [D1 D2]], HH as [_ [H1 H2]], HK as [_ [K1 K2]].
    cbn [arrays tmap map head_field]. rewrite String.eqb_refl. cbn [sequence map fst snd option_map]. rewrite Forall_app, <- (IHd J v w C1 D1 H1 K1), <- (IHr J o q C2 D2 H2 K2). split.
    + intros [u E]. destruct (tmap_v (leaf_where_strict cond) v [w]) as [x|]; [|discriminate]. destruct (tmap (leaf_where_strict cond) o [q]) as [y|]; [|discriminate]. split; eexists; reflexivity.
    + intros [[x E1] [y E2]]. rewrite E1, E2. eexists. reflexivity.
Qed.
Theorem C53_where_strict_raises : forall c B x y cond, batched c B x -> batched c B y ->
  (obj_where_strict cond x y = None <-> ~ Forall (fun a => ashape a = ashape cond) (arrays x)).
Proof.
  intros c B x y cond [HC HH] [HD HK]. pose proof (proj2 (strict_both cond B) c [] x y HC HD) as E. rewrite app_nil_r in E. specialize (E HH HK). unfold obj_where_strict. cbn [tree_mapn]. rewrite <- E.
  destruct (tmap (leaf_where_strict cond) x [y]) as [r|]; split; try discriminate; intros H; [exfalso; apply H; eexists; reflexivity|intros [u K]; discriminate|reflexivity].
Qed.

(** ** where with a Python int: every integer field becomes int32 *)
Definition chosen_int (sel : list nat -> bool) (z : Z) (l : list array) (x : array) : Prop :=
  match l with
  | [a] => ashape x = ashape a /\ adtype x = promote_int (adtype a) /\
      (non_float (adtype a) -> entries x (fun idx v => if sel idx then casted (DInt 32) (get a idx) v else v = z))
  | _ => False
  end.
Lemma where_int_leaf cond z fl dt s a : adtype a = dt -> ashape a = s -> wfa a -> ndim cond <= length s -> bcast_ok (ashape cond) (skipn (length s - ndim cond) s) = true ->
  leaf_where_int cond z fl [a] = Some (build (promote_int dt) s (fun idx => if (get cond (bcast_src (ashape cond) idx) =? 0)%Z then match promote_int dt with DFloat _ => fl (promote_int dt) | _ => z end else cast (promote_int dt) (get a idx))).
Proof.
  intros HD HS HW HL HB. cbn [leaf_where_int]. rewrite HD, HS. unfold a_broadcast_to. rewrite HB. destruct (Nat.leb_spec (ndim cond) (length s)); [|lia]. cbn [andb obind]. unfold a_where. cbn [ashape adtype build full]. rewrite shape_eqb_refl, dtype_eqb_refl. cbn [andb]. f_equal.
  rewrite <- HS. rewrite (map_build (cast (promote_int dt)) (promote_int dt) a HW). rewrite HS, full_build. apply build_ext. intros idx HI. rewrite !get_build by exact HI. reflexivity.
Qed.
Lemma where_int_lift c B o z fl cond (ce : list nat -> array) (PI : list nat -> Prop) (sel : list nat -> bool) : shapes PI [] c ->
  (forall I, PI I -> bcast_ok (ashape cond) (skipn (length (B ++ I) - ndim cond) (B ++ I)) = true /\ ndim cond <= length (B ++ I)) ->
  (forall I idx, PI I -> inb idx (B ++ I) -> sel idx = negb (get cond (bcast_src (ashape cond) idx) =? 0)%Z) ->
  (forall b, inb b B -> ashape (ce b) = [] /\ forall I t, PI I -> inb t I -> sel (b ++ t) = negb (get (ce b) [] =? 0)%Z) ->
  batched c B o ->
  exists r, obj_where_int cond z fl o = Some r /\ batched (retype promote_int c) B r /\ each (chosen_int sel z) [o] r /\
    forall b, inb b B -> obj_where_int (ce b) z fl (elem b o) = Some (elem b r).
Proof.
  intros HP H1 H2 H3 HO.
  destruct (each_lift B [idt] promote_int (leaf_where_int cond z fl) (fun b => leaf_where_int (ce b) z fl) PI (chosen_int sel z)) with (c := c) (os := [o]) as (r & E1 & E2 & E3 & E4).
  - intros dt J l HJ HA. inversion HA as [|a t1 l1 ts1 (A1 & A2 & A3) HA1]; subst. inversion HA1; subst. unfold idt in A1. destruct (H1 J HJ) as [K1 K2].
    rewrite (where_int_leaf cond z fl dt (B ++ J) a A1 A2 A3 K2 K1). eexists. split; [reflexivity|]. split; [reflexivity|]. split; [reflexivity|]. split; [apply build_wfa|]. split.
    + cbn [chosen_int ashape adtype build]. split; [congruence|]. split; [congruence|]. intros HN idx HI. cbn [ashape build] in HI. rewrite get_build by exact HI. rewrite (H2 J idx HJ HI). destruct (get cond (bcast_src (ashape cond) idx) =? 0)%Z; cbn [negb].
      * rewrite A1 in HN. destruct dt; cbn [promote_int]; try reflexivity. destruct HN.
      * rewrite A1 in HN. replace (promote_int dt) with (DInt 32) by (destruct dt; [reflexivity|reflexivity|reflexivity|destruct HN]). apply cast_spec. cbn. lia.
    + intros b Hb. cbn [map]. destruct (H3 b Hb) as [K3 K4]. rewrite (where_int_leaf (ce b) z fl dt J (sub b a)); try apply build_wfa.
      * f_equal. rewrite (sub_shape b (build (promote_int dt) (B ++ J) _) B J Hb eq_refl). cbn [adtype build]. apply build_ext. intros t Ht. rewrite get_build by (now apply inb_app_intro).
        rewrite (sub_shape b a B J Hb A2), get_build by exact Ht. rewrite K3. unfold bcast_src at 1. cbn [length map combine]. pose proof (K4 J t HJ Ht) as K5. rewrite (H2 J (b ++ t) HJ (inb_app_intro _ _ _ _ Hb Ht)) in K5.
        assert (K6 : (get cond (bcast_src (ashape cond) (b ++ t)) =? 0)%Z = (get (ce b) [] =? 0)%Z) by (destruct (get cond (bcast_src (ashape cond) (b ++ t)) =? 0)%Z, (get (ce b) [] =? 0)%Z; cbn in K5; congruence).
        rewrite K6. reflexivity.
      * rewrite (sub_shape b a B J Hb A2). exact A1.
      * rewrite (sub_shape b a B J Hb A2). reflexivity.
      * unfold ndim. rewrite K3. cbn. lia.
      * unfold ndim. rewrite K3. cbn [length]. rewrite Nat.sub_0_r, skipn_all. reflexivity.
  - exact HP.
  - discriminate.
  - unfold idt. constructor; [|constructor]. now rewrite (proj2 retype_id_both).
  - exists r. split; [exact E1|]. split; [exact E2|]. split; [exact E3|]. exact E4.
Qed.
Theorem C53_where_int : forall c B o z fl cond, scalar_leaves c -> batched c B o -> ashape cond = B ->
  exists r, obj_where_int cond z fl o = Some r /\ batched (retype promote_int c) B r /\ each (chosen_int (fun idx => negb (get cond idx =? 0)%Z) z) [o] r /\
    forall b, inb b B -> obj_where_int (sub b cond) z fl (elem b o) = Some (elem b r).
Proof.
  intros c B o z fl cond HSL HO Hs. apply (where_int_lift c B o z fl cond (fun b => sub b cond) (fun J => J = [])); [exact HSL| | | |exact HO].
  - intros J ->. unfold ndim. rewrite Hs, app_nil_r, Nat.sub_diag, skipn_O. split; [apply bcast_ok_refl|lia].
  - intros J idx -> HI. rewrite app_nil_r in HI. rewrite Hs, bcast_id by exact HI. reflexivity.
  - intros b Hb. rewrite (sub_shape b cond B [] Hb) by (now rewrite app_nil_r). split; [reflexivity|]. intros J t -> Ht. inversion Ht; subst. now rewrite get_build by exact inb_nil.
Qed.
Theorem C53_where_int_scalar : forall c B o z fl cond, batched c B o -> ashape cond = [] ->
  exists r, obj_where_int cond z fl o = Some r /\ batched (retype promote_int c) B r /\ each (chosen_int (fun _ => negb (get cond [] =? 0)%Z) z) [o] r /\
    forall b, inb b B -> obj_where_int cond z fl (elem b o) = Some (elem b r).
Proof.
  intros c B o z fl cond HO Hs. apply (where_int_lift c B o z fl cond (fun _ => cond) (fun _ => True)); [apply shapes_True| | | |exact HO].
  - intros J _. unfold ndim. rewrite Hs. cbn [length]. rewrite Nat.sub_0_r, skipn_all. split; [reflexivity|lia].
  - intros J idx _ HI. rewrite Hs. unfold bcast_src. reflexivity.
  - intros b Hb. split; [exact Hs|]. intros J t _ Ht. reflexivity.
Qed.
(** so the result of [where(cond, x, 0)] on a class with an unsigned field is not an instance
    with the declared dtypes, and large unsigned values change even where the condition holds *)
Definition tag32 : class := (CCons "id" (Prim (DUInt 32) [] None false 0%Z) CNil)%string.
Theorem C53_where_int_dtype_refuted : exists cond x r, ashape cond = [] /\ get cond [] = 1%Z /\ batched tag32 [1] x /\ valid x /\
  obj_where_int cond 0 nofill x = Some r /\ ~ conforms tag32 r /\ map adata (arrays x) = [[4294967295%Z]] /\ map adata (arrays r) = [[(-1)%Z]].
Proof.
  exists (MkArr DBool [] [1%Z]), (OCons "id"%string (VArr (MkArr (DUInt 32) [1] [4294967295%Z])) ONil). eexists. split; [reflexivity|]. split; [reflexivity|]. split; [split; cbn; unfold wfa; cbn; auto|].
  split; [constructor; [split; [constructor; [cbn; lia|constructor]|exact Logic.I]|constructor]|]. split; [reflexivity|]. split; [cbn; intros (_ & (H & _) & _); discriminate|]. split; reflexivity.
Qed.
(** whenever the fields are already int32 or float, nothing of the kind happens *)
Fixpoint int32_d (d : desc) : Prop := match d with Prim dt _ _ _ _ => promote_int dt = dt | Nest c _ => int32_class c end
with int32_class (c : class) : Prop := match c with CNil => True | CCons _ d r => int32_d d /\ int32_class r end.
Theorem C53_promote_id : forall c, int32_class c -> retype promote_int c = c.
Proof.
  enough (H : (forall d, int32_d d -> retype_d promote_int d = d) /\ (forall c, int32_class c -> retype promote_int c = c)) by apply H.
  apply desc_class_ind; cbn; intros; try congruence; try (rewrite H by assumption; reflexivity). destruct H1. rewrite H, H0 by assumption. reflexivity.
Qed.
Example C53_example : exists r s, obj_equal (cell2 1) (cell2 1) = Some r /\ batched (retype boolt cell) [2] r /\ obj_where_obj r (cell2 1) (cell2 5) = Some s /\ s = cell2 1 /\
  obj_astype (DInt 8) (cell2 1) <> None /\ scalar_leaves tag /\ obj_where_strict (MkArr DBool [2] [1; 0]%Z) (cell2 1) (cell2 5) = None.
Proof. eexists. eexists. split; [reflexivity|]. split; [split; cbn; unfold wfa; cbn; auto 10|]. split; [reflexivity|]. split; [reflexivity|]. split; [discriminate|]. split; [cbn; auto|reflexivity]. Qed.
Print Assumptions C53_equal. Print Assumptions C53_equal_all. Print Assumptions C53_astype. Print Assumptions C53_where_conditions. Print Assumptions C53_where_strict_raises. Print Assumptions C53_where_int.
