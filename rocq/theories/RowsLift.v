(** * RowsLift.v — from operations on arrays to operations on instances. *)
From Coq Require Import String.
From Verif Require Import Jax StructModel ArrayModel ArrayFacts ShapeModel PropShape RowsModel.

(** ** Specification: the element of an instance at a batch index *)
Definition sub (b : list nat) (a : array) : array := build (adtype a) (skipn (length b) (ashape a)) (fun t => get a (b ++ t)).
Fixpoint elem_v (b : list nat) (v : value) : value := match v with VArr a => VArr (sub b a) | VObj o => VObj (elem b o) end
with elem (b : list nat) (o : obj) : obj := match o with ONil => ONil | OCons n v r => OCons n (elem_v b v) (elem b r) end.
(** an element whose arrays are filled with a value that depends on the dtype *)
Fixpoint const_v (fl : dtype -> Z) (J : list nat) (d : desc) : value :=
  match d with Prim dt ish _ _ _ => VArr (full dt (J ++ ish) (fl dt)) | Nest c ish => VObj (const_obj fl (J ++ ish) c) end
with const_obj (fl : dtype -> Z) (J : list nat) (c : class) : obj :=
  match c with CNil => ONil | CCons n d r => OCons n (const_v fl J d) (const_obj fl J r) end.

(** an array operation acts on batch rows: from arrays with batch shapes [Bs] it makes one
    with batch shape [B'] whose row [b'] is row [b] of the [k]-th array, for
    [src b' = Some (k, b)], or constant; whatever the dtype and the trailing shape are *)
Definition row_args (dt : dtype) (I : list nat) (l : list array) (Bs : list (list nat)) : Prop :=
  Forall2 (fun a B => adtype a = dt /\ ashape a = B ++ I /\ wfa a) l Bs.
Definition rowwise_on (PI : list nat -> Prop) (f : list array -> option array) (Bs : list (list nat)) (B' : list nat) (src : list nat -> option (nat * list nat)) (fl : dtype -> Z) : Prop :=
  (forall b', inb b' B' -> match src b' with Some (k, b) => k < length Bs /\ inb b (nth k Bs []) | None => True end) /\
  forall dt I l, PI I -> row_args dt I l Bs ->
    exists a', f l = Some a' /\ adtype a' = dt /\ ashape a' = B' ++ I /\ wfa a' /\
      forall b' t dflt, inb b' B' -> inb t I -> get a' (b' ++ t) = match src b' with Some (k, b) => get (nth k l dflt) (b ++ t) | None => fl dt end.

Definition rowwise := rowwise_on (fun _ => True).
(** the trailing shapes of the leaves of a class, inside a trailing shape [J] *)
Fixpoint shapes_d (PI : list nat -> Prop) (J : list nat) (d : desc) : Prop := match d with Prim _ ish _ _ _ => PI (J ++ ish) | Nest c ish => shapes PI (J ++ ish) c end
with shapes (PI : list nat -> Prop) (J : list nat) (c : class) : Prop := match c with CNil => True | CCons _ d r => shapes_d PI J d /\ shapes PI J r end.
Lemma shapes_True : (forall d J, shapes_d (fun _ => True) J d) /\ (forall c J, shapes (fun _ => True) J c).
Proof. apply desc_class_ind; cbn; auto. Qed.

Lemma full_build dt s z : full dt s z = build dt s (fun _ => z).
Proof. unfold full, build. f_equal. generalize 0. induction (prod s) as [|n IH]; intros k; cbn; [reflexivity|]. f_equal. apply IH. Qed.
Lemma sub_shape b a B I : inb b B -> ashape a = B ++ I -> sub b a = build (adtype a) I (fun t => get a (b ++ t)).
Proof. intros Hb Hs. unfold sub. f_equal. rewrite Hs, (inb_length _ _ Hb), skipn_app, skipn_all, Nat.sub_diag. reflexivity. Qed.

Lemma sequence_map {X Y} (g : X -> option Y) l ys : Forall2 (fun x y => g x = Some y) l ys -> sequence (map g l) = Some ys.
Proof. induction 1 as [|x y l ys E H IH]; [reflexivity|]. cbn [map sequence]. rewrite E, IH. reflexivity. Qed.

Section Lift.
Variables (PI : list nat -> Prop) (f : list array -> option array) (Bs : list (list nat)) (B' : list nat) (src : list nat -> option (nat * list nat)) (fl : dtype -> Z).
Hypothesis HR : rowwise_on PI f Bs B' src fl.

Definition args_v (J : list nat) (d : desc) (vs : list value) : Prop := Forall2 (fun v B => conforms_v d v /\ has_v (B ++ J) d v) vs Bs.
Definition args_o (J : list nat) (c : class) (os : list obj) : Prop := Forall2 (fun o B => conforms c o /\ has_batch (B ++ J) c o) os Bs.

Lemma prim_args J dt ish bits pb fill vs : args_v J (Prim dt ish bits pb fill) vs ->
  exists l, vs = map VArr l /\ row_args dt (J ++ ish) l Bs.
Proof.
  unfold args_v, row_args. generalize Bs as bs. intros bs H. induction H as [|v B vs bs [HC HH] H IH]; [exists []; auto|].
  destruct v as [a|o]; [|destruct HC]. destruct IH as [l [-> IH]]. exists (a :: l). split; [reflexivity|]. constructor; [|exact IH].
  cbn in HC, HH. destruct HC as [H1 H2]. rewrite <- app_assoc in HH. auto.
Qed.
Lemma nest_args J c ish vs : args_v J (Nest c ish) vs -> exists os, vs = map VObj os /\ args_o (J ++ ish) c os.
Proof.
  unfold args_v, args_o. generalize Bs as bs. intros bs H. induction H as [|v B vs bs [HC HH] H IH]; [exists []; auto|].
  destruct v as [a|o]; [destruct HC|]. destruct IH as [l [-> IH]]. exists (o :: l). split; [reflexivity|]. constructor; [|exact IH].
  cbn in HC, HH. rewrite <- app_assoc in HH. auto.
Qed.
Lemma cons_args J n d r os : args_o J (CCons n d r) os ->
  exists vs qs, os = map (fun p => OCons n (fst p) (snd p)) (combine vs qs) /\ length vs = length qs /\ args_v J d vs /\ args_o J r qs.
Proof.
  unfold args_v, args_o. generalize Bs as bs. intros bs H. induction H as [|o B os bs [HC HH] H IH]; [exists [], []; repeat split; constructor|].
  destruct o as [|m v q]; [destruct HC|]. destruct IH as [vs [qs [-> [HL [IH1 IH2]]]]]. destruct HC as [<- [C1 C2]]. destruct HH as [_ [H1 H2]].
  exists (v :: vs), (q :: qs). cbn. repeat split; auto.
Qed.
Lemma nil_args J os : args_o J CNil os -> os = repeat ONil (length Bs).
Proof.
  unfold args_o. generalize Bs as bs. intros bs H. induction H as [|o B os bs [HC HH] H IH]; [reflexivity|]. destruct o; [|destruct HC]. cbn. now f_equal.
Qed.
Lemma nth_repeat_any k n (o d : obj) : o = d -> nth k (repeat o n) d = d.
Proof. intros ->. revert k. induction n; intros [|k]; cbn; auto. Qed.
Lemma nth_map_any {X Y} (g : X -> Y) l k d e : k < length l -> nth k (map g l) e = g (nth k l d).
Proof. intros H. rewrite (nth_indep _ e (g d)) by (now rewrite map_length). apply map_nth. Qed.

Lemma lift_both :
  (forall d J v vs, shapes_d PI J d -> args_v J d (v :: vs) ->
     exists v', tmap_v f v vs = Some v' /\ conforms_v d v' /\ has_v (B' ++ J) d v' /\
       forall b' dflt, inb b' B' -> elem_v b' v' = match src b' with Some (k, b) => elem_v b (nth k (v :: vs) dflt) | None => const_v fl J d end) /\
  (forall c J o os, shapes PI J c -> args_o J c (o :: os) ->
     exists o', tmap f o os = Some o' /\ conforms c o' /\ has_batch (B' ++ J) c o' /\
       forall b' dflt, inb b' B' -> elem b' o' = match src b' with Some (k, b) => elem b (nth k (o :: os) dflt) | None => const_obj fl J c end).
Proof.
  destruct HR as [HS HF]. apply desc_class_ind.
  - intros dt ish bits pb fill J v vs SH HA. destruct (prim_args _ _ _ _ _ _ _ HA) as [l [EL RA]]. destruct l as [|a l]; [discriminate|]. cbn [map] in EL. injection EL as -> ->.
    cbn [tmap_v]. rewrite (sequence_map as_arr (map VArr l) l) by (clear; induction l; cbn; constructor; auto).
    destruct (HF dt (J ++ ish) (a :: l) SH RA) as [a' [E [E1 [E2 [E3 E4]]]]]. rewrite E. cbn [option_map]. exists (VArr a'). split; [reflexivity|].
    split; [split; [exact E1|exact E3]|]. split; [cbn [has_v]; now rewrite E2, app_assoc|].
    intros b' dflt Hb. cbn [elem_v]. rewrite (sub_shape b' a' B' (J ++ ish)) by (auto; now rewrite E2). rewrite E1.
    specialize (HS b' Hb). pose proof (fun t dflt => E4 b' t dflt Hb) as E5. destruct (src b') as [[k b]|].
    + destruct HS as [Hk Hbb]. assert (LA : length (a :: l) = length Bs) by (clear - RA; induction RA; cbn; congruence).
      change (VArr a :: map VArr l) with (map VArr (a :: l)). rewrite (nth_map_any VArr (a :: l) k a) by lia. cbn [elem_v]. f_equal.
      assert (Hnth : adtype (nth k (a :: l) a) = dt /\ ashape (nth k (a :: l) a) = nth k Bs [] ++ J ++ ish /\ wfa (nth k (a :: l) a)).
      { clear - RA Hk. revert k Hk. unfold row_args in RA. generalize dependent (a :: l). intros x RA. induction RA as [|y B x bs HP RA IH]; intros k Hk; cbn in Hk; [lia|].
        destruct k; [exact HP|]. cbn. apply IH. lia. }
      destruct Hnth as [N1 [N2 N3]]. rewrite (sub_shape b _ (nth k Bs []) (J ++ ish) Hbb N2), N1. apply build_ext. intros t Ht. now apply E5.
    + cbn [const_v]. f_equal. rewrite full_build. apply build_ext. intros t Ht. now apply (E5 t a').
  - intros c IH ish J v vs SH HA. destruct (nest_args _ _ _ _ HA) as [os [EL RA]]. destruct os as [|o os]; [discriminate|]. cbn [map] in EL. injection EL as -> ->.
    cbn [tmap_v]. rewrite (sequence_map as_obj (map VObj os) os) by (clear; induction os; cbn; constructor; auto).
    destruct (IH (J ++ ish) o os SH RA) as [o' [E [E1 [E2 E3]]]]. rewrite E. cbn [option_map]. exists (VObj o'). split; [reflexivity|].
    split; [exact E1|]. split; [cbn [has_v]; now rewrite <- app_assoc|]. intros b' dflt Hb. cbn [elem_v]. rewrite (E3 b' o Hb).
    specialize (HS b' Hb). destruct (src b') as [[k b]|]; [|reflexivity]. destruct HS as [Hk _].
    assert (LA : length (o :: os) = length Bs) by (clear - RA; unfold args_o in RA; induction RA; cbn; congruence).
    change (VObj o :: map VObj os) with (map VObj (o :: os)). rewrite (nth_map_any VObj (o :: os) k o) by lia. reflexivity.
  - intros J o os _ HA. pose proof (nil_args _ _ HA) as EL. destruct (length Bs) as [|n] eqn:EN; [discriminate|]. cbn [repeat] in EL. injection EL as -> ->.
    cbn [tmap]. assert (FB : forallb is_nil (repeat ONil n) = true) by (clear; induction n; cbn; auto). rewrite FB. exists ONil. split; [reflexivity|].
    split; [exact I|]. split; [exact I|]. intros b' dflt Hb. cbn [elem]. specialize (HS b' Hb). destruct (src b') as [[k b]|]; [|reflexivity]. destruct HS as [Hk _].
    change (ONil :: repeat ONil n) with (repeat ONil (S n)). rewrite (nth_indep _ dflt ONil) by (rewrite repeat_length; lia). now rewrite nth_repeat_any.
  - intros n d IHd r IHr J o os [SH1 SH2] HA. destruct (cons_args _ _ _ _ _ HA) as [vs [qs [EL [HL [RV RO]]]]].
    destruct vs as [|v vs]; [discriminate|]. destruct qs as [|q qs]; [discriminate|]. cbn [combine map fst snd] in EL. injection EL as -> ->.
    cbn [length] in HL. cbn [tmap].
    rewrite (sequence_map (head_field n) _ (combine vs qs)) by (clear; induction (combine vs qs) as [|[x y] l IH]; cbn; constructor; [cbn; now rewrite String.eqb_refl|exact IH]).
    assert (M1 : map fst (combine vs qs) = vs) by (clear - HL; revert qs HL; induction vs as [|x vs IH]; intros [|y qs] HL; cbn in *; try lia; [reflexivity|]; f_equal; apply IH; lia).
    assert (M2 : map snd (combine vs qs) = qs) by (clear - HL; revert qs HL; induction vs as [|x vs IH]; intros [|y qs] HL; cbn in *; try lia; [reflexivity|]; f_equal; apply IH; lia).
    rewrite M1, M2. destruct (IHd J v vs SH1 RV) as [v' [E1 [E2 [E3 E4]]]]. destruct (IHr J q qs SH2 RO) as [q' [F1 [F2 [F3 F4]]]]. rewrite E1, F1.
    exists (OCons n v' q'). split; [reflexivity|]. split; [cbn; auto|]. split; [cbn; auto|]. intros b' dflt Hb. cbn [elem]. rewrite (E4 b' v Hb), (F4 b' q Hb).
    specialize (HS b' Hb). destruct (src b') as [[k b]|]; [|reflexivity]. destruct HS as [Hk _].
    assert (LA : length (v :: vs) = length Bs) by (clear - RV; unfold args_v in RV; induction RV; cbn; congruence).
    change (OCons n v q :: map (fun p => OCons n (fst p) (snd p)) (combine vs qs)) with (map (fun p => OCons n (fst p) (snd p)) (combine (v :: vs) (q :: qs))).
    rewrite (nth_map_any _ (combine (v :: vs) (q :: qs)) k (v, q)) by (rewrite combine_length; cbn in *; lia). cbn [elem].
    rewrite combine_nth by (cbn; lia). reflexivity.
Qed.
End Lift.

(** the lifting for a list of instances, and for one *)
Lemma lift_many_on PI f Bs B' src fl c os : rowwise_on PI f Bs B' src fl -> shapes PI [] c -> Bs <> [] ->
  Forall2 (fun o B => conforms c o /\ has_batch B c o) os Bs ->
  exists o', tree_mapn f os = Some o' /\ conforms c o' /\ has_batch B' c o' /\
    forall b', inb b' B' -> elem b' o' = match src b' with Some (k, b) => elem b (nth k os ONil) | None => const_obj fl [] c end.
Proof.
  intros HR SH HN HA. destruct os as [|o os]; [inversion HA; congruence|].
  destruct (proj2 (lift_both PI f Bs B' src fl HR) c [] o os SH) as [o' [E [E1 [E2 E3]]]].
  { unfold args_o. clear - HA. induction HA as [|x B os' Bs' [H1 H2] HA' IH]; constructor; [now rewrite app_nil_r|exact IH]. }
  exists o'. rewrite app_nil_r in E2. repeat split; auto.
Qed.
Lemma lift_many f Bs B' src fl c os : rowwise f Bs B' src fl -> Bs <> [] ->
  Forall2 (fun o B => conforms c o /\ has_batch B c o) os Bs ->
  exists o', tree_mapn f os = Some o' /\ conforms c o' /\ has_batch B' c o' /\
    forall b', inb b' B' -> elem b' o' = match src b' with Some (k, b) => elem b (nth k os ONil) | None => const_obj fl [] c end.
Proof. intros HR. apply (lift_many_on (fun _ => True)); [exact HR|apply shapes_True]. Qed.
Definition rowwise1 (f : array -> option array) (B B' : list nat) (src : list nat -> option (list nat)) (fl : dtype -> Z) : Prop :=
  (forall b', inb b' B' -> match src b' with Some b => inb b B | None => True end) /\
  forall a I, ashape a = B ++ I -> wfa a ->
    exists a', f a = Some a' /\ adtype a' = adtype a /\ ashape a' = B' ++ I /\ wfa a' /\
      forall b' t, inb b' B' -> inb t I -> get a' (b' ++ t) = match src b' with Some b => get a (b ++ t) | None => fl (adtype a) end.
Lemma lift_one f B B' src fl c o : rowwise1 f B B' src fl -> conforms c o -> has_batch B c o ->
  exists o', tree_map1 f o = Some o' /\ conforms c o' /\ has_batch B' c o' /\
    forall b', inb b' B' -> elem b' o' = match src b' with Some b => elem b o | None => const_obj fl [] c end.
Proof.
  intros [H1 H2] HC HB.
  destruct (lift_many (one f) [B] B' (fun b' => option_map (fun b => (0, b)) (src b')) fl c [o]) as [o' [E [E1 [E2 E3]]]].
  - split.
    + intros b' Hb. specialize (H1 b' Hb). destruct (src b'); cbn; [split; [lia|exact H1]|exact I].
    + intros dt J l _ HA. inversion HA as [|a B0 l' Bs' [A1 [A2 A3]] HA']; subst. inversion HA'; subst.
      destruct (H2 a J A2 A3) as [a' [F1 [F2 [F3 [F4 F5]]]]]. exists a'. cbn [one]. split; [exact F1|]. split; [exact F2|]. split; [exact F3|]. split; [exact F4|].
      intros b' t dflt Hb Ht. rewrite (F5 b' t Hb Ht). destruct (src b'); reflexivity.
  - discriminate.
  - repeat constructor; auto.
  - exists o'. split; [exact E|]. split; [exact E1|]. split; [exact E2|]. intros b' Hb. rewrite (E3 b' Hb). destruct (src b'); reflexivity.
Qed.
(** operations that gather by an index map are row-wise when the map does not touch the trailing axes *)
Lemma rowwise1_build (f : array -> option array) B B' src fl (F : array -> list nat -> Z) :
  (forall b', inb b' B' -> match src b' with Some b => inb b B | None => True end) ->
  (forall a I, ashape a = B ++ I -> wfa a -> f a = Some (build (adtype a) (B' ++ I) (F a))) ->
  (forall a I b' t, ashape a = B ++ I -> wfa a -> inb b' B' -> inb t I -> F a (b' ++ t) = match src b' with Some b => get a (b ++ t) | None => fl (adtype a) end) ->
  rowwise1 f B B' src fl.
Proof.
  intros H1 H2 H3. split; [exact H1|]. intros a I Hs Hw. exists (build (adtype a) (B' ++ I) (F a)). split; [now apply H2|]. split; [reflexivity|]. split; [reflexivity|].
  split; [apply build_wfa|]. intros b' t Hb Ht. rewrite get_build by (now apply inb_app_intro). now apply (H3 a I).
Qed.
(** the elements determine an array *)
Lemma sub_index b a B I : inb b B -> ashape a = B ++ I -> wfa a -> a_index (map (fun i => IInt (Z.of_nat i)) b) a = Some (sub b a).
Proof.
  intros Hb Hs Hw. rewrite (sub_shape b a B I Hb Hs). unfold a_index. rewrite Hs.
  assert (E1 : index_shape (map (fun i => IInt (Z.of_nat i)) b) (B ++ I) = Some I).
  { clear - Hb. induction Hb as [|i d b B Hi Hb IH]; [destruct I; reflexivity|]. cbn [map app index_shape]. destruct (Nat.eqb_spec d 0); [lia|exact IH]. }
  rewrite E1. f_equal. apply build_ext. intros t Ht. f_equal.
  clear - Hb. induction Hb as [|i d b B Hi Hb IH]; [destruct I; reflexivity|]. cbn [map app index_src]. f_equal; [|exact IH].
  unfold clamp_index. destruct (Z.ltb_spec (Z.of_nat i) 0); lia.
Qed.
