(** * PropBlock.v — property C71: assembling instances from nested lists. *)
From Coq Require Import String.
From Verif Require Import Jax StructModel ArrayModel ArrayFacts ShapeModel PropShape RowsModel RowsLift PropRows PropRows2 PropRows3 PropRows4 EqModel FloatEq PropEq RowsModel2 PropRows5 PropRows6 PropRows7 BlockModel.

(** ** tree_map as a relation between the arrays at one place *)
Lemma seq_arr vs l : sequence (map as_arr vs) = Some l -> vs = map VArr l.
Proof.
  revert l. induction vs as [|v vs IH]; intros l E; cbn in E; [injection E as <-; reflexivity|]. destruct v as [a|]; [|discriminate]. cbn in E. destruct (sequence (map as_arr vs)) as [m|]; [|discriminate]. injection E as <-. cbn. f_equal. now apply IH.
Qed.
Lemma seq_obj vs l : sequence (map as_obj vs) = Some l -> vs = map VObj l.
Proof.
  revert l. induction vs as [|v vs IH]; intros l E; cbn in E; [injection E as <-; reflexivity|]. destruct v as [|o]; [discriminate|]. cbn in E. destruct (sequence (map as_obj vs)) as [m|]; [|discriminate]. injection E as <-. cbn. f_equal. now apply IH.
Qed.
Lemma seq_head n os l : sequence (map (head_field n) os) = Some l -> os = map (fun p => OCons n (fst p) (snd p)) l.
Proof.
  revert l. induction os as [|o os IH]; intros l E; cbn in E; [injection E as <-; reflexivity|]. destruct o as [|m v r]; [discriminate|]. cbn in E. destruct (String.eqb_spec m n) as [-> |]; [|discriminate]. destruct (sequence (map (head_field n) os)) as [k|]; [|discriminate]. injection E as <-. cbn. f_equal. now apply IH.
Qed.
Lemma combine_split_id {X Y} (l : list (X * Y)) : combine (map fst l) (map snd l) = l.
Proof. induction l as [|[x y] l IH]; [reflexivity|]. cbn. now rewrite IH. Qed.
Lemma tmap_each f :
  (forall v vs u, tmap_v f v vs = Some u -> each_v (fun l x => f l = Some x) (v :: vs) u) /\ (forall o os r, tmap f o os = Some r -> each (fun l x => f l = Some x) (o :: os) r).
Proof.
  apply value_obj_ind.
  - intros a vs u E. cbn [tmap_v] in E. destruct (sequence (map as_arr vs)) as [l|] eqn:EL; [|discriminate]. apply seq_arr in EL. subst vs. destruct (f (a :: l)) as [x|] eqn:EF; [|discriminate]. injection E as <-. exists (a :: l). auto.
  - intros o IH vs u E. cbn [tmap_v] in E. destruct (sequence (map as_obj vs)) as [l|] eqn:EL; [|discriminate]. apply seq_obj in EL. subst vs. destruct (tmap f o l) as [x|] eqn:EF; [|discriminate]. injection E as <-. exists (o :: l). split; [reflexivity|now apply IH].
  - intros os r E. cbn [tmap] in E. destruct (forallb is_nil os) eqn:EN; [|discriminate]. injection E as <-. cbn. constructor; [reflexivity|]. apply Forall_forall. intros x Hx. rewrite forallb_forall in EN. specialize (EN x Hx). destruct x; [reflexivity|discriminate].
  - intros n v IHv q IHq os r E. cbn [tmap] in E. destruct (sequence (map (head_field n) os)) as [l|] eqn:EL; [|discriminate]. apply seq_head in EL. subst os. destruct (tmap_v f v (map fst l)) as [u|] eqn:EV; [|discriminate]. destruct (tmap f q (map snd l)) as [r'|] eqn:EQ; [|discriminate]. injection E as <-.
    exists (v :: map fst l), (q :: map snd l). split; [cbn; now rewrite !map_length|]. split; [cbn; now rewrite combine_split_id|]. split; [now apply IHv|now apply IHq].
Qed.
Lemma each_tmap f :
  (forall u v vs, each_v (fun l x => f l = Some x) (v :: vs) u -> tmap_v f v vs = Some u) /\ (forall r o os, each (fun l x => f l = Some x) (o :: os) r -> tmap f o os = Some r).
Proof.
  apply value_obj_ind.
  - intros x v vs (l & E & HF). destruct l as [|a l]; [discriminate|]. cbn in E. injection E as -> ->. cbn [tmap_v]. rewrite (sequence_map as_arr (map VArr l) l) by (clear; induction l; constructor; auto). now rewrite HF.
  - intros r IH v vs (os & E & HF). destruct os as [|o os]; [discriminate|]. cbn in E. injection E as -> ->. cbn [tmap_v]. rewrite (sequence_map as_obj (map VObj os) os) by (clear; induction os; constructor; auto). now rewrite (IH _ _ HF).
  - intros o os H. inversion H as [|? ? <- H']; subst. cbn [tmap]. replace (forallb is_nil os) with true; [reflexivity|]. symmetry. apply forallb_forall. intros x Hx. rewrite Forall_forall in H'. now rewrite <- (H' x Hx).
  - intros n u IHu r IHr o os (vs & qs & HL & E & H1 & H2). destruct vs as [|v vs], qs as [|q qs]; try discriminate. cbn in E. injection E as -> ->. cbn [tmap].
    rewrite (sequence_map (head_field n) _ (combine vs qs)) by (generalize (combine vs qs); clear; intros l; induction l as [|[a b] l IH]; cbn; constructor; [cbn; now rewrite String.eqb_refl|exact IH]).
    rewrite combine_fst, combine_snd by (cbn in HL; lia). now rewrite (IHu _ _ H1), (IHr _ _ H2).
Qed.
Lemma mapn_each f os r : os <> [] -> (tree_mapn f os = Some r <-> each (fun l x => f l = Some x) os r).
Proof. intros HN. destruct os as [|o os]; [congruence|]. split; [apply (proj2 (tmap_each f))|apply (proj2 (each_tmap f))]. Qed.
(** ** composition *)
Inductive fits : list (list array -> array -> Prop) -> list (list array) -> list array -> Prop :=
  | fits_nil : fits [] [] []
  | fits_cons (R : list array -> array -> Prop) Rs l ls y ys : R l y -> fits Rs ls ys -> fits (R :: Rs) (l :: ls) (y :: ys).
Definition fused (G : list array -> array -> Prop) Rs (l : list array) (x : array) : Prop := exists ls ys, l = concat ls /\ fits Rs ls ys /\ G ys x.
Lemma each_fuse G :
  (forall u vs (its : list ((list array -> array -> Prop) * list value)), each_v G vs u -> Forall2 (fun it v => each_v (fst it) (snd it) v) its vs -> each_v (fused G (map fst its)) (concat (map snd its)) u) /\
  (forall r os (its : list ((list array -> array -> Prop) * list obj)), each G os r -> Forall2 (fun it o => each (fst it) (snd it) o) its os -> each (fused G (map fst its)) (concat (map snd its)) r).
Proof.
  apply value_obj_ind.
  - intros x vs its (ys & -> & HG) HF.
    assert (K : exists ls, fits (map fst its) ls ys /\ concat (map snd its) = map VArr (concat ls)).
    { clear HG. revert its HF. induction ys as [|y ys IH]; intros its HF; inversion HF as [|[R vs] v its' vs' HI HF']; subst; [exists []; split; [constructor|reflexivity]|]. cbn in HI. destruct HI as (l & E & HR). destruct (IH _ HF') as (ls & K1 & K2). exists (l :: ls). split; [now constructor|]. cbn. now rewrite E, K2, map_app. }
    destruct K as (ls & K1 & K2). exists (concat ls). split; [exact K2|]. exists ls, ys. auto.
  - intros r IH vs its (os & -> & HG) HF.
    assert (K : exists jts : list ((list array -> array -> Prop) * list obj), map fst jts = map fst its /\ Forall2 (fun it o => each (fst it) (snd it) o) jts os /\ concat (map snd its) = map VObj (concat (map snd jts))).
    { clear HG IH. revert its HF. induction os as [|y os IH]; intros its HF; inversion HF as [|[R vs] v its' vs' HI HF']; subst; [exists []; repeat split; constructor|]. cbn in HI. destruct HI as (l & E & HR). destruct (IH _ HF') as (jts & K0 & K1 & K2). exists ((R, l) :: jts). cbn. split; [congruence|]. split; [now constructor|]. now rewrite E, K2, map_app. }
    destruct K as (jts & K0 & K1 & K2). exists (concat (map snd jts)). split; [exact K2|]. rewrite <- K0. now apply (IH os).
  - intros os its HG HF. cbn in *. clear G. induction HF as [|it o its os HI HF IH]; [constructor|]. inversion HG as [|? ? <- HG']; subst. cbn in HI |- *. apply Forall_app. auto.
  - intros n u IHu r IHr os its (us & qs & HL & -> & H1 & H2) HF.
    assert (K : exists (jv : list ((list array -> array -> Prop) * list value)) (jo : list ((list array -> array -> Prop) * list obj)), map fst jv = map fst its /\ map fst jo = map fst its /\ Forall2 (fun it v => each_v (fst it) (snd it) v) jv us /\ Forall2 (fun it o => each (fst it) (snd it) o) jo qs /\
      length (concat (map snd jv)) = length (concat (map snd jo)) /\ concat (map snd its) = map (fun p => OCons n (fst p) (snd p)) (combine (concat (map snd jv)) (concat (map snd jo)))).
    { clear H1 H2 IHu IHr. revert qs its HL HF. induction us as [|v us IH]; intros [|q qs] its HL HF; try discriminate; cbn in HF; inversion HF as [|[R os] o its' os' HI HF']; subst; [exists [], []; repeat split; constructor|].
      cbn in HI. destruct HI as (vs & ps & L & E & E1 & E2). destruct (IH qs its' ltac:(cbn in HL; lia) HF') as (jv & jo & K1 & K2 & K3 & K4 & K5 & K6). exists ((R, vs) :: jv), ((R, ps) :: jo). cbn. rewrite K1, K2. split; [reflexivity|]. split; [reflexivity|]. split; [now constructor|]. split; [now constructor|]. split; [rewrite !app_length; lia|].
      rewrite E, K6. assert (EC : forall {X Y} (x : list X) y (a : list Y) t, length x = length a -> combine (x ++ y) (a ++ t) = (combine x a ++ combine y t)%list).
      { clear. induction x as [|k x IH]; intros y [|k' u] t E; cbn in *; try discriminate; [reflexivity|]. f_equal. apply IH. lia. }
      rewrite EC by exact L. now rewrite map_app. }
    destruct K as (jv & jo & K1 & K2 & K3 & K4 & K5 & K6). exists (concat (map snd jv)), (concat (map snd jo)). split; [exact K5|]. split; [exact K6|]. split; [rewrite <- K1; now apply (IHu us)|rewrite <- K2; now apply (IHr qs)].
Qed.
(** ** Specification: a list of things of nesting depth [d] is joined along batch axis
    [n - 1 - d], where [n] is the number of batch axes (so the innermost lists are joined along
    the last axis) *)
Fixpoint join_levels (c : class) (n : nat) (t : nested obj) : option (obj * nat) :=
  match t with
  | Blk o => Some (o, 0)
  | Lst l =>
      match sequence (map (join_levels c n) l) with
      | Some ((o, d) :: r) =>
          if forallb (fun p => snd p =? d) r then option_map (fun y => (y, S d)) (obj_concat c (Z.of_nat (n - S d)) (o :: map fst r)) else None
      | _ => None
      end
  end.

Lemma nested_ind' {A} (P : nested A -> Prop) : (forall a, P (Blk a)) -> (forall l, Forall P l -> P (Lst l)) -> forall t, P t.
Proof.
  intros H1 H2. fix IH 1. intros [a|l]; [apply H1|]. apply H2. induction l as [|t l IHl]; constructor; [apply IH|exact IHl].
Qed.
Definition ranked (c : class) (n : nat) (o : obj) : Prop := exists B, batched c B o /\ length B = n.
Fixpoint fill_list {A} (ts : list (nested A)) (l : list array) : option (list (nested array)) :=
  match ts with
  | [] => match l with [] => Some [] | _ => None end
  | u :: us => match fill u (firstn (length (leaves u)) l), fill_list us (skipn (length (leaves u)) l) with Some x, Some y => Some (x :: y) | _, _ => None end
  end.
Lemma fill_lst {A} (ts : list (nested A)) l : fill (Lst ts) l = option_map Lst (fill_list ts l).
Proof. cbn [fill]. f_equal. revert l. induction ts as [|u us IH]; intros l; [reflexivity|]. cbn [fill_list]. destruct (fill u (firstn (length (leaves u)) l)); [|reflexivity]. now rewrite IH. Qed.
Lemma fill_length {A} (t : nested A) : forall l u, fill t l = Some u -> length l = length (leaves t).
Proof.
  induction t as [a|ts IH] using nested_ind'; intros l u E.
  - cbn in E. destruct l as [|x [|]]; try discriminate. reflexivity.
  - rewrite fill_lst in E. destruct (fill_list ts l) as [us|] eqn:EF; [|discriminate]. clear E u. revert l us EF. induction IH as [|t ts Ht HF IH]; intros l us EF; cbn [fill_list] in EF; [destruct l; [reflexivity|discriminate]|].
    destruct (fill t (firstn (length (leaves t)) l)) as [x|] eqn:E1; [|discriminate]. destruct (fill_list ts (skipn (length (leaves t)) l)) as [y|] eqn:E2; [|discriminate]. apply Ht in E1. apply IH in E2. rewrite firstn_length in E1. rewrite skipn_length in E2. cbn [leaves flat_map] in *. rewrite app_length. lia.
Qed.
Lemma concat_one k a : wfa a -> k < ndim a -> a_concat (Z.of_nat k) [a] = Some a.
Proof.
  intros HW HK. unfold a_concat. rewrite norm_axis_pos by exact HK. cbn [forallb]. rewrite shape_eqb_refl, Nat.eqb_refl, dtype_eqb_refl. cbn [andb map]. f_equal. cbn [list_sum fold_right]. change (list_sum [nth k (ashape a) 0]) with (nth k (ashape a) 0 + 0). rewrite Nat.add_0_r, upd_same by exact HK. transitivity (build (adtype a) (ashape a) (get a)); [|now apply build_get].
  apply build_ext. intros idx HI. cbn [locate]. pose proof (inb_nth _ _ k HI HK) as HL. destruct (Nat.ltb_spec (nth k idx 0) (nth k (ashape a) 0)); [|lia]. cbn [nth]. rewrite upd_same; [reflexivity|]. rewrite (inb_length _ _ HI). exact HK.
Qed.
Lemma concat_ndim z l x a : a_concat z l = Some x -> In a l -> ndim x = ndim a.
Proof.
  unfold a_concat. destruct l as [|a0 l]; [discriminate|]. destruct (norm_axis z (ndim a0)) as [k|]; [|discriminate]. destruct (forallb _ (a0 :: l)) eqn:EF; [|discriminate]. intros E HI. injection E as <-. rewrite forallb_forall in EF. specialize (EF a HI). apply andb_true_iff in EF. destruct EF as [EF _]. apply andb_true_iff in EF. destruct EF as [_ EF]. apply Nat.eqb_eq in EF. rewrite EF. unfold ndim. cbn. apply upd_length.
Qed.
Lemma each_self n B : length B = n ->
  (forall d J v, shapes_d (fun I => I = []) J d -> conforms_v d v -> has_v (B ++ J) d v -> each_v (fun l x => l = [x] /\ ndim x = n /\ wfa x) [v] v) /\
  (forall c J o, shapes (fun I => I = []) J c -> conforms c o -> has_batch (B ++ J) c o -> each (fun l x => l = [x] /\ ndim x = n /\ wfa x) [o] o).
Proof.
  intros HB. apply desc_class_ind.
  - intros dt ish bits pb fl J [a|o] HS HC HH; [|destruct HC]. cbn in HS, HC, HH. destruct HC as [_ HW]. exists [a]. split; [reflexivity|]. split; [reflexivity|]. split; [|exact HW]. unfold ndim. rewrite HH, <- app_assoc, HS, app_nil_r. exact HB.
  - intros c IH ish J [a|o] HS HC HH; [destruct HC|]. cbn in HS, HC, HH. rewrite <- app_assoc in HH. exists [o]. split; [reflexivity|]. now apply (IH (J ++ ish)).
  - intros J [|] HS HC HH; [|destruct HC]. constructor; [reflexivity|constructor].
  - intros n' d IHd r IHr J [|m v o] HS HC HH; [destruct HC|]. destruct HC as (<- & C1 & C2). destruct HH as (_ & H1 & H2). destruct HS as [S1 S2]. exists [v], [o]. split; [reflexivity|]. split; [reflexivity|]. split; eauto.
Qed.
Lemma ranked_self c n o : scalar_leaves c -> ranked c n o -> each (fun l x => l = [x] /\ ndim x = n /\ wfa x) [o] o.
Proof. intros HS (B & [HC HH] & HB). apply (proj2 (each_self n B HB) c [] o HS HC). now rewrite app_nil_r. Qed.
Lemma dims_upd k B0 B : k < length B0 -> concat_dims_ok (Z.of_nat k) B0 B = true -> B = upd k (nth k B 0) B0.
Proof.
  intros Hk H. unfold concat_dims_ok in H. apply andb_true_iff in H. destruct H as [HL HF]. apply Nat.eqb_eq in HL. rewrite forallb_forall in HF.
  apply (nth_ext _ _ 0 0); [now rewrite upd_length|]. intros i Hi. rewrite nth_upd by exact Hk. destruct (Nat.eqb_spec i k) as [-> |NE]; [reflexivity|].
  specialize (HF (i, (nth i B0 0, nth i B 0))). cbn [fst snd] in HF. assert (K : ((Z.of_nat i =? Z.of_nat k)%Z || (nth i B0 0 =? nth i B 0)) = true).
  { apply HF. replace (i, (nth i B0 0, nth i B 0)) with (nth i (combine (seq 0 (length B0)) (combine B0 B)) (0, (0, 0))).
    - apply nth_In. rewrite !combine_length, seq_length. lia.
    - rewrite combine_nth by (rewrite seq_length, combine_length; lia). rewrite combine_nth by lia. rewrite seq_nth by lia. reflexivity. }
  apply orb_true_iff in K. destruct K as [K|K]; [apply Z.eqb_eq in K; lia|]. apply Nat.eqb_eq in K. auto.
Qed.
Lemma concat_inv c n k os r : scalar_leaves c -> c <> CNil -> solid c -> k < n -> Forall (ranked c n) os -> obj_concat c (Z.of_nat k) os = Some r ->
  ranked c n r /\ each (fun l x => a_concat (Z.of_nat k) l = Some x) os r.
Proof.
  intros HSL HN HS Hk HR E. destruct os as [|o1 [|o2 os]]; [discriminate| |].
  - cbn in E. injection E as <-. inversion HR as [|? ? H1 _]; subst. split; [exact H1|]. refine (proj2 (each_impl _ _ _) o1 _ (ranked_self c n o1 HSL H1)). intros l x (-> & HD & HW). apply concat_one; [exact HW|lia].
  - assert (HA : exists Bs, Forall2 (fun o B => batched c B o) (o1 :: o2 :: os) Bs /\ Forall (fun B => length B = n) Bs).
    { clear E. induction HR as [|o l (B & H1 & H2) HR (Bs & I1 & I2)]; [exists []; split; constructor|]. exists (B :: Bs). split; constructor; auto. }
    destruct HA as (Bs & HA & HB). destruct Bs as [|B1 Bs]; [inversion HA|]. assert (EO := E). unfold obj_concat in E. rewrite (batch_of_spec _ _ _ HN HS HA) in E. cbn [map] in E. destruct (forallb _ (map Batch Bs)) eqn:F1 in E; [|discriminate]. inversion HB as [|? ? L1 LB]; subst.
    destruct B1 as [|d0 B0]; [cbn in Hk; lia|]. set (B1 := d0 :: B0) in *. destruct (Z.ltb_spec (Z.of_nat k) 0); [lia|]. destruct (Z.of_nat k >=? Z.of_nat (length B1))%Z eqn:EG; [discriminate|].
    destruct (forallb (fun x => match x with Batch B => concat_dims_ok (Z.of_nat k) B1 B | Unstr => false end) (map Batch Bs)) eqn:F2; [|discriminate].
    assert (HO : Forall2 (fun o m => batched c (upd k m B1) o) (o1 :: o2 :: os) (map (fun B => nth k B 0) (B1 :: Bs))).
    { inversion HA as [|? ? ? ? A1 A2]; subst. cbn [map]. constructor; [now rewrite upd_same by exact Hk|]. rewrite forallb_forall in F2. clear - A2 F2 Hk. revert A2. generalize (o2 :: os). intros q A2. induction A2 as [|o B q Bs H A2 IH]; [constructor|]. cbn [map]. constructor.
      - rewrite <- (dims_upd k B1 B Hk); [exact H|]. apply (F2 (Batch B)). now left.
      - apply IH. intros x Hx. apply F2. now right. }
    destruct (C41_concat c B1 k (map (fun B => nth k B 0) (B1 :: Bs)) (o1 :: o2 :: os) HN HS) as (o' & K1 & K2 & _ & _).
    + rewrite map_length. pose proof (Forall2_len _ _ _ HA) as LL. cbn in LL |- *. lia.
    + exact Hk.
    + exact HO.
    + rewrite EO in K1. injection K1 as <-. split; [exists (upd k (list_sum (map (fun B => nth k B 0) (B1 :: Bs))) B1); split; [exact K2|now rewrite upd_length]|]. apply (proj2 (tmap_each _)). exact E.
Qed.
Lemma atleast_ndim n a : ndim a <= n -> ndim (a_atleast n a) = n.
Proof. intros H. unfold a_atleast, as_shape. unfold ndim at 1. cbn [ashape]. rewrite app_length, repeat_length. unfold ndim in *. lia. Qed.
Lemma atleast_same n a : ndim a = n -> a_atleast n a = a.
Proof. intros <-. unfold a_atleast. rewrite Nat.sub_diag. cbn [repeat app]. now destruct a. Qed.
Lemma fits_fill n d (ts : list (nested obj)) (ls : list (list array)) ys :
  fits (map (fun t l x => exists u, fill t l = Some u /\ block_arr u = Some (x, d) /\ ndim x = n) ts) ls ys ->
  exists us, fill_list ts (concat ls) = Some us /\ sequence (map block_arr us) = Some (map (fun y => (y, d)) ys) /\ Forall (fun y => ndim y = n) ys.
Proof.
  revert ls ys. induction ts as [|t ts IH]; intros ls ys H; cbn [map] in H; inversion H as [|R Rs l ls' y ys' HI HF]; subst.
  - exists []. repeat split; constructor.
  - destruct HI as (u & E1 & E2 & E3). destruct (IH _ _ HF) as (us & K1 & K2 & K3). exists (u :: us). pose proof (fill_length _ _ _ E1) as HL. split; [|split; [|now constructor]].
    + cbn [fill_list concat]. rewrite <- HL, firstn_app, firstn_all, Nat.sub_diag, firstn_O, app_nil_r, E1. rewrite skipn_app, skipn_all, Nat.sub_diag. cbn [app skipn]. now rewrite K1.
    + cbn [map sequence]. now rewrite E2, K2.
Qed.
Lemma fits_len Rs ls ys : fits Rs ls ys -> length ys = length Rs.
Proof. induction 1; cbn; auto. Qed.
Lemma norm_neg n d : S d <= n -> norm_axis (- Z.of_nat (S d)) n = Some (n - S d).
Proof. intros H. unfold norm_axis. destruct (Z.ltb_spec (- Z.of_nat (S d)) 0); [|lia]. destruct (Z.leb_spec 0 (Z.of_nat n + - Z.of_nat (S d))); [|lia]. f_equal. lia. Qed.
Lemma concat_neg n d l : S d <= n -> Forall (fun y => ndim y = n) l -> a_concat (- Z.of_nat (S d)) l = a_concat (Z.of_nat (n - S d)) l.
Proof. intros HD HF. destruct l as [|a l]; [reflexivity|]. inversion HF as [|? ? E _]; subst. unfold a_concat. rewrite norm_neg by exact HD. now rewrite norm_axis_pos by lia. Qed.
Lemma list_max_all n (l : list nat) : l <> [] -> Forall (fun x => x = n) l -> list_max l = n.
Proof. intros HN HF. induction HF as [|x l -> HF IH]; [congruence|]. change (list_max (n :: l)) with (Nat.max n (list_max l)). destruct l as [|y l]; [apply Nat.max_0_r|]. rewrite IH by discriminate. apply Nat.max_id. Qed.

Lemma block_levels c n : scalar_leaves c -> c <> CNil -> solid c -> forall t r d, Forall (ranked c n) (leaves t) -> join_levels c n t = Some (r, d) -> d <= n ->
  ranked c n r /\ each (fun l x => exists u, fill t l = Some u /\ block_arr u = Some (x, S d) /\ ndim x = n) (leaves t) r.
Proof.
  intros HSL HN HS t. induction t as [o|ts IH] using nested_ind'; intros r d HR E HD.
  - cbn in E. injection E as <- <-. cbn in HR. inversion HR as [|? ? H1 _]; subst. split; [exact H1|]. cbn [leaves]. refine (proj2 (each_impl _ _ _) o _ (ranked_self c n o HSL H1)). intros l x (-> & HX & HW). exists (Blk x). auto.
  - cbn [join_levels] in E. destruct (sequence (map (join_levels c n) ts)) as [[|[o d0] q]|] eqn:ES; [discriminate| |discriminate]. destruct (forallb (fun p => snd p =? d0) q) eqn:EF; [|discriminate]. destruct (obj_concat c (Z.of_nat (n - S d0)) (o :: map fst q)) as [y|] eqn:EC; [|discriminate]. cbn in E. injection E as <- <-.
    assert (K : Forall2 (fun t x => ranked c n x /\ each (fun l x => exists u, fill t l = Some u /\ block_arr u = Some (x, S d0) /\ ndim x = n) (leaves t) x) ts (o :: map fst q)).
    { assert (KD : Forall (fun p => snd p = d0) ((o, d0) :: q)) by (constructor; [reflexivity|]; apply Forall_forall; intros p Hp; rewrite forallb_forall in EF; now apply Nat.eqb_eq, EF).
      change (o :: map fst q) with (map fst ((o, d0) :: q)). revert ES KD HR. generalize ((o, d0) :: q). intros ps. cbn [leaves]. clear - IH HD. revert ps. induction IH as [|t ts Ht HF IH]; intros ps ES KD HR; cbn [map sequence] in ES; [injection ES as <-; constructor|].
      destruct (join_levels c n t) as [[x dx]|] eqn:EJ; [|discriminate]. destruct (sequence (map (join_levels c n) ts)) as [ps'|]; [|discriminate]. injection ES as <-. pose proof (Forall_inv KD) as K1. pose proof (Forall_inv_tail KD) as K2. cbn in K1. subst dx. cbn [flat_map] in HR. apply Forall_app in HR. destruct HR as [R1 R2]. cbn [map fst]. constructor; [|now apply IH]. apply Ht; auto. lia. }
    assert (KR : Forall (ranked c n) (o :: map fst q)) by (clear - K; induction K as [|? ? ? ? [H _] ? IH]; constructor; auto).
    destruct (concat_inv c n (n - S d0) (o :: map fst q) y HSL HN HS ltac:(lia) KR EC) as [RY EY]. split; [exact RY|].
    set (R := fun (t : nested obj) (l : list array) (x : array) => exists u, fill t l = Some u /\ block_arr u = Some (x, S d0) /\ ndim x = n) in *.
    pose proof (proj2 (each_fuse (fun l x => a_concat (Z.of_nat (n - S d0)) l = Some x)) y (o :: map fst q) (map (fun t => (R t, leaves t)) ts) EY) as HU. rewrite !map_map in HU. cbn [fst snd] in HU.
    cbn [leaves]. rewrite flat_map_concat_map. refine (proj2 (each_impl _ _ _) y _ (HU _)).
    + intros l x (ls & ys & -> & HF & HG). pose proof (fits_len _ _ _ HF) as HLY. rewrite map_length in HLY. destruct (fits_fill n (S d0) ts ls ys HF) as (us & U1 & U2 & U3). exists (Lst us). split; [rewrite fill_lst, U1; reflexivity|].
      assert (HX : ndim x = n) by (destruct ys as [|y0 ys]; [discriminate|]; inversion U3; subst; apply (concat_ndim _ _ _ y0 HG); now left).
      split; [|exact HX]. destruct ys as [|y0 ys]; [discriminate|]. cbn [block_arr]. rewrite U2. cbn [map]. replace (forallb (fun p => snd p =? S d0) (map (fun y1 => (y1, S d0)) ys)) with true by (symmetry; apply forallb_forall; intros p Hp; apply in_map_iff in Hp; destruct Hp as (z & <- & _); apply Nat.eqb_refl).
      cbv zeta. replace (map fst (map (fun y1 => (y1, S d0)) ys)) with ys by (rewrite map_map; symmetry; apply map_id). cbn [map]. change (ndim y0 :: map ndim ys) with (map ndim (y0 :: ys)). rewrite (list_max_all n) by (try discriminate; apply Forall_map; exact U3). rewrite Nat.max_r by lia.
      change (a_atleast n y0 :: map (a_atleast n) ys) with (map (a_atleast n) (y0 :: ys)). rewrite (map_ext_in _ (fun a => a)) by (intros a Ha; rewrite Forall_forall in U3; now apply atleast_same, U3). rewrite map_id. rewrite (concat_neg n d0) by (auto; lia). now rewrite HG.
    + clear - K. induction K as [|t x ts xs [_ H] K IH]; [constructor|]. cbn [map]. constructor; [exact H|exact IH].
Qed.
Lemma join_leaves c n t r d : join_levels c n t = Some (r, d) -> leaves t <> [].
Proof.
  revert r d. induction t as [o|ts IH] using nested_ind'; intros r d E; cbn [leaves]; [discriminate|]. cbn [join_levels] in E. destruct ts as [|t ts]; [discriminate|]. inversion IH as [|? ? H _]; subst. cbn [map sequence] in E. destruct (join_levels c n t) as [[x dx]|] eqn:EJ; [|discriminate]. specialize (H _ _ eq_refl). cbn [flat_map]. destruct (leaves t); [congruence|discriminate].
Qed.
(** [block] of instances with the same number [n] of batch axes, all fields of which are scalars,
    is the level-by-level concatenation: innermost lists along the last batch axis *)
Theorem C71_block : forall c n t r d, scalar_leaves c -> c <> CNil -> solid c ->
  Forall (fun o => exists B, batched c B o /\ length B = n) (leaves t) ->
  join_levels c n t = Some (r, d) -> d <= n ->
  obj_block t = Some r /\ exists B, batched c B r /\ length B = n.
Proof.
  intros c n t r d HSL HN HS HR E HD. destruct (block_levels c n HSL HN HS t r d HR E HD) as [R1 R2]. split; [|exact R1].
  unfold obj_block. apply mapn_each; [now apply (join_leaves c n t r d)|]. refine (proj2 (each_impl _ _ _) r _ R2). intros l x (u & -> & -> & _). reflexivity.
Qed.
(** concatenation of one or more *)
Lemma concat_any : forall c B k ns os, c <> CNil -> solid c -> ns <> [] -> k < length B ->
  Forall2 (fun o n => batched c (upd k n B) o) os ns ->
  exists o', obj_concat c (Z.of_nat k) os = Some o' /\ batched c (upd k (list_sum ns) B) o' /\
    (forall j b, j < length os -> inb b (upd k (nth j ns 0) B) -> elem (upd k (list_sum (firstn j ns) + nth k b 0) b) o' = elem b (nth j os ONil)).
Proof.
  intros c B k ns os HN HS HL Hk HO. destruct ns as [|n1 [|n2 ns]]; [congruence| |].
  - inversion HO as [|o ? os' ? H H']; subst. inversion H'; subst. exists o. split; [reflexivity|]. cbn [list_sum fold_right]. change (list_sum [n1]) with (n1 + 0). rewrite Nat.add_0_r. split; [exact H|]. intros j b Hj Hb. cbn in Hj. assert (j = 0) by lia. subst j. cbn [nth firstn]. change (list_sum []) with 0. cbn [Nat.add]. rewrite upd_same; [reflexivity|]. rewrite (inb_length _ _ Hb), upd_length. exact Hk.
  - destruct (C41_concat c B k (n1 :: n2 :: ns) os HN HS ltac:(cbn; lia) Hk HO) as (o' & K1 & K2 & K3 & _). exists o'. auto.
Qed.
(** a grid of blocks: the block in row [i], column [j] has batch shape [hs_i; ws_j] *)
Theorem C71_block_grid : forall c hs ws (rows : list (list obj)), scalar_leaves c -> c <> CNil -> solid c -> hs <> [] -> ws <> [] ->
  Forall2 (fun row h => Forall2 (fun o w => batched c [h; w] o) row ws) rows hs ->
  exists r, obj_block (Lst (map (fun row => Lst (map Blk row)) rows)) = Some r /\ batched c [list_sum hs; list_sum ws] r /\
    forall i j y x, i < length hs -> j < length ws -> y < nth i hs 0 -> x < nth j ws 0 ->
      elem [list_sum (firstn i hs) + y; list_sum (firstn j ws) + x] r = elem [y; x] (nth j (nth i rows []) ONil).
Proof.
  intros c hs ws rows HSL HN HS HH HW HR.
  assert (K : exists qs, Forall2 (fun row q => obj_concat c 1%Z row = Some q) rows qs /\ Forall2 (fun q h => batched c [h; list_sum ws] q) qs hs /\
    forall i j y x, i < length hs -> j < length ws -> y < nth i hs 0 -> x < nth j ws 0 -> elem [y; list_sum (firstn j ws) + x] (nth i qs ONil) = elem [y; x] (nth j (nth i rows []) ONil)).
  { clear HH. induction HR as [|row h rows hs H HR (qs & Q1 & Q2 & Q3)]; [exists []; split; [constructor|]; split; [constructor|]; intros i j y x Hi; cbn in Hi; lia|].
    destruct (concat_any c [h; 0] 1 ws row HN HS HW ltac:(cbn; lia) H) as (q & E1 & E2 & E3). exists (q :: qs). split; [now constructor|]. split; [now constructor|].
    intros [|i] j y x Hi Hj Hy Hx; [|apply Q3; auto; cbn in Hi; lia]. cbn [nth] in *. specialize (E3 j [y; x]). cbn in E3. apply E3; [rewrite (Forall2_len _ _ _ H); exact Hj|]. repeat constructor; assumption. }
  destruct K as (qs & Q1 & Q2 & Q3). destruct (concat_any c [0; list_sum ws] 0 hs qs HN HS HH ltac:(cbn; lia) Q2) as (r & E1 & E2 & E3). exists r.
  assert (EJ : join_levels c 2 (Lst (map (fun row => Lst (map Blk row)) rows)) = Some (r, 2)).
  { cbn [join_levels]. rewrite map_map. rewrite (sequence_map (fun row => join_levels c 2 (Lst (map Blk row))) rows (map (fun q => (q, 1)) qs)).
    - destruct qs as [|q qs]; [inversion Q2; subst; congruence|]. cbn [map]. replace (forallb _ (map (fun q => (q, 1)) qs)) with true by (symmetry; apply forallb_forall; intros p Hp; apply in_map_iff in Hp; destruct Hp as (z & <- & _); reflexivity). rewrite map_map. cbn [fst]. rewrite map_id. change (Z.of_nat (2 - 2)) with (Z.of_nat 0). now rewrite E1.
    - clear - Q1 HR HW. revert hs HR. induction Q1 as [|row q rows qs E Q1 IH]; intros hs HR; inversion HR as [|? h ? hs' HI HR']; subst; cbn [map]; constructor; [|now apply (IH hs')]. cbn [join_levels]. rewrite map_map. rewrite (sequence_map (fun o => join_levels c 2 (Blk o)) row (map (fun o => (o, 0)) row)) by (clear; induction row; cbn; constructor; auto).
      destruct row as [|o row]; [inversion HI; subst; congruence|]. cbn [map]. replace (forallb _ (map (fun o => (o, 0)) row)) with true by (symmetry; apply forallb_forall; intros p Hp; apply in_map_iff in Hp; destruct Hp as (z & <- & _); reflexivity). rewrite map_map. cbn [fst]. rewrite map_id. change (Z.of_nat (2 - 1)) with 1%Z. now rewrite E. }
  assert (HB : Forall (fun o => exists B, batched c B o /\ length B = 2) (leaves (Lst (map (fun row => Lst (map Blk row)) rows)))).
  { cbn [leaves]. rewrite flat_map_concat_map, map_map. cbn [leaves]. apply Forall_concat. apply Forall_map. clear - HR. induction HR as [|row h rows hs H HR IH]; constructor; [|exact IH]. rewrite flat_map_concat_map, map_map. cbn [leaves]. clear - H. induction H as [|o w row ws H HR IH]; cbn; constructor; [|exact IH]. exists [h; w]. auto. }
  destruct (C71_block c 2 _ r 2 HSL HN HS HB EJ ltac:(lia)) as [B1 _].
  split; [exact B1|]. split; [exact E2|]. intros i j y x Hi Hj Hy Hx. rewrite <- Q3 by assumption. assert (HX : list_sum (firstn j ws) + x < list_sum ws).
    { clear - Hj Hx. revert j Hj Hx. induction ws as [|w ws IH]; intros [|j] Hj Hx; cbn in Hj, Hx; try lia; cbn [firstn]; change (list_sum (w :: ws)) with (w + list_sum ws); [change (list_sum []) with 0; lia|]. change (list_sum (w :: firstn j ws)) with (w + list_sum (firstn j ws)). specialize (IH j ltac:(lia) Hx). lia. }
    specialize (E3 i [y; list_sum (firstn j ws) + x]). cbn in E3. apply E3; [rewrite (Forall2_len _ _ _ Q2); exact Hi|]. repeat constructor; assumption.
Qed.

(** fields that are themselves arrays are joined along their own axes, so that the result need
    not be an instance at all: [cell] has a field "pos" of shape [2] *)
Theorem C71_block_tensor_refuted : batched cell [2] (cell2 1) /\ batched cell [2] (cell2 2) /\
  exists r, obj_block (Lst [Blk (cell2 1); Blk (cell2 2)]) = Some r /\ forall B, ~ batched cell B r.
Proof.
  split; [apply cell2_batched|]. split; [apply cell2_batched|]. eexists. split; [vm_compute; reflexivity|]. intros B [_ H]. cbn in H. destruct H as (_ & H1 & _ & H2 & _). rewrite app_nil_r in H1. subst B. discriminate.
Qed.
(** what is rejected: no blocks at all, an empty list, mixed depths *)
Theorem C71_block_rejects : forall (t : nested obj), leaves t = [] -> obj_block t = None.
Proof. intros t H. unfold obj_block. now rewrite H. Qed.
(** every block is at depth [d], and no list is empty *)
Inductive level {A : Type} : nat -> nested A -> Prop :=
  | level_blk a : level 0 (Blk a)
  | level_lst d l : l <> [] -> Forall (level d) l -> level (S d) (Lst l).
Lemma block_arr_level u : forall x k, block_arr u = Some (x, k) -> exists d, k = S d /\ level d u.
Proof.
  induction u as [a|l IH] using nested_ind'; intros x k E; cbn [block_arr] in E.
  - injection E as <- <-. exists 0. split; [reflexivity|constructor].
  - destruct (sequence (map block_arr l)) as [[|[y d] q]|] eqn:ES; [discriminate| |discriminate]. destruct (forallb (fun p => snd p =? d) q) eqn:EF; [|discriminate]. cbv zeta in E. destruct (a_concat _ _) as [z|]; [|discriminate]. cbn in E. injection E as <- <-.
    assert (K : exists d', d = S d' /\ Forall (level d') l).
    { assert (KD : Forall (fun p => snd p = d) ((y, d) :: q)) by (constructor; [reflexivity|]; apply Forall_forall; intros p Hp; rewrite forallb_forall in EF; now apply Nat.eqb_eq, EF).
      destruct l as [|t l]; [discriminate|]. assert (H0 : exists d', d = S d') by (inversion IH as [|? ? H _]; subst; cbn [map sequence] in ES; destruct (block_arr t) as [[x1 k1]|]; [|discriminate]; destruct (sequence (map block_arr l)); [|discriminate]; injection ES as -> -> _; destruct (H _ _ eq_refl) as (d' & -> & _); eauto).
      destruct H0 as [d' ->]. exists d'. split; [reflexivity|]. revert ES KD. generalize ((y, S d') :: q). intros ps. revert ps. clear - IH. induction IH as [|u us Hu HF IH]; intros ps ES KD; [constructor|]. cbn [map sequence] in ES. destruct (block_arr u) as [[x1 k1]|]; [|discriminate]. destruct (sequence (map block_arr us)) as [ps'|]; [|discriminate]. injection ES as <-. pose proof (Forall_inv KD) as K1. pose proof (Forall_inv_tail KD) as K2. cbn in K1. subst k1. constructor; [|now apply (IH ps')]. destruct (Hu _ _ eq_refl) as (d2 & E & K). injection E as <-. exact K. }
    destruct K as (d' & -> & K). exists (S d'). split; [reflexivity|]. constructor; [|exact K]. intros ->. discriminate.
Qed.
Lemma fill_level {A} (t : nested A) : forall l u d, fill t l = Some u -> level d u -> level d t.
Proof.
  induction t as [a|ts IH] using nested_ind'; intros l u d E H.
  - cbn in E. destruct l as [|x [|]]; try discriminate. injection E as <-. inversion H; subst. constructor.
  - rewrite fill_lst in E. destruct (fill_list ts l) as [us|] eqn:EF; [|discriminate]. cbn in E. injection E as <-. inversion H as [|d' ? HN HL]; subst. constructor.
    + intros ->. cbn in EF. destruct l; [|discriminate]. injection EF as <-. congruence.
    + clear HN H. revert l us EF HL. induction IH as [|t ts Ht HF IH]; intros l us EF HL; [constructor|]. cbn [fill_list] in EF. destruct (fill t (firstn (length (leaves t)) l)) as [x|] eqn:E1; [|discriminate]. destruct (fill_list ts (skipn (length (leaves t)) l)) as [y|] eqn:E2; [|discriminate]. injection EF as <-. inversion HL; subst. constructor; [eapply Ht; eauto|eapply IH; eauto].
Qed.
Lemma each_some (R : list array -> array -> Prop) :
  (forall d v vs u, solid_d d -> conforms_v d v -> each_v R (v :: vs) u -> exists l x, R l x) /\ (forall c o os r, c <> CNil -> solid c -> conforms c o -> each R (o :: os) r -> exists l x, R l x).
Proof.
  apply desc_class_ind.
  - intros dt ish bits pb fl v vs u _ HC HE. destruct v as [a|]; [|destruct HC]. destruct u as [b|o]; [|destruct HE as (os & E & _); destruct os; discriminate]. destruct HE as (l & _ & HR). eauto.
  - intros c IH ish v vs u [HN HS] HC HE. destruct v as [|o]; [destruct HC|]. destruct u as [b|r]; [destruct HE as (l & E & _); destruct l; discriminate|]. destruct HE as (os & E & HR). destruct os as [|o' os]; [discriminate|]. injection E as <- _. now apply (IH o os r HN HS HC HR).
  - congruence.
  - intros n d IHd q IHq o os r _ [S1 S2] HC HE. destruct o as [|m v o]; [destruct HC|]. destruct HC as (<- & C1 & C2). destruct r as [|m' u r]; [cbn in HE; inversion HE; discriminate|]. destruct HE as (vs & qs & HL & E & H1 & H2). destruct vs as [|v' vs], qs as [|q' qs]; try discriminate. injection E as <- <- <- _. now apply (IHd v vs u S1 C1 H1).
Qed.
(** [block] raises when blocks are at different depths or a list is empty *)
Theorem C71_block_level : forall c t r, c <> CNil -> solid c -> Forall (conforms c) (leaves t) -> obj_block t = Some r -> exists d, level d t.
Proof.
  intros c t r HN HS HF E. unfold obj_block in E. destruct (leaves t) as [|o os] eqn:EL; [discriminate|]. apply mapn_each in E; [|discriminate]. inversion HF as [|? ? HC _]; subst.
  destruct (proj2 (each_some _) c o os r HN HS HC E) as (l & x & EX). destruct (fill t l) as [u|] eqn:EU; [|discriminate]. destruct (block_arr u) as [[y k]|] eqn:EB; [|discriminate]. destruct (block_arr_level _ _ _ EB) as (d & _ & K). exists d. now apply (fill_level t l u d).
Qed.

(** ** blocks with fewer axes than lists around them *)
Definition lift1 (a : array) : array := as_shape (1 :: ashape a) a.
Lemma build_lift1 dt s f g : (forall idx, inb idx s -> g (0 :: idx) = f idx) -> build dt (1 :: s) g = lift1 (build dt s f).
Proof.
  intros H. unfold build, lift1, as_shape. cbn [adtype ashape adata]. f_equal. change (prod (1 :: s)) with (1 * prod s). rewrite Nat.mul_1_l. apply map_ext_in. intros k Hk. apply in_seq in Hk. cbn [unravel]. rewrite Nat.div_small, Nat.mod_small by lia. apply H, unravel_inb. lia.
Qed.
Lemma get_lift1 a idx : get (lift1 a) (0 :: idx) = get a idx.
Proof. reflexivity. Qed.
Lemma concat_lift1_build dt k (sizes : list nat) (L : list array) a s n :
  build dt (1 :: upd k n s) (fun idx => let '(j, q) := locate sizes (nth (S k) idx 0) in get (nth j (map lift1 L) (lift1 a)) (upd (S k) q idx)) =
  lift1 (build dt (upd k n s) (fun idx => let '(j, q) := locate sizes (nth k idx 0) in get (nth j L a) (upd k q idx))).
Proof.
  apply build_lift1. intros idx HI. cbn [nth]. destruct (locate sizes (nth k idx 0)) as [j q]. change (upd (S k) q (0 :: idx)) with (0 :: upd k q idx). rewrite map_nth. apply get_lift1.
Qed.
Lemma shape_eqb_cons x s t : shape_eqb (x :: s) (x :: t) = shape_eqb s t.
Proof. unfold shape_eqb. destruct (list_eq_dec Nat.eq_dec s t) as [-> |NE]; destruct (list_eq_dec Nat.eq_dec (x :: _) _) as [E|N]; congruence. Qed.
Lemma concat_lift1 k l : a_concat (Z.of_nat (S k)) (map lift1 l) = option_map lift1 (a_concat (Z.of_nat k) l).
Proof.
  destruct l as [|a l]; [reflexivity|]. unfold a_concat. cbn [map]. change (ndim (lift1 a)) with (S (ndim a)).
  destruct (Nat.lt_ge_cases k (ndim a)) as [HK|HK].
  2: { unfold norm_axis. destruct (Z.ltb_spec (Z.of_nat k) 0); [lia|]. destruct (Z.ltb_spec (Z.of_nat (S k)) 0); [lia|]. destruct (Z.ltb_spec (Z.of_nat k) (Z.of_nat (ndim a))); [lia|]. destruct (Z.ltb_spec (Z.of_nat (S k)) (Z.of_nat (S (ndim a)))); [lia|]. reflexivity. }
  rewrite !norm_axis_pos by lia.
  replace (forallb _ (lift1 a :: map lift1 l)) with (forallb (fun a0 => shape_eqb (remove_nth k (ashape a0)) (remove_nth k (ashape a)) && (ndim a0 =? ndim a) && dtype_eqb (adtype a0) (adtype a)) (a :: l)).
  - destruct (forallb _ (a :: l)); [|reflexivity]. cbn [option_map]. replace (map (fun x => nth (S k) (ashape x) 0) (map lift1 l)) with (map (fun x => nth k (ashape x) 0) l) by (rewrite map_map; reflexivity). exact (f_equal Some (concat_lift1_build (adtype a) k (map (fun x => nth k (ashape x) 0) (a :: l)) (a :: l) a (ashape a) _)).
  - change (lift1 a :: map lift1 l) with (map lift1 (a :: l)). generalize (a :: l). intros q. induction q as [|z q IH]; [reflexivity|]. cbn [map forallb]. f_equal; [|exact IH].
    change (remove_nth (S k) (ashape (lift1 z))) with (1 :: remove_nth k (ashape z)). change (remove_nth (S k) (ashape (lift1 a))) with (1 :: remove_nth k (ashape a)). now rewrite shape_eqb_cons.
Qed.
Definition lifts (p : nat) (a : array) : array := as_shape (repeat 1 p ++ ashape a) a.
Lemma concat_lifts p k l : a_concat (Z.of_nat (p + k)) (map (lifts p) l) = option_map (lifts p) (a_concat (Z.of_nat k) l).
Proof.
  assert (HI : forall a, lifts 0 a = a) by (intros [? ? ?]; reflexivity).
  induction p as [|p IH]; [rewrite (map_ext _ (fun a => a)) by exact HI; rewrite map_id; cbn [Nat.add]; destruct (a_concat _ l); cbn [option_map]; [now rewrite HI|reflexivity]|].
  change (S p + k) with (S (p + k)). rewrite (map_ext _ (fun a => lift1 (lifts p a))) by reflexivity. rewrite <- map_map, concat_lift1, IH. destruct (a_concat _ l); reflexivity.
Qed.
Lemma concat_atleast D m d l : S d <= m -> m <= D -> Forall (fun a => ndim a <= m) l ->
  a_concat (- Z.of_nat (S d)) (map (a_atleast D) l) = option_map (a_atleast D) (a_concat (- Z.of_nat (S d)) (map (a_atleast m) l)).
Proof.
  intros Hd HM HF.
  pose proof atleast_ndim as ND.
  rewrite (concat_neg D d); [|lia|apply Forall_map; apply Forall_forall; intros a Ha; rewrite Forall_forall in HF; specialize (HF a Ha); apply ND; lia].
  rewrite (concat_neg m d); [|lia|apply Forall_map; apply Forall_forall; intros a Ha; rewrite Forall_forall in HF; specialize (HF a Ha); apply ND; lia].
  replace (D - S d) with ((D - m) + (m - S d)) by lia. rewrite (map_ext_in _ (fun a => lifts (D - m) (a_atleast m a))).
  - rewrite <- map_map, concat_lifts. destruct (a_concat _ (map (a_atleast m) l)) as [x|] eqn:E; [|reflexivity]. cbn [option_map]. f_equal. unfold a_atleast, lifts. f_equal. f_equal. f_equal. f_equal. destruct l as [|a l]; [discriminate|]. rewrite (concat_ndim _ _ _ (a_atleast m a) E) by now left. inversion HF; subst. symmetry. now apply ND.
  - intros a Ha. rewrite Forall_forall in HF. specialize (HF a Ha). unfold lifts, a_atleast, as_shape. cbn [ashape adtype adata]. f_equal. rewrite app_assoc, <- repeat_app. f_equal. f_equal. lia.
Qed.
Fixpoint nmap {A B} (f : A -> B) (t : nested A) : nested B := match t with Blk a => Blk (f a) | Lst l => Lst (map (nmap f) l) end.
Lemma block_arr_atleast D u : forall d, level d u -> d <= D -> Forall (fun a => ndim a <= D) (leaves u) ->
  block_arr (nmap (a_atleast D) u) = option_map (fun p => (a_atleast D (fst p), snd p)) (block_arr u) /\
  forall x k, block_arr u = Some (x, k) -> k = S d /\ d <= ndim x <= D.
Proof.
  pose proof atleast_ndim as ND.
  induction u as [a|l IH] using nested_ind'; intros d HL HD HF.
  - inversion HL; subst. cbn in HF. inversion HF; subst. split; [reflexivity|]. cbn. intros x k E. injection E as <- <-. lia.
  - inversion HL as [|d' ? HN HL']; subst. cbn [leaves] in HF.
    assert (K : sequence (map block_arr (map (nmap (a_atleast D)) l)) = option_map (map (fun p => (a_atleast D (fst p), snd p))) (sequence (map block_arr l)) /\
      forall ps, sequence (map block_arr l) = Some ps -> length ps = length l /\ Forall (fun p => snd p = S d' /\ d' <= ndim (fst p) <= D) ps).
    { clear HL HN. induction IH as [|u us Hu HU IH]; [split; [reflexivity|]; intros ps E; injection E as <-; split; [reflexivity|constructor]|]. inversion HL' as [|? ? L1 L2]; subst. cbn [flat_map] in HF. apply Forall_app in HF. destruct HF as [F1 F2]. destruct (Hu d' L1 ltac:(lia) F1) as [A1 A2]. destruct (IH F2 L2) as [B1 B2]. cbn [map sequence]. rewrite A1, B1.
      destruct (block_arr u) as [[x k]|]; cbn [option_map]; [|split; [reflexivity|discriminate]]. destruct (sequence (map block_arr us)) as [ps|]; cbn [option_map]; [|split; [reflexivity|discriminate]]. split; [reflexivity|]. intros ps' E. injection E as <-. destruct (B2 ps eq_refl) as [C1 C2]. split; [cbn; lia|]. constructor; [|exact C2]. now apply A2. }
    destruct K as [K1 K2]. cbn [nmap block_arr]. rewrite K1. destruct (sequence (map block_arr l)) as [ps|]; [|split; [reflexivity|discriminate]]. destruct (K2 ps eq_refl) as [K3 K4]. destruct ps as [|[x0 d0] ps]; [destruct l; [congruence|discriminate]|]. cbn [option_map map fst snd].
    pose proof (Forall_inv K4) as K5. cbn in K5. destruct K5 as [-> K5]. pose proof (Forall_inv_tail K4) as K6.
    assert (EF : forall ps, Forall (fun p => snd p = S d' /\ d' <= ndim (fst p) <= D) ps -> forallb (fun p : array * nat => snd p =? S d') ps = true) by (intros qs H; apply forallb_forall; intros p Hp; rewrite Forall_forall in H; apply Nat.eqb_eq; now apply H).
    rewrite (EF ps K6). rewrite (EF (map _ ps)) by (apply Forall_map; cbn [fst snd]; refine (Forall_impl _ _ K6); intros p [P1 P2]; rewrite ND by lia; lia). cbv zeta.
    set (m := Nat.max (S d') (list_max (ndim x0 :: map ndim (map fst ps)))).
    assert (HM : Forall (fun a => ndim a <= D) (x0 :: map fst ps)) by (constructor; [lia|]; apply Forall_map; refine (Forall_impl _ _ K6); intros p [_ P2]; lia).
    assert (HMM : Forall (fun a => ndim a <= m) (x0 :: map fst ps)). { apply Forall_forall. intros a Ha. assert (Q : ndim a <= list_max (map ndim (x0 :: map fst ps))) by (pose proof (proj1 (list_max_le (map ndim (x0 :: map fst ps)) _) (Nat.le_refl _)) as Q; rewrite Forall_forall in Q; apply Q; now apply in_map). subst m. cbn [map] in Q. lia. }
    assert (HMD : m <= D). { subst m. apply Nat.max_lub; [lia|]. apply list_max_le. change (ndim x0 :: map ndim (map fst ps)) with (map ndim (x0 :: map fst ps)). now apply Forall_map. }
    assert (HMS : S d' <= m) by (subst m; lia).
    replace (map fst (map (fun p => (a_atleast D (fst p), snd p)) ps)) with (map (a_atleast D) (map fst ps)) by (rewrite !map_map; reflexivity).
    change (a_atleast D x0 :: map (a_atleast D) (map fst ps)) with (map (a_atleast D) (x0 :: map fst ps)).
    replace (list_max (ndim (a_atleast D x0) :: map ndim (map (a_atleast D) (map fst ps)))) with D.
    2: { symmetry. apply list_max_all; [discriminate|]. change (ndim (a_atleast D x0) :: map ndim (map (a_atleast D) (map fst ps))) with (map ndim (map (a_atleast D) (x0 :: map fst ps))). apply Forall_map, Forall_map. refine (Forall_impl _ _ HM). intros a Ha. now apply ND. }
    rewrite Nat.max_r by lia. change (a_atleast m x0 :: map (a_atleast m) (map fst ps)) with (map (a_atleast m) (x0 :: map fst ps)).
    change (a_atleast D (a_atleast D x0) :: map (a_atleast D) (map (a_atleast D) (map fst ps))) with (map (a_atleast D) (map (a_atleast D) (x0 :: map fst ps))).
    replace (map (a_atleast D) (map (a_atleast D) (x0 :: map fst ps))) with (map (a_atleast D) (x0 :: map fst ps)) by (rewrite map_map; apply map_ext_in; intros a Ha; symmetry; apply atleast_same, ND; rewrite Forall_forall in HM; now apply HM).
    rewrite (concat_atleast D m d') by assumption. destruct (a_concat (- Z.of_nat (S d')) (map (a_atleast m) (x0 :: map fst ps))) as [y|] eqn:EC; cbn [option_map]; [|split; [reflexivity|discriminate]].
    split; [reflexivity|]. intros x k E. injection E as <- <-. split; [reflexivity|]. rewrite (concat_ndim _ _ _ (a_atleast m x0) EC) by now left. rewrite ND by (now inversion HMM). lia.
Qed.
Lemma leaves_nmap {A B} (g : A -> B) t : leaves (nmap g t) = map g (leaves t).
Proof. induction t as [a|ts IH] using nested_ind'; [reflexivity|]. cbn [nmap leaves]. induction IH as [|u us Hu HF IH]; [reflexivity|]. cbn [map flat_map]. now rewrite Hu, IH, map_app. Qed.
Lemma fill_nmap {A B} (g : A -> B) h t : forall l, fill (nmap g t) (map h l) = option_map (nmap h) (fill t l).
Proof.
  induction t as [a|ts IH] using nested_ind'; intros l; [destruct l as [|x [|]]; reflexivity|]. cbn [nmap]. rewrite !fill_lst.
  assert (K : fill_list (map (nmap g) ts) (map h l) = option_map (map (nmap h)) (fill_list ts l)).
  { revert l. induction IH as [|u us Hu HF IH]; intros l; [destruct l; reflexivity|]. cbn [map fill_list]. rewrite leaves_nmap, map_length, firstn_map, skipn_map, Hu, IH. destruct (fill u _); [|reflexivity]. destruct (fill_list us _); reflexivity. }
  rewrite K. destruct (fill_list ts l); reflexivity.
Qed.
Lemma fill_spec {A} (t : nested A) : forall l u d, fill t l = Some u -> leaves u = l /\ (level d t -> level d u).
Proof.
  induction t as [a|ts IH] using nested_ind'; intros l u d E.
  - destruct l as [|x [|]]; try discriminate. injection E as <-. split; [reflexivity|]. intros H. inversion H; subst. constructor.
  - rewrite fill_lst in E. destruct (fill_list ts l) as [us|] eqn:EF; [|discriminate]. cbn in E. injection E as <-.
    assert (K : flat_map leaves us = l /\ length us = length ts /\ forall d, Forall (level d) ts -> Forall (level d) us).
    { clear d. revert l us EF. induction IH as [|t ts Ht HF IH]; intros l us EF; cbn [fill_list] in EF; [destruct l; [|discriminate]; injection EF as <-; repeat split; auto|].
      destruct (fill t (firstn (length (leaves t)) l)) as [x|] eqn:E1; [|discriminate]. destruct (fill_list ts (skipn (length (leaves t)) l)) as [y|] eqn:E2; [|discriminate]. injection EF as <-. destruct (IH _ _ E2) as (K1 & K2 & K3). cbn [flat_map length]. split; [|split; [lia|]].
      - rewrite K1. rewrite (proj1 (Ht _ _ 0 E1)). apply firstn_skipn.
      - intros d HD. inversion HD; subst. constructor; [now apply (Ht _ _ d E1)|now apply K3]. }
    destruct K as (K1 & K2 & K3). split; [exact K1|]. intros H. inversion H as [|d' ? HN HL]; subst. constructor; [|now apply K3]. intros ->. destruct ts; [congruence|discriminate].
Qed.
Lemma each_small n B : length B <= n ->
  (forall d J v u, shapes_d (fun I => I = []) J d -> conforms_v d v -> has_v (B ++ J) d v -> tmap_v (one (fun a => Some (a_atleast n a))) v [] = Some u -> each_v (fun l x => exists y, l = [y] /\ x = a_atleast n y /\ ndim y <= n) [v] u) /\
  (forall c J o r, shapes (fun I => I = []) J c -> conforms c o -> has_batch (B ++ J) c o -> tmap (one (fun a => Some (a_atleast n a))) o [] = Some r -> each (fun l x => exists y, l = [y] /\ x = a_atleast n y /\ ndim y <= n) [o] r).
Proof.
  intros HB. apply desc_class_ind.
  - intros dt ish bits pb fl J [a|o] u HS HC HH E; [|destruct HC]. cbn in HS, HC, HH. destruct HC as [_ HW]. cbn in E. injection E as <-. exists [a]. split; [reflexivity|]. exists a. split; [reflexivity|]. split; [reflexivity|]. unfold ndim. rewrite HH, <- app_assoc, HS, app_nil_r. exact HB.
  - intros c IH ish J [a|o] u HS HC HH E; [destruct HC|]. cbn in HS, HC, HH. rewrite <- app_assoc in HH. cbn [tmap_v map sequence] in E. destruct (tmap _ o []) as [r|] eqn:ER; [|discriminate]. injection E as <-. exists [o]. split; [reflexivity|]. now apply (IH (J ++ ish)).
  - intros J [|] r HS HC HH E; [|destruct HC]. cbn in E. injection E as <-. constructor; [reflexivity|constructor].
  - intros n' d IHd r IHr J [|m v o] q HS HC HH E; [destruct HC|]. destruct HC as (<- & C1 & C2). destruct HH as (_ & H1 & H2). destruct HS as [S1 S2]. cbn [tmap map sequence fst snd] in E. destruct (tmap_v _ v []) as [u|] eqn:EV; [|discriminate]. destruct (tmap _ o []) as [q'|] eqn:EO; [|discriminate]. injection E as <-. exists [v], [o]. split; [reflexivity|]. split; [reflexivity|]. split; eauto.
Qed.
(** the blocks have no more batch axes than there are lists around them: [block] first gives all
    of them as many axes as lists *)
Theorem C71_block_small : forall c t d (g : obj -> obj) r, scalar_leaves c -> c <> CNil -> solid c -> level d t ->
  Forall (fun o => exists B, batched c B o /\ length B <= d) (leaves t) ->
  (forall o, In o (leaves t) -> obj_atleast (a_atleast d) o = Some (g o)) ->
  obj_block (nmap g t) = Some r -> obj_block t = Some r.
Proof.
  intros c t d g r HSL HN HS HL HB HG E. unfold obj_block in *. rewrite leaves_nmap in E. destruct (leaves t) as [|o0 os0] eqn:EL; [discriminate|]. rewrite <- EL in *. assert (NE : leaves t <> []) by (rewrite EL; discriminate). clear EL. apply mapn_each in E; [|now destruct (leaves t)]. apply mapn_each; [exact NE|].
  set (R1 := fun (l : list array) (x : array) => exists y, l = [y] /\ x = a_atleast d y /\ ndim y <= d).
  pose proof (proj2 (each_fuse _) r (map g (leaves t)) (map (fun o => (R1, [o])) (leaves t)) E) as HU. rewrite !map_map in HU. cbn [fst snd] in HU.
  replace (concat (map (fun o => [o]) (leaves t))) with (leaves t) in HU by (clear; induction (leaves t) as [|o l IH]; [reflexivity|]; cbn; now rewrite <- IH).
  refine (proj2 (each_impl _ _ _) r _ (HU _)).
  - intros l x (ls & ys & -> & HF & HX). cbv beta in HX.
    assert (K : ys = map (a_atleast d) (concat ls) /\ Forall (fun a => ndim a <= d) (concat ls)).
    { clear HX HU. revert ls ys HF. generalize (leaves t). intros q. induction q as [|o q IH]; intros ls ys HF; cbn [map] in HF; inversion HF as [|R Rs l ls' y ys' HI HF']; subst; [split; [reflexivity|constructor]|]. destruct HI as (z & -> & -> & HZ). destruct (IH _ _ HF') as [I1 I2]. cbn [concat app map]. split; [now f_equal|now constructor]. }
    destruct K as [-> K]. rewrite fill_nmap in HX. destruct (fill t (concat ls)) as [u|] eqn:EU; [|discriminate]. cbn [option_map] in HX. destruct (fill_spec t _ u d EU) as [F1 F2]. specialize (F2 HL).
    destruct (block_arr_atleast d u d F2 (Nat.le_refl d)) as [B1 B2]; [now rewrite F1|]. rewrite B1 in HX. destruct (block_arr u) as [[z k]|]; [|discriminate]. cbn in HX |- *. injection HX as <-. destruct (B2 z k eq_refl) as [_ B3]. f_equal. symmetry. apply atleast_same. lia.
  - clear E HU NE HL. induction (leaves t) as [|o q IH]; [constructor|]. inversion HB as [|? ? (B & [HC HH] & HLB) HB']; subst. cbn [map]. constructor; [|apply IH; [exact HB'|intros; apply HG; now right]]. cbn [fst snd]. apply (proj2 (each_small d B HLB) c [] o (g o) HSL HC); [now rewrite app_nil_r|]. apply HG. now left.
Qed.
(** single instances *)
Lemma lift_single c d o : scalar_leaves c -> batched c [] o -> exists o', obj_atleast (a_atleast d) o = Some o' /\ batched c (repeat 1 d) o' /\ elem (repeat 0 d) o' = o.
Proof.
  intros HSL HB. destruct (lift_scalar (fun a => Some (a_atleast d a)) [] (repeat 1 d) (fun b => Some (unravel [] (ravel (repeat 1 d) b))) nofill c o HSL) as (o' & E1 & E2 & E3).
  - apply scalarwise_shape.
    + induction d as [|d IH]; [reflexivity|]. cbn [repeat]. rewrite prod_cons. rewrite IH. apply Nat.mul_1_l.
    + intros a Ha. unfold a_atleast, ndim. rewrite Ha. cbn [length]. now rewrite Nat.sub_0_r, app_nil_r.
  - exact HB.
  - exists o'. split; [exact E1|]. split; [exact E2|]. rewrite E3 by (clear; induction d; cbn; constructor; auto). cbn [unravel]. destruct HB as [HC HH]. now apply (proj2 elem_nil_both o c).
Qed.
Lemma firstn_sum_ones k m : k <= m -> list_sum (firstn k (repeat 1 m)) = k.
Proof. revert k. induction m as [|m IH]; intros [|k] H; try lia; try reflexivity. cbn [repeat firstn]. change (list_sum (1 :: firstn k (repeat 1 m))) with (1 + list_sum (firstn k (repeat 1 m))). rewrite IH by lia. reflexivity. Qed.
Lemma sum_ones m : list_sum (repeat 1 m) = m.
Proof. rewrite <- (firstn_all (repeat 1 m)), repeat_length. now apply firstn_sum_ones. Qed.
Lemma nth_ones k m : k < m -> nth k (repeat 1 m) 0 = 1.
Proof. revert k. induction m as [|m IH]; intros [|k] H; try lia; [reflexivity|]. cbn. apply IH. lia. Qed.
(** a matrix of single instances *)
Theorem C71_block_singles_grid : forall c n (rows : list (list obj)), scalar_leaves c -> c <> CNil -> solid c -> rows <> [] -> 0 < n ->
  Forall (fun row => length row = n /\ Forall (batched c []) row) rows ->
  exists r, obj_block (Lst (map (fun row => Lst (map Blk row)) rows)) = Some r /\ batched c [length rows; n] r /\
    forall i j, i < length rows -> j < n -> elem [i; j] r = nth j (nth i rows []) ONil.
Proof.
  intros c n rows HSL HN HS HR Hn HF.
  set (g := fun o => match obj_atleast (a_atleast 2) o with Some o' => o' | None => o end).
  assert (HG : forall o, batched c [] o -> obj_atleast (a_atleast 2) o = Some (g o) /\ batched c [1; 1] (g o) /\ elem [0; 0] (g o) = o).
  { intros o Ho. destruct (lift_single c 2 o HSL Ho) as (o' & E1 & E2 & E3). unfold g. rewrite E1. auto. }
  destruct (C71_block_grid c (repeat 1 (length rows)) (repeat 1 n) (map (map g) rows) HSL HN HS) as (r & E1 & E2 & E3).
  - destruct rows; [congruence|discriminate].
  - destruct n; [lia|discriminate].
  - clear HR. induction HF as [|row rows [H1 H2] HF IH]; cbn [map length repeat]; constructor; [|exact IH]. subst n. clear - H2 HG. induction H2 as [|o row Ho H2 IH]; cbn [map length repeat]; constructor; [now apply HG|exact IH].
  - exists r. rewrite !sum_ones in E2. split; [|split; [exact E2|]].
    + refine (C71_block_small c (Lst (map (fun row => Lst (map Blk row)) rows)) 2 g r HSL HN HS _ _ _ _).
      * constructor; [destruct rows; [congruence|discriminate]|]. apply Forall_map. refine (Forall_impl _ _ HF). intros row [H1 H2]. constructor; [destruct row; [cbn in H1; lia|discriminate]|]. apply Forall_map. apply Forall_forall. intros o _. constructor.
      * apply Forall_forall. intros o Ho. exists []. split; [|cbn; lia]. cbn [leaves] in Ho. apply in_flat_map in Ho. destruct Ho as (t & T1 & T2). apply in_map_iff in T1. destruct T1 as (row & <- & T1). cbn [leaves] in T2. apply in_flat_map in T2. destruct T2 as (b & B1 & B2). apply in_map_iff in B1. destruct B1 as (o1 & <- & B1). destruct B2 as [<-|[]]. rewrite Forall_forall in HF. destruct (HF row T1) as [_ H2]. rewrite Forall_forall in H2. now apply H2.
      * intros o Ho. apply HG. cbn [leaves] in Ho. apply in_flat_map in Ho. destruct Ho as (t & T1 & T2). apply in_map_iff in T1. destruct T1 as (row & <- & T1). cbn [leaves] in T2. apply in_flat_map in T2. destruct T2 as (b & B1 & B2). apply in_map_iff in B1. destruct B1 as (o1 & <- & B1). destruct B2 as [<-|[]]. rewrite Forall_forall in HF. destruct (HF row T1) as [_ H2]. rewrite Forall_forall in H2. now apply H2.
      * cbn [nmap]. rewrite map_map in *. cbn [nmap]. rewrite <- E1. f_equal. f_equal. apply map_ext. intros row. f_equal. rewrite !map_map. reflexivity.
    + intros i j Hi Hj. specialize (E3 i j 0 0). rewrite !repeat_length, !nth_ones, !firstn_sum_ones, !Nat.add_0_r in E3 by lia. rewrite E3 by lia. assert (HI : Forall (batched c []) (nth i rows []) /\ length (nth i rows []) = n) by (rewrite Forall_forall in HF; destruct (HF (nth i rows []) (nth_In _ _ Hi)); auto). destruct HI as [HI HLR].
      rewrite (nth_indep _ [] (map g [])) by (now rewrite map_length). rewrite map_nth. rewrite (nth_indep _ ONil (g ONil)) by (rewrite map_length; lia). rewrite map_nth. apply HG. rewrite Forall_forall in HI. apply HI, nth_In. lia.
Qed.
(** a list of single instances; a list of 1-dimensional batches *)
Theorem C71_block_row : forall c ns os, scalar_leaves c -> c <> CNil -> solid c -> ns <> [] -> Forall2 (fun o n => batched c [n] o) os ns ->
  exists r, obj_block (Lst (map Blk os)) = Some r /\ batched c [list_sum ns] r /\
    forall j x, j < length ns -> x < nth j ns 0 -> elem [list_sum (firstn j ns) + x] r = elem [x] (nth j os ONil).
Proof.
  intros c ns os HSL HN HS HL HF. destruct (concat_any c [0] 0 ns os HN HS HL ltac:(cbn; lia) HF) as (r & E1 & E2 & E3). exists r.
  assert (EJ : join_levels c 1 (Lst (map Blk os)) = Some (r, 1)).
  { cbn [join_levels]. rewrite map_map. rewrite (sequence_map (fun o => join_levels c 1 (Blk o)) os (map (fun o => (o, 0)) os)) by (clear; induction os; cbn; constructor; auto).
    destruct os as [|o os]; [inversion HF; subst; congruence|]. cbn [map]. replace (forallb _ (map (fun o => (o, 0)) os)) with true by (symmetry; apply forallb_forall; intros p Hp; apply in_map_iff in Hp; destruct Hp as (z & <- & _); reflexivity). rewrite map_map. cbn [fst]. rewrite map_id. change (Z.of_nat (1 - 1)) with (Z.of_nat 0). now rewrite E1. }
  assert (HB : Forall (fun o => exists B, batched c B o /\ length B = 1) (leaves (Lst (map Blk os)))).
  { cbn [leaves]. rewrite flat_map_concat_map, map_map. cbn [leaves]. clear - HF. induction HF as [|o n os ns H HF IH]; cbn; constructor; [exists [n]; auto|exact IH]. }
  destruct (C71_block c 1 _ r 1 HSL HN HS HB EJ ltac:(lia)) as [B1 _]. split; [exact B1|]. split; [exact E2|]. intros j x Hj Hx. specialize (E3 j [x]). cbn in E3. apply E3; [rewrite (Forall2_len _ _ _ HF); exact Hj|]. repeat constructor; assumption.
Qed.
Theorem C71_block_singles : forall c os, scalar_leaves c -> c <> CNil -> solid c -> os <> [] -> Forall (batched c []) os ->
  exists r, obj_block (Lst (map Blk os)) = Some r /\ batched c [length os] r /\ forall j, j < length os -> elem [j] r = nth j os ONil.
Proof.
  intros c os HSL HN HS HL HF.
  set (g := fun o => match obj_atleast (a_atleast 1) o with Some o' => o' | None => o end).
  assert (HG : forall o, batched c [] o -> obj_atleast (a_atleast 1) o = Some (g o) /\ batched c [1] (g o) /\ elem [0] (g o) = o).
  { intros o Ho. destruct (lift_single c 1 o HSL Ho) as (o' & E1 & E2 & E3). unfold g. rewrite E1. auto. }
  destruct (C71_block_row c (repeat 1 (length os)) (map g os) HSL HN HS) as (r & E1 & E2 & E3).
  - destruct os; [congruence|discriminate].
  - clear HL. induction HF as [|o os Ho HF IH]; cbn [map length repeat]; constructor; [now apply HG|exact IH].
  - exists r. rewrite sum_ones in E2. assert (LV : leaves (Lst (map (@Blk obj) os)) = os) by (cbn [leaves]; clear; induction os as [|o os IH]; [reflexivity|]; cbn; now rewrite IH). split; [|split; [exact E2|]].
    + refine (C71_block_small c (Lst (map Blk os)) 1 g r HSL HN HS _ _ _ _).
      * constructor; [destruct os; [congruence|discriminate]|]. apply Forall_map. apply Forall_forall. intros o _. constructor.
      * rewrite LV. refine (Forall_impl _ _ HF). intros o Ho. exists []. split; [exact Ho|cbn; lia].
      * rewrite LV. intros o Ho. apply HG. rewrite Forall_forall in HF. now apply HF.
      * cbn [nmap]. rewrite map_map in *. exact E1.
    + intros j Hj. specialize (E3 j 0). rewrite !repeat_length, !nth_ones, !firstn_sum_ones, !Nat.add_0_r in E3 by lia. rewrite E3 by lia. rewrite (nth_indep _ ONil (g ONil)) by (rewrite map_length; lia). rewrite map_nth. apply HG. rewrite Forall_forall in HF. apply HF, nth_In. lia.
Qed.

(** ** a concrete instance *)
Definition dot : class := (CCons "id" (Prim (DUInt 8) [] None false 0%Z) CNil)%string.
Definition dots (s : list nat) (l : list Z) : obj := (OCons "id" (arr8 s l) ONil)%string.
Example C71_block_example :
  scalar_leaves dot /\ dot <> CNil /\ solid dot /\
  Forall2 (fun row h => Forall2 (fun o w => batched dot [h; w] o) row [2; 1]) [[dots [1; 2] [1; 2]%Z; dots [1; 1] [3]%Z]; [dots [2; 2] [4; 5; 6; 7]%Z; dots [2; 1] [8; 9]%Z]] [1; 2] /\
  obj_block (Lst [Lst [Blk (dots [1; 2] [1; 2]%Z); Blk (dots [1; 1] [3]%Z)]; Lst [Blk (dots [2; 2] [4; 5; 6; 7]%Z); Blk (dots [2; 1] [8; 9]%Z)]]) = Some (dots [3; 3] [1; 2; 3; 4; 5; 8; 6; 7; 9]%Z) /\
  Forall (batched dot []) [dots [] [1]%Z; dots [] [2]%Z] /\
  obj_block (Lst [Lst [Blk (dots [] [1]%Z); Blk (dots [] [2]%Z)]; Lst [Blk (dots [] [3]%Z); Blk (dots [] [4]%Z)]]) = Some (dots [2; 2] [1; 2; 3; 4]%Z) /\
  obj_block (Lst [Blk (dots [] [1]%Z); Lst [Blk (dots [] [3]%Z)]]) = None /\ obj_block (Lst [Lst [Blk (dots [] [1]%Z)]; Lst []]) = None.
Proof.
  split; [cbn; auto|]. split; [discriminate|]. split; [cbn; auto|]. split; [repeat constructor|]. split; [vm_compute; reflexivity|]. split; [repeat constructor|]. repeat split; vm_compute; reflexivity.
Qed.
Print Assumptions C71_block.
Print Assumptions C71_block_grid.
Print Assumptions C71_block_singles_grid.
Print Assumptions C71_block_singles.
Print Assumptions C71_block_row.
Print Assumptions C71_block_small.
Print Assumptions C71_block_level.
Print Assumptions C71_block_tensor_refuted.
