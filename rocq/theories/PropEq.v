(** * PropEq.v — property C42: equality of instances, and its agreement with [uint32ed]. *)
From Coq Require Import String Eqdep_dec.
From Verif Require Import Jax HashModel HashProofs StructModel ArrayModel ArrayFacts ShapeModel PropShape RowsModel RowsLift PropRows PropHash EqModel FloatEq.

(** ** Specification *)
(** two elements are the same number (a NaN is not the same as anything) *)
Definition same_elt (dt : dtype) (x y : Z) : Prop :=
  match dt with DFloat w => exists v, fval w x = Some v /\ fval w y = Some v | _ => x = y end.
Definition same_array (a b : array) : Prop := forall idx, inb idx (ashape a) -> same_elt (adtype a) (get a idx) (get b idx).
(** elements are values of their dtype *)
Definition valid_array (a : array) : Prop :=
  Forall (in_dtype (adtype a)) (adata a) /\ match adtype a with DFloat w => float_width w | _ => True end.
Definition valid (o : obj) : Prop := Forall valid_array (arrays o).
Definition has_nan (a : array) : Prop := exists w z, adtype a = DFloat w /\ In z (adata a) /\ fval w z = None.
Definition float_free (o : obj) : Prop := Forall (fun a => match adtype a with DFloat _ => False | _ => True end) (arrays o).

(** ** Trees *)
Definition paired (a b : array) : Prop := adtype a = adtype b /\ wfa a /\ wfa b.
Lemma conforms_arrays : (forall d v w, conforms_v d v -> conforms_v d w -> Forall2 paired (arrays_v v) (arrays_v w)) /\
  (forall c o q, conforms c o -> conforms c q -> Forall2 paired (arrays o) (arrays q)).
Proof.
  apply desc_class_ind.
  - intros dt ish bits pb fill [a|o] [b|q] H1 H2; try contradiction. cbn. constructor; [|constructor]. cbn in *. destruct H1, H2. split; [congruence|]. split; assumption.
  - intros c IH ish [a|o] [b|q] H1 H2; try contradiction. apply IH; assumption.
  - intros [|] [|] H1 H2; try contradiction. constructor.
  - intros n d IHd r IHr [|m v o] [|m' v' q] H1 H2; try contradiction. cbn [conforms] in H1, H2. cbn [arrays]. apply Forall2_app; [apply IHd; tauto|apply IHr; tauto].
Qed.
Lemma sequence_app {X} (l r : list (option X)) : sequence (l ++ r) = match sequence l, sequence r with Some x, Some y => Some (x ++ y)%list | _, _ => None end.
Proof. induction l as [|[x|] l IH]; cbn; [destruct (sequence r); reflexivity| |reflexivity]. rewrite IH. destruct (sequence l), (sequence r); reflexivity. Qed.
Lemma zip_sequence f : (forall d v w, conforms_v d v -> conforms_v d w -> zip_v f v w = sequence (map (fun p => f (fst p) (snd p)) (combine (arrays_v v) (arrays_v w)))) /\
  (forall c o q, conforms c o -> conforms c q -> zip_obj f o q = sequence (map (fun p => f (fst p) (snd p)) (combine (arrays o) (arrays q)))).
Proof.
  apply desc_class_ind.
  - intros dt ish bits pb fill [a|o] [b|q] H1 H2; try contradiction. cbn. destruct (f a b); reflexivity.
  - intros c IH ish [a|o] [b|q] H1 H2; try contradiction. apply IH; assumption.
  - intros [|] [|] H1 H2; try contradiction. reflexivity.
  - intros n d IHd r IHr [|m v o] [|m' v' q] H1 H2; try contradiction. cbn [conforms] in *. cbn [zip_obj arrays].
    assert (String.eqb m m' = true) as -> by (apply String.eqb_eq; destruct H1, H2; congruence).
    rewrite (IHd v v'), (IHr o q) by tauto.
    assert (EL : length (arrays_v v) = length (arrays_v v')).
    { pose proof (proj1 conforms_arrays d v v' ltac:(tauto) ltac:(tauto)) as HF. clear - HF. induction HF; cbn; congruence. }
    assert (EC : forall (x y u t : list array), length x = length u -> combine (x ++ y) (u ++ t) = (combine x u ++ combine y t)%list).
    { clear. induction x as [|k x IH]; intros y [|k' u] t E; cbn in *; try discriminate; [reflexivity|]. f_equal. apply IH. lia. }
    rewrite EC, map_app, sequence_app by exact EL. reflexivity.
Qed.
Lemma reduce_and l : l <> [] -> tree_reduce andb l = Some (forallb (fun x => x) l).
Proof.
  destruct l as [|b r]; [congruence|]. intros _. cbn [tree_reduce forallb]. f_equal. revert b. induction r as [|c r IH]; intros b; cbn; [now rewrite andb_true_r|].
  rewrite IH. now rewrite andb_assoc.
Qed.
Lemma reduce_or l : l <> [] -> tree_reduce orb l = Some (existsb (fun x => x) l).
Proof.
  destruct l as [|b r]; [congruence|]. intros _. cbn [tree_reduce existsb]. f_equal. revert b. induction r as [|c r IH]; intros b; cbn; [now rewrite orb_false_r|].
  rewrite IH. now rewrite orb_assoc.
Qed.

(** ** [!=] is always the negation of [==] *)
Lemma leaf_ne_neg a b : leaf_ne a b = option_map negb (leaf_eq a b).
Proof.
  unfold leaf_ne, leaf_eq, a_compare. destruct (dtype_eqb _ _); [|reflexivity]. destruct (bshape _ _) as [s|]; [|reflexivity].
  destruct (a_broadcast_to s a) as [x|]; [|reflexivity]. destruct (a_broadcast_to s b) as [y|]; [|reflexivity]. cbn [option_map]. f_equal.
  induction (combine (adata x) (adata y)) as [|p l IH]; [reflexivity|]. cbn [map existsb forallb]. rewrite IH. now rewrite negb_andb.
Qed.
Lemma zip_neg : (forall v w, zip_v leaf_ne v w = option_map (map negb) (zip_v leaf_eq v w)) /\
  (forall o q, zip_obj leaf_ne o q = option_map (map negb) (zip_obj leaf_eq o q)).
Proof.
  apply value_obj_ind.
  - intros a [b|q]; [|reflexivity]. cbn [zip_v]. rewrite leaf_ne_neg. destruct (leaf_eq a b); reflexivity.
  - intros o IH [b|q]; [reflexivity|]. apply IH.
  - intros [|]; reflexivity.
  - intros n v IHv r IHr [|m w s]; [reflexivity|]. cbn [zip_obj]. destruct (String.eqb n m); [|reflexivity]. rewrite IHv, IHr.
    destruct (zip_v leaf_eq v w), (zip_obj leaf_eq r s); try reflexivity. cbn [option_map]. now rewrite map_app.
Qed.
Theorem C42_ne_is_not_eq : forall o q, obj_ne o q = option_map negb (obj_eq o q).
Proof.
  intros o q. unfold obj_ne, obj_eq. rewrite (proj2 zip_neg). destruct (zip_obj leaf_eq o q) as [l|]; [|reflexivity]. cbn [option_map].
  destruct l as [|b r]; [reflexivity|]. rewrite reduce_and, reduce_or by discriminate. cbn [option_map]. f_equal.
  induction (b :: r) as [|c t IH]; [reflexivity|]. cbn [map existsb forallb]. rewrite IH. now rewrite negb_andb.
Qed.

(** ** Leaves *)
Lemma bzip_app s t s' t' x y : bzip s t = Some x -> bzip s' t' = Some y -> bzip (s ++ s') (t ++ t') = Some (x ++ y)%list.
Proof.
  revert t x. induction s as [|d s IH]; intros [|e t] x H1 H2; cbn in *; try discriminate; [injection H1 as <-; exact H2|].
  destruct (bdim d e); [|discriminate]. destruct (bzip s t) as [r|] eqn:E; [|discriminate]. injection H1 as <-. rewrite (IH t r E H2). reflexivity.
Qed.
Lemma bzip_refl s : bzip s s = Some s.
Proof. induction s as [|d s IH]; [reflexivity|]. cbn. unfold bdim. rewrite Nat.eqb_refl, IH. reflexivity. Qed.
Lemma bzip_ones s : bzip (repeat 1 (length s)) s = Some s.
Proof. induction s as [|d s IH]; [reflexivity|]. cbn [length repeat bzip]. rewrite IH. unfold bdim. destruct (Nat.eqb_spec 1 d) as [<-|]; reflexivity. Qed.
Lemma bshape_batch B I : bshape I (B ++ I) = Some (B ++ I)%list.
Proof.
  unfold bshape. rewrite app_length, Nat.max_r by lia. replace (length B + length I - length I) with (length B) by lia. rewrite Nat.sub_diag. cbn [repeat app].
  apply bzip_app; [apply bzip_ones|apply bzip_refl].
Qed.
Lemma bcast_ok_refl s : bcast_ok s s = true.
Proof. induction s as [|d s IH]; [reflexivity|]. cbn. now rewrite Nat.eqb_refl, IH. Qed.
Lemma bcast_src_id s idx : inb idx s -> bcast_src s idx = idx.
Proof.
  intros H. unfold bcast_src. rewrite (inb_length _ _ H), Nat.sub_diag. cbn [skipn]. induction H as [|i d idx s Hi H IH]; [reflexivity|]. cbn [combine map fst snd]. rewrite IH. f_equal.
  destruct (Nat.eqb_spec d 1); lia.
Qed.
Lemma broadcast_batch B I a : ashape a = I -> a_broadcast_to (B ++ I) a = Some (build (adtype a) (B ++ I) (fun idx => get a (skipn (length B) idx))).
Proof.
  intros <-. unfold a_broadcast_to, ndim. rewrite app_length. replace (length B + length (ashape a) - length (ashape a)) with (length B) by lia.
  rewrite skipn_app, skipn_all, Nat.sub_diag. cbn [skipn app]. rewrite bcast_ok_refl. assert (length (ashape a) <=? length B + length (ashape a) = true) as -> by (apply Nat.leb_le; lia).
  cbn [andb]. f_equal. apply build_ext. intros idx Hi. apply inb_app_inv in Hi. destruct Hi as (b & t & -> & Hb & Ht). f_equal.
  rewrite skipn_app, <- (inb_length _ _ Hb), skipn_all, Nat.sub_diag. cbn [skipn app]. unfold bcast_src. rewrite app_length.
  rewrite <- (inb_length _ _ Ht). replace (length b + length t - length t) with (length b) by lia. rewrite skipn_app, skipn_all, Nat.sub_diag. cbn [skipn app].
  transitivity (bcast_src (ashape a) t); [|now apply bcast_src_id]. unfold bcast_src. rewrite (inb_length _ _ Ht), Nat.sub_diag. reflexivity.
Qed.
Lemma combine_map_same {X Y Z0} (f : X -> Y) (g : X -> Z0) l : combine (map f l) (map g l) = map (fun x => (f x, g x)) l.
Proof. induction l as [|x l IH]; [reflexivity|]. cbn. now rewrite IH. Qed.
Lemma forallb_id_map {X} (f : X -> bool) l : forallb (fun x => x) (map f l) = forallb f l.
Proof. induction l as [|x l IH]; [reflexivity|]. cbn. now rewrite IH. Qed.
(** comparing an array with a batch of arrays of its shape (B = []: with one array) *)
Lemma leaf_eq_batch B I a b : paired a b -> ashape a = I -> ashape b = (B ++ I)%list ->
  exists r, leaf_eq a b = Some r /\ (r = true <-> forall i t, inb i B -> inb t I -> elt_eqb (adtype a) (get a t) (get b (i ++ t)) = true).
Proof.
  intros (ED & Wa & Wb) Ha Hb. unfold leaf_eq, a_compare. rewrite ED, dtype_eqb_refl, Ha, Hb, bshape_batch.
  rewrite (broadcast_batch B I a Ha). pose proof (broadcast_batch [] (B ++ I) b Hb) as E2. cbn [app length skipn] in E2. rewrite E2. clear E2.
  eexists. split; [reflexivity|]. unfold build. cbn [adata]. rewrite combine_map_same, map_map, forallb_id_map. cbn [fst snd].
  rewrite forallb_forall. split.
  - intros H i t Hi Ht. pose proof (inb_app_intro i t B I Hi Ht) as HI. specialize (H (ravel (B ++ I) (i ++ t))).
    rewrite unravel_ravel in H by exact HI. rewrite skipn_app, <- (inb_length _ _ Hi), skipn_all, Nat.sub_diag in H. cbn [skipn app] in H.
    apply H. apply in_seq. pose proof (ravel_lt _ _ HI). lia.
  - intros H k Hk. apply in_seq in Hk. pose proof (unravel_inb (B ++ I) k ltac:(lia)) as HI. apply inb_app_inv in HI. destruct HI as (i & t & E & Hi & Ht). rewrite E.
    rewrite skipn_app, <- (inb_length _ _ Hi), skipn_all, Nat.sub_diag. cbn [skipn app]. now apply H.
Qed.

(** ** Instances *)
Lemma sequence_combine {X} (f : X -> X -> option bool) (R : X -> X -> Prop) l m :
  Forall2 (fun a b => exists r, f a b = Some r /\ (r = true <-> R a b)) l m ->
  exists rs, sequence (map (fun p => f (fst p) (snd p)) (combine l m)) = Some rs /\ length rs = length l /\ (forallb (fun x => x) rs = true <-> Forall2 R l m).
Proof.
  induction 1 as [|a b l m (r & E & HR) H (rs & E1 & EL & E2)]; [exists []; cbn; repeat split; auto|]. cbn [combine map fst snd sequence]. rewrite E, E1. cbn [option_map].
  exists (r :: rs). split; [reflexivity|]. split; [cbn; lia|]. cbn [forallb]. rewrite andb_true_iff, HR, E2. split; [intros []; now constructor|]. intros K. inversion K; auto.
Qed.
Lemma zip_eq c o q (R : array -> array -> Prop) : conforms c o -> conforms c q -> arrays o <> [] ->
  Forall2 (fun a b => exists r, leaf_eq a b = Some r /\ (r = true <-> R a b)) (arrays o) (arrays q) ->
  exists r, obj_eq o q = Some r /\ (r = true <-> Forall2 R (arrays o) (arrays q)).
Proof.
  intros H1 H2 HN HF. unfold obj_eq. rewrite (proj2 (zip_sequence leaf_eq) c o q H1 H2). destruct (sequence_combine leaf_eq R _ _ HF) as (rs & -> & EL & E).
  assert (rs <> []) by (intros ->; cbn in EL; destruct (arrays o); [congruence|discriminate]). rewrite reduce_and by assumption. eauto.
Qed.
Lemma Forall2_impl {X Y} (R S : X -> Y -> Prop) l m : (forall x y, R x y -> S x y) -> Forall2 R l m -> Forall2 S l m.
Proof. intros H. induction 1; constructor; auto. Qed.
Lemma Forall2_and {X Y} (R S : X -> Y -> Prop) l m : Forall2 R l m -> Forall2 S l m -> Forall2 (fun x y => R x y /\ S x y) l m.
Proof. induction 1; intros H2; inversion H2; subst; constructor; auto. Qed.
Lemma Forall2_combine {X Y} (P : X -> Prop) (Q : Y -> Prop) (R : X -> Y -> Prop) l m : Forall P l -> Forall Q m -> Forall2 R l m -> Forall2 (fun x y => P x /\ Q y /\ R x y) l m.
Proof. intros H1 H2 H. revert H1 H2. induction H; intros H1 H2; inversion H1; inversion H2; subst; constructor; auto. Qed.
(** the leaf shapes of two instances of one class *)
Lemma shapes_arrays B : (forall d v w J, has_v J d v -> has_v (B ++ J) d w -> Forall2 (fun a b => ashape b = (B ++ ashape a)%list) (arrays_v v) (arrays_v w)) /\
  (forall c o q J, has_batch J c o -> has_batch (B ++ J) c q -> Forall2 (fun a b => ashape b = (B ++ ashape a)%list) (arrays o) (arrays q)).
Proof.
  apply desc_class_ind.
  - intros dt ish bits pb fill [a|o] [b|q] J H1 H2; try contradiction. cbn in *. constructor; [|constructor]. rewrite H2, H1. now rewrite app_assoc.
  - intros c IH ish [a|o] [b|q] J H1 H2; try contradiction. cbn in *. rewrite <- app_assoc in H2. now apply (IH o q (J ++ ish)%list).
  - intros [|] [|] J H1 H2; try contradiction. constructor.
  - intros n d IHd r IHr [|m v o] [|m' v' q] J H1 H2; try contradiction. cbn in *. apply Forall2_app; [apply (IHd v v' J); tauto|apply (IHr o q J); tauto].
Qed.
Lemma pair_facts c B o q : batched c [] o -> batched c B q -> Forall2 (fun a b => ashape b = (B ++ ashape a)%list /\ paired a b) (arrays o) (arrays q).
Proof.
  intros [C1 S1] [C2 S2]. apply Forall2_and; [|now apply (proj2 conforms_arrays c)]. apply (proj2 (shapes_arrays B) c o q []); [exact S1|now rewrite app_nil_r].
Qed.
Lemma pair_facts_same c B o q : batched c B o -> batched c B q -> Forall2 (fun a b => ashape b = ashape a /\ paired a b) (arrays o) (arrays q).
Proof.
  intros [C1 S1] [C2 S2]. apply Forall2_and; [|now apply (proj2 conforms_arrays c)]. apply (proj2 (shapes_arrays []) c o q B); [exact S1|exact S2].
Qed.
Lemma get_in a idx : wfa a -> inb idx (ashape a) -> In (get a idx) (adata a).
Proof. intros W H. unfold get. apply nth_In. rewrite W. now apply ravel_lt. Qed.
Lemma same_elt_spec dt x y : in_dtype dt x -> in_dtype dt y -> match dt with DFloat w => float_width w | _ => True end ->
  (elt_eqb dt x y = true <-> same_elt dt x y).
Proof.
  intros Hx Hy HW. destruct dt as [|w|w|w]; cbn [elt_eqb same_elt]; try apply Z.eqb_eq. apply fval_inj; assumption.
Qed.
Lemma valid_get a idx : valid_array a -> wfa a -> inb idx (ashape a) -> in_dtype (adtype a) (get a idx).
Proof. intros [H _] W HI. rewrite Forall_forall in H. apply H. now apply get_in. Qed.
(** [==] compares all elements of all fields as numbers *)
Theorem C42_eq_iff : forall c B o q, batched c B o -> batched c B q -> valid o -> valid q -> arrays o <> [] ->
  exists r, obj_eq o q = Some r /\ (r = true <-> Forall2 same_array (arrays o) (arrays q)).
Proof.
  intros c B o q HO HQ VO VQ HN. apply (zip_eq c); [apply HO|apply HQ|exact HN|].
  pose proof (Forall2_combine _ _ _ _ _ VO VQ (pair_facts_same c B o q HO HQ)) as HF. revert HF. apply Forall2_impl. intros a b (Va & Vb & ES & HP).
  destruct (leaf_eq_batch [] (ashape a) a b HP eq_refl ES) as (r & E & HR). exists r. split; [exact E|]. rewrite HR. destruct HP as (ED & Wa & Wb). unfold same_array. split.
  - intros H idx HI. apply same_elt_spec; [now apply valid_get|rewrite ED; apply valid_get; auto; now rewrite ES|apply Va|]. apply (H [] idx inb_nil HI).
  - intros H i t Hi Ht. inversion Hi; subst. cbn [app]. apply same_elt_spec; [now apply valid_get|rewrite ED; apply valid_get; auto; now rewrite ES|apply Va|]. now apply H.
Qed.
(** without float fields, [==] is identity of contents *)
Lemma arrays_inj : (forall d v w, conforms_v d v -> conforms_v d w -> arrays_v v = arrays_v w -> v = w) /\
  (forall c o q, conforms c o -> conforms c q -> arrays o = arrays q -> o = q).
Proof.
  apply desc_class_ind.
  - intros dt ish bits pb fill [a|o] [b|q] H1 H2 E; try contradiction. cbn in E. congruence.
  - intros c IH ish [a|o] [b|q] H1 H2 E; try contradiction. f_equal. now apply IH.
  - intros [|] [|] H1 H2 E; try contradiction. reflexivity.
  - intros n d IHd r IHr [|m v o] [|m' v' q] H1 H2 E; try contradiction. cbn [conforms arrays] in *.
    pose proof (proj1 conforms_arrays d v v' ltac:(tauto) ltac:(tauto)) as HF. assert (EL : length (arrays_v v) = length (arrays_v v')) by (clear - HF; induction HF; cbn; congruence).
    assert (arrays_v v = arrays_v v' /\ arrays o = arrays q) as [E1 E2].
    { revert EL E. generalize (arrays_v v) (arrays_v v'). clear. intros l. induction l as [|x l IH]; intros [|y m] EL E; cbn in *; try discriminate; [auto|]. injection E as -> E. destruct (IH m ltac:(lia) E) as [-> ->]. auto. }
    f_equal; [destruct H1, H2; congruence|apply IHd; tauto|apply IHr; tauto].
Qed.
Theorem C42_identity : forall c B o q, batched c B o -> batched c B q -> float_free o -> arrays o <> [] ->
  exists r, obj_eq o q = Some r /\ (r = true <-> o = q).
Proof.
  intros c B o q HO HQ FF HN.
  assert (HF : Forall2 (fun a b => exists r, leaf_eq a b = Some r /\ (r = true <-> a = b)) (arrays o) (arrays q)).
  { assert (T : Forall (fun _ : array => True) (arrays q)) by (apply Forall_forall; auto).
    pose proof (Forall2_combine _ _ _ _ _ FF T (pair_facts_same c B o q HO HQ)) as HF. revert HF. apply Forall2_impl. intros a b (Fa & _ & ES & HP).
    destruct (leaf_eq_batch [] (ashape a) a b HP eq_refl ES) as (r & E & HR). exists r. split; [exact E|]. rewrite HR. destruct HP as (ED & Wa & Wb). split; [|intros -> i t Hi Ht; inversion Hi; subst; cbn [app]; destruct (adtype b); try destruct Fa; apply Z.eqb_refl].
    intros H. apply array_ext; auto. intros idx HI. specialize (H [] idx inb_nil HI). destruct (adtype a); try destruct Fa; now apply Z.eqb_eq. }
  destruct (zip_eq c o q eq (proj1 HO) (proj1 HQ) HN HF) as (r & E & HR). exists r. split; [exact E|]. rewrite HR. split.
  - intros H. apply (proj2 arrays_inj c); [apply HO|apply HQ|]. clear - H. induction H; congruence.
  - intros ->. clear. induction (arrays q); constructor; auto.
Qed.
(** an instance equals itself exactly when it contains no NaN *)
Theorem C42_reflexive : forall c B o, batched c B o -> valid o -> arrays o <> [] ->
  exists r, obj_eq o o = Some r /\ (r = true <-> Forall (fun a => ~ has_nan a) (arrays o)).
Proof.
  intros c B o HO VO HN. destruct (C42_eq_iff c B o o HO HO VO VO HN) as (r & E & HR). exists r. split; [exact E|]. rewrite HR. clear HR E r HN.
  assert (W : Forall wfa (arrays o)).
  { pose proof (pair_facts_same c B o o HO HO) as HF. clear - HF. remember (arrays o) as l eqn:El. rewrite El in HF at 2. assert (K : Forall2 (fun a _ => wfa a) l (arrays o)) by (revert HF; apply Forall2_impl; intros a b (_ & _ & ? & _); assumption).
    clear - K. induction K; constructor; auto. }
  unfold valid in VO. revert VO W. generalize (arrays o). intros l. induction l as [|a l IH]; intros VO W; [split; intros _; constructor|]. inversion VO as [|? ? Va Vl]; subst. inversion W as [|? ? Wa Wl]; subst. specialize (IH Vl Wl). split.
  - intros H. inversion H as [|? ? ? ? Ha Hl]; subst. constructor; [|tauto]. intros (w & z & ED & HI & EN). apply In_nth with (d := 0%Z) in HI. destruct HI as (k & Hk & Ez).
    rewrite Wa in Hk. specialize (Ha (unravel (ashape a) k) (unravel_inb _ _ Hk)). rewrite ED in Ha. unfold get in Ha. rewrite ravel_unravel in Ha by exact Hk. rewrite Ez in Ha. destruct Ha as (v & E & _). congruence.
  - intros H. inversion H as [|? ? Ha Hl]; subst. constructor; [|tauto]. intros idx HI. destruct (adtype a) as [|w|w|w] eqn:ED; cbn [same_elt]; auto.
    destruct (fval w (get a idx)) as [v|] eqn:EV; [eauto|]. exfalso. apply Ha. exists w, (get a idx). split; [exact ED|]. split; [now apply get_in|exact EV].
Qed.
(** comparing one instance with a batch compares it with every element; in particular it
    is equal to every batch without elements *)
Lemma elem_arrays b : (forall v, arrays_v (elem_v b v) = map (sub b) (arrays_v v)) /\ (forall o, arrays (elem b o) = map (sub b) (arrays o)).
Proof. apply value_obj_ind; cbn; auto. - intros n v IHv r IHr. now rewrite IHv, IHr, map_app. Qed.
Lemma elem_batched c B q b : batched c B q -> inb b B -> batched c [] (elem b q).
Proof. intros HQ Hb. destruct (C41_elem c B q b HQ Hb) as (e & _ & K & ->). exact K. Qed.
Lemma Forall2_forall_batch {X Y Z0} (P : Z0 -> Prop) (R : X -> Y -> Z0 -> Prop) l m : Forall2 (fun _ _ => True) l m ->
  (Forall2 (fun x y => forall b, P b -> R x y b) l m <-> forall b, P b -> Forall2 (fun x y => R x y b) l m).
Proof.
  induction 1 as [|x y l m _ H IH]; [split; intros; constructor|]. split.
  - intros K b Pb. inversion K; subst. constructor; [auto|]. apply IH; assumption.
  - intros K. constructor; [intros b Pb; specialize (K b Pb); now inversion K|]. apply IH. intros b Pb. specialize (K b Pb). now inversion K.
Qed.
Theorem C42_broadcast : forall c B o q, batched c [] o -> batched c B q -> arrays o <> [] ->
  exists r, obj_eq o q = Some r /\ (r = true <-> forall b, inb b B -> obj_eq o (elem b q) = Some true).
Proof.
  intros c B o q HO HQ HN.
  set (R := fun a b (i : list nat) => leaf_eq a (sub i b) = Some true).
  assert (HF : Forall2 (fun a b => exists r, leaf_eq a b = Some r /\ (r = true <-> forall i, inb i B -> R a b i)) (arrays o) (arrays q)).
  { pose proof (pair_facts c B o q HO HQ) as HF. revert HF. apply Forall2_impl. intros a b (ES & HP). destruct (leaf_eq_batch B (ashape a) a b HP eq_refl ES) as (r & E & HR).
    exists r. split; [exact E|]. rewrite HR. unfold R. split.
    - intros H i Hi. destruct (leaf_eq_batch [] (ashape a) a (sub i b)) as (r' & E' & HR').
      + destruct HP as (ED & Wa & Wb). split; [exact ED|]. split; [exact Wa|apply build_wfa].
      + reflexivity.
      + rewrite (sub_shape i b B (ashape a) Hi ES). reflexivity.
      + rewrite E'. f_equal. apply HR'. intros i' t Hi' Ht. inversion Hi'; subst. cbn [app]. rewrite (sub_shape i b B (ashape a) Hi ES), get_build by exact Ht. now apply H.
    - intros H i t Hi Ht. specialize (H i Hi). destruct (leaf_eq_batch [] (ashape a) a (sub i b)) as (r' & E' & HR').
      + destruct HP as (ED & Wa & Wb). split; [exact ED|]. split; [exact Wa|apply build_wfa].
      + reflexivity.
      + rewrite (sub_shape i b B (ashape a) Hi ES). reflexivity.
      + rewrite E' in H. injection H as ->. pose proof (proj1 HR' eq_refl [] t inb_nil Ht) as K. cbn [app] in K. rewrite (sub_shape i b B (ashape a) Hi ES), get_build in K by exact Ht. exact K. }
  destruct (zip_eq c o q _ (proj1 HO) (proj1 HQ) HN HF) as (r & E & HR). exists r. split; [exact E|]. rewrite HR. rewrite (Forall2_forall_batch (fun i => inb i B) R).
  2:{ revert HF. apply Forall2_impl. auto. }
  assert (KEY : forall i, inb i B -> (Forall2 (fun a b => R a b i) (arrays o) (arrays q) <-> obj_eq o (elem i q) = Some true)).
  { intros i Hi. pose proof (elem_batched c B q i HQ Hi) as HE.
    assert (HF' : Forall2 (fun a b => exists r, leaf_eq a b = Some r /\ (r = true <-> leaf_eq a b = Some true)) (arrays o) (arrays (elem i q))).
    { pose proof (pair_facts c [] o (elem i q) HO HE) as HF'. revert HF'. apply Forall2_impl. intros a b (ES & HP). destruct (leaf_eq_batch [] (ashape a) a b HP eq_refl ES) as (r' & E' & _). exists r'. split; [exact E'|]. rewrite E'. split; congruence. }
    destruct (zip_eq c o (elem i q) _ (proj1 HO) (proj1 HE) HN HF') as (r' & E' & HR'). rewrite E'.
    assert (K : r' = true <-> Some r' = Some true) by (split; congruence). rewrite <- K, HR'. rewrite (proj2 (elem_arrays i)). unfold R. clear. generalize (arrays o). induction (arrays q) as [|b m IH]; intros l.
    - split; intros H; inversion H; constructor.
    - split; intros H; inversion H; subst; constructor; auto; now apply IH. }
  split; intros H i Hi; apply KEY; auto.
Qed.
Lemma same_elt_sym dt x y : same_elt dt x y -> same_elt dt y x.
Proof. destruct dt; cbn; auto. intros (v & ? & ?). eauto. Qed.
Lemma same_elt_trans dt x y z : same_elt dt x y -> same_elt dt y z -> same_elt dt x z.
Proof. destruct dt; cbn; try congruence. intros (v & E1 & E2) (v' & E3 & E4). exists v. split; congruence. Qed.
Lemma Forall2_cons_iff {X Y} (R : X -> Y -> Prop) x y l m : Forall2 R (x :: l) (y :: m) <-> R x y /\ Forall2 R l m.
Proof. split; [intros H; inversion H; auto|intros []; now constructor]. Qed.
(** [==] is symmetric and transitive *)
Theorem C42_symmetric_transitive : forall c B o q p, batched c B o -> batched c B q -> batched c B p -> valid o -> valid q -> valid p -> arrays o <> [] ->
  (obj_eq o q = Some true -> obj_eq q o = Some true) /\ (obj_eq o q = Some true -> obj_eq q p = Some true -> obj_eq o p = Some true).
Proof.
  intros c B o q p HO HQ HP VO VQ VP HN. pose proof (pair_facts_same c B o q HO HQ) as F1. pose proof (pair_facts_same c B q p HQ HP) as F2.
  assert (HN' : arrays q <> []) by (intros E; rewrite E in F1; inversion F1; congruence).
  destruct (C42_eq_iff c B o q HO HQ VO VQ HN) as (r1 & E1 & R1). destruct (C42_eq_iff c B q o HQ HO VQ VO HN') as (r2 & E2 & R2).
  destruct (C42_eq_iff c B q p HQ HP VQ VP HN') as (r3 & E3 & R3). destruct (C42_eq_iff c B o p HO HP VO VP HN) as (r4 & E4 & R4). rewrite E1, E2, E3, E4.
  assert (EX : forall r, Some r = Some true <-> r = true) by (intros []; split; congruence). rewrite !EX, R1, R2, R3, R4. clear - F1 F2. split.
  - intros H. revert F1. clear F2. induction H as [|a b l m Hab H IH]; intros F1; [constructor|]. apply Forall2_cons_iff in F1. destruct F1 as [(ES & ED & _) F1']. constructor; [|exact (IH F1')]. intros idx HI. apply same_elt_sym. rewrite <- ED. apply Hab. rewrite <- ES. exact HI.
  - intros H1. revert F1 F2. generalize (arrays p). induction H1 as [|a b l m K1 H1 IH]; intros k F1 F2 H2; [inversion H2; constructor|].
    destruct k as [|e k]; [inversion H2|]. apply Forall2_cons_iff in F1. apply Forall2_cons_iff in F2. apply Forall2_cons_iff in H2. destruct F1 as [(ES & ED & _) F1], F2 as [_ F2], H2 as [K2 H2]. constructor; [|exact (IH k F1 F2 H2)].
    intros idx HI. eapply same_elt_trans; [exact (K1 idx HI)|]. rewrite ED. apply K2. rewrite ES. exact HI.
Qed.
(** equal floats with different words, and an instance that differs from itself *)
Definition one_float (z : Z) : obj := OCons "x"%string (VArr (MkArr (DFloat 32) [] [z])) ONil.
Theorem C42_float_pitfalls :
  obj_eq (one_float 0) (one_float 0x80000000) = Some true /\ obj_words (one_float 0) <> obj_words (one_float 0x80000000) /\
  obj_hash_pair Off 0 (one_float 0) <> obj_hash_pair Off 0 (one_float 0x80000000) /\
  obj_eq (one_float 0x7FC00000) (one_float 0x7FC00000) = Some false.
Proof. split; [reflexivity|]. split; [discriminate|]. split; [vm_compute; discriminate|reflexivity]. Qed.
Example C42_case : obj_eq (OCons "x"%string (VArr (MkArr (DInt 32) [2] [3; -4]%Z)) ONil) (OCons "x"%string (VArr (MkArr (DInt 32) [2] [3; -4]%Z)) ONil) = Some true /\
  obj_eq (OCons "x"%string (VArr (MkArr (DInt 32) [2] [3; -4]%Z)) ONil) (OCons "x"%string (VArr (MkArr (DInt 32) [2] [3; 4]%Z)) ONil) = Some false /\
  obj_eq (OCons "x"%string (VArr (MkArr (DInt 32) [2] [3; -4]%Z)) ONil) (OCons "x"%string (VArr (MkArr (DInt 32) [0; 2] []%Z)) ONil) = Some true.
Proof. repeat split. Qed.
Print Assumptions C42_broadcast.
