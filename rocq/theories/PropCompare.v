(** * PropCompare.v — property C70: isclose, allclose and can_cast. *)
From Coq Require Import String.
From Verif Require Import Jax StructModel ArrayModel ArrayFacts ShapeModel PropShape RowsModel RowsLift PropRows PropRows2 PropRows3 PropRows4 EqModel FloatEq PropEq RowsModel2 PropRows5 PropRows6 PropRows7 CompareModel.

(** ** isclose *)
(** entry by entry: 1 where the two numbers are close, else 0 *)
Definition says_close (close : dtype -> Z -> Z -> bool) (l : list array) (x : array) : Prop :=
  match l with
  | [a; b] => adtype x = DBool /\ ashape x = ashape a /\ ashape b = ashape a /\ adtype b = adtype a /\
      entries x (fun idx z => z = if close (adtype a) (get a idx) (get b idx) then 1%Z else 0%Z)
  | _ => False
  end.
Theorem C70_isclose : forall close c B o q, batched c B o -> batched c B q ->
  exists r, obj_isclose close o q = Some r /\ batched (retype boolt c) B r /\ each (says_close close) [o; q] r /\
    forall b, inb b B -> obj_isclose close (elem b o) (elem b q) = Some (elem b r).
Proof.
  intros g c B o q HO HQ.
  destruct (each_lift B [idt; idt] boolt (a_compare_arr g) (fun _ => a_compare_arr g) (fun _ => True) (says_close g)) with (c := c) (os := [o; q]) as (r & E1 & E2 & E3 & E4).
  - intros dt J l _ HA. destruct (pointwise_leaf B [idt; idt] boolt (a_compare_arr g) (fun dt zs => b2z (match zs with [x; y] => g dt x y | _ => false end)) (compare_leaf g) dt J l HA) as (x & F1 & F2 & F3 & F4 & F5 & F6).
    exists x. split; [exact F1|]. split; [exact F2|]. split; [exact F3|]. split; [exact F4|]. split; [|exact F6].
    inversion HA as [|a t1 l1 ts1 (A1 & A2 & A3) HA1]; subst. inversion HA1 as [|b t2 l2 ts2 (V1 & V2 & V3) HA2]; subst. inversion HA2; subst. unfold idt in *.
    cbn [says_close]. split; [exact F2|]. split; [congruence|]. split; [congruence|]. split; [congruence|]. intros idx HI. rewrite F5 by exact HI. cbn [map]. rewrite A1. reflexivity.
  - apply shapes_True.
  - discriminate.
  - unfold idt. constructor; [|constructor; [|constructor]]; rewrite (proj2 retype_id_both); assumption.
  - exists r. split; [exact E1|]. split; [exact E2|]. split; [exact E3|]. exact E4.
Qed.

(** ** allclose *)
Definition close_arrays (close : dtype -> Z -> Z -> bool) (a b : array) : Prop :=
  forall idx, inb idx (ashape a) -> close (adtype a) (get a idx) (get b idx) = true.
Lemma all_leaf g a b : paired a b -> ashape b = ashape a -> exists r, leaf_allclose g a b = Some r /\ (r = true <-> close_arrays g a b).
Proof.
  intros (ED & Wa & Wb) ES. unfold leaf_allclose, a_compare. rewrite ED, dtype_eqb_refl, ES. pose proof (bshape_batch [] (ashape a)) as HS. cbn [app] in HS. rewrite HS.
  pose proof (broadcast_batch [] (ashape a) a eq_refl) as E1. cbn [app length skipn] in E1. pose proof (broadcast_batch [] (ashape a) b ES) as E2. cbn [app length skipn] in E2. rewrite E1, E2.
  eexists. split; [reflexivity|]. unfold build. cbn [adata]. rewrite combine_map_same, map_map, forallb_id_map. cbn [fst snd]. rewrite forallb_forall, <- ED. split.
  - intros H t Ht. specialize (H (ravel (ashape a) t)). rewrite unravel_ravel in H by exact Ht. apply H. apply in_seq. pose proof (ravel_lt _ _ Ht). lia.
  - intros H k Hk. apply in_seq in Hk. apply H. apply unravel_inb. lia.
Qed.
Lemma fold_and l : fold_left andb l true = forallb (fun x => x) l.
Proof.
  assert (K : forall b, fold_left andb l b = b && forallb (fun x => x) l).
  { induction l as [|x l IH]; intros b; cbn; [now rewrite andb_true_r|]. rewrite IH. now rewrite andb_assoc. }
  now rewrite K.
Qed.
Lemma allclose_sum (g : array -> array -> option bool) (R : array -> array -> Prop) c o q : conforms c o -> conforms c q ->
  Forall2 (fun a b => exists r, g a b = Some r /\ (r = true <-> R a b)) (arrays o) (arrays q) ->
  exists rs, zip_obj g o q = Some rs /\ (fold_left andb rs true = true <-> Forall2 R (arrays o) (arrays q)).
Proof.
  intros H1 H2 HF. rewrite (proj2 (zip_sequence g) c o q H1 H2). destruct (sequence_combine g R _ _ HF) as (rs & -> & EL & E).
  exists rs. split; [reflexivity|]. now rewrite fold_and.
Qed.
(** True exactly when every entry of every array is close; never raises for two batches of
    one class and shape; without arrays or without entries: True *)
Theorem C70_allclose : forall close c B o q, batched c B o -> batched c B q ->
  exists r, obj_allclose close o q = Some r /\ (r = true <-> Forall2 (close_arrays close) (arrays o) (arrays q)).
Proof.
  intros g c B o q HO HQ. unfold obj_allclose.
  assert (HF : Forall2 (fun a b => exists r, leaf_allclose g a b = Some r /\ (r = true <-> close_arrays g a b)) (arrays o) (arrays q)).
  { pose proof (pair_facts_same c B o q HO HQ) as HF. revert HF. apply Forall2_impl. intros a b (ES & HP). now apply all_leaf. }
  destruct (allclose_sum _ _ c o q (proj1 HO) (proj1 HQ) HF) as (rs & -> & E). cbn [option_map]. eauto.
Qed.
Lemma sub_close g B I a b : adtype a = adtype b -> ashape a = B ++ I -> ashape b = B ++ I ->
  (close_arrays g a b <-> forall i, inb i B -> close_arrays g (sub i a) (sub i b)).
Proof.
  intros ED Ha Hb. unfold close_arrays. split.
  - intros H i Hi t Ht. rewrite (sub_shape i a B I Hi Ha) in *. rewrite (sub_shape i b B I Hi Hb). cbn [ashape adtype build] in *. rewrite !get_build by exact Ht. apply H. rewrite Ha. now apply inb_app_intro.
  - intros H idx HI. rewrite Ha in HI. apply inb_app_inv in HI. destruct HI as (i & t & -> & Hi & Ht). specialize (H i Hi t). rewrite (sub_shape i a B I Hi Ha), (sub_shape i b B I Hi Hb) in H. cbn [ashape adtype build] in H.
    specialize (H Ht). rewrite !get_build in H by exact Ht. exact H.
Qed.
Lemma batch_prefix B : (forall d v J, has_v (B ++ J) d v -> Forall (fun a => exists I, ashape a = B ++ I) (arrays_v v)) /\ (forall c o J, has_batch (B ++ J) c o -> Forall (fun a => exists I, ashape a = B ++ I) (arrays o)).
Proof.
  apply desc_class_ind.
  - intros dt ish bits pb fill [a|o] J H; cbn in H; [|destruct H]. constructor; [|constructor]. exists (J ++ ish). now rewrite H, app_assoc.
  - intros c IH ish [a|o] J H; cbn in H; [destruct H|]. rewrite <- app_assoc in H. now apply (IH o (J ++ ish)).
  - intros [|] J H; [constructor|destruct H].
  - intros n d IHd r IHr [|m v o] J H; [destruct H|]. destruct H as [_ [H1 H2]]. cbn. apply Forall_app. eauto.
Qed.
(** True exactly when every element of the batch is close to its counterpart *)
Theorem C70_allclose_elem : forall close c B o q, batched c B o -> batched c B q ->
  exists r, obj_allclose close o q = Some r /\ (r = true <-> forall b, inb b B -> obj_allclose close (elem b o) (elem b q) = Some true).
Proof.
  intros g c B o q HO HQ. destruct (C70_allclose g c B o q HO HQ) as (r & E & HR). exists r. split; [exact E|]. rewrite HR.
  pose proof (pair_facts_same c B o q HO HQ) as HF. pose proof (proj2 (batch_prefix B) c o [] ltac:(rewrite app_nil_r; apply HO)) as HP. pose proof (Forall2_combine _ (fun _ => True) _ _ _ HP ltac:(apply Forall_forall; auto) HF) as HF2.
  transitivity (forall i, inb i B -> Forall2 (fun a b => close_arrays g (sub i a) (sub i b)) (arrays o) (arrays q)).
  - rewrite <- (Forall2_forall_batch (fun i => inb i B) (fun a b i => close_arrays g (sub i a) (sub i b))).
    + clear - HF2. induction HF2 as [|a b l m ((I & EI) & _ & ES & ED & _ & _) H IH]; [split; constructor|]. rewrite !Forall2_cons_iff, IH. rewrite (sub_close g B I a b ED EI ltac:(congruence)). reflexivity.
    + revert HF. apply Forall2_impl. auto.
  - assert (KEY : forall i, inb i B -> (Forall2 (fun a b => close_arrays g (sub i a) (sub i b)) (arrays o) (arrays q) <-> obj_allclose g (elem i o) (elem i q) = Some true)).
    { intros i Hi. destruct (C70_allclose g c [] (elem i o) (elem i q) (elem_batched c B o i HO Hi) (elem_batched c B q i HQ Hi)) as (v & EV & HV). rewrite EV. assert (K : v = true <-> Some v = Some true) by (split; congruence). rewrite <- K, HV, !(proj2 (elem_arrays i)). clear.
      generalize (arrays o). induction (arrays q) as [|b m IH]; intros [|a l]; cbn [map]; (split; intros H; inversion H; subst; constructor; auto; now apply IH). }
    split; intros H i Hi; apply KEY; auto.
Qed.
(** True exactly when isclose is 1 everywhere *)
Theorem C70_allclose_isclose : forall close c B o q r, batched c B o -> batched c B q -> obj_isclose close o q = Some r ->
  exists v, obj_allclose close o q = Some v /\ (v = true <-> Forall (fun x => Forall (eq 1%Z) (adata x)) (arrays r)).
Proof.
  intros g c B o q r HO HQ HE. destruct (C70_allclose g c B o q HO HQ) as (v & EV & HV). exists v. split; [exact EV|]. rewrite HV.
  destruct (C70_isclose g c B o q HO HQ) as (r' & E1 & ER & E3 & _). rewrite HE in E1. injection E1 as <-. destruct (proj2 (each2_arrays _) r o q E3) as [F L].
  assert (WR : Forall wfa (arrays r)).
  { pose proof (pair_facts_same (retype boolt c) B r r ER ER) as HF. clear - HF. remember (arrays r) as l eqn:El. rewrite El in HF at 2. assert (K : Forall2 (fun a _ => wfa a) l (arrays r)) by (revert HF; apply Forall2_impl; intros a b (_ & _ & ? & _); assumption).
    clear - K. induction K; constructor; auto. }
  revert F L WR. generalize (arrays o) (arrays q) (arrays r). clear. induction l as [|a l IH]; intros [|b m] x F L W; try discriminate.
  - cbn in F. inversion F; subst. split; constructor.
  - cbn [combine] in F. inversion F as [|? y ? x' HS F']; subst. inversion W as [|? ? Wy W']; subst. rewrite Forall2_cons_iff, (IH m x' F' ltac:(cbn in L; lia) W'). cbn [fst snd says_close] in HS. destruct HS as (_ & S1 & S2 & S3 & S4).
    assert (K : close_arrays g a b <-> Forall (eq 1%Z) (adata y)).
    { unfold close_arrays. split.
      - intros H. apply Forall_forall. intros z Hz. apply In_nth with (d := 0%Z) in Hz. destruct Hz as (k & Hk & <-). rewrite Wy in Hk. pose proof (unravel_inb (ashape y) k Hk) as HI. pose proof (S4 _ HI) as E. cbv beta in E. rewrite H in E by (now rewrite <- S1). unfold get in E. now rewrite ravel_unravel in E by exact Hk.
      - intros H idx HI. rewrite <- S1 in HI. pose proof (S4 idx HI) as E. cbv beta in E. pose proof (get_in y idx Wy HI) as HIn. rewrite Forall_forall in H. rewrite <- (H _ HIn) in E. destruct (g (adtype a) (get a idx) (get b idx)); [reflexivity|discriminate]. }
    rewrite K. split; [intros []; now constructor|]. intros H. inversion H; auto.
Qed.
(** inherited from the test on numbers; transitivity is not *)
Theorem C70_allclose_laws : forall close c B o q, batched c B o -> batched c B q ->
  ((forall dt x, in_dtype dt x -> close dt x x = true) -> valid o -> obj_allclose close o o = Some true) /\
  ((forall dt x y, close dt x y = close dt y x) -> obj_allclose close o q = obj_allclose close q o).
Proof.
  intros g c B o q HO HQ. split.
  - intros HR V. destruct (C70_allclose g c B o o HO HO) as (r & E & H). rewrite E. f_equal. apply H. pose proof (pair_facts_same c B o o HO HO) as HF.
    assert (W : Forall wfa (arrays o)).
    { clear - HF. remember (arrays o) as l eqn:El. rewrite El in HF at 2. assert (K : Forall2 (fun a _ => wfa a) l (arrays o)) by (revert HF; apply Forall2_impl; intros a b (_ & _ & ? & _); assumption). clear - K. induction K; constructor; auto. }
    unfold valid in V. clear - HR V W. induction (arrays o) as [|a l IH]; [constructor|]. inversion V; inversion W; subst. constructor; [|auto]. intros idx HI. apply HR. now apply valid_get.
  - intros HS. destruct (C70_allclose g c B o q HO HQ) as (r & E & H). destruct (C70_allclose g c B q o HQ HO) as (r' & E' & H'). rewrite E, E'. f_equal.
    assert (K : Forall2 (close_arrays g) (arrays o) (arrays q) <-> Forall2 (close_arrays g) (arrays q) (arrays o)).
    { pose proof (pair_facts_same c B o q HO HQ) as HF. clear - HF HS. induction HF as [|a b l m (ES & ED & _ & _) HF IH]; [split; constructor|]. rewrite !Forall2_cons_iff, IH. unfold close_arrays. rewrite ES, ED. split; intros [K1 K2]; (split; [|exact K2]); intros idx HI; rewrite HS; auto. }
    rewrite <- H in K. rewrite <- H' in K. destruct r, r'; try reflexivity; exfalso; intuition congruence.
Qed.
Definition within_one (_ : dtype) (x y : Z) : bool := (Z.abs (x - y) <=? 1)%Z.
Definition one_int (z : Z) : obj := OCons "x"%string (VArr (MkArr (DInt 32) [] [z])) ONil.
Theorem C70_allclose_transitive_refuted : exists c o q p, batched c [] o /\ batched c [] q /\ batched c [] p /\
  (forall dt x, within_one dt x x = true) /\ (forall dt x y, within_one dt x y = within_one dt y x) /\
  obj_allclose within_one o q = Some true /\ obj_allclose within_one q p = Some true /\ obj_allclose within_one o p = Some false.
Proof.
  exists (CCons "x"%string (Prim (DInt 32) [] None false 0%Z) CNil), (one_int 0), (one_int 1), (one_int 2).
  assert (K : forall z, batched (CCons "x"%string (Prim (DInt 32) [] None false 0%Z) CNil) [] (one_int z)) by (intros z; split; cbn; unfold wfa; cbn; auto).
  split; [apply K|]. split; [apply K|]. split; [apply K|]. split; [intros dt x; unfold within_one; now rewrite Z.sub_diag|]. split; [intros dt x y; unfold within_one; f_equal; lia|]. repeat split.
Qed.
(** with IEEE equality as the test: the same as [==], which raises on a class without arrays
    where allclose is True *)
Theorem C70_allclose_eq : forall c B o q, batched c B o -> batched c B q ->
  (arrays o <> [] -> obj_allclose elt_eqb o q = obj_eq o q) /\ (arrays o = [] -> obj_eq o q = None /\ obj_allclose elt_eqb o q = Some true).
Proof.
  intros c B o q HO HQ. change (leaf_allclose elt_eqb) with leaf_eq. unfold obj_allclose, obj_eq. change (leaf_allclose elt_eqb) with leaf_eq. split.
  - intros HN. pose proof (pair_facts_same c B o q HO HQ) as HF.
    assert (HF' : Forall2 (fun a b => exists r, leaf_eq a b = Some r /\ (r = true <-> close_arrays elt_eqb a b)) (arrays o) (arrays q)) by (revert HF; apply Forall2_impl; intros a b (ES & HP); now apply all_leaf).
    rewrite (proj2 (zip_sequence leaf_eq) c o q (proj1 HO) (proj1 HQ)). destruct (sequence_combine leaf_eq _ _ _ HF') as (rs & -> & EL & _). cbn [option_map].
    assert (rs <> []) by (intros ->; cbn in EL; destruct (arrays o); [congruence|discriminate]). rewrite reduce_and by assumption. now rewrite fold_and.
  - intros HN. rewrite (proj2 (zip_sequence leaf_eq) c o q (proj1 HO) (proj1 HQ)), HN. split; reflexivity.
Qed.

(** ** can_cast *)
Lemma each_leaf_total (f : array -> bool) : (forall v, each_leaf_v (fun a => Some (f a)) v = Some (map f (arrays_v v))) /\ (forall o, each_leaf (fun a => Some (f a)) o = Some (map f (arrays o))).
Proof. apply value_obj_ind; cbn; auto. intros n v -> r ->. now rewrite map_app. Qed.
(** against a dtype: never raises; True exactly when the rule allows every array of the
    instance, so the answer depends on the class alone *)
Theorem C70_can_cast : forall rule o dt, exists r, obj_can_cast rule o (ToDtype dt) = Some r /\
  (r = true <-> Forall (fun a => rule (adtype a) dt = true) (arrays o)).
Proof.
  intros rule o dt. unfold obj_can_cast. rewrite (proj2 (each_leaf_total (fun a => rule (adtype a) dt)) o). cbn [option_map]. eexists. split; [reflexivity|]. rewrite fold_and. induction (arrays o) as [|a l IH]; cbn; [split; auto|].
  rewrite andb_true_iff, IH. split; [intros []; now constructor|]. intros H. inversion H; auto.
Qed.
Theorem C70_can_cast_class : forall rule c B B' o q to, batched c B o -> batched c B' q ->
  obj_can_cast rule o (ToDtype to) = obj_can_cast rule q (ToDtype to).
Proof.
  intros rule c B B' o q dt [HO _] [HQ _]. unfold obj_can_cast. rewrite !(proj2 (each_leaf_total (fun a => rule (adtype a) dt))). do 2 f_equal. pose proof (proj2 conforms_arrays c o q HO HQ) as HF.
  induction HF as [|a b l m (E & _) HF IH]; [reflexivity|]. cbn. rewrite IH, E. reflexivity.
Qed.
(** against an instance of the class with other dtypes: array by array *)
Lemma retype_pairs t : (forall d v w, conforms_v d v -> conforms_v (retype_d t d) w -> forall f, zip_v f v w = sequence (map (fun p => f (fst p) (snd p)) (combine (arrays_v v) (arrays_v w))) /\ Forall2 (fun a b => adtype b = t (adtype a)) (arrays_v v) (arrays_v w)) /\
  (forall c o q, conforms c o -> conforms (retype t c) q -> forall f, zip_obj f o q = sequence (map (fun p => f (fst p) (snd p)) (combine (arrays o) (arrays q))) /\ Forall2 (fun a b => adtype b = t (adtype a)) (arrays o) (arrays q)).
Proof.
  apply desc_class_ind.
  - intros dt ish bits pb fill [a|o] [b|q] H1 H2 f; try contradiction. cbn in *. destruct H1, H2. split; [destruct (f a b); reflexivity|]. constructor; [congruence|constructor].
  - intros c IH ish [a|o] [b|q] H1 H2 f; try contradiction. cbn in *. now apply IH.
  - intros [|] [|] H1 H2 f; try contradiction. split; [reflexivity|constructor].
  - intros n d IHd r IHr [|m v o] [|m' w q] H1 H2 f; try contradiction. cbn in H1, H2. destruct H1 as (<- & C1 & C2), H2 as (<- & D1 & D2). destruct (IHd v w C1 D1 f) as [E1 F1]. destruct (IHr o q C2 D2 f) as [E2 F2]. cbn [zip_obj arrays]. rewrite String.eqb_refl, E1, E2.
    split; [|now apply Forall2_app].
    assert (EC : forall (x y u t : list array), length x = length u -> combine (x ++ y) (u ++ t) = (combine x u ++ combine y t)%list).
    { clear. induction x as [|k x IH]; intros y [|k' u] t E; cbn in *; try discriminate; [reflexivity|]. f_equal. apply IH. lia. }
    rewrite EC by (clear - F1; induction F1; cbn; congruence). rewrite map_app, sequence_app. reflexivity.
Qed.
Theorem C70_can_cast_like : forall rule c t B B' o q, batched c B o -> batched (retype t c) B' q ->
  exists r, obj_can_cast rule o (ToLike q) = Some r /\ (r = true <-> Forall2 (fun a b => rule (adtype a) (adtype b) = true) (arrays o) (arrays q)).
Proof.
  intros rule c t B B' o q [HO _] [HQ _]. destruct (proj2 (retype_pairs t) c o q HO HQ (leaf_can_cast rule)) as [E F]. unfold obj_can_cast. rewrite E.
  destruct (sequence_combine (leaf_can_cast rule) (fun a b => rule (adtype a) (adtype b) = true) (arrays o) (arrays q)) as (rs & -> & _ & HR).
  { revert F. apply Forall2_impl. intros a b _. exists (rule (adtype a) (adtype b)). split; [reflexivity|tauto]. }
  cbn [option_map]. eexists. split; [reflexivity|]. now rewrite fold_and.
Qed.
(** against an instance with other fields: raises, unless there is no array to compare *)
Inductive same_fields_v : value -> value -> Prop :=
| SameArr a b : same_fields_v (VArr a) (VArr b)
| SameObj o q : same_fields o q -> same_fields_v (VObj o) (VObj q)
with same_fields : obj -> obj -> Prop :=
| SameNil : same_fields ONil ONil
| SameCons n v w r s : same_fields_v v w -> same_fields r s -> same_fields (OCons n v r) (OCons n w s).
Lemma zip_fields (f : array -> array -> bool) :
  (forall v w, (exists l, zip_v (fun a b => Some (f a b)) v w = Some l) -> same_fields_v v w) /\
  (forall o q, (exists l, zip_obj (fun a b => Some (f a b)) o q = Some l) -> same_fields o q).
Proof.
  apply value_obj_ind.
  - intros a [b|q] [l E]; [constructor|discriminate].
  - intros o IH [b|q] [l E]; [discriminate|]. constructor. apply IH. now exists l.
  - intros [|m w q] [l E]; [constructor|discriminate].
  - intros n v IHv r IHr [|m w q] [l E]; [discriminate|]. cbn [zip_obj] in E. destruct (String.eqb_spec n m) as [<-|]; [|discriminate].
    destruct (zip_v (fun a b => Some (f a b)) v w) as [x|] eqn:E1; [|discriminate]. destruct (zip_obj (fun a b => Some (f a b)) r q) as [y|] eqn:E2; [|discriminate].
    constructor; [apply IHv; now exists x|apply IHr; now exists y].
Qed.
Lemma each_leaf_none : (forall v, each_leaf_v (fun _ => None) v = None \/ arrays_v v = []) /\ (forall o, each_leaf (fun _ => None) o = None \/ arrays o = []).
Proof.
  apply value_obj_ind; cbn; auto. intros n v [-> |Ev] r Hr; [now left|]. destruct Hr as [-> |Er]; [left; now destruct (each_leaf_v _ v)|]. right. now rewrite Ev, Er.
Qed.
Theorem C70_can_cast_other : forall rule o q, ~ same_fields o q -> arrays o <> [] -> obj_can_cast rule o (ToLike q) = None.
Proof.
  intros rule o q HN HA. unfold obj_can_cast, leaf_can_cast. destruct (zip_obj (fun a b => Some (rule (adtype a) (adtype b))) o q) as [l|] eqn:E.
  - destruct HN. apply (proj2 (zip_fields (fun a b => rule (adtype a) (adtype b)))). now exists l.
  - destruct (proj2 each_leaf_none o) as [-> |E0]; [reflexivity|contradiction].
Qed.
Example C70_other_case : ~ same_fields (OCons "x" (VArr (MkArr DBool [] [1%Z])) ONil) (OCons "y" (VArr (MkArr DBool [] [1%Z])) ONil) /\ arrays (OCons "x" (VArr (MkArr DBool [] [1%Z])) ONil) <> [].
Proof. split; [intros H; inversion H|discriminate]. Qed.
