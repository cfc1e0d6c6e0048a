(** * PropTableConv2.v — property C75, second part: instances of a dataclass in a hash table of a
      dataclass with the same fields and other dtypes. *)
From Coq Require Import String.
From Verif Require Import Jax HashModel HashProofs PropHash StructModel ArrayModel ArrayFacts ShapeModel PropShape RowsModel RowsLift PropRows EqModel FloatEq PropEq PropEqTable RowsModel2 CompareModel PropCompare PropSafeCast PromoteModel FloatRound PropPromote PropRandom PropMixed PropMixed3.
From Verif Require Import TableModel TableSpec TableConv TableConvSim PropTableConv PropTableCases.

(** ** Specification *)
(** What a table of the class [c] sees: [==] with promotion (a comparison that raises counts as
    false), conversion on writing (hashtable/insert.py 42-51, 92-94), the class's default, and the
    bytes of [nw] words *)
Definition mixed_items (x64 : bool) (c : class) (nw : nat) (seed : N) : lenient obj := {|
  le_eq := fun o p => match obj_eq_p x64 o p with Some b => b | None => false end;
  le_conv := fun p => match tree_mapn conv_like [default_obj [] c; p] with Some v => v | None => p end;
  le_default := default_obj [] c;
  le_words := obj_words;
  le_nwords := nw;
  le_hash := fun ws => hash_fast_pair ws seed |}.
(** the dtype has the number [x] (in units of 2^-1074) *)
Definition expressible (t : dtype) (x : Z) : Prop := exists z, in_dtype t z /\ represents t z x.
(** an entry [z] of dtype [e] given for a field declared [d]: its number is a number of [d] and
    of the dtype the two are compared in; or it is an infinity and [d] has infinities *)
Definition kept (x64 : bool) (d e : dtype) (z : Z) : Prop :=
  (exists x, represents e z x /\ expressible d x /\ expressible (result_type x64 [d; e]) x) \/
  (exists neg, infinite e neg z /\ is_float d = true).
(** a single instance of [c'] without NaN and -0.0 whose entries are kept by [c] *)
Definition suits (x64 : bool) (c c' : class) (o : obj) : Prop :=
  storable c' o /\ Forall2 (fun a b => Forall (kept x64 (adtype a) (adtype b)) (adata b)) (arrays (default_obj [] c)) (arrays o).

(** ** Numbers *)
Local Open Scope Z_scope.
Definition means (dt : dtype) (z : Z) (m : Z + bool) : Prop := match m with inl x => represents dt z x | inr neg => infinite dt neg z end.
Lemma means_fun dt z m m' : means dt z m -> means dt z m' -> m = m'.
Proof.
  destruct m as [x|n], m' as [x'|n']; cbn [means]; intros H H'.
  - f_equal. exact (represents_fun dt z x x' H H').
  - exfalso. exact (finite_not_inf dt z x n' H H').
  - exfalso. exact (finite_not_inf dt z x' n H' H).
  - destruct dt; [destruct H..|]. destruct H, H'. congruence.
Qed.
Lemma same_means f g z z' m m' : means f z m -> means g z' m' -> (same_value f g z z' <-> m = m').
Proof.
  intros H H'. split.
  - intros [(x & A & B)|(n & A & B)].
    + rewrite (means_fun f z m (inl x) H A). symmetry. now apply (means_fun g z').
    + rewrite (means_fun f z m (inr n) H A). symmetry. now apply (means_fun g z').
  - intros <-. destruct m as [x|n]; [left; exists x; auto|right; exists n; auto].
Qed.
Definition has (t : dtype) (m : Z + bool) : Prop := match m with inl x => expressible t x | inr _ => is_float t = true end.
Lemma carry f t z m : standard f -> standard t -> in_dtype f z -> means f z m -> has t m -> means t (conv f t z) m.
Proof.
  intros Hf Ht HD HM HH. destruct m as [x|n]; cbn [means has] in *; [now apply C72_exact|]. destruct t as [|w|w|w]; try discriminate. destruct f as [|v|v|v]; [destruct HM..|]. now apply inf_conv.
Qed.
Lemma both_float x64 v w : is_float (result_type x64 [DFloat v; DFloat w]) = true.
Proof. unfold result_type. cbn [map fold_right join]. unfold canon. destruct x64; [reflexivity|]. destruct (_ =? 64)%nat; reflexivity. Qed.
Lemma common_standard x64 d e : available x64 d -> available x64 e -> standard (result_type x64 [d; e]).
Proof. intros Hd He. apply (available_standard x64), C72_available. constructor; [exact Hd|]. constructor; [exact He|constructor]. Qed.
Lemma kept_means x64 d e z : kept x64 d e z -> exists m, means e z m /\ has d m /\ has (result_type x64 [d; e]) m.
Proof.
  intros [(x & H1 & H2 & H3)|(n & H1 & H2)]; [exists (inl x); auto|]. exists (inr n). split; [exact H1|]. split; [exact H2|]. cbn [has]. destruct e as [|v|v|v]; [destruct H1..|]. destruct d as [|w|w|w]; try discriminate. apply both_float.
Qed.
Lemma kept_eq x64 d e z z' : available x64 d -> available x64 e -> in_dtype e z -> in_dtype e z' -> kept x64 d e z -> kept x64 d e z' ->
  let t := result_type x64 [d; e] in (same_value t t (conv d t (conv e d z)) (conv e t z') <-> same_value e e z z').
Proof.
  intros Hd He D1 D2 K1 K2 t. pose proof (common_standard x64 d e Hd He) as St. fold t in St. pose proof (available_standard _ _ Hd) as Sd. pose proof (available_standard _ _ He) as Se.
  destruct (kept_means _ _ _ _ K1) as (m & A1 & A2 & A3). destruct (kept_means _ _ _ _ K2) as (m' & B1 & B2 & B3). fold t in A3, B3.
  rewrite (same_means e e z z' m m' A1 B1). apply same_means; [|now apply carry]. apply carry; auto; [now apply C72_lands|now apply carry].
Qed.
Lemma plain_same e z z' : standard e -> hashable e -> plain e z -> plain e z' -> (same_value e e z z' <-> z = z').
Proof. intros He Hh P1 P2. rewrite <- (eqb_numbers e z z' He (proj1 P1) (proj1 P2)). now apply plain_eq. Qed.
Local Close Scope Z_scope.

(** ** Arrays *)
Lemma kept_arrays x64 d a b : available x64 d -> available x64 (adtype a) -> plain_array a -> plain_array b -> paired a b -> ashape b = ashape a ->
  Forall (kept x64 d (adtype a)) (adata a) -> Forall (kept x64 d (adtype b)) (adata b) ->
  (same_converted x64 (a_conv d a) b <-> a = b).
Proof.
  intros Hd He [Hh Pa] [_ Pb] (ED & Wa & Wb) ES Ka Kb. unfold same_converted. cbn [adtype ashape a_conv]. rewrite <- ED. rewrite <- ED in Kb, Pb. rewrite Forall_forall in Pa, Pb, Ka, Kb.
  assert (K : forall idx, inb idx (ashape a) -> (same_value (result_type x64 [d; adtype a]) (result_type x64 [d; adtype a]) (conv d (result_type x64 [d; adtype a]) (get (a_conv d a) idx)) (conv (adtype a) (result_type x64 [d; adtype a]) (get b idx)) <-> get a idx = get b idx)).
  { intros idx HI. assert (HIb : inb idx (ashape b)) by congruence. rewrite conv_get by assumption.
    pose proof (get_in a idx Wa HI) as Ia. pose proof (get_in b idx Wb HIb) as Ib.
    rewrite <- (plain_same (adtype a)); [|now apply (available_standard x64)|exact Hh|now apply Pa|now apply Pb]. apply kept_eq; auto; [exact (proj1 (Pa _ Ia))|exact (proj1 (Pb _ Ib))]. }
  split.
  - intros H. apply array_ext; auto. intros idx HI. apply K; [exact HI|]. exact (H idx HI).
  - intros <- idx HI. now apply K.
Qed.

(** ** Instances *)
Lemma variant_loose : (forall d d' s v, variant_d d d' -> loose_v s d' v -> loose_v s d v) /\ (forall c c' s o, variant c c' -> loose s c' o -> loose s c o).
Proof.
  apply desc_class_ind.
  - intros dt ish bits pb fill [dt' ish' ? ? ?|] s v H; cbn in H; [|destruct H]. destruct H as (-> & _). destruct v; auto.
  - intros c IH ish [|c' ish'] s v H; cbn in H; [destruct H|]. destruct H as (-> & H). destruct v; [auto|]. cbn. eauto.
  - intros [|] s o H; cbn in H; [auto|destruct H].
  - intros n d IHd r IHr [|m d' r'] s o H; cbn in H; [destruct H|]. destruct H as (-> & H1 & H2). destruct o; [auto|]. cbn. intros (E & K1 & K2). eauto.
Qed.
Lemma batched_loose c s o : batched c s o -> loose s c o.
Proof. intros [H1 H2]. now apply (proj2 loose_batched_both). Qed.
Lemma conv_arrays : (forall d s v w, conforms_v d v -> loose_v s d w -> exists u, tmap_v conv_like v [w] = Some u /\ conforms_v d u /\ has_v s d u /\ arrays_v u = map (fun p => a_conv (adtype (fst p)) (snd p)) (combine (arrays_v v) (arrays_v w)) /\ length (arrays_v w) = length (arrays_v v)) /\
  (forall c s o q, conforms c o -> loose s c q -> exists r, tmap conv_like o [q] = Some r /\ conforms c r /\ has_batch s c r /\ arrays r = map (fun p => a_conv (adtype (fst p)) (snd p)) (combine (arrays o) (arrays q)) /\ length (arrays q) = length (arrays o)).
Proof.
  apply desc_class_ind.
  - intros dt ish bits pb fill s [a|o] [b|q] H1 H3; try contradiction. cbn in H1, H3. destruct H1 as [H1 W1], H3 as [W3 H3]. exists (VArr (a_conv (adtype a) b)). split; [reflexivity|]. split; [split; [exact H1|now apply conv_wfa]|]. split; [exact H3|]. split; reflexivity.
  - intros c IH ish s [a|o] [b|q] H1 H3; try contradiction. destruct (IH _ o q H1 H3) as (r & E1 & E2 & E3 & E4). exists (VObj r). cbn [tmap_v]. cbn [map as_obj sequence option_map]. rewrite E1. split; [reflexivity|]. split; [exact E2|]. split; [exact E3|]. exact E4.
  - intros s [|] [|] H1 H3; try contradiction. exists ONil. split; [reflexivity|]. split; [exact Coq.Init.Logic.I|]. split; [exact Coq.Init.Logic.I|]. split; reflexivity.
  - intros n d IHd r IHr s [|m v o] [|m' w q] H1 H3; try contradiction. cbn [conforms loose] in *. destruct H1 as (<- & A1 & A2), H3 as (<- & A5 & A6). destruct (IHd s v w A1 A5) as (u & U1 & U2 & U3 & U4 & U5). destruct (IHr s o q A2 A6) as (z & Z1 & Z2 & Z3 & Z4 & Z5).
    exists (OCons n u z). cbn [tmap map head_field sequence option_map]. rewrite String.eqb_refl. cbn [map fst snd option_map]. rewrite U1, Z1. split; [reflexivity|]. split; [cbn; auto|]. split; [cbn; auto|]. cbn [arrays]. split; [|rewrite !app_length; congruence]. rewrite U4, Z4, <- map_app. f_equal. symmetry.
    clear - U5. revert U5. generalize (arrays_v v), (arrays_v w). intros x. induction x as [|k x IH]; intros [|k' y] E; cbn in *; try discriminate; [reflexivity|]. f_equal. apply IH. lia.
Qed.
Lemma layout_len c' o q : batched c' [] o -> batched c' [] q -> length (obj_words o) = length (obj_words q).
Proof.
  intros Ho Hq. pose proof (pair_facts_same c' [] o q Ho Hq) as HF. unfold obj_words, uint32ed. induction HF as [|a b l m [ES HP] HF IH]; [reflexivity|]. cbn [map concat]. rewrite !app_length, IH. f_equal. destruct (paired_layout a b HP ES). now apply leaf_words_length.
Qed.

Section Fam.
Context (x64 : bool) (c c' : class) (seed : N).
Hypotheses (HN : c <> CNil) (HS : solid c) (HV : variant c c') (AV : dtypes (available x64) c) (AV' : dtypes (available x64) c').
Notation nw := (length (obj_words (default_obj [] c'))).
Hypothesis HW : 0 < nw.
Notation L := (mixed_items x64 c nw seed).
Notation dflt := (default_obj [] c).
Let DB : batched c [] dflt := proj2 default_both c [].
Lemma dtypes_arrays : (forall d v P, dtypes_d P d -> conforms_v d v -> Forall (fun a => P (adtype a)) (arrays_v v)) /\ (forall k o P, dtypes P k -> conforms k o -> Forall (fun a => P (adtype a)) (arrays o)).
Proof.
  clear. apply desc_class_ind.
  - intros dt ish bits pb fill [a|o] P HD H1; try contradiction. cbn [dtypes_d conforms_v arrays_v] in *. destruct H1 as [E1 _]. constructor; [rewrite E1; exact HD|constructor].
  - intros c IH ish [a|o] P HD H1; try contradiction. exact (IH o P HD H1).
  - intros [|] P HD H1; try contradiction. constructor.
  - intros n d IHd r IHr [|m v o] P HD H1; try contradiction. cbn [conforms dtypes] in *. cbn [arrays]. apply Forall_app. split; [apply IHd; tauto|apply IHr; tauto].
Qed.
Lemma suits_loose o : storable c' o -> loose [] c o.
Proof. intros [H _]. apply (proj2 variant_loose c c'); [exact HV|now apply batched_loose]. Qed.
Lemma conv_loose o : loose [] c o -> exists r, tree_mapn conv_like [dflt; o] = Some r /\ le_conv L o = r /\ batched c [] r /\ arrays r = map (fun p => a_conv (adtype (fst p)) (snd p)) (combine (arrays dflt) (arrays o)) /\ length (arrays o) = length (arrays dflt).
Proof.
  intros H. destruct (proj2 conv_arrays c [] dflt o (proj1 DB) H) as (r & E1 & E2 & E3 & E4 & E5). exists r. cbn [tree_mapn le_conv mixed_items]. rewrite E1. repeat split; auto.
Qed.
Lemma conv_native r : batched c [] r -> le_conv L r = r.
Proof.
  intros H. destruct (conv_loose r (batched_loose c [] r H)) as (r' & _ & -> & H' & EA & _). apply (proj2 arrays_inj c); [apply H'|apply H|]. rewrite EA. pose proof (pair_facts_same c [] dflt r DB H) as HF. clear - HF. induction HF as [|a b l m [_ (ED & _)] HF IH]; [reflexivity|]. cbn [combine map fst snd]. rewrite IH. f_equal. apply conv_same. now symmetry.
Qed.
Lemma storable_words o p : storable c' o -> storable c' p -> (obj_words o = obj_words p <-> o = p).
Proof.
  intros Ho Hp. apply (C42_item_laws c' o p Ho Hp). apply (proj2 solid_arrays c [] o); [split; assumption|]. now apply suits_loose.
Qed.
Lemma suits_eq o p : suits x64 c c' o -> suits x64 c c' p -> (le_eq L (le_conv L o) p = true <-> o = p).
Proof.
  intros [Ho Ko] [Hp Kp]. pose proof (suits_loose o Ho) as Lo. pose proof (suits_loose p Hp) as Lp. destruct (conv_loose o Lo) as (r & _ & -> & Hr & EA & EL). cbn [le_eq mixed_items].
  pose proof (proj2 dtypes_arrays c dflt _ AV (proj1 DB)) as A1. pose proof (proj2 dtypes_arrays c' o _ AV' (proj1 (proj1 Ho))) as A2. pose proof (proj2 dtypes_arrays c' p _ AV' (proj1 (proj1 Hp))) as A3. cbv beta in A1, A2, A3.
  pose proof (storable_pairs c' o p Ho Hp) as HF.
  assert (G1 : legal x64 r).
  { unfold legal. rewrite EA. destruct Ho as [_ Po]. clear - A1 A2 Po Ko. induction Ko as [|a b l m K1 K2 IH]; [constructor|]. cbn [combine map fst snd]. constructor; [|apply IH; [exact (Forall_inv_tail Po)|exact (Forall_inv_tail A1)|exact (Forall_inv_tail A2)]].
    pose proof (Forall_inv A1) as B1. pose proof (Forall_inv A2) as B2. pose proof (Forall_inv Po) as [_ B3]. split; [exact B1|]. cbn [adata adtype a_conv]. rewrite Forall_forall in *. intros z HZ. apply in_map_iff in HZ. destruct HZ as (y & <- & HY). apply C72_lands; [eapply available_standard; exact B2|eapply available_standard; exact B1|apply (B3 y HY)]. }
  assert (G2 : legal x64 p).
  { unfold legal. destruct Hp as [_ Pp]. clear - A3 Pp. induction A3 as [|a l H A3 IH]; constructor; [|apply IH; exact (Forall_inv_tail Pp)]. split; [exact H|]. pose proof (Forall_inv Pp) as [_ Q]. revert Q. apply Forall_impl. intros z [HZ _]. exact HZ. }
  destruct (C73_eq x64 c [] r p HN HS (batched_loose c [] r Hr) Lp G1 G2) as (b & -> & ->). rewrite EA.
  assert (EO : arrays o = arrays p <-> o = p) by (split; [apply (proj2 arrays_inj c'); [apply Ho|apply Hp]|congruence]). rewrite <- EO. clear EO. clear - HF A1 A2 Ko Kp. revert A1 A2 Ko Kp. generalize (arrays dflt) as l. induction HF as [|a b lo lp (Pa & Pb & ES & HP) HF IH]; intros l A1 A2 Ko Kp.
  - inversion Ko; subst. cbn. split; [reflexivity|constructor].
  - inversion Ko as [|k ? l' ? K1 K2]; subst. inversion Kp as [|? ? ? ? M1 M2]; subst. cbn [combine map fst snd].
    specialize (IH l' (Forall_inv_tail A1) (Forall_inv_tail A2) K2 M2). pose proof (kept_arrays x64 (adtype k) a b (Forall_inv A1) (Forall_inv A2) Pa Pb HP ES K1 M1) as KA. split.
    + intros H. inversion H; subst. f_equal; [now apply KA|now apply IH].
    + intros E. assert (E1 : a = b) by congruence. assert (E2 : lo = lp) by congruence. constructor; [now apply KA|now apply IH].
Qed.
(** ** The instances of [c'] whose entries [c] keeps are a family a table of [c] can be given *)
Theorem C75_family : family L (suits x64 c c').
Proof.
  constructor.
  - exact HW.
  - intros o [Ho _]. cbn [le_words le_nwords mixed_items]. apply (layout_len c'); [apply Ho|]. exact (proj2 default_both c' []).
  - intros o [Ho _]. apply (C42_item_laws c' o o Ho Ho). apply (proj2 solid_arrays c [] o); [split; assumption|now apply suits_loose].
  - apply conv_native. exact DB.
  - intros o [Ho _]. destruct (conv_loose o (suits_loose o Ho)) as (r & _ & -> & Hr & _). now apply conv_native.
  - intros o p [Ho _] [Hp _] E. apply (storable_words o p Ho Hp) in E. now subst p.
  - intros o p Ho Hp. rewrite (suits_eq o p Ho Hp). symmetry. apply (storable_words o p (proj1 Ho) (proj1 Hp)).
Qed.
End Fam.

(** ** When the declared dtypes have all numbers of the given ones, every entry is kept *)
Theorem C75_widening : forall x64 d e z, available x64 d -> available x64 e -> keeps_numbers e d -> plain e z -> kept x64 d e z.
Proof.
  intros x64 d e z Hd He HK [HD HP]. pose proof (available_standard _ _ Hd) as Sd. pose proof (available_standard _ _ He) as Se.
  assert (ER : result_type x64 [d; e] = d).
  { destruct (is_float d) eqn:Fd.
    - destruct d as [|w|w|w]; try discriminate. destruct (is_float e) eqn:Fe.
      + destruct e as [|v|v|v]; try discriminate. assert (SC : safe_cast (DFloat v) (DFloat w) = true) by (apply C70_safe_rule; auto; intros; split; discriminate). cbn [safe_cast] in SC. apply Nat.leb_le in SC. unfold result_type. cbn [map fold_right join]. rewrite Nat.max_l by lia. unfold canon. destruct x64; [reflexivity|]. destruct (Nat.eqb_spec w 64) as [-> |]; [|reflexivity]. destruct (proj2 Hd eq_refl) as (_ & _ & K). congruence.
      + assert (EE : fold_right join (Nd DBool) (map Nd [DFloat w; e]) = Nd (DFloat w)) by (destruct e; try discriminate; reflexivity). unfold result_type. rewrite EE. unfold canon. destruct x64; [reflexivity|]. destruct (Nat.eqb_spec w 64) as [-> |]; [|reflexivity]. destruct (proj2 Hd eq_refl) as (_ & _ & K). congruence.
    - pose proof (keeps_safe e d Se Sd Fd HK) as SC.
      assert (EE : fold_right join (Nd DBool) (map Nd [d; e]) = Nd d).
      { destruct d as [|w|w|w], e as [|v|v|v]; try discriminate; try reflexivity; cbn [safe_cast] in SC; cbn [map fold_right join].
        - apply Nat.leb_le in SC. now rewrite Nat.max_l by lia.
        - apply Nat.ltb_lt in SC. cbn [standard] in Sd, Se. destruct (Nat.ltb_spec v 64); [|lia]. f_equal. f_equal. lia.
        - apply Nat.leb_le in SC. now rewrite Nat.max_l by lia. }
      unfold result_type. rewrite EE. unfold canon. destruct x64; [reflexivity|]. destruct (proj2 Hd eq_refl) as (K1 & K2 & K3). destruct d as [|w|w|w]; try reflexivity; destruct (Nat.eqb_spec w 64) as [-> |]; congruence. }
  destruct (entry_cases e z Se HD) as [[x Hx]|[(v & neg & Ev & Hi)|(v & -> & HNaN)]].
  - left. exists x. split; [exact Hx|]. rewrite ER. split; exact (HK z x HD Hx).
  - right. exists neg. split; [exact Hi|]. destruct (is_float d) eqn:Fd; [reflexivity|]. exfalso. subst e. revert HK. now apply float_to_int.
  - exfalso. apply (is_nan_spec v) in HNaN; [|exact Se|exact HD]. destruct HP as [HP _]. congruence.
Qed.

(** ** Items of the declared and of other dtypes in one table *)
(** a single instance, of the declared or other dtypes, without NaN and -0.0: its entries are
    numbers of the declared dtypes (or infinities they have), they can be compared without loss,
    and the converted instance has the same bytes *)
Definition same_bits (x64 : bool) (c : class) (o : obj) : Prop :=
  (exists c', variant c c' /\ dtypes (available x64) c' /\ storable c' o) /\
  Forall2 (fun a b => lossless x64 a b /\
     Forall (fun z => (exists x, represents (adtype b) z x /\ expressible (adtype a) x) \/ (exists neg, infinite (adtype b) neg z /\ is_float (adtype a) = true)) (adata b))
    (arrays (default_obj [] c)) (arrays o) /\
  exists v, tree_mapn conv_like [default_obj [] c; o] = Some v /\ obj_words v = obj_words o.

Local Open Scope Z_scope.
Lemma conv_plain e d z m : standard e -> standard d -> plain e z -> means e z m -> has d m -> plain d (conv e d z).
Proof.
  intros Se Sd [HD HP] HM HH. pose proof (C72_lands e d z Se Sd HD) as HL. split; [exact HL|]. destruct d as [|w|w|w]; auto. pose proof (carry e (DFloat w) z m Se Sd HD HM HH) as HC. cbn [standard] in Sd.
  split.
  - intros E. apply (is_nan_spec w Sd) in E; [|exact HL]. destruct m as [x|n]; cbn [means] in HC; [rewrite (finite_not_nan w _ x Sd HL HC) in E; discriminate|]. rewrite (inf_not_nan w _ n HC) in E. discriminate.
  - intros E. assert (HS : (2 ^ (Z.of_nat w - 1) <=? conv e (DFloat w) z) = true) by (rewrite E; apply Z.leb_refl).
    assert (HM0 : fmag w (conv e (DFloat w) z) = 0) by (rewrite E; unfold fmag; apply Z.mod_same; apply Z.pow_nonzero; [lia|destruct Sd as [-> |[-> | ->]]; lia]).
    assert (Hx0 : m = inl 0).
    { destruct m as [x|n]; cbn [means] in HC.
      - f_equal. apply (represents_float w Sd _ x HL) in HC. destruct HC as [_ HC]. rewrite HC. unfold fnum. rewrite HM0. rewrite Z.mod_0_l, Z.div_0_l by (apply Z.pow_nonzero; [lia|unfold man_bits; destruct Sd as [-> |[-> | ->]]; cbn; lia]). cbn [Z.eqb]. rewrite Z.mul_0_l. destruct (_ <=? _); reflexivity.
      - destruct HC as [HC _]. rewrite HM0 in HC. exfalso. pose proof (inf_form w Sd). pose proof (E1_four w Sd). pose proof (M_pos w Sd). nia. }
    subst m. cbn [means] in HM. assert (K : forall neg k, 0 <= k <= inf_pat w -> (2 ^ (Z.of_nat w - 1) <=? fsign w neg + k) = neg) by (intros; now apply sign_bit).
    unfold conv in HS. unfold dtype_eqb in HS. destruct (dtype_eq_dec e (DFloat w)) as [Ee|NE].
    + subst e. apply (proj2 HP). rewrite <- E. unfold conv. now rewrite dtype_eqb_refl.
    + destruct e as [|v|v|v].
      1-3: cbn [represents] in HM; assert (z = 0) as -> by (assert (0 < 2 ^ 1074) by (apply Z.pow_pos_nonneg; lia); nia); rewrite K in HS; [discriminate|]; apply round_le; [|exact Sd]; apply Z.mul_nonneg_nonneg; [apply Z.abs_nonneg|apply Z.pow_nonneg; lia].
      cbn [standard] in Se. rewrite (finite_not_nan v z 0 Se HD HM) in HS. assert (HI : (fmag v z =? inf_pat v) = false) by (apply Z.eqb_neq; intros EI; apply (finite_not_inf (DFloat v) z 0 (2 ^ (Z.of_nat v - 1) <=? z) HM); split; [exact EI|reflexivity]). rewrite HI in HS.
      rewrite K in HS by (apply round_le; [now apply fnum_nonneg|exact Sd]). apply (proj2 HP). apply (represents_float v Se z 0 HD) in HM. destruct HM as [_ HF]. rewrite HS in HF.
      pose proof (pattern_split v Se z HD) as [PZ K0]. rewrite HS in PZ. assert (fnum v z = 0) by lia. enough (EM : fmag v z = 0) by (rewrite EM in PZ; unfold fsign in PZ; lia).
      rewrite fnum_magval in H. assert (0 < magval v (fmag v z) \/ fmag v z = 0) as [C|C]; [|exfalso; apply Z.mul_eq_0 in H; destruct H as [H|H]; [lia|revert H; apply Z.pow_nonzero; [lia|apply (low_range v Se)]]|exact C]. destruct (Z.eq_dec (fmag v z) 0) as [C|C]; [now right|left]. pose proof (magval_lt v Se 0 (fmag v z) ltac:(lia)). pose proof (magval_nonneg v Se 0 ltac:(lia)). lia.
Qed.
Local Close Scope Z_scope.
Section Fam2.
Context (x64 : bool) (c : class) (seed : N).
Hypotheses (HN : c <> CNil) (HS : solid c) (AV : dtypes (available x64) c).
Notation nw := (length (obj_words (default_obj [] c))).
Hypothesis HW : 0 < nw.
Notation L := (mixed_items x64 c nw seed).
Notation dflt := (default_obj [] c).
Definition fits (a b : array) : Prop := Forall (fun z => exists m, means (adtype b) z m /\ has (adtype a) m) (adata b).
(** what is known about a given item and its conversion, array by array *)
Definition facts (k b r : array) : Prop :=
  available x64 (adtype k) /\ available x64 (adtype b) /\ plain_array b /\ wfa b /\ lossless x64 k b /\ fits k b /\ r = a_conv (adtype k) b /\ plain_array r /\ hashable (adtype k).
Lemma standard_hashable dt : standard dt -> hashable dt.
Proof. destruct dt as [|w|w|w]; cbn; unfold float_width; tauto. Qed.
Lemma fits_plain k b : available x64 (adtype k) -> available x64 (adtype b) -> plain_array b -> fits k b -> plain_array (a_conv (adtype k) b).
Proof.
  intros A1 A2 [_ P] K. split; cbn [adtype a_conv adata]; [apply standard_hashable; now apply (available_standard x64)|]. unfold fits in K. rewrite Forall_forall in *. intros z HZ. apply in_map_iff in HZ. destruct HZ as (y & <- & HY). destruct (K y HY) as (m & M1 & M2). apply (conv_plain _ _ y m); auto; now apply (available_standard x64).
Qed.
Lemma loose_wfa : (forall d s v, loose_v s d v -> Forall wfa (arrays_v v)) /\ (forall c s o, loose s c o -> Forall wfa (arrays o)).
Proof.
  clear. apply desc_class_ind.
  - intros dt ish bits pb fill s [a|o] H; try contradiction. destruct H. repeat constructor. assumption.
  - intros c IH ish s [a|o] H; try contradiction. exact (IH _ o H).
  - intros s [|] H; try contradiction. constructor.
  - intros n d IHd r IHr s [|m v o] H; try contradiction. destruct H as (_ & H1 & H2). cbn [arrays]. apply Forall_app. split; eauto.
Qed.
Lemma bits_facts o : same_bits x64 c o -> exists r, le_conv L o = r /\ loose [] c o /\ storable c r /\ obj_words r = obj_words o /\ legal x64 o /\
  exists ks, ks = arrays dflt /\ length (arrays o) = length ks /\ arrays r = map (fun p => a_conv (adtype (fst p)) (snd p)) (combine ks (arrays o)) /\ Forall2 (fun k b => facts k b (a_conv (adtype k) b)) ks (arrays o).
Proof.
  intros ((c' & HV & AV' & Ho) & HF & v & EV & EW). assert (Lo : loose [] c o) by (apply (proj2 variant_loose c c'); [exact HV|apply batched_loose, Ho]).
  destruct (conv_loose x64 c c seed o Lo) as (r & E1 & E2 & Hr & EA & EL). rewrite EV in E1. injection E1 as ->. exists r.
  pose proof (proj2 dtypes_arrays c dflt _ AV (proj1 (proj2 default_both c []))) as A1. pose proof (proj2 dtypes_arrays c' o _ AV' (proj1 (proj1 Ho))) as A2. cbv beta in A1, A2. pose proof (proj2 loose_wfa c [] o Lo) as WF. destruct Ho as [Bo Po].
  assert (FA : Forall2 (fun k b => facts k b (a_conv (adtype k) b)) (arrays dflt) (arrays o)).
  { clear - HF A1 A2 WF Po. induction HF as [|k b l m [K1 K2] HF IH]; [constructor|]. constructor; [|apply IH; [exact (Forall_inv_tail Po)|exact (Forall_inv_tail A1)|exact (Forall_inv_tail A2)|exact (Forall_inv_tail WF)]].
    assert (FT : fits k b) by (unfold fits; revert K2; apply Forall_impl; intros z [(x & X1 & X2)|(n & X1 & X2)]; [exists (inl x); auto|exists (inr n); auto]).
    pose proof (Forall_inv A1) as B1. pose proof (Forall_inv A2) as B2. pose proof (Forall_inv Po) as B3. repeat (split; [first [assumption|exact (Forall_inv WF)|reflexivity|now apply fits_plain]|]). apply standard_hashable. now apply (available_standard x64). }
  split; [exact E2|]. split; [exact Lo|]. split; [split; [exact Hr|]|]. { rewrite EA. clear - FA. induction FA as [|k b l m (_ & _ & _ & _ & _ & _ & _ & H & _) FA IH]; cbn [combine map fst snd]; constructor; auto. }
  split; [exact EW|]. split.
  { unfold legal. clear - A2 Po. induction Po as [|b l [_ H] Po IH]; [constructor|]; constructor; [|apply IH; exact (Forall_inv_tail A2)]. split; [exact (Forall_inv A2)|]. revert H. apply Forall_impl. intros z [HZ _]. exact HZ. }
  exists (arrays dflt). auto.
Qed.
Lemma conv_nw k : le_conv (mixed_items x64 c k seed) = le_conv L.
Proof. reflexivity. Qed.
Lemma bits_eq o p : same_bits x64 c o -> same_bits x64 c p -> (le_eq L (le_conv L o) p = true <-> le_conv L o = le_conv L p).
Proof.
  intros Ho Hp. destruct (bits_facts o Ho) as (r & -> & Lo & Sr & _ & _ & ks & EK & EL & EA & FA). destruct (bits_facts p Hp) as (s & -> & Lp & Ss & _ & Gp & ks' & EK' & EL' & EA' & FA'). rewrite <- EK in EK'. subst ks'. clear EK. cbn [le_eq mixed_items].
  assert (Gr : legal x64 r).
  { unfold legal. destruct Sr as [Br Pr]. pose proof (proj2 dtypes_arrays c r _ AV (proj1 Br)) as A2. cbv beta in A2. clear - A2 Pr. induction Pr as [|b l [_ H] Pr IH]; [constructor|]; constructor; [|apply IH; exact (Forall_inv_tail A2)]. split; [exact (Forall_inv A2)|]. revert H. apply Forall_impl. intros z [HZ _]. exact HZ. }
  pose proof (storable_pairs c r s Sr Ss) as HPR. pose proof (proj2 loose_arrays c [] r p (batched_loose c [] r (proj1 Sr)) Lp) as HSP.
  assert (HLL : Forall2 (lossless x64) (arrays r) (arrays p)).
  { rewrite EA. clear - FA' EL. revert EL. generalize (arrays o). induction FA' as [|k b l m H FA IH]; intros [|a lo] E; cbn [combine map fst snd]; try discriminate; [constructor|]. constructor; [|apply IH; cbn in E; lia]. destruct H as (_ & _ & _ & _ & H & _). exact H. }
  destruct (C73_eq_numbers x64 c [] r p HN HS (batched_loose c [] r (proj1 Sr)) Lp Gr Gp HLL) as (bb & -> & ->).
  clear bb. assert (EO : arrays r = arrays s <-> r = s) by (split; [apply (proj2 arrays_inj c); [apply Sr|apply Ss]|congruence]). rewrite <- EO. rewrite EA' in HPR. rewrite EA'. clear EO EA' Ss Sr Gr Lo Lp Gp Ho Hp EL' HLL EL.
  assert (ED : Forall2 (fun k a => adtype a = adtype k) ks (arrays r)).
  { rewrite EA. clear - FA. induction FA; cbn [combine map fst snd]; constructor; auto. }
  clear EA FA. revert HPR HSP ED. generalize (arrays r) as lr. induction FA' as [|k b l m H FA IH]; intros lr HPR HSP ED; cbn [combine map fst snd] in *; inversion HSP as [|a ? lr' ? (S1 & W1 & W2) HSP']; subst.
  - split; [reflexivity|constructor].
  - inversion HPR as [|? ? ? ? (P1 & P2 & P3 & P4) HPR']; subst. inversion ED as [|? ? ? ? D1 ED']; subst. specialize (IH lr' HPR' HSP' ED').
    assert (X : same_numbers a b <-> a = a_conv (adtype k) b).
    { destruct H as (A1 & A2 & [_ PB] & _ & _ & FT & _ & _ & HH). unfold fits in FT. rewrite Forall_forall in FT, PB. destruct P1 as [_ Q1], P2 as [_ Q2]. cbn [adtype a_conv adata] in Q2. rewrite D1 in Q1. rewrite Forall_forall in Q1, Q2.
      assert (K : forall idx, inb idx (ashape a) -> (same_value (adtype a) (adtype b) (get a idx) (get b idx) <-> get a idx = get (a_conv (adtype k) b) idx)).
      { intros idx HI. assert (HIb : inb idx (ashape b)) by congruence. pose proof (get_in b idx W2 HIb) as Ib. pose proof (get_in a idx W1 HI) as Ia. destruct (FT _ Ib) as (m0 & M1 & M2). pose proof (available_standard _ _ A1) as S1'. pose proof (available_standard _ _ A2) as S2'.
        rewrite D1, conv_get by assumption. assert (IC : In (conv (adtype b) (adtype k) (get b idx)) (map (conv (adtype b) (adtype k)) (adata b))) by (now apply in_map).
        rewrite <- (plain_same (adtype k)); [|exact S1'|exact HH|now apply Q1|now apply Q2]. pose proof (carry (adtype b) (adtype k) (get b idx) m0 S2' S1' (proj1 (PB _ Ib)) M1 M2) as M3.
        destruct (entry_cases (adtype k) (get a idx) S1' (proj1 (Q1 _ Ia))) as [[x Hx]|[(v & neg & Ev & Hi)|(v & Ev & HNaN)]].
        - rewrite (same_means _ _ _ _ (inl x) m0 Hx M1), (same_means _ _ _ _ (inl x) m0 Hx M3). reflexivity.
        - rewrite (same_means _ _ _ _ (inr neg) m0 Hi M1), (same_means _ _ _ _ (inr neg) m0 Hi M3). reflexivity.
        - exfalso. destruct (Q1 _ Ia) as [HD HP]. rewrite Ev in HD, HP, S1'. apply (is_nan_spec v) in HNaN; [|exact S1'|exact HD]. destruct HP as [HP _]. congruence. }
      split.
      - intros E. apply array_ext; try first [exact D1|exact S1|exact W1|now apply conv_wfa]. intros idx HI. apply K; [exact HI|]. exact (E idx HI).
      - intros E idx HI. apply K; [exact HI|]. now rewrite <- E. }
    split; [intros E; inversion E; subst; f_equal; [now apply X|now apply IH]|]. intros E. assert (E1 : a = a_conv (adtype k) b) by congruence. constructor; [now apply X|]. apply IH. congruence.
Qed.
(** ** ... and those are a family too: the table identifies an item of the declared dtypes and one
    of other dtypes exactly when they have the same bytes, i.e. the same numbers *)
Theorem C75_family_mixed : family L (same_bits x64 c).
Proof.
  assert (WD : forall o p r s, storable c r -> storable c s -> obj_words r = obj_words o -> obj_words s = obj_words p -> (r = s <-> obj_words o = obj_words p)).
  { intros o p r s Sr Ss E1 E2. rewrite <- E1, <- E2. symmetry. apply (C42_item_laws c r s Sr Ss). apply (proj2 solid_arrays c [] r (conj HN HS)). apply batched_loose, Sr. }
  constructor.
  - exact HW.
  - intros o Ho. destruct (bits_facts o Ho) as (r & _ & _ & Sr & EW & _). cbn [le_words le_nwords mixed_items]. rewrite <- EW. apply (layout_len c); [apply Sr|exact (proj2 default_both c [])].
  - intros o Ho. destruct (bits_facts o Ho) as (r & _ & _ & Sr & EW & _). cbn [le_words mixed_items]. rewrite <- EW. apply (C42_item_laws c r r Sr Sr). apply (proj2 solid_arrays c [] r (conj HN HS)). apply batched_loose, Sr.
  - apply (conv_native x64 c c seed). exact (proj2 default_both c []).
  - intros o Ho. destruct (bits_facts o Ho) as (r & -> & _ & Sr & _). apply (conv_native x64 c c seed). apply Sr.
  - intros o p Ho Hp. destruct (bits_facts o Ho) as (r & -> & _ & Sr & EW & _). destruct (bits_facts p Hp) as (s & -> & _ & Ss & EW' & _). intros E. now apply (WD o p r s Sr Ss EW EW').
  - intros o p Ho Hp. rewrite (bits_eq o p Ho Hp). destruct (bits_facts o Ho) as (r & -> & _ & Sr & EW & _). destruct (bits_facts p Hp) as (s & -> & _ & Ss & EW' & _). exact (WD o p r s Sr Ss EW EW').
Qed.
End Fam2.

(** ** Outside the families *)
Definition u8 : class := CCons "x"%string (Prim (DUInt 8) [] None false 255%Z) CNil.
Notation M8 := (mixed_items false u8 1 42).
(** A table of uint8 given the float32 5.0: it is stored as the uint8 5, found by the float32 5.0,
    and not by the uint8 5, which [==] it; inserting the uint8 5 stores it a second time. *)
Theorem C75_other_bytes_refuted : exists t1 i t2 j,
  LInsert M8 (LBuild M8 4 2 2 None) (num (DFloat 32) 0x40A00000) = Some (t1, true, i) /\ LGetItem M8 t1 i = num (DUInt 8) 5 /\
  LLookup M8 t1 (num (DFloat 32) 0x40A00000) = Some (i, true) /\ obj_eq_p false (num (DUInt 8) 5) (num (DFloat 32) 0x40A00000) = Some true /\
  option_map snd (LLookup M8 t1 (num (DUInt 8) 5)) = Some false /\
  LInsert M8 t1 (num (DUInt 8) 5) = Some (t2, true, j) /\ LGetItem M8 t2 i = num (DUInt 8) 5 /\ LGetItem M8 t2 j = num (DUInt 8) 5 /\ i <> j.
Proof. do 4 eexists. split; [vm_compute; reflexivity|]. repeat (split; [vm_compute; reflexivity|]). vm_compute. discriminate. Qed.
(** A table of uint8 given the int8 -1: it is stored as 255; the item just inserted is not found,
    and is inserted again and again. *)
Theorem C75_lost_number_refuted : exists t1 i t2 j,
  LInsert M8 (LBuild M8 4 2 2 None) (num (DInt 8) (-1)) = Some (t1, true, i) /\ LGetItem M8 t1 i = num (DUInt 8) 255 /\
  option_map snd (LLookup M8 t1 (num (DInt 8) (-1))) = Some false /\
  LInsert M8 t1 (num (DInt 8) (-1)) = Some (t2, true, j) /\ i <> j /\ size t2 = 2%N.
Proof. do 4 eexists. split; [vm_compute; reflexivity|]. do 3 (split; [vm_compute; reflexivity|]). split; [vm_compute; discriminate|vm_compute; reflexivity]. Qed.

(** ** A concrete case: positions declared int32 and a cost declared float32, given int8 and float16 *)
Definition wide : class := CCons "pos"%string (Prim (DInt 32) [2] None false (-1)%Z) (CCons "cost"%string (Prim (DFloat 32) [] None false 0x7F800000%Z) CNil).
Definition narrow_class : class := CCons "pos"%string (Prim (DInt 8) [2] None false (-1)%Z) (CCons "cost"%string (Prim (DFloat 16) [] None false 0x7F800000%Z) CNil).
Definition narrow_item (x y cost : Z) : obj := OCons "pos"%string (VArr (MkArr (DInt 8) [2] [x; y])) (OCons "cost"%string (VArr (MkArr (DFloat 16) [] [cost])) ONil).
Definition wide_item (x y cost : Z) : obj := OCons "pos"%string (VArr (MkArr (DInt 32) [2] [x; y])) (OCons "cost"%string (VArr (MkArr (DFloat 32) [] [cost])) ONil).
Lemma narrow_suits x y cost : good [] narrow_class (narrow_item x y cost) = true -> suits false wide narrow_class (narrow_item x y cost).
Proof.
  intros H. apply good_storable in H. split; [exact H|]. destruct H as [_ P]. pose proof (Forall_inv P) as [_ P1]. pose proof (Forall_inv (Forall_inv_tail P)) as [_ P2]. cbn [adata adtype] in P1, P2.
  assert (AI : forall w, w = 8 \/ w = 32 -> available false (DInt w)) by (intros w [-> | ->]; (split; [cbn; tauto|intros _; repeat split; discriminate])).
  assert (AF : forall w, w = 16 \/ w = 32 -> available false (DFloat w)) by (intros w [-> | ->]; (split; [cbn; unfold float_width; tauto|intros _; repeat split; discriminate])).
  constructor; [|constructor; [|constructor]]; cbn [adata adtype].
  - revert P1. apply Forall_impl. intros z HZ. change (kept false (DInt 32) (DInt 8) z). apply C75_widening; [apply AI; auto|apply AI; auto| |exact HZ]. apply C70_safe_rule; [cbn; tauto|cbn; tauto|discriminate|reflexivity].
  - revert P2. apply Forall_impl. intros z HZ. change (kept false (DFloat 32) (DFloat 16) z). apply C75_widening; [apply AF; auto|apply AF; auto| |exact HZ]. apply C70_safe_rule; [cbn; unfold float_width; tauto|cbn; unfold float_width; tauto|discriminate|reflexivity].
Qed.
Notation MW := (mixed_items false wide 2 0).
(** the hypotheses of [C75_family] hold, the items (3, -4, 1.5) and (7, 7, +inf) suit, and a
    history with them exists *)
Example C75_case : wide <> CNil /\ solid wide /\ variant wide narrow_class /\ dtypes (available false) wide /\ dtypes (available false) narrow_class /\
  length (obj_words (default_obj [] narrow_class)) = 2 /\ family MW (suits false wide narrow_class) /\
  suits false wide narrow_class (narrow_item 3 (-4) 0x3E00) /\ suits false wide narrow_class (narrow_item 7 7 0x7C00) /\
  exists es t i, lhistory MW DEF es t /\ Forall (suits false wide narrow_class) (inputs es) /\ length es = 2 /\ TableConv.reported MW es (narrow_item 3 (-4) 0x3E00) i /\
    LGetItem MW t i = wide_item 3 (-4) 0x3FC00000.
Proof.
  assert (H1 : wide <> CNil) by discriminate. assert (H2 : solid wide) by (cbn; tauto). assert (H3 : variant wide narrow_class) by (cbn; tauto).
  assert (H4 : dtypes (available false) wide) by (cbn; unfold available; cbn; unfold float_width; repeat split; first [tauto|discriminate]).
  assert (H5 : dtypes (available false) narrow_class) by (cbn; unfold available; cbn; unfold float_width; repeat split; first [tauto|discriminate]).
  assert (H6 : length (obj_words (default_obj [] narrow_class)) = 2) by (vm_compute; reflexivity).
  assert (H7 : family MW (suits false wide narrow_class)) by (rewrite <- H6; apply C75_family; auto; rewrite H6; lia).
  assert (S1 : suits false wide narrow_class (narrow_item 3 (-4) 0x3E00)) by (apply narrow_suits; vm_compute; reflexivity).
  assert (S2 : suits false wide narrow_class (narrow_item 7 7 0x7C00)) by (apply narrow_suits; vm_compute; reflexivity).
  do 9 (split; [assumption|]).
  destruct (LInsert MW (LBuild MW 4 2 2 None) (narrow_item 3 (-4) 0x3E00)) as [[[t1 ok] i]|] eqn:E1; [|exfalso; vm_compute in E1; discriminate].
  assert (ok = true) as -> by (assert (K : option_map (fun r => snd (fst r)) (LInsert MW (LBuild MW 4 2 2 None) (narrow_item 3 (-4) 0x3E00)) = Some true) by (vm_compute; reflexivity); rewrite E1 in K; cbn [option_map fst snd] in K; congruence).
  assert (HH : lhistory MW DEF [EInsert (narrow_item 3 (-4) 0x3E00) true i] t1).
  { exists 4, 2, 2, None. split; [unfold lconfig_ok; cbn; repeat split; lia|]. econstructor; [constructor; exact E1|constructor]. }
  destruct (C75_insert MW _ H7 DEF _ t1 (narrow_item 7 7 0x7C00) HH ltac:(constructor; [exact S1|constructor]) S2) as (t2 & ok2 & i2 & E2 & _).
  exists [EInsert (narrow_item 3 (-4) 0x3E00) true i; EInsert (narrow_item 7 7 0x7C00) ok2 i2], t2, i.
  assert (HH2 : lhistory MW DEF [EInsert (narrow_item 3 (-4) 0x3E00) true i; EInsert (narrow_item 7 7 0x7C00) ok2 i2] t2).
  { exists 4, 2, 2, None. split; [unfold lconfig_ok; cbn; repeat split; lia|]. econstructor; [constructor; exact E1|]. econstructor; [constructor; exact E2|constructor]. }
  assert (HR : TableConv.reported MW [EInsert (narrow_item 3 (-4) 0x3E00) true i; EInsert (narrow_item 7 7 0x7C00) ok2 i2] (narrow_item 3 (-4) 0x3E00) i) by (eexists; split; [now left|]; repeat split).
  assert (HI : Forall (suits false wide narrow_class) (inputs [EInsert (narrow_item 3 (-4) 0x3E00) true i; EInsert (narrow_item 7 7 0x7C00) ok2 i2])) by (constructor; [exact S1|constructor; [exact S2|constructor]]).
  split; [exact HH2|]. split; [exact HI|]. split; [reflexivity|]. split; [exact HR|]. rewrite (proj2 (C75_found MW _ H7 DEF _ t2 _ i HH2 HI S1 HR)). vm_compute. reflexivity.
Qed.
(** a table of uint8 given the uint8 5 and the int32 5: one item *)
Example C75_mixed_case : same_bits false u8 (num (DUInt 8) 5) /\ same_bits false u8 (num (DInt 32) 5) /\ same_bytes M8 (num (DUInt 8) 5) (num (DInt 32) 5) /\
  family M8 (same_bits false u8) /\ u8 <> CNil.
Proof.
  assert (A : forall e, e = DUInt 8 \/ e = DInt 32 -> available false e) by (intros e [-> | ->]; (split; [cbn; tauto|intros _; repeat split; discriminate])).
  assert (K : forall e, e = DUInt 8 \/ e = DInt 32 -> same_bits false u8 (num e 5)).
  { intros e He. split; [|split].
    - exists (CCons "x"%string (Prim e [] None false 255%Z) CNil). split; [cbn; tauto|]. split; [split; [now apply A|exact Coq.Init.Logic.I]|]. apply good_storable. destruct He as [-> | ->]; vm_compute; reflexivity.
    - constructor; [|constructor]. cbn [adata adtype]. split.
      + assert (SU : forall f t, (f = DUInt 8 \/ f = DInt 32) -> (t = DUInt 8 \/ t = DInt 32) -> safe_cast f t = true -> keeps_numbers f t).
        { intros f t Hf Ht HC. apply C70_safe_rule; [eapply available_standard; now apply A|eapply available_standard; now apply A| |exact HC]. intros ->. destruct Ht; discriminate. }
        unfold lossless. cbn [adtype]. destruct He as [-> | ->]; split; apply SU; auto; vm_compute; auto.
      + constructor; [|constructor]. left. exists (5 * 2 ^ 1074)%Z. split; [destruct He as [-> | ->]; reflexivity|]. exists 5%Z. split; [cbn; lia|reflexivity].
    - destruct He as [-> | ->]; eexists; (split; [reflexivity|vm_compute; reflexivity]). }
  split; [apply K; auto|]. split; [apply K; auto|]. split; [vm_compute; reflexivity|]. split; [|discriminate].
  assert (EW : length (obj_words (default_obj [] u8)) = 1) by (vm_compute; reflexivity). rewrite <- EW at 1. apply C75_family_mixed; [discriminate|cbn; tauto|split; [apply A; auto|exact Coq.Init.Logic.I]|rewrite EW; lia].
Qed.
Print Assumptions C75_lookup. Print Assumptions C75_found. Print Assumptions C75_contents. Print Assumptions C75_insert. Print Assumptions C75_batch. Print Assumptions C75_batch_total. Print Assumptions C75_batch_complete. Print Assumptions C75_lookup_parallel. Print Assumptions C75_family. Print Assumptions C75_widening. Print Assumptions C75_family_mixed. Print Assumptions C75_other_bytes_refuted. Print Assumptions C75_lost_number_refuted.
