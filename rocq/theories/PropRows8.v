(** * PropRows8.v — property C54: xnp.pad with its modes and forms of pad_width. *)
From Coq Require Import String.
From Verif Require Import Jax StructModel ArrayModel ArrayFacts ShapeModel PropShape RowsModel RowsLift PropRows PropRows2 PropRows3 PropRows4 EqModel FloatEq PropEq RowsModel2 PropRows5 PropRows6.

Lemma combine_app_eq {X Y} (a b : list X) (c d : list Y) : length a = length c -> combine (a ++ b) (c ++ d) = (combine a c ++ combine b d)%list.
Proof. revert c. induction a as [|x a IH]; intros [|y c] E; cbn in *; try discriminate; [reflexivity|]. f_equal. apply IH. lia. Qed.
Definition zeros (n : nat) : list (nat * nat) := repeat (0, 0) n.
Lemma pad_tail_shape J : map (fun q : nat * (nat * nat) => fst q + (fst (snd q) + snd (snd q))) (combine J (zeros (length J))) = J.
Proof. induction J as [|d J IH]; [reflexivity|]. unfold zeros in *. cbn [length repeat combine map fst snd]. rewrite IH. f_equal. lia. Qed.
Lemma pad_full_shape B J pads : length pads = length B ->
  map (fun q : nat * (nat * nat) => fst q + (fst (snd q) + snd (snd q))) (combine (B ++ J) (pads ++ zeros (length J))) = pad_shape B pads ++ J.
Proof.
  intros HL. rewrite combine_app_eq by lia. rewrite map_app, pad_tail_shape. f_equal. unfold pad_shape. apply map_ext. intros [d [x y]]. cbn. lia.
Qed.
Lemma leaf_pad_full m pads a B J : ashape a = B ++ J -> length pads = length B ->
  leaf_pad m pads a = match m with PadConstant fl => a_pad (pads ++ zeros (length J)) (fl (adtype a)) a | PadCopy g => a_pad_copy g (pads ++ zeros (length J)) a end.
Proof.
  intros HS HL. unfold leaf_pad. unfold ndim. rewrite HS, app_length, HL. destruct (Nat.ltb_spec (length B + length J) (length B)); [lia|]. replace (length B + length J - length B) with (length J) by lia. reflexivity.
Qed.
(** ** constant_values *)
Lemma tail_inside (J t : list nat) : inb t J -> forallb (fun q : nat * nat * (nat * nat) => (fst (snd q) <=? fst (fst q)) && (fst (fst q) <? fst (snd q) + snd (fst q))) (combine (combine t J) (zeros (length J))) = true.
Proof.
  induction 1 as [|i d t J Hi Ht IH]; [reflexivity|]. unfold zeros in *. cbn [length repeat combine forallb fst snd]. rewrite IH, andb_true_r. destruct (Nat.ltb_spec i (0 + d)); [reflexivity|lia].
Qed.
Lemma tail_minus (J t : list nat) : length t = length J -> map (fun q : nat * (nat * nat) => fst q - fst (snd q)) (combine t (zeros (length J))) = t.
Proof. revert J. induction t as [|i t IH]; intros [|d J] E; cbn in *; try discriminate; [reflexivity|]. f_equal; [lia|]. apply IH. lia. Qed.
Lemma head_inside (B : list nat) pads (b : list nat) : length pads = length B -> length b = length B ->
  forallb (fun q : nat * nat * (nat * nat) => (fst (snd q) <=? fst (fst q)) && (fst (fst q) <? fst (snd q) + snd (fst q))) (combine (combine b B) pads) = in_box (pad_box B pads) b.
Proof.
  revert pads b. induction B as [|d B IH]; intros [|p pads] [|i b] E1 E2; cbn in E1, E2; try discriminate; [reflexivity|]. unfold in_box, pad_box in *. cbn [combine map forallb fst snd]. now rewrite IH by lia.
Qed.
Definition unshift (pads : list (nat * nat)) (b : list nat) : list nat := map (fun q => fst q - fst (snd q)) (combine b pads).
Lemma unshift_shifted pads s : length pads = length s -> unshift pads (shifted pads s) = s.
Proof. revert s. induction pads as [|p pads IH]; intros [|i s] E; cbn in E; try discriminate; [reflexivity|]. unfold unshift, shifted in *. cbn [combine map fst snd]. rewrite IH by lia. f_equal. lia. Qed.
Lemma rowwise_pad_const fl B pads : length pads = length B ->
  rowwise1 (leaf_pad (PadConstant fl) pads) B (pad_shape B pads) (fun b => if in_box (pad_box B pads) b then Some (unshift pads b) else None) fl.
Proof.
  intros HL. assert (LS : length (pad_shape B pads) = length B) by (unfold pad_shape; rewrite map_length, combine_length; lia).
  apply (rowwise1_build _ _ _ _ _ (fun a idx => if forallb (fun q : nat * nat * (nat * nat) => (fst (snd q) <=? fst (fst q)) && (fst (fst q) <? fst (snd q) + snd (fst q))) (combine (combine idx (ashape a)) (pads ++ zeros (ndim a - length B)))
                        then get a (map (fun q => fst q - fst (snd q)) (combine idx (pads ++ zeros (ndim a - length B)))) else fl (adtype a))).
  - intros b Hb. destruct (in_box (pad_box B pads) b) eqn:E; [|exact Logic.I]. destruct (in_pad_box B pads b HL Hb E) as (s & Hs & ->). rewrite unshift_shifted by (rewrite HL; symmetry; now apply inb_length). exact Hs.
  - intros a J HS HW. rewrite (leaf_pad_full _ pads a B J HS HL). unfold a_pad. assert (EN : ndim a = length B + length J) by (unfold ndim; now rewrite HS, app_length).
    assert (EZ : length (pads ++ zeros (length J)) = ndim a) by (unfold zeros; rewrite app_length, repeat_length; lia). rewrite EZ, Nat.eqb_refl. rewrite HS, pad_full_shape by exact HL. replace (ndim a - length B) with (length J) by lia. reflexivity.
  - intros a J b t HS HW Hb Ht. assert (LB : length b = length B) by (rewrite (inb_length _ _ Hb); exact LS). assert (EN : ndim a - length B = length J) by (unfold ndim; rewrite HS, app_length; lia). rewrite EN, HS.
    rewrite (combine_app_eq b t B J LB). rewrite combine_app_eq by (rewrite combine_length; lia). rewrite forallb_app, tail_inside, andb_true_r by exact Ht. rewrite head_inside by assumption.
    destruct (in_box (pad_box B pads) b); [|reflexivity]. rewrite combine_app_eq by lia. rewrite map_app, tail_minus by (now apply inb_length). reflexivity.
Qed.
Lemma pads_zero (pads : list (nat * nat)) : forallb (fun p => (fst p =? 0) && (snd p =? 0)) pads = true -> pads = zeros (length pads).
Proof.
  induction pads as [|[x y] pads IH]; cbn; [reflexivity|]. rewrite !andb_true_iff. intros [[E1 E2] E3]. apply Nat.eqb_eq in E1, E2. cbn in E1, E2. subst. unfold zeros in *. cbn. f_equal. now apply IH.
Qed.
Lemma shifted_zero s : shifted (zeros (length s)) s = s.
Proof. induction s as [|i s IH]; [reflexivity|]. unfold shifted, zeros in *. cbn [length repeat combine map fst snd]. rewrite IH. f_equal. lia. Qed.
Lemma pad_shape_zero s : pad_shape s (zeros (length s)) = s.
Proof. induction s as [|i s IH]; [reflexivity|]. unfold pad_shape, zeros in *. cbn [length repeat combine map fst snd]. rewrite IH. f_equal. lia. Qed.
(** [pad(..., constant_values=v)]: the old elements, shifted, among elements filled with [v] *)
Theorem C54_pad_constant : forall c B o pads fl, c <> CNil -> solid c -> batched c B o -> B <> [] -> length pads = length B ->
  exists o', obj_pad_mode c (PadConstant fl) pads o = Some o' /\ batched c (pad_shape B pads) o' /\
    (forall s, inb s B -> elem (shifted pads s) o' = elem s o) /\
    (forall b, inb b (pad_shape B pads) -> (forall s, inb s B -> b <> shifted pads s) -> elem b o' = const_obj fl [] c).
Proof.
  intros c B o pads fl HN HS [HC HH] HB HL. unfold obj_pad_mode. rewrite (proj2 (C40_reports c o B HN HS HC) HH). destruct (forallb _ pads) eqn:E0.
  - rewrite (pads_zero _ E0), HL, pad_shape_zero. exists o. split; [reflexivity|]. split; [split; assumption|]. split.
    + intros s Hs. rewrite <- (inb_length _ _ Hs). now rewrite shifted_zero.
    + intros b Hb K. exfalso. apply (K b Hb). rewrite <- (inb_length _ _ Hb). now rewrite shifted_zero.
  - destruct B as [|d B]; [congruence|]. destruct (lift_one _ _ _ _ _ c o (rowwise_pad_const fl (d :: B) pads HL) HC HH) as (o' & E1 & E2 & E3 & E4). exists o'. split; [exact E1|]. split; [split; assumption|]. split.
    + intros s Hs. destruct (shifted_in (d :: B) pads s HL Hs) as (G1 & G2 & _). rewrite E4 by exact G1. rewrite G2, unshift_shifted by (rewrite HL; symmetry; now apply inb_length). reflexivity.
    + intros b Hb K. rewrite E4 by exact Hb. destruct (in_box (pad_box (d :: B) pads) b) eqn:E; [|reflexivity]. exfalso. destruct (in_pad_box _ _ _ HL Hb E) as (s & Hs & ->). now apply (K s Hs).
Qed.
Theorem C54_pad_constant_one : forall c o x y fl, c <> CNil -> solid c -> batched c [] o -> x + y <> 0 ->
  exists o', obj_pad_mode c (PadConstant fl) [(x, y)] o = Some o' /\ batched c [1 + x + y] o' /\
    forall i, i < 1 + x + y -> elem [i] o' = if i =? x then o else const_obj fl [] c.
Proof.
  intros c o x y fl HN HS HO HXY. unfold obj_pad_mode. rewrite (proj2 (C40_reports c o [] HN HS (proj1 HO)) (proj2 HO)). cbn [forallb fst snd].
  replace ((x =? 0) && (y =? 0) && true) with false by (destruct (Nat.eqb_spec x 0), (Nat.eqb_spec y 0); cbn; try reflexivity; lia).
  destruct (C41_expand_dims c [] o 0 HO (Nat.le_refl _)) as (o1 & F1 & [F2 F3] & F4). cbn in F1. rewrite F1. cbn [obind].
  destruct (lift_one _ _ _ _ _ c o1 (rowwise_pad_const fl [1] [(x, y)] eq_refl) F2 F3) as (o' & E1 & E2 & E3 & E4). exists o'. split; [exact E1|]. split; [split; assumption|].
  intros i Hi. assert (Hb : inb [i] (pad_shape [1] [(x, y)])) by (constructor; [cbn; lia|constructor]). rewrite (E4 [i] Hb). unfold in_box, pad_box. cbn [combine map forallb fst snd unshift]. rewrite andb_true_r.
  destruct (Nat.eqb_spec i x) as [->|Hne].
  - rewrite Nat.leb_refl. replace (x <? x + 1) with true by (symmetry; apply Nat.ltb_lt; lia). cbn [andb]. rewrite Nat.sub_diag. exact (eq_trans (F4 [] inb_nil) (proj2 elem_nil_both o c (proj1 HO))).
  - destruct (Nat.leb_spec x i), (Nat.ltb_spec i (x + 1)); try lia; reflexivity.
Qed.

(** ** the modes that copy elements *)
(** along each padded axis, position [i] of the result shows position [g size before i] *)
Definition pad_from (g : nat -> nat -> nat -> nat) (B : list nat) (pads : list (nat * nat)) (b : list nat) : list nat :=
  map (fun q => if (fst (snd (snd q)) =? 0) && (snd (snd (snd q)) =? 0) then fst q else g (fst (snd q)) (fst (snd (snd q))) (fst q)) (combine b (combine B pads)).
Definition stays_inside (g : nat -> nat -> nat -> nat) : Prop := forall n before i, 0 < n -> g n before i < n.
Definition can_pad (B : list nat) (pads : list (nat * nat)) : Prop := Forall2 (fun d p => 0 < d \/ p = (0, 0)) B pads.
Lemma pad_from_inb g B pads b : stays_inside g -> can_pad B pads -> inb b (pad_shape B pads) -> inb (pad_from g B pads b) B.
Proof.
  intros HG HP. revert b. induction HP as [|d [x y] B pads Hd HP IH]; intros b Hb.
  - inversion Hb; subst. constructor.
  - unfold pad_shape in Hb. cbn [combine map fst snd] in Hb. inversion Hb as [|i e b' B' Hi Hb']; subst. unfold pad_from. cbn [combine map fst snd]. constructor; [|apply IH; exact Hb'].
    destruct (Nat.eqb_spec x 0), (Nat.eqb_spec y 0); cbn [andb]; try (apply HG; destruct Hd as [Hd|Hd]; [exact Hd|injection Hd; intros; subst; congruence]). subst. lia.
Qed.
Lemma tail_from g (J t : list nat) : length t = length J -> map (fun q : nat * (nat * (nat * nat)) => if (fst (snd (snd q)) =? 0) && (snd (snd (snd q)) =? 0) then fst q else g (fst (snd q)) (fst (snd (snd q))) (fst q)) (combine t (combine J (zeros (length J)))) = t.
Proof. revert J. induction t as [|i t IH]; intros [|d J] E; cbn in *; try discriminate; [reflexivity|]. f_equal. apply IH. lia. Qed.
Lemma rowwise_pad_copy g B pads : stays_inside g -> can_pad B pads -> rowwise1 (leaf_pad (PadCopy g) pads) B (pad_shape B pads) (fun b => Some (pad_from g B pads b)) nofill.
Proof.
  intros HG HP. assert (HL : length pads = length B) by (symmetry; exact (Forall2_len _ _ _ HP)). assert (LS : length (pad_shape B pads) = length B) by (unfold pad_shape; rewrite map_length, combine_length; lia).
  apply (rowwise1_build _ _ _ _ _ (fun a idx => get a (map (fun q => if (fst (snd (snd q)) =? 0) && (snd (snd (snd q)) =? 0) then fst q else g (fst (snd q)) (fst (snd (snd q))) (fst q)) (combine idx (combine (ashape a) (pads ++ zeros (ndim a - length B))))))).
  - intros b Hb. now apply pad_from_inb.
  - intros a J HS HW. rewrite (leaf_pad_full _ pads a B J HS HL). unfold a_pad_copy. assert (EN : ndim a = length B + length J) by (unfold ndim; now rewrite HS, app_length).
    assert (EZ : length (pads ++ zeros (length J)) = ndim a) by (unfold zeros; rewrite app_length, repeat_length; lia). rewrite EZ, Nat.eqb_refl. cbn [negb].
    assert (EX : existsb (fun q : nat * (nat * nat) => (fst q =? 0) && negb ((fst (snd q) =? 0) && (snd (snd q) =? 0))) (combine (ashape a) (pads ++ zeros (length J))) = false).
    { rewrite HS, combine_app_eq by lia. rewrite existsb_app. apply orb_false_iff. split.
      - clear - HP. induction HP as [|d [x y] B pads Hd HP IH]; [reflexivity|]. cbn [combine existsb fst snd]. rewrite IH, orb_false_r. destruct Hd as [Hd|Hd]; [destruct d; [lia|reflexivity]|]. injection Hd as -> ->. now rewrite andb_false_r.
      - clear. unfold zeros. induction J as [|d J IH]; [reflexivity|]. cbn [length repeat combine existsb fst snd]. rewrite IH. cbn. now rewrite andb_false_r. }
    rewrite EX. rewrite HS, pad_full_shape by exact HL. replace (ndim a - length B) with (length J) by lia. reflexivity.
  - intros a J b t HS HW Hb Ht. assert (LB : length b = length B) by (rewrite (inb_length _ _ Hb); exact LS). assert (EN : ndim a - length B = length J) by (unfold ndim; rewrite HS, app_length; lia). rewrite EN, HS.
    rewrite (combine_app_eq B J pads) by lia. rewrite combine_app_eq by (rewrite combine_length; lia). rewrite map_app, tail_from by (now apply inb_length). reflexivity.
Qed.
Theorem C54_pad_copy : forall g c B o pads, stays_inside g -> c <> CNil -> solid c -> batched c B o -> B <> [] -> can_pad B pads ->
  exists o', obj_pad_mode c (PadCopy g) pads o = Some o' /\ batched c (pad_shape B pads) o' /\ forall b, inb b (pad_shape B pads) -> elem b o' = elem (pad_from g B pads b) o.
Proof.
  intros g c B o pads HG HN HS [HC HH] HB HP. assert (HL : length pads = length B) by (symmetry; exact (Forall2_len _ _ _ HP)). unfold obj_pad_mode. rewrite (proj2 (C40_reports c o B HN HS HC) HH). destruct (forallb _ pads) eqn:E0.
  - rewrite (pads_zero _ E0), HL, pad_shape_zero. exists o. split; [reflexivity|]. split; [split; assumption|]. intros b Hb. unfold pad_from. rewrite tail_from by (now apply inb_length). reflexivity.
  - destruct B as [|d B]; [congruence|]. destruct (lift_one _ _ _ _ _ c o (rowwise_pad_copy g (d :: B) pads HG HP) HC HH) as (o' & E1 & E2 & E3 & E4). exists o'. split; [exact E1|]. split; [split; assumption|exact E4].
Qed.
Theorem C54_pad_copy_one : forall g c o x y, stays_inside g -> c <> CNil -> solid c -> batched c [] o -> x + y <> 0 ->
  exists o', obj_pad_mode c (PadCopy g) [(x, y)] o = Some o' /\ batched c [1 + x + y] o' /\ forall i, i < 1 + x + y -> elem [i] o' = o.
Proof.
  intros g c o x y HG HN HS HO HXY. unfold obj_pad_mode. rewrite (proj2 (C40_reports c o [] HN HS (proj1 HO)) (proj2 HO)). cbn [forallb fst snd].
  replace ((x =? 0) && (y =? 0) && true) with false by (destruct (Nat.eqb_spec x 0), (Nat.eqb_spec y 0); cbn; try reflexivity; lia).
  destruct (C41_expand_dims c [] o 0 HO (Nat.le_refl _)) as (o1 & F1 & [F2 F3] & F4). cbn in F1. rewrite F1. cbn [obind].
  assert (HP : can_pad [1] [(x, y)]) by (constructor; [left; lia|constructor]).
  destruct (lift_one _ _ _ _ _ c o1 (rowwise_pad_copy g [1] [(x, y)] HG HP) F2 F3) as (o' & E1 & E2 & E3 & E4). exists o'. split; [exact E1|]. split; [split; assumption|].
  intros i Hi. assert (Hb : inb [i] (pad_shape [1] [(x, y)])) by (constructor; [cbn; lia|constructor]). rewrite (E4 [i] Hb). pose proof (pad_from_inb g [1] [(x, y)] [i] HG HP Hb) as HI.
  destruct (pad_from g [1] [(x, y)] [i]) as [|k [|k2 l]]; [inversion HI| |inversion HI as [|? ? ? ? ? HI2]; inversion HI2]. apply inb_cons in HI. destruct HI as [Hk _]. replace k with 0 by lia. exact (eq_trans (F4 [] inb_nil) (proj2 elem_nil_both o c (proj1 HO))).
Qed.
(** the four modes; [p] is the position relative to the first old element *)
Definition pos (before i : nat) : Z := (Z.of_nat i - Z.of_nat before)%Z.
(** "edge": the nearest old position *)
Theorem C54_edge : stays_inside pad_edge /\ forall n before i, 0 < n ->
  Z.of_nat (pad_edge n before i) = Z.max 0 (Z.min (pos before i) (Z.of_nat n - 1)).
Proof. unfold stays_inside, pad_edge, pos. split; intros; lia. Qed.
(** "wrap": the old position congruent modulo the size *)
Theorem C54_wrap : stays_inside pad_wrap /\ forall n before i, 0 < n -> exists q, pos before i = (Z.of_nat (pad_wrap n before i) + q * Z.of_nat n)%Z.
Proof.
  unfold stays_inside, pad_wrap, pos. split; intros n before i Hn; pose proof (Z.mod_pos_bound (Z.of_nat i - Z.of_nat before) (Z.of_nat n) ltac:(lia)) as HB; [lia|].
  exists ((Z.of_nat i - Z.of_nat before) / Z.of_nat n)%Z. rewrite Z2Nat.id by lia. pose proof (Z.div_mod (Z.of_nat i - Z.of_nat before) (Z.of_nat n) ltac:(lia)). lia.
Qed.
(** "reflect" and "symmetric": the mirror images of the old positions about the two end
    elements, respectively about the two ends *)
Definition mirror (h : Z -> Z) (n lo hi : Z) : Prop := (forall p, 0 <= p < n -> h p = p)%Z /\ (forall p, h (lo - p) = h p)%Z /\ (forall p, h (hi - p) = h p)%Z.
Lemma mod_opp_period a p : (0 < p)%Z -> ((- a) mod p = if a mod p =? 0 then 0 else p - a mod p)%Z.
Proof. intros Hp. destruct (Z.eqb_spec (a mod p) 0) as [E|E]; [now apply Z.mod_opp_l_z; try lia|apply Z.mod_opp_l_nz; lia]. Qed.
Theorem C54_reflect : stays_inside pad_reflect /\ forall n, 2 <= n -> exists h, mirror h (Z.of_nat n) 0 (2 * Z.of_nat n - 2) /\ forall before i, Z.of_nat (pad_reflect n before i) = h (pos before i).
Proof.
  split.
  - intros n before i Hn. unfold pad_reflect. destruct (Nat.eqb_spec n 1); [lia|]. pose proof (Z.mod_pos_bound (Z.of_nat i - Z.of_nat before) (2 * Z.of_nat n - 2) ltac:(lia)) as HB.
    destruct (Nat.ltb_spec (Z.to_nat ((Z.of_nat i - Z.of_nat before) mod (2 * Z.of_nat n - 2))) n); lia.
  - intros n Hn. set (P := (2 * Z.of_nat n - 2)%Z). exists (fun p => let m := (p mod P)%Z in if (m <? Z.of_nat n)%Z then m else (P - m)%Z). split; [split; [|split]|].
    + intros p Hp. cbv zeta. rewrite Z.mod_small by lia. destruct (Z.ltb_spec p (Z.of_nat n)); lia.
    + intros p. cbv zeta. rewrite Z.sub_0_l, mod_opp_period by lia. pose proof (Z.mod_pos_bound p P ltac:(lia)). set (m := (p mod P)%Z) in *. clearbody m. destruct (Z.eqb_spec m 0) as [->|]; [reflexivity|].
      destruct (Z.ltb_spec (P - m) (Z.of_nat n)), (Z.ltb_spec m (Z.of_nat n)); lia.
    + intros p. cbv zeta. replace (P - p)%Z with (- p + 1 * P)%Z by lia. rewrite Z.mod_add, mod_opp_period by lia. pose proof (Z.mod_pos_bound p P ltac:(lia)). set (m := (p mod P)%Z) in *. clearbody m. destruct (Z.eqb_spec m 0) as [->|]; [reflexivity|].
      destruct (Z.ltb_spec (P - m) (Z.of_nat n)), (Z.ltb_spec m (Z.of_nat n)); lia.
    + intros before i. cbv zeta. unfold pad_reflect, pos. destruct (Nat.eqb_spec n 1); [lia|]. fold P. pose proof (Z.mod_pos_bound (Z.of_nat i - Z.of_nat before) P ltac:(lia)) as HB. set (m := ((Z.of_nat i - Z.of_nat before) mod P)%Z) in *. clearbody m.
      destruct (Nat.ltb_spec (Z.to_nat m) n), (Z.ltb_spec m (Z.of_nat n)); lia.
Qed.
Theorem C54_symmetric : stays_inside pad_symmetric /\ forall n, 1 <= n -> exists h, mirror h (Z.of_nat n) (-1) (2 * Z.of_nat n - 1) /\ forall before i, Z.of_nat (pad_symmetric n before i) = h (pos before i).
Proof.
  split.
  - intros n before i Hn. unfold pad_symmetric. pose proof (Z.mod_pos_bound (Z.of_nat i - Z.of_nat before) (2 * Z.of_nat n) ltac:(lia)) as HB.
    destruct (Nat.ltb_spec (Z.to_nat ((Z.of_nat i - Z.of_nat before) mod (2 * Z.of_nat n))) n); lia.
  - intros n Hn. set (P := (2 * Z.of_nat n)%Z). exists (fun p => let m := (p mod P)%Z in if (m <? Z.of_nat n)%Z then m else (P - 1 - m)%Z).
    assert (HM : forall p, ((-1 - p) mod P = P - 1 - p mod P)%Z).
    { intros p. pose proof (Z.mod_pos_bound p P ltac:(lia)). symmetry. apply (Z.mod_unique_pos _ _ (-1 - p / P)%Z); [lia|]. pose proof (Z.div_mod p P ltac:(lia)). lia. }
    split; [split; [|split]|].
    + intros p Hp. cbv zeta. rewrite Z.mod_small by lia. destruct (Z.ltb_spec p (Z.of_nat n)); lia.
    + intros p. cbv zeta. rewrite HM. pose proof (Z.mod_pos_bound p P ltac:(lia)). set (m := (p mod P)%Z) in *. clearbody m. destruct (Z.ltb_spec (P - 1 - m) (Z.of_nat n)), (Z.ltb_spec m (Z.of_nat n)); lia.
    + intros p. cbv zeta. replace (P - 1 - p)%Z with (-1 - p + 1 * P)%Z by lia. rewrite Z.mod_add by lia. rewrite HM. pose proof (Z.mod_pos_bound p P ltac:(lia)). set (m := (p mod P)%Z) in *. clearbody m. destruct (Z.ltb_spec (P - 1 - m) (Z.of_nat n)), (Z.ltb_spec m (Z.of_nat n)); lia.
    + intros before i. cbv zeta. unfold pad_symmetric, pos. fold P. pose proof (Z.mod_pos_bound (Z.of_nat i - Z.of_nat before) P ltac:(lia)) as HB. set (m := ((Z.of_nat i - Z.of_nat before) mod P)%Z) in *. clearbody m.
      destruct (Nat.ltb_spec (Z.to_nat m) n), (Z.ltb_spec m (Z.of_nat n)); lia.
Qed.
(** a mirror is determined by these equations *)
Theorem C54_mirror_unique : forall (h h' : Z -> Z) n lo hi, (lo = 0 /\ hi = 2 * n - 2 /\ 2 <= n \/ lo = -1 /\ hi = 2 * n - 1 /\ 1 <= n)%Z ->
  mirror h n lo hi -> mirror h' n lo hi -> forall p, h p = h' p.
Proof.
  intros h h' n lo hi H0 (A1 & A2 & A3) (B1 & B2 & B3).
  assert (HP : forall f : Z -> Z, (forall p, f (lo - p) = f p)%Z -> (forall p, f (hi - p) = f p)%Z -> forall p, f (p + (hi - lo))%Z = f p).
  { intros f F1 F2 p. rewrite <- (F1 p), <- (F2 (lo - p)%Z). f_equal. lia. }
  assert (HD : (0 < hi - lo)%Z) by lia.
  assert (HI : forall f : Z -> Z, (forall p, f (p + (hi - lo))%Z = f p) -> forall p, f (p mod (hi - lo))%Z = f p).
  { intros f F p. assert (K : forall k : nat, forall q, f (q + Z.of_nat k * (hi - lo))%Z = f q).
    { induction k as [|k IH]; intros q; [f_equal; lia|]. rewrite <- (IH q), <- (F (q + Z.of_nat k * (hi - lo))%Z). f_equal. lia. }
    pose proof (Z.div_mod p (hi - lo) ltac:(lia)) as ED. set (m := (p mod (hi - lo))%Z) in *. set (q := (p / (hi - lo))%Z) in *. clearbody m q. destruct (Z_le_gt_dec 0 q).
    - rewrite <- (K (Z.to_nat q) m). f_equal. rewrite Z2Nat.id by lia. lia.
    - rewrite <- (K (Z.to_nat (- q)) p). f_equal. rewrite Z2Nat.id by lia. lia. }
  intros p. rewrite <- (HI h (HP h A2 A3) p), <- (HI h' (HP h' B2 B3) p). pose proof (Z.mod_pos_bound p (hi - lo) HD). set (m := (p mod (hi - lo))%Z) in *. clearbody m.
  destruct (Z_lt_ge_dec m n); [rewrite A1, B1 by lia; reflexivity|]. rewrite <- (A3 m), <- (B3 m). rewrite A1, B1; [reflexivity|lia|lia].
Qed.

(** ** the forms of pad_width *)
Definition as_pads (l : list (Z * Z)) : list (nat * nat) := map (fun p => (Z.to_nat (fst p), Z.to_nat (snd p))) l.
(** an int pads every batch axis on both sides; a list of pairs is one pair per axis; a list of
    ints other than two is one int per axis; exactly two ints are (before, after) of axis 0 *)
Definition pad_meaning (p : pad_arg) (n : nat) : option (list (Z * Z)) :=
  match p with
  | PInt z => Some (repeat (z, z) n)
  | PPairs l => if (length l =? n) && negb (n =? 0) then Some l else None
  | PInts l => if length l =? 2 then Some ((nth 0 l 0%Z, nth 1 l 0%Z) :: repeat (0, 0)%Z (n - 1))
               else if (length l =? n) && negb (n =? 0) then Some (map (fun z => (z, z)) l) else None
  end.
Theorem C54_pad_width : forall p n, 0 < n -> normalize_pad p n = pad_meaning p n.
Proof.
  intros [z|l|l] n Hn; cbn [normalize_pad pad_meaning]; replace (n =? 0) with false by (symmetry; apply Nat.eqb_neq; lia); cbn [negb]; rewrite ?andb_true_r; [reflexivity| |].
  - destruct l as [|x [|y [|k l]]]; cbn [length Nat.eqb]; try reflexivity. destruct n; [lia|reflexivity].
  - destruct l as [|x l]; [|reflexivity]. destruct n; [lia|reflexivity].
Qed.
Theorem C54_pad_arg : forall c B o m p zs, c <> CNil -> solid c -> batched c B o -> pad_meaning p (Nat.max 1 (length B)) = Some zs ->
  obj_pad_arg c m p o = if existsb (fun q => (fst q <? 0)%Z || (snd q <? 0)%Z) zs then None
                        else match m with None => obj_pad c (as_pads zs) o | Some m => obj_pad_mode c m (as_pads zs) o end.
Proof.
  intros c B o m p zs HN HS [HC HH] HP. unfold obj_pad_arg. rewrite (proj2 (C40_reports c o B HN HS HC) HH). replace (match B with [] => 1 | _ => length B end) with (Nat.max 1 (length B)) by (destruct B; cbn; lia).
  rewrite C54_pad_width, HP by lia. cbn [obind]. unfold pads_nat. destruct (existsb _ zs); reflexivity.
Qed.
(** on a two-dimensional batch [pad(x, (1, 2))] therefore pads only axis 0, while
    [pad(x, (1, 2, 3))] on a three-dimensional batch pads axis k by its k-th entry on both sides *)
Theorem C54_two_ints_refuted : pad_meaning (PInts [1; 2]%Z) 2 = Some [(1, 2); (0, 0)]%Z /\ pad_meaning (PInts [1; 2; 3]%Z) 3 = Some [(1, 1); (2, 2); (3, 3)]%Z.
Proof. split; reflexivity. Qed.
Example C54_example : exists o1 o2, obj_pad_arg cell (Some (PadCopy pad_wrap)) (PInts [1; 2]%Z) grid = Some o1 /\ batched cell [5; 3] o1 /\ elem [0; 1] o1 = elem [1; 1] grid /\
  obj_pad_arg cell (Some (PadConstant (fun _ => 9%Z))) (PInt 1) grid = Some o2 /\ batched cell [4; 5] o2 /\ elem [0; 0] o2 = const_obj (fun _ => 9%Z) [] cell /\ elem [2; 3] o2 = elem [1; 2] grid /\
  can_pad [2; 3] [(1, 2); (0, 0)].
Proof.
  eexists. eexists. split; [reflexivity|]. split; [split; cbn; unfold wfa; cbn; auto 10|]. split; [reflexivity|]. split; [reflexivity|]. split; [split; cbn; unfold wfa; cbn; auto 10|]. split; [reflexivity|]. split; [reflexivity|]. repeat constructor.
Qed.
Print Assumptions C54_pad_constant. Print Assumptions C54_pad_copy. Print Assumptions C54_reflect. Print Assumptions C54_symmetric. Print Assumptions C54_mirror_unique. Print Assumptions C54_pad_arg.
