(** * PropInverse.v — property C60: batch operations undo each other exactly.

    Every law is an equation between instances: same fields, same dtypes, same shapes, same
    contents.  [obj_*] are the functions of RowsModel.v / RowsModel2.v; [obind] runs the second
    function on the result of the first when that one does not raise. *)
From Coq Require Import String.
From Verif Require Import Jax StructModel ArrayModel ArrayFacts ShapeModel PropShape RowsModel RowsLift PropRows PropRows2 PropRows3 EqModel RowsModel2 PropRows5.
From Verif Require PropHeapArrays.

Lemma ext c B o q : batched c B o -> batched c B q -> (forall b, inb b B -> elem b o = elem b q) -> o = q.
Proof. exact (PropHeapArrays.C41_extensional c B o q). Qed.
Ltac upds := repeat (rewrite nth_upd by (rewrite ?upd_length; lia)); repeat (match goal with |- context [?x =? ?y] => destruct (Nat.eqb_spec x y) end; subst; try congruence; try lia).

(** ** flip *)
Lemma flip_flip k B b : k < length B -> inb b B -> flip_at k B (flip_at k B b) = b.
Proof.
  intros Hk Hb. pose proof (inb_length _ _ Hb) as LB. pose proof (inb_nth _ _ k Hb Hk) as HN. unfold flip_at. rewrite upd_upd. apply (nth_ext _ _ 0 0); [now rewrite upd_length|].
  intros m Hm. rewrite upd_length in Hm. rewrite (nth_upd k _ b k) by lia. rewrite Nat.eqb_refl. upds.
Qed.
Theorem C60_flip_twice : forall c B o k, batched c B o -> k < length B ->
  obind (obj_flip (Z.of_nat k) o) (obj_flip (Z.of_nat k)) = Some o.
Proof.
  intros c B o k HB Hk. destruct (C41_flip c B o k HB Hk) as (o1 & E1 & B1 & F1). destruct (C41_flip c B o1 k B1 Hk) as (o2 & E2 & B2 & F2). rewrite E1. cbn [obind]. rewrite E2. f_equal.
  apply (ext c B); [exact B2|exact HB|]. intros b Hb. rewrite (F2 b Hb). fold (flip_at k B b). rewrite (F1 _ (inb_flip k B b Hk Hb)). fold (flip_at k B (flip_at k B b)). now rewrite flip_flip.
Qed.

(** ** roll *)
Definition roll_at (s : Z) (k : nat) (B b : list nat) : list nat := upd k (Z.to_nat ((Z.of_nat (nth k b 0) + s) mod Z.of_nat (nth k B 0))) b.
Lemma inb_roll s k B b : k < length B -> inb b B -> inb (roll_at s k B b) B.
Proof.
  intros Hk Hb. unfold roll_at. pose proof (inb_nth _ _ k Hb Hk) as HN. rewrite <- (upd_same k B 0 Hk) at 2. apply (inb_upd k _ (nth k B 0)); [exact Hk|now rewrite upd_same|].
  pose proof (Z.mod_pos_bound (Z.of_nat (nth k b 0) + s) (Z.of_nat (nth k B 0))). lia.
Qed.
Lemma roll_roll s t k B b : k < length B -> inb b B -> roll_at t k B (roll_at s k B b) = roll_at (s + t) k B b.
Proof.
  intros Hk Hb. pose proof (inb_length _ _ Hb) as LB. pose proof (inb_nth _ _ k Hb Hk) as HN. unfold roll_at. rewrite upd_upd. rewrite (nth_upd k _ b k) by lia. rewrite Nat.eqb_refl. f_equal.
  set (n := Z.of_nat (nth k B 0)) in *. assert (n <> 0)%Z by (unfold n; lia). rewrite Z2Nat.id by (apply Z.mod_pos_bound; unfold n; lia). rewrite Zplus_mod_idemp_l. f_equal. f_equal. lia.
Qed.
Lemma roll_zero k B b : k < length B -> inb b B -> roll_at 0 k B b = b.
Proof. intros Hk Hb. pose proof (inb_nth _ _ k Hb Hk) as HN. pose proof (inb_length _ _ Hb). unfold roll_at. rewrite Z.add_0_r, Z.mod_small by lia. rewrite Nat2Z.id. apply upd_same. lia. Qed.
Theorem C60_roll_roll : forall c B o s t k, batched c B o -> k < length B ->
  exists o', obj_roll (s + t) (Z.of_nat k) o = Some o' /\ obind (obj_roll s (Z.of_nat k) o) (obj_roll t (Z.of_nat k)) = Some o'.
Proof.
  intros c B o s t k HB Hk. destruct (C41_roll c B o s k HB Hk) as (o1 & E1 & B1 & F1). destruct (C41_roll c B o1 t k B1 Hk) as (o2 & E2 & B2 & F2). destruct (C41_roll c B o (s + t) k HB Hk) as (o3 & E3 & B3 & F3).
  exists o3. split; [exact E3|]. rewrite E1. cbn [obind]. rewrite E2. f_equal. apply (ext c B); [exact B2|exact B3|]. intros b Hb.
  pose proof (roll_roll (- (s + t)) (s + t) k B b Hk Hb) as R. replace (- (s + t) + (s + t))%Z with 0%Z in R by lia. rewrite (roll_zero k B b Hk Hb) in R. set (b0 := roll_at (- (s + t)) k B b) in *. assert (H0 : inb b0 B) by now apply inb_roll.
  transitivity (elem b0 o).
  - rewrite <- R, <- (roll_roll s t k B b0 Hk H0). transitivity (elem (roll_at s k B b0) o1); [apply (F2 (roll_at s k B b0)); now apply inb_roll|apply (F1 b0 H0)].
  - rewrite <- R. symmetry. apply (F3 b0 H0).
Qed.
Theorem C60_roll_zero : forall c B o k, batched c B o -> k < length B -> obj_roll 0 (Z.of_nat k) o = Some o.
Proof.
  intros c B o k HB Hk. destruct (C41_roll c B o 0 k HB Hk) as (o1 & E1 & B1 & F1). rewrite E1. f_equal. apply (ext c B); [exact B1|exact HB|]. intros b Hb. rewrite <- (F1 b Hb). fold (roll_at 0 k B b). now rewrite roll_zero.
Qed.
Theorem C60_roll_back : forall c B o s k, batched c B o -> k < length B -> obind (obj_roll s (Z.of_nat k) o) (obj_roll (- s) (Z.of_nat k)) = Some o.
Proof. intros c B o s k HB Hk. destruct (C60_roll_roll c B o s (- s) k HB Hk) as (o' & E1 & E2). rewrite E2. replace (s + - s)%Z with 0%Z in E1 by lia. rewrite (C60_roll_zero c B o k HB Hk) in E1. congruence. Qed.

(** ** transpose, swapaxes, moveaxis, rot90 *)
Definition perm_at (ks b : list nat) : list nat := map (fun k => nth k b 0) ks.
Lemma perm_perm ks ls n b : length ks = n -> (forall i, In i ls -> i < n) -> length b = n -> perm_at ls (perm_at ks b) = perm_at (perm_at ls ks) b.
Proof. intros Hk Hl Hb. unfold perm_at. rewrite map_map. apply map_ext_in. intros i Hi. specialize (Hl i Hi). now rewrite (nth_map_any _ ks i 0) by lia. Qed.
Lemma perm_id n b : length b = n -> perm_at (seq 0 n) b = b.
Proof. intros H. unfold perm_at. apply (nth_ext _ _ 0 0); [rewrite map_length, seq_length; lia|]. intros m Hm. rewrite map_length, seq_length in Hm. rewrite (nth_map_any _ _ m 0) by (now rewrite seq_length). now rewrite seq_nth by exact Hm. Qed.
Lemma perm_inb ks B b : perm_axes ks (length B) -> inb b B -> inb (perm_at ks b) (perm_at ks B).
Proof. intros HP Hb. apply transpose_src; assumption. Qed.
(** transposing twice: the second order of the axes is applied to the first *)
Theorem C60_transpose_transpose : forall c B o ks ls, c <> CNil -> solid c -> batched c B o -> perm_axes ks (length B) -> perm_axes ls (length B) ->
  perm_axes (perm_at ls ks) (length B) /\
  exists o', obj_transpose c (Some (map Z.of_nat (perm_at ls ks))) o = Some o' /\
    obind (obj_transpose c (Some (map Z.of_nat ks)) o) (obj_transpose c (Some (map Z.of_nat ls))) = Some o'.
Proof.
  intros c B o ks ls HN HS HB P1 P2. pose proof P1 as (N1 & L1 & I1). pose proof P2 as (N2 & L2 & I2).
  assert (P3 : perm_axes (perm_at ls ks) (length B)).
  { split; [|split].
    - unfold perm_at. apply NoDup_nth with (d := 0). intros i j Hi Hj E. rewrite map_length in Hi, Hj. rewrite !(nth_map_any _ ls _ 0) in E by assumption.
      apply (proj1 (NoDup_nth ls 0) N2); [assumption|assumption|]. apply (proj1 (NoDup_nth ks 0) N1); [rewrite L1; apply I2, nth_In; assumption..|exact E].
    - unfold perm_at. now rewrite map_length.
    - intros k Hk. unfold perm_at in Hk. apply in_map_iff in Hk. destruct Hk as (i & <- & Hi). apply I1, nth_In. rewrite L1. now apply I2. }
  split; [exact P3|].
  destruct (C41_transpose c B o ks HN HS HB P1) as (o1 & E1 & B1 & F1).
  assert (LP : length (map (fun k => nth k B 0) ks) = length B) by (now rewrite map_length).
  destruct (C41_transpose c _ o1 ls HN HS B1) as (o2 & E2 & B2 & F2); [now rewrite LP|]. destruct (C41_transpose c B o _ HN HS HB P3) as (o3 & E3 & B3 & F3).
  exists o3. split; [exact E3|]. rewrite E1. cbn [obind]. rewrite E2. f_equal. change (map (fun k => nth k (map (fun k0 => nth k0 B 0) ks) 0) ls) with (perm_at ls (perm_at ks B)) in B2.
  rewrite (perm_perm ks ls (length B) B L1 I2 eq_refl) in B2. apply (ext c _ _ _ B2 B3). intros b' Hb'.
  (* every position of the result is the image of one *)
  assert (EX : exists b, inb b B /\ b' = perm_at (perm_at ls ks) b).
  { set (qs := perm_at ls ks) in *. exists (map (fun m => nth (index_of m qs) b' 0) (seq 0 (length B))). pose proof (rowwise_transpose B qs P3) as [RT _]. specialize (RT b' Hb'). cbn beta iota in RT. split; [exact RT|].
    pose proof P3 as (NQ & LQ & IQ). apply (nth_ext _ _ 0 0); [unfold perm_at; rewrite map_length, LQ; apply inb_length in Hb'; unfold perm_at in Hb'; rewrite map_length in Hb'; congruence|].
    intros m Hm. assert (Hm2 : m < length qs) by (apply inb_length in Hb'; unfold perm_at in Hb'; rewrite map_length in Hb'; congruence).
    unfold perm_at at 1. rewrite (nth_map_any _ qs m 0) by exact Hm2. rewrite (nth_map_any _ _ _ 0) by (rewrite seq_length; apply IQ, nth_In; exact Hm2). rewrite seq_nth by (apply IQ, nth_In; exact Hm2). cbn [Nat.add]. now rewrite index_of_nth. }
  destruct EX as (b & Hb & ->). pose proof (inb_length _ _ Hb) as LB. change (perm_at (perm_at ls ks) b) with (map (fun k => nth k b 0) (perm_at ls ks)) at 2. rewrite (F3 b Hb). rewrite <- (perm_perm ks ls (length B) b L1 I2 LB).
  unfold perm_at at 1. rewrite (F2 (perm_at ks b)) by (now apply perm_inb). apply (F1 b Hb).
Qed.
Theorem C60_transpose_identity : forall c B o, c <> CNil -> solid c -> batched c B o -> obj_transpose c (Some (map Z.of_nat (seq 0 (length B)))) o = Some o.
Proof.
  intros c B o HN HS HB. destruct (C41_transpose c B o (seq 0 (length B)) HN HS HB) as (o1 & E1 & B1 & F1).
  { split; [apply seq_NoDup|]. split; [apply seq_length|]. intros k Hk. apply in_seq in Hk. lia. }
  rewrite E1. f_equal. change (map (fun k => nth k B 0) (seq 0 (length B))) with (perm_at (seq 0 (length B)) B) in B1. rewrite (perm_id _ _ eq_refl) in B1. apply (ext c B); [exact B1|exact HB|].
  intros b Hb. rewrite <- (F1 b Hb). change (map (fun k => nth k b 0) (seq 0 (length B))) with (perm_at (seq 0 (length B)) b). now rewrite perm_id by (now apply inb_length).
Qed.
(** ... so the inverse order of the axes restores the instance *)
Theorem C60_transpose_back : forall c B o ks ls, c <> CNil -> solid c -> batched c B o -> perm_axes ks (length B) -> perm_axes ls (length B) ->
  (forall i, i < length B -> nth (nth i ls 0) ks 0 = i) ->
  obind (obj_transpose c (Some (map Z.of_nat ks)) o) (obj_transpose c (Some (map Z.of_nat ls))) = Some o.
Proof.
  intros c B o ks ls HN HS HB P1 P2 HI. destruct (C60_transpose_transpose c B o ks ls HN HS HB P1 P2) as (_ & o' & E1 & E2). rewrite E2. pose proof P2 as (_ & L2 & _).
  assert (EQ : perm_at ls ks = seq 0 (length B)).
  { unfold perm_at. apply (nth_ext _ _ 0 0); [rewrite map_length, seq_length; exact L2|]. intros m Hm. rewrite map_length in Hm. rewrite (nth_map_any _ ls m 0) by exact Hm. rewrite seq_nth by lia. apply HI. lia. }
  rewrite EQ, (C60_transpose_identity c B o HN HS HB) in E1. congruence.
Qed.
Theorem C60_reverse_axes_twice : forall c B o, c <> CNil -> solid c -> batched c B o -> obind (obj_transpose c None o) (obj_transpose c None) = Some o.
Proof.
  intros c B o HN HS HB. destruct (C41_transpose_default c B o HN HS HB) as (o1 & E1 & B1 & F1). destruct (C41_transpose_default c _ o1 HN HS B1) as (o2 & E2 & B2 & F2). rewrite E1. cbn [obind]. rewrite E2. f_equal.
  rewrite rev_involutive in B2. apply (ext c B); [exact B2|exact HB|]. intros b Hb. rewrite <- (F1 b Hb). rewrite <- (rev_involutive b) at 1. apply F2. clear - Hb. unfold inb in *. induction Hb as [|i d b B Hi Hb IH]; [constructor|]. cbn [rev]. apply Forall2_app; [exact IH|]. constructor; [exact Hi|constructor].
Qed.
Theorem C60_swapaxes_twice : forall c B o i j i' j', c <> CNil -> solid c -> batched c B o -> norm_axis i (length B) = Some i' -> norm_axis j (length B) = Some j' ->
  obind (obj_swapaxes c i j o) (obj_swapaxes c i j) = Some o /\ obind (obj_swapaxes c i j o) (obj_swapaxes c j i) = Some o.
Proof.
  intros c B o i j i' j' HN HS HB Ei Ej. pose proof (norm_axis_lt _ _ _ Ei) as Hi. pose proof (norm_axis_lt _ _ _ Ej) as Hj. destruct (C41_swapaxes c B o i j i' j' HN HS HB Ei Ej) as (o1 & E1 & B1 & F1). fold (swap_at i' j' B) in B1.
  assert (LB1 : length (swap_at i' j' B) = length B) by (unfold swap_at; now rewrite !upd_length). rewrite E1. cbn [obind].
  assert (SW : forall l : list nat, length l = length B -> swap_at j' i' (swap_at i' j' l) = l).
  { intros l Hl. unfold swap_at. apply (nth_ext _ _ 0 0); [now rewrite !upd_length|]. intros m Hm. rewrite !upd_length in Hm. upds. }
  split.
  - destruct (C41_swapaxes c _ o1 i j i' j' HN HS B1) as (o2 & E2 & B2 & F2); [now rewrite LB1..|]. rewrite E2. f_equal. fold (swap_at i' j' (swap_at i' j' B)) in B2. rewrite (swap_invol i' j' (length B) B Hi Hj eq_refl) in B2. apply (ext c B); [exact B2|exact HB|].
    intros b Hb. rewrite <- (F1 b Hb). fold (swap_at i' j' b). rewrite <- (F2 (swap_at i' j' b)) by (now apply inb_swap). fold (swap_at i' j' (swap_at i' j' b)). now rewrite (swap_invol i' j' (length B) b Hi Hj (inb_length _ _ Hb)).
  - destruct (C41_swapaxes c _ o1 j i j' i' HN HS B1) as (o2 & E2 & B2 & F2); [now rewrite LB1..|]. rewrite E2. f_equal. fold (swap_at j' i' (swap_at i' j' B)) in B2. rewrite (SW B eq_refl) in B2. apply (ext c B); [exact B2|exact HB|].
    intros b Hb. rewrite <- (F1 b Hb). fold (swap_at i' j' b). rewrite <- (F2 (swap_at i' j' b)) by (now apply inb_swap). fold (swap_at j' i' (swap_at i' j' b)). now rewrite (SW b (inb_length _ _ Hb)).
Qed.
Lemma same_by_filter (f : nat -> bool) : forall l m : list nat, map f l = map f m -> filter f l = filter f m -> (forall i, i < length l -> f (nth i l 0) = false -> nth i l 0 = nth i m 0) -> l = m.
Proof.
  induction l as [|x l IH]; intros [|y m] HM HF HI; try discriminate; [reflexivity|]. cbn [map] in HM. injection HM as H1 H2. cbn [filter] in HF. rewrite <- H1 in HF. destruct (f x) eqn:E.
  - injection HF as -> HF. f_equal. apply IH; [exact H2|exact HF|]. intros i Hi. apply (HI (S i)). cbn. lia.
  - pose proof (HI 0 ltac:(cbn; lia) E) as H0. cbn in H0. subst y. f_equal. apply IH; [exact H2|exact HF|]. intros i Hi. apply (HI (S i)). cbn. lia.
Qed.
Lemma filter_map_comm {X Y} (g : X -> Y) (f : Y -> bool) l : filter f (map g l) = map g (filter (fun x => f (g x)) l).
Proof. induction l as [|x l IH]; [reflexivity|]. cbn [map filter]. destruct (f (g x)); cbn [map]; now rewrite IH. Qed.
Theorem C60_moveaxis_back : forall c B o s d, batched c B o -> NoDup s -> NoDup d -> length s = length d ->
  (forall k, In k s -> k < length B) -> (forall k, In k d -> k < length B) ->
  obind (obj_moveaxis (map Z.of_nat s) (map Z.of_nat d) o) (obj_moveaxis (map Z.of_nat d) (map Z.of_nat s)) = Some o.
Proof.
  intros c B o s d HB NS ND HL IS ID. destruct (C52_moveaxis c B o s d HB NS ND HL IS ID) as (o1 & ks & E1 & P1 & M1 & FL1 & B1 & F1). pose proof P1 as (N1 & L1 & I1).
  assert (LB1 : length (map (fun k => nth k B 0) ks) = length B) by (now rewrite map_length).
  destruct (C52_moveaxis c _ o1 d s B1 ND NS (eq_sym HL)) as (o2 & ls & E2 & P2 & M2 & FL2 & B2 & F2); [rewrite LB1; assumption..|]. rewrite LB1 in P2, FL2. pose proof P2 as (N2 & L2 & I2).
  rewrite E1. cbn [obind]. rewrite E2. f_equal.
  assert (DS : forall k, k < length B -> existsb (Nat.eqb (nth k ks 0)) s = existsb (Nat.eqb k) d).
  { intros k Hk. apply eq_true_iff_eq. rewrite !existsb_In. split.
    - intros H. apply (In_nth _ _ 0) in H. destruct H as (i & Hi & E). rewrite <- (M1 i Hi) in E. apply (proj1 (NoDup_nth ks 0) N1) in E; [|rewrite L1; apply ID, nth_In; lia|lia]. rewrite <- E. apply nth_In. lia.
    - intros H. apply (In_nth _ _ 0) in H. destruct H as (i & Hi & E). rewrite <- E, M1 by lia. apply nth_In. lia. }
  assert (EQ : perm_at ls ks = seq 0 (length B)).
  { set (f := fun k => negb (existsb (Nat.eqb k) s)) in *.
    assert (HS : forall m, m < length B -> existsb (Nat.eqb m) s = true -> nth (nth m ls 0) ks 0 = m).
    { intros m Hm H. apply existsb_In in H. apply (In_nth _ _ 0) in H. destruct H as (i & Hi & <-). rewrite M2 by lia. now apply M1. }
    assert (FQ : filter f (perm_at ls ks) = filter f (seq 0 (length B))).
    { unfold perm_at. rewrite filter_map_comm. rewrite (filter_ext_in _ (fun k => negb (existsb (Nat.eqb k) d))) by (intros k Hk; unfold f; rewrite DS by (now apply I2); reflexivity). rewrite FL2.
      rewrite <- (filter_ext_in (fun k => f (nth k ks 0))) by (intros k Hk; apply in_seq in Hk; unfold f; rewrite DS by lia; reflexivity). rewrite <- filter_map_comm.
      change (map (fun k => nth k ks 0) (seq 0 (length B))) with (perm_at (seq 0 (length B)) ks). rewrite (perm_id _ ks L1). exact FL1. }
    apply (same_by_filter f); [|exact FQ|].
    - apply (nth_ext _ _ true true); [unfold perm_at; rewrite !map_length, seq_length; exact L2|]. intros m Hm. unfold perm_at in *. rewrite !map_length in Hm.
      rewrite (nth_map_any f _ m 0) by (now rewrite map_length). rewrite (nth_map_any f (seq 0 (length B)) m 0) by (rewrite seq_length; lia). rewrite (nth_map_any _ ls m 0) by exact Hm. rewrite seq_nth by lia. cbn [Nat.add]. unfold f. f_equal.
      destruct (existsb (Nat.eqb m) s) eqn:EM; [now rewrite (HS m ltac:(lia) EM), EM|]. rewrite DS by (apply I2, nth_In; exact Hm). apply not_true_iff_false. intros H. apply existsb_In in H. apply (In_nth _ _ 0) in H. destruct H as (i & Hi & E).
      rewrite <- (M2 i Hi) in E. apply (proj1 (NoDup_nth ls 0) N2) in E; [|rewrite L2; apply IS, nth_In; lia|exact Hm]. apply not_true_iff_false in EM. apply EM, existsb_In. rewrite <- E. apply nth_In. lia.
    - intros m Hm E. unfold perm_at in *. rewrite map_length in Hm. rewrite (nth_map_any _ ls m 0) in * by exact Hm. rewrite seq_nth by lia. cbn [Nat.add]. unfold f in E. apply negb_false_iff in E. rewrite DS in E by (apply I2, nth_In; exact Hm). apply existsb_In in E. apply (In_nth _ _ 0) in E. destruct E as (i & Hi & E).
      rewrite <- (M2 i Hi) in E. apply (proj1 (NoDup_nth ls 0) N2) in E; [|rewrite L2; apply IS, nth_In; lia|exact Hm]. rewrite <- E, (M2 i Hi). apply M1. lia. }
  change (map (fun k => nth k (map (fun k0 => nth k0 B 0) ks) 0) ls) with (perm_at ls (perm_at ks B)) in B2. rewrite (perm_perm ks ls (length B) B L1 I2 eq_refl), EQ, (perm_id _ B eq_refl) in B2.
  apply (ext c B); [exact B2|exact HB|]. intros b Hb. pose proof (inb_length _ _ Hb) as LB. rewrite <- (F1 b Hb). change (map (fun k => nth k b 0) ks) with (perm_at ks b). rewrite <- (F2 (perm_at ks b)) by (now apply perm_inb).
  change (map (fun k => nth k (perm_at ks b) 0) ls) with (perm_at ls (perm_at ks b)). now rewrite (perm_perm ks ls (length B) b L1 I2 LB), EQ, (perm_id _ b LB).
Qed.

(** rot90: turns add up *)
Lemma iter_add {X} (f : X -> X) m n x : Nat.iter n f (Nat.iter m f x) = Nat.iter (m + n) f x.
Proof. induction n as [|n IH]; [now rewrite Nat.add_0_r|]. rewrite Nat.add_succ_r. cbn [Nat.iter nat_rect]. fold (Nat.iter n f (Nat.iter m f x)). fold (Nat.iter (m + n) f x). now rewrite IH. Qed.
Lemma quarter_four i j B b : i < length B -> j < length B -> i <> j -> inb b B -> Nat.iter 4 (quarter i j) (B, b) = (B, b).
Proof.
  intros Hi Hj Hn Hb. pose proof (inb_length _ _ Hb) as LB. pose proof (inb_nth _ _ i Hb Hi). pose proof (inb_nth _ _ j Hb Hj). cbn [Nat.iter nat_rect quarter]. f_equal.
  - apply (nth_ext _ _ 0 0); [now rewrite !upd_length|]. intros m Hm. rewrite !upd_length in Hm. upds.
  - apply (nth_ext _ _ 0 0); [now rewrite !upd_length|]. intros m Hm. rewrite !upd_length in Hm. upds.
Qed.
Lemma turn_inb q i j B b : i < length B -> j < length B -> i <> j -> inb b B ->
  inb (snd (Nat.iter q (quarter i j) (B, b))) (fst (Nat.iter q (quarter i j) (B, b))) /\ length (fst (Nat.iter q (quarter i j) (B, b))) = length B.
Proof.
  intros Hi Hj Hn Hb. induction q as [|q [IH1 IH2]]; [split; [exact Hb|reflexivity]|]. rewrite !iter_S. destruct (Nat.iter q (quarter i j) (B, b)) as [B0 b0]. cbn [fst snd] in *. split; [apply quarter_inb; try lia; assumption|]. cbn [quarter fst]. now rewrite !upd_length.
Qed.
Theorem C60_rot90_rot90 : forall c B o k l i j, batched c B o -> i < length B -> j < length B -> i <> j ->
  exists o', obj_rot90 (k + l) (Z.of_nat i, Z.of_nat j) o = Some o' /\ obind (obj_rot90 k (Z.of_nat i, Z.of_nat j) o) (obj_rot90 l (Z.of_nat i, Z.of_nat j)) = Some o'.
Proof.
  intros c B o k l i j HB Hi Hj Hn. destruct (C52_rot90 c B o k i j HB Hi Hj Hn) as (o1 & E1 & H1). destruct (C52_rot90 c B o (k + l) i j HB Hi Hj Hn) as (o3 & E3 & H3). cbv zeta in H1, H3.
  set (q1 := Z.to_nat (k mod 4)) in *. set (q3 := Z.to_nat ((k + l) mod 4)) in *. set (T := quarter i j) in *. destruct H1 as (C1 & B1 & F1). destruct H3 as (C3 & B3 & F3). set (BB1 := fst (Nat.iter q1 T (B, []))) in *.
  assert (LB1 : length BB1 = length B). { unfold BB1. clear. induction q1 as [|q IH]; [reflexivity|]. rewrite iter_S. destruct (Nat.iter q T (B, [])). unfold T in *. cbn [quarter fst] in *. now rewrite !upd_length. }
  destruct (C52_rot90 c BB1 o1 l i j B1) as (o2 & E2 & H2); [lia|lia|exact Hn|]. cbv zeta in H2. set (q2 := Z.to_nat (l mod 4)) in *. fold T in H2. destruct H2 as (C2 & B2 & F2).
  exists o3. split; [exact E3|]. rewrite E1. cbn [obind]. rewrite E2. f_equal.
  assert (Q : q1 + q2 = q3 \/ q1 + q2 = q3 + 4).
  { unfold q1, q2, q3. pose proof (Z.mod_pos_bound k 4). pose proof (Z.mod_pos_bound l 4). pose proof (Z.mod_pos_bound (k + l) 4). rewrite (Z.add_mod k l 4) in * by lia.
    destruct (Z_lt_le_dec (k mod 4 + l mod 4) 4) as [L|L]; [left; rewrite (Z.mod_small (k mod 4 + l mod 4)) by lia; lia|right].
    assert (EM : ((k mod 4 + l mod 4) mod 4 = k mod 4 + l mod 4 - 4)%Z) by (symmetry; apply (Z.mod_unique _ _ 1); lia). lia. }
  assert (TURN : forall b, inb b B -> Nat.iter q2 T (BB1, snd (Nat.iter q1 T (B, b))) = Nat.iter q3 T (B, b)).
  { intros b Hb. replace (BB1, snd (Nat.iter q1 T (B, b))) with (Nat.iter q1 T (B, b)) by (rewrite (surjective_pairing (Nat.iter q1 T (B, b))); f_equal; apply C1). rewrite iter_add. destruct Q as [->|Q]; [reflexivity|]. rewrite Q.
    replace (q3 + 4) with (4 + q3) by lia. rewrite <- iter_add. unfold T at 2. now rewrite quarter_four. }
  (* the shapes agree even when there is no element *)
  assert (SH : fst (Nat.iter q2 T (BB1, [])) = fst (Nat.iter q3 T (B, []))).
  { assert (GEN : forall q S, length S = length B -> fst (Nat.iter q T (S, [])) = if Nat.even q then S else swap_at i j S).
    { clear - Hi Hj. intros q. induction q as [|q IH]; intros S HS; [reflexivity|]. rewrite iter_S. assert (EQ := IH S HS). destruct (Nat.iter q T (S, [])) as [S0 s0]. cbn [fst] in EQ. unfold T. cbn [quarter fst]. rewrite Nat.even_succ, <- Nat.negb_even. subst S0. fold (swap_at i j (if Nat.even q then S else swap_at i j S)).
      destruct (Nat.even q); cbn [negb]; [reflexivity|]. apply (swap_invol i j (length B)); auto. }
    rewrite (GEN q2 BB1 LB1). unfold BB1. rewrite !(GEN _ B eq_refl). assert (PAR : Nat.even q3 = Bool.eqb (Nat.even q1) (Nat.even q2)).
    { destruct Q as [<-|Q]; [apply Nat.even_add|]. replace (Nat.even q3) with (Nat.even (q3 + 4)) by (rewrite Nat.even_add; destruct (Nat.even q3); reflexivity). rewrite <- Q. apply Nat.even_add. }
    rewrite PAR. destruct (Nat.even q1), (Nat.even q2); cbn [Bool.eqb]; try reflexivity. apply (swap_invol i j (length B)); auto. }
  rewrite SH in B2. apply (ext c _ _ _ B2 B3). intros b' Hb'.
  assert (EX : exists b, inb b B /\ b' = snd (Nat.iter q3 T (B, b))).
  { assert (L3 : length (fst (Nat.iter q3 T (B, []))) = length B). { clear. induction q3 as [|q IH]; [reflexivity|]. rewrite iter_S. destruct (Nat.iter q T (B, [])). unfold T in *. cbn [quarter fst] in *. now rewrite !upd_length. }
    assert (H4 : q3 < 4) by (unfold q3; pose proof (Z.mod_pos_bound (k + l) 4); lia). set (B3' := fst (Nat.iter q3 T (B, []))) in *.
    pose proof (turn_inb (4 - q3) i j B3' b') as TI. fold T in TI. destruct TI as [TI _]; [lia|lia|exact Hn|exact Hb'|].
    assert (BK : fst (Nat.iter (4 - q3) T (B3', b')) = B).
    { destruct (C52_rot90 c B3' o3 (- (k + l)) i j B3) as (_ & _ & (CC & _)); [lia|lia|exact Hn|]. assert (SH2 : forall q S s, length S = length B -> fst (Nat.iter q T (S, s)) = if Nat.even q then S else swap_at i j S).
      { clear - Hi Hj. intros q. induction q as [|q IH]; intros S s HS; [reflexivity|]. rewrite iter_S. assert (EQ := IH S s HS). destruct (Nat.iter q T (S, s)) as [S0 s0]. cbn [fst] in EQ. unfold T. cbn [quarter fst]. rewrite Nat.even_succ, <- Nat.negb_even. subst S0. fold (swap_at i j (if Nat.even q then S else swap_at i j S)).
        destruct (Nat.even q); cbn [negb]; [reflexivity|]. apply (swap_invol i j (length B)); auto. }
      rewrite (SH2 _ B3' b' L3). unfold B3'. rewrite (SH2 _ B [] eq_refl). destruct q3 as [|[|[|[|q]]]]; [..|lia]; cbn [Nat.sub Nat.even]; try reflexivity; apply (swap_invol i j (length B)); auto. }
    exists (snd (Nat.iter (4 - q3) T (B3', b'))). rewrite BK in TI. split; [exact TI|]. replace (B, snd (Nat.iter (4 - q3) T (B3', b'))) with (Nat.iter (4 - q3) T (B3', b')) by (rewrite (surjective_pairing (Nat.iter (4 - q3) T (B3', b'))); f_equal; exact BK).
    rewrite iter_add. replace (4 - q3 + q3) with 4 by lia. unfold T. rewrite quarter_four; [reflexivity|lia|lia|exact Hn|exact Hb']. }
  destruct EX as (b & Hb & ->). destruct (F3 b Hb) as [_ ->]. destruct (F1 b Hb) as [I1 <-]. rewrite <- (TURN b Hb). apply (proj2 (F2 _ I1)).
Qed.
Theorem C60_rot90_full : forall c B o k i j, batched c B o -> i < length B -> j < length B -> i <> j -> (k mod 4 = 0)%Z -> obj_rot90 k (Z.of_nat i, Z.of_nat j) o = Some o.
Proof.
  intros c B o k i j HB Hi Hj Hn Hk. destruct (C52_rot90 c B o k i j HB Hi Hj Hn) as (o1 & E1 & H1). rewrite Hk in H1. cbn [Z.to_nat Nat.iter nat_rect fst snd] in H1. destruct H1 as (_ & B1 & F1). rewrite E1. f_equal. apply (ext c B); [exact B1|exact HB|]. intros b Hb. apply (F1 b Hb).
Qed.
