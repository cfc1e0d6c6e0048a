(** * PropIter.v — property C83: looping over an instance with Python's iteration protocol. *)
From Coq Require Import String.
From Verif Require Import Jax StructModel ArrayModel ArrayFacts ShapeModel PropShape RowsModel RowsLift PropRows IterModel PropHeapArrays.

(** ** Specification *)
(** [r] is row [k] of [o]: every element of [r] is the element of [o] one index deeper *)
Definition is_row (c : class) (B : list nat) (k : nat) (o r : obj) : Prop :=
  batched c B r /\ forall b, inb b B -> elem b r = elem (k :: b) o.

Lemma item_row c d B o k : batched c (d :: B) o -> 0 < d -> exists r, item o k = Some r /\ is_row c B (Nat.min k (d - 1)) o r.
Proof.
  intros HB Hd. assert (HI : index_ok [IInt (Z.of_nat k)] (d :: B)) by (cbn; split; [lia|exact I]).
  destruct (C41_index c (d :: B) o _ HB HI) as [r [B' [E [EB [HR HE]]]]]. exists r. split; [exact E|].
  cbn [index_shape] in EB. destruct (Nat.eqb_spec d 0); [lia|]. assert (B' = B) by (destruct B; cbn in EB; congruence). subst B'.
  split; [exact HR|]. intros b Hb. destruct (HE b Hb) as [_ K]. rewrite K. do 2 f_equal.
  cbn [index_src]. destruct B as [|d' B]; cbn [index_src]; f_equal; unfold clamp_index; destruct (Z.ltb_spec (Z.of_nat k) 0); lia.
Qed.
Lemma produce_all c d B o : batched c (d :: B) o -> 0 < d -> forall fuel k, exists l, produce fuel k o = (l, false) /\ length l = fuel /\
  forall j, j < fuel -> exists r, nth_error l j = Some r /\ is_row c B (Nat.min (k + j) (d - 1)) o r.
Proof.
  intros HB Hd. induction fuel as [|f IH]; intros k; [exists []; cbn; repeat split; lia|]. cbn [produce].
  destruct (item_row c d B o k HB Hd) as [r [E HR]]. rewrite E. destruct (IH (S k)) as [l [EL [HL HJ]]]. rewrite EL. exists (r :: l). split; [reflexivity|]. split; [cbn; lia|].
  intros [|j] Hj; [exists r; cbn; rewrite Nat.add_0_r; auto|]. destruct (HJ j) as [r' [K1 K2]]; [lia|]. exists r'. cbn [nth_error]. replace (k + S j) with (S k + j) by lia. auto.
Qed.

(** ** C83 *)
(** the correct ways: an index loop over range(len(x)), and reversed(x), give every row once *)
Theorem C83_by_range : forall c d B o, c <> CNil -> solid c -> batched c (d :: B) o ->
  exists l, by_range c o = Some l /\ length l = d /\ forall k, k < d -> exists r, nth_error l k = Some r /\ is_row c B k o r.
Proof.
  intros c d B o HN HS HB. unfold by_range. assert (G : get_batch c o = Some (Batch (d :: B))) by (apply C40_reports; auto; apply HB). rewrite G. cbn [get_len].
  assert (K : forall m s, s + m <= d -> exists l, sequence (map (item o) (seq s m)) = Some l /\ length l = m /\ forall k, k < m -> exists r, nth_error l k = Some r /\ is_row c B (s + k) o r).
  { induction m as [|m IH]; intros s Hs; [exists []; cbn; repeat split; lia|]. cbn [seq map sequence].
    destruct (item_row c d B o s HB) as [r [E HR]]; [lia|]. rewrite E. destruct (IH (S s)) as [l [EL [HL HJ]]]; [lia|]. rewrite EL. exists (r :: l). split; [reflexivity|]. split; [cbn; lia|].
    intros [|k] Hk; [exists r; cbn; rewrite Nat.add_0_r; split; [reflexivity|]; replace (Nat.min s (d - 1)) with s in HR by lia; exact HR|].
    destruct (HJ k) as [r' [K1 K2]]; [lia|]. exists r'. cbn [nth_error]. replace (s + S k) with (S s + k) by lia. auto. }
  destruct (K d 0) as [l HL]; [lia|]. exists l. exact HL.
Qed.
Theorem C83_reversed : forall c d B o, c <> CNil -> solid c -> batched c (d :: B) o ->
  exists l, reversed_list c o = Some l /\ length l = d /\ forall k, k < d -> exists r, nth_error l k = Some r /\ is_row c B (d - 1 - k) o r.
Proof.
  intros c d B o HN HS HB. unfold reversed_list. assert (G : get_batch c o = Some (Batch (d :: B))) by (apply C40_reports; auto; apply HB). rewrite G. cbn [get_len].
  assert (K : forall m, m <= d -> length (back m o) = m /\ forall k, k < m -> exists r, nth_error (back m o) k = Some r /\ is_row c B (m - 1 - k) o r).
  { induction m as [|m IH]; intros Hm; [split; [reflexivity|lia]|]. cbn [back]. destruct (item_row c d B o m HB) as [r [E HR]]; [lia|]. rewrite E. destruct IH as [L HJ]; [lia|]. split; [cbn; lia|].
    intros [|k] Hk; [exists r; cbn [nth_error]; split; [reflexivity|]; replace (Nat.min m (d - 1)) with (S m - 1 - 0) in HR by lia; exact HR|].
    destruct (HJ k) as [r' [K1 K2]]; [lia|]. exists r'. cbn [nth_error]. replace (S m - 1 - S k) with (m - 1 - k) by lia. auto. }
  exists (back d o). split; [reflexivity|]. apply K. lia.
Qed.
(** a plain loop over a non-empty batch never ends: its first d items are the rows, all the
    others are the last row again, however long it runs *)
Theorem C83_loop_never_ends : forall c d B o, batched c (d :: B) o -> 0 < d -> forall fuel, exists l, produce fuel 0 o = (l, false) /\ length l = fuel /\
  forall j, j < fuel -> exists r, nth_error l j = Some r /\ is_row c B (Nat.min j (d - 1)) o r.
Proof. intros c d B o HB Hd fuel. exact (produce_all c d B o HB Hd fuel 0). Qed.
(** so [list(x)], [f( *x)], xnp.vstack(x) and x.vstack() have no result, *)
Theorem C83_no_list : forall c d B o, batched c (d :: B) o -> 0 < d -> forall fuel, whole_list fuel o = None.
Proof. intros c d B o HB Hd fuel. unfold whole_list. destruct (produce_all c d B o HB Hd fuel 0) as [l [E _]]. now rewrite E. Qed.
(** unpacking raises for every number of names, the right one included, *)
Theorem C83_unpack_raises : forall c d B o, batched c (d :: B) o -> 0 < d -> forall m, unpack m o = None.
Proof. intros c d B o HB Hd m. unfold unpack. destruct (produce_all c d B o HB Hd (S m) 0) as [l [E _]]. now rewrite E. Qed.
(** [zip(x, l)] is as long as [l], with the last row repeated when [l] is longer than the batch, *)
Theorem C83_zip : forall {A} c d B o (l : list A), batched c (d :: B) o -> 0 < d -> length (zip_from 0 o l) = length l /\
  forall j a, nth_error l j = Some a -> exists r, nth_error (zip_from 0 o l) j = Some (r, a) /\ is_row c B (Nat.min j (d - 1)) o r.
Proof.
  intros A c d B o l HB Hd.
  assert (K : forall l k, length (zip_from k o l) = length l /\ forall (j : nat) (a : A), nth_error l j = Some a -> exists r, nth_error (zip_from k o l) j = Some (r, a) /\ is_row c B (Nat.min (k + j) (d - 1)) o r).
  { clear l. induction l as [|x l IH]; intros k; cbn [zip_from]; destruct (item_row c d B o k HB Hd) as [r [E HR]]; rewrite E.
    - split; [reflexivity|]. intros [|j] a H; discriminate.
    - destruct (IH (S k)) as [L HJ]. split; [cbn; lia|]. intros [|j] a H; cbn [nth_error] in *.
      + injection H as <-. exists r. rewrite Nat.add_0_r. auto.
      + destruct (HJ j a H) as [r' [K1 K2]]. exists r'. replace (k + S j) with (S k + j) by lia. auto. }
  exact (K l 0).
Qed.
(** and [v in x] is decided exactly when some row is equal to [v]; it never answers False *)
Theorem C83_contains : forall c d B o eq, batched c (d :: B) o -> 0 < d ->
  (forall fuel, contains fuel 0 eq o <> Some false) /\
  ((exists fuel, contains fuel 0 eq o = Some true) <-> exists k r, k < d /\ item o k = Some r /\ eq r = true).
Proof.
  intros c d B o eq HB Hd.
  assert (HQ : forall r r', is_row c B (d - 1) o r -> is_row c B (d - 1) o r' -> eq r = eq r').
  { intros r r' [R1 R2] [R3 R4]. f_equal. apply (C41_extensional c B r r' R1 R3). intros b Hb. now rewrite R2, R4 by exact Hb. }
  split.
  - intros fuel. generalize 0. induction fuel as [|f IH]; intros k; cbn [contains]; [discriminate|]. destruct (item_row c d B o k HB Hd) as [r [E _]]. rewrite E. destruct (eq r); [discriminate|apply IH].
  - split.
    + intros [fuel H]. assert (K : exists k r, item o k = Some r /\ eq r = true).
      { revert H. generalize 0. induction fuel as [|f IH]; intros k H; cbn [contains] in H; [discriminate|]. destruct (item o k) as [r|] eqn:E; [|discriminate].
        destruct (eq r) eqn:EQ; [eauto|]. exact (IH _ H). }
      destruct K as [k [r [E EQ]]]. destruct (Nat.lt_ge_cases k d) as [Hk|Hk]; [eauto|].
      destruct (item_row c d B o k HB Hd) as [r1 [E1 R1]]. destruct (item_row c d B o (d - 1) HB Hd) as [r2 [E2 R2]].
      replace (Nat.min k (d - 1)) with (d - 1) in R1 by lia. rewrite Nat.min_id in R2. exists (d - 1), r2. split; [lia|]. split; [exact E2|]. assert (r1 = r) by congruence. subst r1. rewrite <- (HQ r r2 R1 R2). exact EQ.
    + intros [k [r [Hk [E EQ]]]].
      assert (K : forall n s, s + n = k -> exists fuel, contains fuel s eq o = Some true).
      { induction n as [|n IH]; intros s Hs.
        - exists 1. cbn. replace s with k by lia. now rewrite E, EQ.
        - destruct (IH (S s)) as [f Hf]; [lia|]. exists (S f). cbn [contains]. destruct (item_row c d B o s HB Hd) as [r0 [E0 _]]. rewrite E0. destruct (eq r0); [reflexivity|exact Hf]. }
      exact (K k 0 eq_refl).
Qed.

(** ** Instances without rows *)
Lemma index_none : (forall d v k B, has_v (0 :: B) d v -> solid_d d -> tmap_v (one (a_index [IInt k])) v [] = None) /\
  (forall c o k B, has_batch (0 :: B) c o -> solid c -> c <> CNil -> obj_index [IInt k] o = None).
Proof.
  apply desc_class_ind.
  - intros dt ish bits pb fill v k B H _. destruct v as [a|o]; [|destruct H]. cbn [has_v tmap_v sequence map one] in *. unfold a_index. rewrite H. reflexivity.
  - intros c IH ish v k B H [HN HS]. destruct v as [a|o]; [destruct H|]. cbn [has_v] in H. specialize (IH o k (B ++ ish) H HS HN). unfold obj_index, tree_map1 in IH.
    cbn [tmap_v sequence map]. now rewrite IH.
  - intros o k B H _ HN. congruence.
  - intros n d IHd r IHr o k B H [S1 S2] _. destruct o as [|m v q]; [destruct H|]. destruct H as [-> [H1 H2]]. unfold obj_index, tree_map1. cbn [tmap sequence map].
    now rewrite (IHd v k B H1 S1).
Qed.
(** an empty batch: the loop ends at once, as it should *)
Theorem C83_empty_batch : forall c B o, c <> CNil -> solid c -> has_batch (0 :: B) c o -> forall fuel, whole_list (S fuel) o = Some [].
Proof. intros c B o HN HS H fuel. unfold whole_list. cbn [produce]. unfold item. rewrite (proj2 index_none c o (Z.of_nat 0) B H HS HN). reflexivity. Qed.
(** a single instance with a scalar array field: nothing is produced (len says 1) *)
Fixpoint scalar_field (c : class) : Prop := match c with CNil => False | CCons _ (Prim _ [] _ _ _) _ => True | CCons _ _ r => scalar_field r end.
Theorem C83_single : forall c o, scalar_field c -> has_batch [] c o -> forall fuel, whole_list (S fuel) o = Some [].
Proof.
  intros c o HS H fuel. unfold whole_list. cbn [produce].
  assert (K : item o 0 = None).
  { unfold item, obj_index, tree_map1. revert o H. induction c as [|n d r IH]; intros o H; [destruct HS|]. destruct o as [|m v q]; [destruct H|]. destruct H as [-> [H1 H2]]. cbn [tmap sequence map].
    destruct d as [dt [|x ish] bits pb fill|k ish].
    - destruct v as [a|u]; [|destruct H1]. cbn [has_v app tmap_v sequence map one] in *. unfold a_index. rewrite H1. reflexivity.
    - cbn [scalar_field] in HS. rewrite (IH HS q H2). now destruct (tmap_v _ v []).
    - cbn [scalar_field] in HS. rewrite (IH HS q H2). now destruct (tmap_v _ v []). }
  now rewrite K.
Qed.
(** in both cases: unpacking succeeds into no names and raises for any others, [zip] is empty and
    [v in x] is False after one call *)
Lemma ends_at_once o : whole_list 1 o = Some [] -> item o 0 = None.
Proof. unfold whole_list. cbn [produce]. destruct (item o 0); [discriminate|reflexivity]. Qed.
Theorem C83_nothing : forall c o B, c <> CNil -> solid c -> (has_batch (0 :: B) c o \/ scalar_field c /\ has_batch [] c o) ->
  unpack 0 o = Some [] /\ (forall m, 0 < m -> unpack m o = None) /\ (forall A (l : list A), zip_from 0 o l = []) /\
  (forall eq fuel, contains (S fuel) 0 eq o = Some false).
Proof.
  intros c o B HN HS H.
  assert (K : item o 0 = None).
  { apply ends_at_once. destruct H as [H|[H1 H2]]; [exact (C83_empty_batch c B o HN HS H 0)|exact (C83_single c o H1 H2 0)]. }
  split; [unfold unpack; cbn [produce]; now rewrite K|]. split; [|split].
  - intros m Hm. unfold unpack. cbn [produce]. rewrite K. destruct m; [lia|reflexivity].
  - intros A [|a l]; cbn [zip_from]; now rewrite K.
  - intros eq fuel. cbn [contains]. now rewrite K.
Qed.
(** a single instance whose fields all have non-empty declared shapes is cut into its fields' first axes instead, without end *)
Theorem C83_single_refuted : exists c o, c <> CNil /\ solid c /\ batched c [] o /\ get_batch c o = Some (Batch []) /\ forall fuel, whole_list fuel o = None.
Proof.
  exists (CCons "v" (Prim (DUInt 8) [2] None false 0%Z) CNil)%string. exists (OCons "v" (VArr (MkArr (DUInt 8) [2] [5%Z; 6%Z])) ONil)%string.
  split; [discriminate|]. split; [cbn; tauto|]. split; [split; cbn; auto|]. split; [reflexivity|].
  assert (K : forall fuel k, snd (produce fuel k (OCons "v" (VArr (MkArr (DUInt 8) [2] [5%Z; 6%Z])) ONil)%string) = false).
  { induction fuel as [|f IH]; intros k; [reflexivity|]. cbn [produce]. unfold item at 1, obj_index, tree_map1. cbn [tmap sequence map tmap_v one]. unfold a_index at 1. cbn [ashape index_shape Nat.eqb].
    specialize (IH (S k)). destruct (produce f (S k) _) as [l e]. exact IH. }
  intros fuel. unfold whole_list. specialize (K fuel 0). destruct (produce fuel 0 _) as [l e]. cbn [snd] in K. now rewrite K.
Qed.
(** a concrete batch of three *)
Definition kid3 : class := (CCons "x" (Prim (DUInt 8) [] None false 0%Z) (CCons "n" (Nest (CCons "u" (Prim (DInt 32) [2] None false 0%Z) CNil) []) CNil))%string.
Definition obj3 : obj := (OCons "x" (VArr (MkArr (DUInt 8) [3] [1%Z; 2%Z; 3%Z])) (OCons "n" (VObj (OCons "u" (VArr (MkArr (DInt 32) [3; 2] [1%Z; 2%Z; 3%Z; 4%Z; 5%Z; 6%Z])) ONil)) ONil))%string.
Example C83_example : kid3 <> CNil /\ solid kid3 /\ batched kid3 [3] obj3 /\ option_map (@length obj) (by_range kid3 obj3) = Some 3 /\ length (fst (produce 10 0 obj3)) = 10 /\
  nth_error (fst (produce 10 0 obj3)) 2 = nth_error (fst (produce 10 0 obj3)) 9.
Proof. split; [discriminate|]. split; [cbn; intuition discriminate|]. split; [split; cbn; auto 10|]. split; [reflexivity|]. split; reflexivity. Qed.
Print Assumptions C83_contains.
Print Assumptions C83_nothing.
