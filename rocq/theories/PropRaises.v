(** * PropRaises.v — properties C41 and C52: what is not a permutation of the batch axes, or names
      an axis twice, is refused by the shape functions. *)
From Coq Require Import String.
From Verif Require Import Jax StructModel ArrayModel ArrayFacts ShapeModel PropShape RowsModel RowsLift PropRows PropRows2 PropRows3 PropRows4 EqModel FloatEq PropEq RowsModel2 PropRows5 PropRows6 PropSlice.

Lemma nodupb_iff l : nodupb l = true <-> NoDup l.
Proof.
  split; [|apply nodupb_true]. induction l as [|x l IH]; cbn [nodupb]; intros H; [constructor|]. apply andb_prop in H. destruct H as [H1 H2]. constructor; [|now apply IH].
  intros HI. apply negb_true_iff in H1. rewrite (proj2 (existsb_exists _ _)) in H1; [discriminate|]. exists x. split; [exact HI|apply Nat.eqb_refl].
Qed.
Lemma nodupb_false l : ~ NoDup l -> nodupb l = false.
Proof. intros H. destruct (nodupb l) eqn:E; [apply nodupb_iff in E; contradiction|reflexivity]. Qed.
Lemma norm_axes_out ks n : (exists k, In k ks /\ n <= k) -> norm_axes (map Z.of_nat ks) n = None.
Proof.
  induction ks as [|k ks IH]; intros (k0 & H & HK); [destruct H|]. cbn [map norm_axes]. destruct H as [->|H].
  - unfold norm_axis. destruct (Z.ltb_spec (Z.of_nat k0) 0); [lia|]. destruct (Z.ltb_spec (Z.of_nat k0) (Z.of_nat n)); [lia|reflexivity].
  - rewrite IH by (exists k0; auto). now destruct (norm_axis (Z.of_nat k) n).
Qed.
Lemma in_range ks n : (forall k, In k ks -> k < n) \/ (exists k, In k ks /\ n <= k).
Proof.
  induction ks as [|k ks [IH|(k0 & H & HK)]]; [left; intros k []| |right; exists k0; split; [now right|exact HK]].
  destruct (Nat.lt_ge_cases k n) as [L|L]; [left; intros k0 [->|H]; auto|right; exists k; split; [now left|exact L]].
Qed.

(** transpose: only the permutations of the batch axes *)
Theorem C41_transpose_refused : forall c B o ks, c <> CNil -> solid c -> batched c B o -> ~ perm_axes ks (length B) ->
  obj_transpose c (Some (map Z.of_nat ks)) o = None.
Proof.
  intros c B o ks HN HS [HC HB] HP. unfold obj_transpose. rewrite (proj2 (C40_reports c o B HN HS HC) HB).
  refine (proj2 (tmap1_none (leaf_transpose (length B) (map Z.of_nat ks)) B _) c [] o HN HS _); [|now rewrite app_nil_r].
  intros a J HA. unfold leaf_transpose. assert (HD : ndim a = length B + length J) by (unfold ndim; now rewrite HA, app_length).
  destruct (Nat.ltb_spec (ndim a) (length B)); [lia|]. unfold a_transpose. rewrite <- map_app, HD. replace (length B + length J - length B) with (length J) by lia.
  destruct (in_range (ks ++ seq (length B) (length J)) (length B + length J)) as [R|R]; [|now rewrite norm_axes_out].
  rewrite norm_axes_nat by exact R. destruct (Nat.eqb_spec (length (ks ++ seq (length B) (length J))) (length B + length J)) as [L|L]; [|reflexivity]. cbn [andb].
  rewrite app_length, seq_length in L. rewrite nodupb_false; [reflexivity|]. intros ND. apply HP. split; [|split; [lia|]].
  - clear -ND. induction ks as [|k ks IH]; [constructor|]. cbn [app] in ND. inversion ND; subst. constructor; [|now apply IH]. intros HI. apply H1. apply in_or_app. now left.
  - intros k Hk. destruct (Nat.lt_ge_cases k (length B)) as [H1|H1]; [exact H1|exfalso].
    assert (HI : In k (seq (length B) (length J))) by (apply in_seq; specialize (R k (in_or_app _ _ _ (or_introl Hk))); lia).
    apply in_split in Hk. destruct Hk as (l1 & l2 & ->). rewrite <- app_assoc in ND. cbn [app] in ND. apply NoDup_remove_2 in ND. apply ND. rewrite !in_app_iff. auto.
Qed.
(** moveaxis: as many destinations as sources, none of them twice *)
Theorem C52_moveaxis_refused : forall c B o s d, c <> CNil -> solid c -> batched c B o ->
  (length s <> length d \/ ~ NoDup s \/ ~ NoDup d) -> (forall k, In k s -> k < length B) -> (forall k, In k d -> k < length B) ->
  obj_moveaxis (map Z.of_nat s) (map Z.of_nat d) o = None.
Proof.
  intros c B o s d HN HS [HC HB] HX Hs Hd. refine (proj2 (tmap1_none (a_moveaxis (map Z.of_nat s) (map Z.of_nat d)) B _) c [] o HN HS _); [|now rewrite app_nil_r].
  intros a J HA. assert (HD : ndim a = length B + length J) by (unfold ndim; now rewrite HA, app_length). unfold a_moveaxis. rewrite HD.
  rewrite !norm_axes_nat by (intros k Hk; first [specialize (Hs k Hk)|specialize (Hd k Hk)]; lia).
  destruct (Nat.eqb_spec (length s) (length d)) as [L|L]; [|reflexivity]. destruct HX as [HX|[HX|HX]]; [contradiction|rewrite (nodupb_false s) by exact HX; reflexivity|].
  rewrite (nodupb_false d) by exact HX. now rewrite andb_false_r.
Qed.
(** flip: no axis twice *)
Theorem C52_flip_refused : forall c B o ks, c <> CNil -> solid c -> batched c B o -> ~ NoDup ks -> (forall k, In k ks -> k < length B) ->
  obj_flips (map Z.of_nat ks) o = None.
Proof.
  intros c B o ks HN HS [HC HB] HX Hk. refine (proj2 (tmap1_none (a_flips (map Z.of_nat ks)) B _) c [] o HN HS _); [|now rewrite app_nil_r].
  intros a J HA. assert (HD : ndim a = length B + length J) by (unfold ndim; now rewrite HA, app_length). unfold a_flips. rewrite HD.
  rewrite norm_axes_nat by (intros k H; specialize (Hk k H); lia). now rewrite nodupb_false.
Qed.
(** rot90: two different axes, also for a turn of 0 *)
Theorem C52_rot90_refused : forall c B o k i, c <> CNil -> solid c -> batched c B o -> i < length B -> obj_rot90 k (Z.of_nat i, Z.of_nat i) o = None.
Proof.
  intros c B o k i HN HS [HC HB] Hi. refine (proj2 (tmap1_none (a_rot90 k (Z.of_nat i, Z.of_nat i)) B _) c [] o HN HS _); [|now rewrite app_nil_r].
  intros a J HA. assert (HD : ndim a = length B + length J) by (unfold ndim; now rewrite HA, app_length). unfold a_rot90. cbn [fst snd]. rewrite HD.
  rewrite norm_axis_pos by lia. now rewrite Nat.eqb_refl.
Qed.
Example refused_ex : batched cell [2; 3] grid /\ ~ perm_axes [1; 1] 2 /\ obj_transpose cell (Some [1%Z; 1%Z]) grid = None /\ ~ perm_axes [0] 2 /\ obj_transpose cell (Some [0%Z]) grid = None
  /\ obj_moveaxis [0%Z; 0%Z] [0%Z; 1%Z] grid = None /\ obj_flips [1%Z; 1%Z] grid = None /\ obj_rot90 0%Z (1%Z, 1%Z) grid = None.
Proof.
  split; [exact (proj1 C52_moveaxis_negative_refuted)|]. split; [intros (H & _); inversion H as [|x l H1 H2 E]; apply H1; now left|]. split; [vm_compute; reflexivity|]. split; [intros (_ & H & _); discriminate|].
  split; [vm_compute; reflexivity|]. split; [vm_compute; reflexivity|]. split; vm_compute; reflexivity.
Qed.
