(** * SortProofs.v — facts about keys and the stable sort. *)
From Verif Require Import Jax KeyModel.

Definition KLe (a b : key) : Prop := kle a b = true.

Lemma kle_refl a : kle a a = true.
Proof. destruct a; simpl; auto. apply Z.leb_refl. Qed.
Lemma kle_trans a b c : kle a b = true -> kle b c = true -> kle a c = true.
Proof. destruct a, b, c; simpl; auto; try discriminate. lia. Qed.
Lemma kle_total a b : kle a b = true \/ kle b a = true.
Proof. destruct a, b; simpl; auto. lia. Qed.
Lemma kle_false a b : kle a b = false -> kle b a = true.
Proof. intros H; destruct (kle_total a b) as [H1|H1]; congruence. Qed.
Lemma kle_antisym a b : kle a b = true -> kle b a = true -> a = b.
Proof. destruct a, b; simpl; try discriminate; auto. intros; f_equal; lia. Qed.
Lemma kgt_true a b : kgt a b = true -> kle a b = false.
Proof. unfold kgt. destruct (kle a b); simpl; congruence. Qed.
Lemma kgt_false a b : kgt a b = false -> kle a b = true.
Proof. unfold kgt. destruct (kle a b); simpl; congruence. Qed.
Lemma kmin_le_l a b : kle (kmin a b) a = true.
Proof. unfold kmin. destruct (kle a b) eqn:E; [apply kle_refl | apply kle_false; exact E]. Qed.
Lemma kmin_le_r a b : kle (kmin a b) b = true.
Proof. unfold kmin. destruct (kle a b) eqn:E; [exact E | apply kle_refl]. Qed.
Lemma kle_PInf a : kle a PInf = true. Proof. destruct a; reflexivity. Qed.
Lemma kle_PInf_inv a : kle PInf a = true -> a = PInf.
Proof. destruct a; simpl; congruence. Qed.
#[global] Hint Resolve kle_refl kle_PInf : core.

Section S.
Context {W : Type}.
Notation item := (key * W)%type.
Implicit Types x y : (key * W)%type.
Implicit Types l a b c : list (key * W).

(** [l] is sorted by key. *)
Definition ile (x y : item) : Prop := kle (fst x) (fst y) = true.
Definition sorted (l : list item) : Prop := StronglySorted ile l.
(** every key of [a] is <= every key of [b] *)
Definition below (a b : list item) : Prop := forall x y, In x a -> In y b -> ile x y.

Lemma ile_refl x : ile x x. Proof. apply kle_refl. Qed.
Lemma ile_trans x y z : ile x y -> ile y z -> ile x z.
Proof. unfold ile; apply kle_trans. Qed.
Lemma ile_total x y : ile x y \/ ile y x. Proof. apply kle_total. Qed.

Lemma sinsert_perm x l : Permutation (sinsert x l) (x :: l).
Proof.
  induction l as [|y t IH]; simpl; [reflexivity|].
  destruct (kle (fst x) (fst y)); [reflexivity|].
  rewrite IH. apply perm_swap.
Qed.

Lemma ssort_perm l : Permutation (ssort l) l.
Proof.
  induction l as [|x t IH]; simpl; [constructor|].
  rewrite sinsert_perm. apply perm_skip. exact IH.
Qed.

Lemma ssort_length l : length (ssort l) = length l.
Proof. apply Permutation_length, ssort_perm. Qed.

Lemma sinsert_sorted x l : sorted l -> sorted (sinsert x l).
Proof.
  unfold sorted. induction l as [|y t IH]; intros H; simpl.
  - repeat constructor.
  - inversion H as [|? ? Ht Hy]; subst.
    destruct (kle (fst x) (fst y)) eqn:E.
    + constructor; [assumption|]. constructor; [exact E|].
      eapply Forall_impl; [|exact Hy]. intros z Hz. eapply ile_trans; [exact E|exact Hz].
    + constructor; [apply IH; assumption|].
      eapply Permutation_Forall; [symmetry; apply sinsert_perm|].
      constructor; [apply kle_false; exact E | exact Hy].
Qed.

Lemma ssort_sorted l : sorted (ssort l).
Proof. induction l as [|x t IH]; simpl; [constructor|]. apply sinsert_sorted; exact IH. Qed.

Lemma sorted_app a b : sorted (a ++ b) <-> sorted a /\ sorted b /\ below a b.
Proof.
  unfold sorted. induction a as [|x a IH]; simpl.
  - split; [intros H; repeat split; [constructor|assumption|intros ? ? []] | tauto].
  - split.
    + intros H. inversion H as [|? ? H1 H2]; subst. apply IH in H1 as (Ha & Hb & Hab).
      apply Forall_app in H2 as [H2a H2b].
      repeat split; [constructor; assumption|assumption|].
      intros u v [->|Hu] Hv; [rewrite Forall_forall in H2b; auto|auto].
    + intros (H1 & H2 & H3). inversion H1 as [|? ? H1a H1b]; subst. constructor.
      * apply IH. repeat split; auto. intros u v Hu Hv; apply H3; simpl; auto.
      * apply Forall_app; split; [assumption|]. apply Forall_forall. intros v Hv.
        apply H3; simpl; auto.
Qed.

Lemma sorted_cons x l : sorted (x :: l) <-> (forall y, In y l -> ile x y) /\ sorted l.
Proof.
  unfold sorted. split.
  - intros H. inversion H as [|? ? H1 H2]; subst. rewrite Forall_forall in H2. auto.
  - intros [H1 H2]. constructor; [assumption|]. apply Forall_forall; assumption.
Qed.

Lemma ssort_id l : sorted l -> ssort l = l.
Proof.
  induction l as [|x t IH]; intros H; simpl; [reflexivity|].
  apply sorted_cons in H as [H1 H2]. rewrite IH by assumption.
  destruct t as [|y t]; simpl; [reflexivity|].
  assert (E : kle (fst x) (fst y) = true) by (apply H1; simpl; auto).
  rewrite E. reflexivity.
Qed.

Lemma last_In (l : list item) d : l <> [] -> In (last l d) l.
Proof.
  induction l as [|x t IH]; intros H; [congruence|]. destruct t as [|y t]; [left; reflexivity|].
  right. apply IH. discriminate.
Qed.

Lemma sorted_last x l d : sorted l -> In x l -> ile x (last l d).
Proof.
  induction l as [|y t IH]; intros H Hx; [destruct Hx|].
  apply sorted_cons in H as [H1 H2]. destruct t as [|z t].
  - destruct Hx as [->|[]]. apply ile_refl.
  - change (last (y :: z :: t) d) with (last (z :: t) d).
    destruct Hx as [->|Hx]; [|apply IH; assumption].
    apply H1, last_In. discriminate.
Qed.

Lemma below_perm_l a a' b : Permutation a a' -> below a b -> below a' b.
Proof. intros HP H x y Hx Hy. apply H; [|assumption]. eapply Permutation_in; [symmetry; exact HP|exact Hx]. Qed.
Lemma below_perm_r a b b' : Permutation b b' -> below a b -> below a b'.
Proof. intros HP H x y Hx Hy. apply H; [assumption|]. eapply Permutation_in; [symmetry; exact HP|exact Hy]. Qed.
Lemma below_app_l a b c : below (a ++ b) c <-> below a c /\ below b c.
Proof.
  unfold below. split.
  - intros H; split; intros x y Hx Hy; apply H; auto; apply in_or_app; auto.
  - intros [H1 H2] x y Hx Hy. apply in_app_or in Hx as [Hx|Hx]; auto.
Qed.
Lemma below_app_r a b c : below a (b ++ c) <-> below a b /\ below a c.
Proof.
  unfold below. split.
  - intros H; split; intros x y Hx Hy; apply H; auto; apply in_or_app; auto.
  - intros [H1 H2] x y Hx Hy. apply in_app_or in Hy as [Hy|Hy]; auto.
Qed.

(** counting *)
Definition cnt (f : item -> bool) (l : list item) : nat := length (filter f l).
Lemma cnt_app f a b : cnt f (a ++ b) = cnt f a + cnt f b.
Proof. unfold cnt. rewrite filter_app, app_length. reflexivity. Qed.
Lemma filter_perm (f : item -> bool) a b : Permutation a b -> Permutation (filter f a) (filter f b).
Proof.
  induction 1 as [|x a b H IH|x y a|a b c H1 IH1 H2 IH2]; simpl; auto.
  - destruct (f x); auto.
  - destruct (f x), (f y); auto. apply perm_swap.
  - etransitivity; eauto.
Qed.
Lemma cnt_perm f a b : Permutation a b -> cnt f a = cnt f b.
Proof. intros H. apply Permutation_length, filter_perm, H. Qed.
Lemma cnt_le f l : cnt f l <= length l.
Proof. unfold cnt. induction l as [|x t IH]; simpl; [lia|]. destruct (f x); simpl; lia. Qed.
Lemma cnt_all f l : (forall x, In x l -> f x = true) -> cnt f l = length l.
Proof.
  unfold cnt. induction l as [|x t IH]; intros H; simpl; [reflexivity|].
  rewrite (H x) by (left; reflexivity). simpl. f_equal. apply IH. intros y Hy; apply H; right; exact Hy.
Qed.
Lemma cnt_none f l : (forall x, In x l -> f x = false) -> cnt f l = 0.
Proof.
  unfold cnt. induction l as [|x t IH]; intros H; simpl; [reflexivity|].
  rewrite (H x) by (left; reflexivity). apply IH. intros y Hy; apply H; right; exact Hy.
Qed.
Lemma cnt_full f l : cnt f l = length l -> forall x, In x l -> f x = true.
Proof.
  unfold cnt. induction l as [|x t IH]; intros H y Hy; [destruct Hy|].
  simpl in H. pose proof (cnt_le f t) as Hl. unfold cnt in Hl.
  destruct (f x) eqn:E; simpl in H; [|lia].
  destruct Hy as [<-|Hy]; [exact E|]. apply IH; [lia|exact Hy].
Qed.

(** Splitting a sorted permutation of [a ++ b] at [length a]. *)
Section Split.
Variables a b lo hi : list item.
Hypothesis HP : Permutation (lo ++ hi) (a ++ b).
Hypothesis HS : sorted (lo ++ hi).
Hypothesis HL : length lo = length a.

Lemma split_below : below lo hi.
Proof. apply sorted_app in HS. tauto. Qed.

(** any upper bound of [a] is an upper bound of the smaller half *)
Lemma split_dominated z : (forall x, In x a -> kle (fst x) z = true) ->
  forall x, In x lo -> kle (fst x) z = true.
Proof.
  intros Ha x Hx. destruct (kle (fst x) z) eqn:E; [reflexivity|exfalso].
  pose (f := fun p : item => kle (fst p) z).
  assert (H1 : cnt f hi = 0).
  { apply cnt_none. intros y Hy. unfold f. destruct (kle (fst y) z) eqn:E2; [|reflexivity].
    pose proof (split_below x y Hx Hy) as Hxy. unfold ile in Hxy.
    rewrite (kle_trans _ _ _ Hxy E2) in E. discriminate. }
  assert (H2 : cnt f a = length a) by (apply cnt_all; exact Ha).
  pose proof (cnt_perm f _ _ HP) as H3. rewrite !cnt_app in H3.
  assert (H4 : cnt f lo < length lo).
  { destruct (Nat.eq_dec (cnt f lo) (length lo)) as [H4|H4].
    - pose proof (cnt_full f lo H4 x Hx) as H5. unfold f in H5. congruence.
    - pose proof (cnt_le f lo). lia. }
  lia.
Qed.

(** any lower bound of [b] that ... : any lower bound of both is a lower bound of all *)
Lemma split_lower z : (forall x, In x (a ++ b) -> kle z (fst x) = true) ->
  forall x, In x (lo ++ hi) -> kle z (fst x) = true.
Proof. intros H x Hx. apply H. eapply Permutation_in; [exact HP|exact Hx]. Qed.

Lemma split_len_hi : length hi = length b.
Proof. pose proof (Permutation_length HP) as H. rewrite !app_length in H. lia. Qed.
End Split.
End S.
