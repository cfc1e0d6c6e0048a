(** * StableSort.v — generic stable sort, argmax, grouping of sorted arrays.

    [isort] is the model of every stable sort in the code ([jnp.argsort(stable=True)],
    [jax.lax.sort(is_stable=True)]): all stable sorts compute the same list, and
    insertion sort is one of them.                                             *)
From Verif Require Import Jax.

Section Sort.
Context {A : Type} (leb : A -> A -> bool).
Fixpoint iinsert (x : A) (l : list A) : list A :=
  match l with
  | [] => [x]
  | y :: t => if leb x y then x :: y :: t else y :: iinsert x t
  end.
Definition isort (l : list A) : list A := fold_right iinsert [] l.

Lemma iinsert_perm x l : Permutation (iinsert x l) (x :: l).
Proof.
  induction l as [|y t IH]; cbn [iinsert]; [apply Permutation_refl|].
  destruct (leb x y); [apply Permutation_refl|]. rewrite IH. apply perm_swap.
Qed.
Lemma isort_perm l : Permutation (isort l) l.
Proof.
  induction l as [|x l IH]; [apply Permutation_refl|].
  change (isort (x :: l)) with (iinsert x (isort l)). rewrite iinsert_perm. apply perm_skip, IH.
Qed.
Lemma isort_length l : length (isort l) = length l.
Proof. apply Permutation_length, isort_perm. Qed.

Hypothesis leb_trans : forall a b c, leb a b = true -> leb b c = true -> leb a c = true.
Hypothesis leb_total : forall a b, leb a b = false -> leb b a = true.
Lemma iinsert_sorted x l : StronglySorted (fun a b => leb a b = true) l ->
  StronglySorted (fun a b => leb a b = true) (iinsert x l).
Proof.
  induction 1 as [|y t Ht IH Hy]; cbn [iinsert]; [repeat constructor|].
  destruct (leb x y) eqn:E.
  - constructor; [constructor; assumption|]. constructor; [exact E|].
    eapply Forall_impl; [|exact Hy]. intros z Hz. eapply leb_trans; eassumption.
  - constructor; [exact IH|]. eapply Permutation_Forall; [apply Permutation_sym, iinsert_perm|].
    constructor; [apply leb_total; exact E|exact Hy].
Qed.
Lemma isort_sorted l : StronglySorted (fun a b => leb a b = true) (isort l).
Proof. induction l as [|x l IH]; [constructor|]. apply iinsert_sorted, IH. Qed.

(** stability: sorting keeps a secondary order [R] among elements that compare equal *)
Variable R : A -> A -> Prop.
Definition lexle (a b : A) : Prop := leb a b = true /\ (leb b a = true -> R a b).
Lemma isort_stable l : StronglySorted R l -> StronglySorted lexle (isort l).
Proof.
  induction 1 as [|x l Hl IH Hx]; [constructor|].
  change (isort (x :: l)) with (iinsert x (isort l)).
  assert (Forall (R x) (isort l)) as HR by (eapply Permutation_Forall; [apply Permutation_sym, isort_perm|exact Hx]).
  clear Hx Hl. induction IH as [|y t Ht IH2 Hy]; cbn [iinsert]; [repeat constructor|].
  inversion HR as [|y' t' HRy HRt]; subst. destruct (leb x y) eqn:E.
  - constructor; [constructor; assumption|]. constructor; [split; [exact E|intros _; exact HRy]|].
    apply Forall_forall. intros z Hz. eapply Forall_forall in Hy; [|exact Hz]. destruct Hy as [Hyz _].
    split; [eapply leb_trans; eassumption|]. intros _. eapply Forall_forall in HRt; [|exact Hz]. exact HRt.
  - constructor; [apply IH2; exact HRt|]. eapply Permutation_Forall; [apply Permutation_sym, iinsert_perm|].
    constructor; [|exact Hy]. split; [apply leb_total; exact E|]. intros E'. congruence.
Qed.
End Sort.

(** [jnp.argmax] of a boolean vector: first [True], else 0. *)
Fixpoint first_true (l : list bool) : option nat :=
  match l with [] => None | true :: _ => Some 0 | false :: t => option_map S (first_true t) end.
Definition argmax (l : list bool) : nat := match first_true l with Some i => i | None => 0 end.

Lemma first_true_some l i : first_true l = Some i ->
  i < length l /\ nth i l false = true /\ forall j, j < i -> nth j l false = false.
Proof.
  revert i; induction l as [|b l IH]; intros i H; [discriminate|]. destruct b; cbn in H.
  - injection H as <-. cbn. repeat split; [lia|intros j Hj; lia].
  - destruct (first_true l) as [k|] eqn:E; [|discriminate]. injection H as <-.
    destruct (IH k eq_refl) as (H1 & H2 & H3). cbn [length nth]. repeat split; [lia|exact H2|].
    intros [|j] Hj; [reflexivity|apply H3; lia].
Qed.
Lemma first_true_none l : first_true l = None -> forall j, nth j l false = false.
Proof.
  induction l as [|b l IH]; intros H j; [destruct j; reflexivity|]. destruct b; [discriminate|]. cbn in H.
  destruct (first_true l) eqn:E; [discriminate|]. destruct j; [reflexivity|apply IH; reflexivity].
Qed.
Lemma existsb_id_first l : existsb (fun b => b) l = match first_true l with Some _ => true | None => false end.
Proof.
  induction l as [|b l IH]; [reflexivity|]. destruct b; [reflexivity|]. cbn. rewrite IH. destruct (first_true l); reflexivity.
Qed.
Lemma argmax_spec l : existsb (fun b => b) l = true -> argmax l < length l /\ nth (argmax l) l false = true.
Proof.
  rewrite existsb_id_first. unfold argmax. destruct (first_true l) as [i|] eqn:E; [|discriminate].
  intros _. destruct (first_true_some l i E) as (H1 & H2 & _). split; assumption.
Qed.
Lemma existsb_id_false l : existsb (fun b => b) l = false -> forall j, nth j l false = false.
Proof. rewrite existsb_id_first. destruct (first_true l) eqn:E; [discriminate|]. intros _. apply first_true_none; exact E. Qed.

(** [x[1:] != x[:-1]] for a sorted array and [concatenate([True], ...)]. *)
Section Group.
Context {K : Type} (keqb : K -> K -> bool).
Fixpoint changed_from (prev : K) (l : list K) : list bool :=
  match l with [] => [] | k :: t => negb (keqb k prev) :: changed_from k t end.
Definition row_changed (l : list K) : list bool := match l with [] => [] | k :: t => changed_from k t end.
Definition group_start (l : list K) : list bool := match l with [] => [] | _ => true :: row_changed l end.
(** [cumsum(starts) - 1] *)
Fixpoint cumsum_from (acc : nat) (l : list bool) : list nat :=
  match l with [] => [] | b :: t => let a := acc + Nat.b2n b in a :: cumsum_from a t end.
Definition group_id (l : list K) : list nat := map pred (cumsum_from 0 (group_start l)).
End Group.

Section GroupFacts.
Context {K : Type} (keqb : K -> K -> bool) (kd : K).
Hypothesis keqb_eq : forall a b, keqb a b = true <-> a = b.
(** equal keys are adjacent *)
Definition contiguous (l : list K) : Prop :=
  forall p q r, p < q -> q < r -> r < length l -> nth p l kd = nth r l kd -> nth q l kd = nth p l kd.

Lemma changed_from_length prev l : length (changed_from keqb prev l) = length l.
Proof. revert prev; induction l; intros prev; cbn; auto. Qed.
Lemma group_start_length l : length (group_start keqb l) = length l.
Proof. destruct l as [|k t]; [reflexivity|]. cbn. rewrite changed_from_length. reflexivity. Qed.
Lemma changed_from_nth prev l p : p < length l ->
  nth p (changed_from keqb prev l) false = negb (keqb (nth p l kd) (nth p (prev :: l) kd)).
Proof.
  revert prev p; induction l as [|k t IH]; intros prev p H; [cbn in H; lia|].
  destruct p as [|p]; [reflexivity|]. cbn [changed_from nth length] in *. rewrite IH by lia. reflexivity.
Qed.
Lemma group_start_0 l : l <> [] -> nth 0 (group_start keqb l) false = true.
Proof. destruct l; [congruence|reflexivity]. Qed.
Lemma group_start_S l p : S p < length l ->
  nth (S p) (group_start keqb l) false = negb (keqb (nth (S p) l kd) (nth p l kd)).
Proof.
  destruct l as [|k t]; cbn [length]; intros H; [lia|]. cbn [group_start row_changed nth]. rewrite changed_from_nth by lia. reflexivity.
Qed.
Lemma keqb_neq a b : keqb a b = false <-> a <> b.
Proof.
  split; [intros E H; rewrite (proj2 (keqb_eq a b) H) in E; discriminate|].
  intros H. destruct (keqb a b) eqn:E; [apply keqb_eq in E; contradiction|reflexivity].
Qed.
(** a start is a first occurrence *)
Lemma group_start_spec l p : contiguous l -> p < length l ->
  (nth p (group_start keqb l) false = true <-> forall q, q < p -> nth q l kd <> nth p l kd).
Proof.
  intros C Hp. destruct p as [|p].
  - rewrite group_start_0 by (destruct l; [cbn in Hp; lia|discriminate]). split; [intros _ q Hq; lia|reflexivity].
  - rewrite group_start_S by exact Hp. rewrite negb_true_iff, keqb_neq. split.
    + intros Hne q Hq E. destruct (Nat.eq_dec q p) as [->|Hqp]; [congruence|].
      apply Hne. rewrite <- E. symmetry. apply (C q p (S p)); auto; lia.
    + intros H E. apply (H p); [lia|congruence].
Qed.
Lemma cumsum_from_length a l : length (cumsum_from a l) = length l.
Proof. revert a; induction l; intros a0; cbn; auto. Qed.
Lemma cumsum_from_S a l p : S p < length l ->
  nth (S p) (cumsum_from a l) 0 = nth p (cumsum_from a l) 0 + Nat.b2n (nth (S p) l false).
Proof.
  revert a p; induction l as [|b l IH]; intros a p H; [cbn in H; lia|]. cbn [cumsum_from length] in *.
  destruct p as [|p].
  - destruct l as [|b' l]; [cbn in H; lia|]. cbn. reflexivity.
  - cbn [nth]. rewrite IH by lia. reflexivity.
Qed.
Lemma group_id_length l : length (group_id keqb l) = length l.
Proof. unfold group_id. rewrite map_length, cumsum_from_length, group_start_length. reflexivity. Qed.
Lemma cumsum_pos l p : p < length l -> 1 <= nth p (cumsum_from 0 (group_start keqb l)) 0 <= S p.
Proof.
  intros H. induction p as [|p IH].
  - destruct l as [|k t]; [cbn in H; lia|]. cbn. lia.
  - specialize (IH ltac:(lia)). rewrite cumsum_from_S by (rewrite group_start_length; exact H).
    destruct (nth (S p) (group_start keqb l) false); cbn [Nat.b2n]; lia.
Qed.
Lemma group_id_nth l p : p < length l -> nth p (group_id keqb l) 0 = pred (nth p (cumsum_from 0 (group_start keqb l)) 0).
Proof. intros H. unfold group_id. exact (map_nth pred (cumsum_from 0 (group_start keqb l)) 0 p). Qed.
Lemma group_id_lt l p : p < length l -> nth p (group_id keqb l) 0 <= p.
Proof. intros H. rewrite group_id_nth by exact H. pose proof (cumsum_pos l p H). lia. Qed.
Lemma group_id_S l p : S p < length l ->
  nth (S p) (group_id keqb l) 0 = nth p (group_id keqb l) 0 + Nat.b2n (negb (keqb (nth (S p) l kd) (nth p l kd))).
Proof.
  intros H. rewrite !group_id_nth by lia. rewrite cumsum_from_S by (rewrite group_start_length; exact H).
  rewrite group_start_S by exact H. pose proof (cumsum_pos l p ltac:(lia)). lia.
Qed.
Lemma group_id_mono l p n : p + n < length l -> nth p (group_id keqb l) 0 <= nth (p + n) (group_id keqb l) 0.
Proof.
  induction n as [|n IH]; intros H; [rewrite Nat.add_0_r; lia|]. rewrite Nat.add_succ_r in *.
  rewrite group_id_S by exact H. specialize (IH ltac:(lia)). lia.
Qed.
Lemma group_id_eq_le l p n : contiguous l -> p + n < length l ->
  (nth p (group_id keqb l) 0 = nth (p + n) (group_id keqb l) 0 <-> nth p l kd = nth (p + n) l kd).
Proof.
  intros C. induction n as [|n IH]; intros H; [rewrite Nat.add_0_r; tauto|]. rewrite Nat.add_succ_r in *.
  rewrite group_id_S by exact H. specialize (IH ltac:(lia)). pose proof (group_id_mono l p n ltac:(lia)).
  split.
  - intros E. destruct (keqb (nth (S (p + n)) l kd) (nth (p + n) l kd)) eqn:EK; cbn [negb Nat.b2n] in E; [|lia].
    apply keqb_eq in EK. rewrite EK. apply IH. lia.
  - intros E. assert (nth p l kd = nth (p + n) l kd) as E2.
    { destruct (Nat.eq_dec n 0) as [->|Hn]; [rewrite Nat.add_0_r; reflexivity|]. symmetry. apply (C p (p + n) (S (p + n))); auto; lia. }
    rewrite (proj2 (keqb_eq _ _)) by congruence. cbn. apply IH in E2. lia.
Qed.
Lemma group_id_eq l p q : contiguous l -> p < length l -> q < length l ->
  (nth p (group_id keqb l) 0 = nth q (group_id keqb l) 0 <-> nth p l kd = nth q l kd).
Proof.
  intros C Hp Hq. destruct (Nat.le_ge_cases p q) as [H|H].
  - replace q with (p + (q - p)) by lia. apply group_id_eq_le; [exact C|lia].
  - replace p with (q + (p - q)) by lia. pose proof (group_id_eq_le l q (p - q) C ltac:(lia)) as E. split; intros; symmetry; apply E; congruence.
Qed.
End GroupFacts.

Lemma StronglySorted_nth {A} (R : A -> A -> Prop) (dd : A) l : StronglySorted R l ->
  forall p q, p < q -> q < length l -> R (nth p l dd) (nth q l dd).
Proof.
  induction 1 as [|x l Hl IH Hx]; intros p q Hpq Hq; [cbn in Hq; lia|].
  destruct q as [|q]; [lia|]. cbn [length] in Hq. destruct p as [|p]; cbn [nth].
  - rewrite Forall_forall in Hx. apply Hx. apply nth_In. lia.
  - apply IH; lia.
Qed.
Lemma StronglySorted_map_nth {A} (R : A -> A -> Prop) (dd : A) l :
  (forall p q, p < q -> q < length l -> R (nth p l dd) (nth q l dd)) -> StronglySorted R l.
Proof.
  induction l as [|x l IH]; intros H; [constructor|]. constructor.
  - apply IH. intros p q Hpq Hq. apply (H (S p) (S q)); cbn [length]; lia.
  - apply Forall_forall. intros y Hy. apply (In_nth _ _ dd) in Hy. destruct Hy as (i & Hi & <-).
    apply (H 0 (S i)); cbn [length]; lia.
Qed.
(** scattering with distinct targets *)
Lemma scatter_nth {A B : Type} (f : B -> nat) (v : B -> A) (dd : A) : forall (l : list B) (init : list A),
  NoDup (map f l) ->
  (forall r, In r l -> f r < length init -> nth (f r) (fold_left (fun acc r => upd acc (f r) (v r)) l init) dd = v r) /\
  (forall i, ~ In i (map f l) -> nth i (fold_left (fun acc r => upd acc (f r) (v r)) l init) dd = nth i init dd) /\
  length (fold_left (fun acc r => upd acc (f r) (v r)) l init) = length init.
Proof.
  induction l as [|a l IH]; intros init ND; cbn [fold_left map].
  - split; [intros r []|split; auto].
  - cbn [map] in ND. inversion ND as [|x y Hn HND]; subst. destruct (IH (upd init (f a) (v a)) HND) as (H1 & H2 & H3).
    rewrite upd_length in *. split; [|split].
    + intros r [->|Hr] HL; [|apply H1; assumption].
      rewrite H2 by exact Hn. apply nth_upd_eq. exact HL.
    + intros i Hi. rewrite H2 by (intros HI; apply Hi; right; exact HI). apply nth_upd_neq. intros E. apply Hi. left. exact E.
    + exact H3.
Qed.
