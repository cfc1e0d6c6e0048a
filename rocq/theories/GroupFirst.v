(** * GroupFirst.v — the "first of each group in sorted order, scattered back" idiom used
      by update_on_condition and unique_mask. *)
From Verif Require Import Jax StableSort.

(** [zeros(n).at[perm].set(ws)] *)
Definition scatter_back {A : Type} (d : A) (perm : list nat) (ws : list A) : list A :=
  fold_left (fun a p => upd a (fst p) (snd p)) (combine perm ws) (repeat d (length perm)).

Lemma combine_fst {A B} (a : list A) : forall (b : list B), length a = length b -> map fst (combine a b) = a.
Proof. induction a as [|x a IH]; intros [|y b] H; cbn in *; try lia; [reflexivity|]. now rewrite IH by lia. Qed.
Lemma scatter_back_nth {A} (d : A) perm ws n p : Permutation perm (seq 0 n) -> length ws = n -> p < n ->
  nth (nth p perm 0) (scatter_back d perm ws) d = nth p ws d.
Proof.
  intros HP HL Hp. pose proof (Permutation_length HP) as HPL. rewrite seq_length in HPL. unfold scatter_back.
  assert (ND : NoDup (map fst (combine perm ws))).
  { rewrite combine_fst by lia. eapply Permutation_NoDup; [apply Permutation_sym; exact HP|apply seq_NoDup]. }
  destruct (scatter_nth fst snd d (combine perm ws) (repeat d (length perm)) ND) as [H1 _].
  assert (Hin : In (nth p perm 0, nth p ws d) (combine perm ws)).
  { rewrite <- combine_nth by lia. apply nth_In. rewrite combine_length. lia. }
  specialize (H1 _ Hin). cbn [fst snd] in H1. apply H1. rewrite repeat_length, HPL.
  assert (In (nth p perm 0) (seq 0 n)) as HI by (eapply Permutation_in; [exact HP|apply nth_In; lia]). apply in_seq in HI. lia.
Qed.
Lemma scatter_back_length {A} (d : A) perm ws : length (scatter_back d perm ws) = length perm.
Proof.
  unfold scatter_back. rewrite <- (repeat_length d (length perm)) at 2. generalize (combine perm ws) as l. generalize (repeat d (length perm)) as i.
  intros i l. revert i. induction l as [|x l IH]; intros i; [reflexivity|]. cbn [fold_left]. now rewrite IH, upd_length.
Qed.
Lemma perm_pos perm n i : Permutation perm (seq 0 n) -> i < n -> exists p, p < n /\ nth p perm 0 = i.
Proof.
  intros HP Hi. assert (In i perm) as HI by (eapply Permutation_in; [apply Permutation_sym; exact HP|apply in_seq; lia]).
  apply (In_nth _ _ 0) in HI. destruct HI as [p [H1 H2]]. exists p. split; [|exact H2].
  now rewrite (Permutation_length HP), seq_length in H1.
Qed.
Lemma perm_inj perm n p q : Permutation perm (seq 0 n) -> p < n -> q < n -> nth p perm 0 = nth q perm 0 -> p = q.
Proof.
  intros HP Hp Hq E. assert (ND : NoDup perm) by (eapply Permutation_NoDup; [apply Permutation_sym; exact HP|apply seq_NoDup]).
  pose proof (Permutation_length HP) as HPL. rewrite seq_length in HPL.
  rewrite NoDup_nth in ND. apply (ND p q); try lia. exact E.
Qed.
Lemma perm_in_range perm n p : Permutation perm (seq 0 n) -> p < n -> nth p perm 0 < n.
Proof.
  intros HP Hp. pose proof (Permutation_length HP) as HPL. rewrite seq_length in HPL.
  assert (In (nth p perm 0) (seq 0 n)) as HI by (eapply Permutation_in; [exact HP|apply nth_In; lia]). apply in_seq in HI. lia.
Qed.

Section First.
Context {K : Type} (keqb : K -> K -> bool) (kd : K).
Hypothesis keqb_eq : forall a b, keqb a b = true <-> a = b.
Variables (n : nat) (perm : list nat) (key_of : nat -> K) (before : nat -> nat -> Prop).
Hypothesis HP : Permutation perm (seq 0 n).
Let sk := map key_of perm.
Hypothesis HC : contiguous kd sk.
Hypothesis HB : forall p q, p < q -> q < n -> key_of (nth p perm 0) = key_of (nth q perm 0) -> before (nth p perm 0) (nth q perm 0).
Hypothesis HA : forall a b, before a b -> before b a -> False.
Lemma first_len : length perm = n.
Proof. rewrite (Permutation_length HP). apply seq_length. Qed.
Lemma sk_at p : p < n -> nth p sk kd = key_of (nth p perm 0).
Proof.
  intros H. unfold sk. rewrite (nth_indep _ kd (key_of 0)) by (rewrite map_length, first_len; exact H). apply map_nth.
Qed.
Lemma first_of_group p : p < n ->
  (nth p (group_start keqb sk) false = true <->
   forall j, j < n -> j <> nth p perm 0 -> key_of j = key_of (nth p perm 0) -> before (nth p perm 0) j).
Proof.
  intros Hp. assert (Hlen : length sk = n) by (unfold sk; rewrite map_length; apply first_len).
  rewrite (group_start_spec keqb kd keqb_eq sk p HC) by lia. split.
  - intros H j Hj Hne E. destruct (perm_pos perm n j HP Hj) as [q [Hq Eq]]. subst j.
    destruct (Nat.lt_trichotomy q p) as [L|[L|L]].
    + exfalso. apply (H q L). rewrite !sk_at by lia. exact E.
    + subst q. congruence.
    + apply HB; [exact L|exact Hq|symmetry; exact E].
  - intros H q Hq E. rewrite !sk_at in E by lia.
    assert (Hb1 : before (nth q perm 0) (nth p perm 0)) by (apply HB; [exact Hq|exact Hp|exact E]).
    assert (Hb2 : before (nth p perm 0) (nth q perm 0)).
    { apply H; [apply perm_in_range; [exact HP|lia]| |exact E]. intros E2. apply perm_inj with (n := n) in E2; [lia|exact HP|lia|lia]. }
    exact (HA _ _ Hb1 Hb2).
Qed.
End First.
