(** * HeapProofs.v — invariant and refinement proofs for the priority queue. *)
From Verif Require Import Jax KeyModel SortProofs HeapModel HeapSpec.

Section H.
Context {V : Type}.
Notation item := (key * V)%type.
Notation row := (list item).
Implicit Types r a b lo hi s : list (key * V).
Implicit Types rs T : list (list (key * V)).

(** cancels equal atoms of two app-trees *)
Lemma perm_rot (a b c : row) : Permutation a (c ++ b) -> Permutation a (b ++ c).
Proof. intros H. rewrite H. apply Permutation_app_comm. Qed.

Definition allfin r := forall x, In x r -> finite (fst x) = true.
Definition allinf r := forall x, In x r -> fst x = PInf.
Definition nonn r := forall x, In x r -> fst x <> NInf.

Lemma allfin_nonn r : allfin r -> nonn r.
Proof. intros H x Hx E. specialize (H x Hx). rewrite E in H. discriminate. Qed.
Lemma allinf_nonn r : allinf r -> nonn r.
Proof. intros H x Hx E. specialize (H x Hx). congruence. Qed.
Lemma nonn_app a b : nonn (a ++ b) <-> nonn a /\ nonn b.
Proof.
  unfold nonn. split.
  - intros H; split; intros x Hx; apply H; apply in_or_app; auto.
  - intros [H1 H2] x Hx. apply in_app_or in Hx as [Hx|Hx]; auto.
Qed.
Lemma allfin_app a b : allfin (a ++ b) <-> allfin a /\ allfin b.
Proof.
  unfold allfin. split.
  - intros H; split; intros x Hx; apply H; apply in_or_app; auto.
  - intros [H1 H2] x Hx. apply in_app_or in Hx as [Hx|Hx]; auto.
Qed.
Lemma nonn_perm a b : Permutation a b -> nonn a -> nonn b.
Proof. intros HP H x Hx. apply H. eapply Permutation_in; [symmetry; exact HP|exact Hx]. Qed.
Lemma allfin_perm a b : Permutation a b -> allfin a -> allfin b.
Proof. intros HP H x Hx. apply H. eapply Permutation_in; [symmetry; exact HP|exact Hx]. Qed.
Lemma fin_app a b : fin (a ++ b) = fin a ++ fin b.
Proof. apply filter_app. Qed.
Lemma fin_all a : allfin a -> fin a = a.
Proof.
  unfold fin, allfin. induction a as [|x t IH]; intros H; simpl; [reflexivity|].
  rewrite (H x) by (left; reflexivity). f_equal. apply IH. intros y Hy; apply H; right; exact Hy.
Qed.
Lemma fin_none a : allinf a -> fin a = [].
Proof.
  unfold fin, allinf. induction a as [|x t IH]; intros H; simpl; [reflexivity|].
  rewrite (H x) by (left; reflexivity). simpl. apply IH. intros y Hy; apply H; right; exact Hy.
Qed.
Lemma fin_perm a b : Permutation a b -> Permutation (fin a) (fin b).
Proof. apply filter_perm. Qed.
Lemma fin_In x a : In x (fin a) <-> In x a /\ finite (fst x) = true.
Proof. apply filter_In. Qed.
Lemma nfin_fin r : nfin r = length (fin r). Proof. reflexivity. Qed.
Lemma allinf_clear r : allinf (clear_keys r).
Proof. intros x Hx. unfold clear_keys in Hx. apply in_map_iff in Hx as (y & <- & _). reflexivity. Qed.
Lemma clear_length r : length (clear_keys r) = length r. Proof. apply map_length. Qed.
Lemma sorted_allinf r : allinf r -> sorted r.
Proof.
  induction r as [|x t IH]; intros H; [constructor|]. apply sorted_cons. split.
  - intros y Hy. unfold ile. rewrite (H y) by (right; exact Hy). apply kle_PInf.
  - apply IH. intros y Hy; apply H; right; exact Hy.
Qed.
Lemma below_allinf a r : allinf r -> below a r.
Proof. intros H x y Hx Hy. unfold ile. rewrite (H y Hy). apply kle_PInf. Qed.

Lemma nonn_not_fin (x : item) : fst x <> NInf -> finite (fst x) = false -> fst x = PInf.
Proof. destruct (fst x); simpl; congruence. Qed.

(** In a sorted block the finite keys come first. *)
Lemma sorted_fin_split s : sorted s -> nonn s ->
  allfin (firstn (nfin s) s) /\ allinf (skipn (nfin s) s) /\ fin s = firstn (nfin s) s.
Proof.
  induction s as [|x t IH]; intros HS HN; [repeat split; intros y []|].
  apply sorted_cons in HS as [H1 H2].
  assert (HN' : nonn t) by (intros y Hy; apply HN; right; exact Hy).
  destruct (IH H2 HN') as (I1 & I2 & I3).
  rewrite nfin_fin. unfold fin in *. cbn [filter].
  destruct (finite (fst x)) eqn:E.
  - cbn [length firstn skipn]. rewrite nfin_fin in I1, I2, I3. unfold fin in *.
    repeat split.
    + intros y [<-|Hy]; [exact E | exact (I1 y Hy)].
    + exact I2.
    + f_equal. exact I3.
  - assert (Ex : fst x = PInf) by (apply nonn_not_fin; [apply HN; left; reflexivity|exact E]).
    assert (HI : allinf t).
    { intros y Hy. specialize (H1 y Hy). unfold ile in H1. rewrite Ex in H1. apply kle_PInf_inv; exact H1. }
    pose proof (fin_none t HI) as Hf. unfold fin in Hf. rewrite Hf. cbn [length firstn skipn].
    repeat split; intros y Hy; [destruct Hy|].
    destruct Hy as [<-|Hy]; [exact Ex|exact (HI y Hy)].
Qed.

Lemma firstn_In (A : Type) n (l : list A) x : In x (firstn n l) -> In x l.
Proof. intros H. rewrite <- (firstn_skipn n l). apply in_or_app; left; exact H. Qed.
Lemma skipn_In (A : Type) n (l : list A) x : In x (skipn n l) -> In x l.
Proof. intros H. rewrite <- (firstn_skipn n l). apply in_or_app; right; exact H. Qed.

Lemma sorted_firstn_fin s k : sorted s -> nonn s -> k <= nfin s -> allfin (firstn k s).
Proof.
  intros HS HN Hk. destruct (sorted_fin_split s HS HN) as (H1 & _ & _).
  intros x Hx. apply H1. replace k with (Nat.min k (nfin s)) in Hx by lia.
  rewrite <- firstn_firstn in Hx. eapply firstn_In; exact Hx.
Qed.
Lemma sorted_skipn_inf s k : sorted s -> nonn s -> nfin s <= k -> allinf (skipn k s).
Proof.
  intros HS HN Hk. destruct (sorted_fin_split s HS HN) as (_ & H2 & _).
  intros x Hx. apply H2. replace k with ((k - nfin s) + nfin s) in Hx by lia.
  rewrite <- skipn_skipn in Hx. eapply skipn_In; exact Hx.
Qed.

(** msplit *)
Lemma msplit_spec a b lo hi : msplit a b = (lo, hi) ->
  Permutation (lo ++ hi) (a ++ b) /\ sorted (lo ++ hi) /\ length lo = length a /\ length hi = length b.
Proof.
  unfold msplit. intros H. injection H as <- <-.
  assert (HL : length (ssort (a ++ b)) = length a + length b) by (rewrite ssort_length, app_length; reflexivity).
  rewrite firstn_skipn, firstn_length, skipn_length. repeat split; try lia.
  - apply ssort_perm.
  - apply ssort_sorted.
Qed.
Lemma msplit_dom_l a b lo hi z : msplit a b = (lo, hi) ->
  (forall x, In x a -> kle (fst x) z = true) -> forall x, In x lo -> kle (fst x) z = true.
Proof. intros H. apply msplit_spec in H as (H1 & H2 & H3 & _). exact (split_dominated a b lo hi H1 H2 H3 z). Qed.
Lemma msplit_dom_r a b lo hi z : msplit a b = (lo, hi) -> length a = length b ->
  (forall x, In x b -> kle (fst x) z = true) -> forall x, In x lo -> kle (fst x) z = true.
Proof.
  intros H HL. apply msplit_spec in H as (H1 & H2 & H3 & _).
  apply (split_dominated b a lo hi); [|assumption|congruence].
  rewrite H1. apply Permutation_app_comm.
Qed.
Lemma msplit_below_l a b lo hi c : msplit a b = (lo, hi) -> below a c -> below lo c.
Proof. intros H Hc x y Hx Hy. unfold ile. eapply msplit_dom_l; eauto. intros z Hz. apply (Hc z y Hz Hy). Qed.
Lemma msplit_below_r a b lo hi c : msplit a b = (lo, hi) -> length a = length b -> below b c -> below lo c.
Proof. intros H HL Hc x y Hx Hy. unfold ile. eapply msplit_dom_r; eauto. intros z Hz. apply (Hc z y Hz Hy). Qed.
Lemma msplit_above a b lo hi c : msplit a b = (lo, hi) -> below c a -> below c b -> below c lo /\ below c hi.
Proof.
  intros H Ha Hb. apply msplit_spec in H as (H1 & _).
  apply below_app_r. eapply below_perm_r; [symmetry; exact H1|]. apply below_app_r; auto.
Qed.
Lemma msplit_parts a b lo hi : msplit a b = (lo, hi) -> sorted lo /\ sorted hi /\ below lo hi.
Proof. intros H. apply msplit_spec in H as (_ & H2 & _). apply sorted_app in H2. tauto. Qed.
Lemma msplit_nonn a b lo hi : msplit a b = (lo, hi) -> nonn a -> nonn b -> nonn lo /\ nonn hi.
Proof.
  intros H Ha Hb. apply msplit_spec in H as (H1 & _). apply nonn_app.
  eapply nonn_perm; [symmetry; exact H1|]. apply nonn_app; auto.
Qed.
Lemma msplit_allfin a b lo hi : msplit a b = (lo, hi) -> allfin a -> allfin b -> allfin lo /\ allfin hi.
Proof.
  intros H Ha Hb. apply msplit_spec in H as (H1 & _). apply allfin_app.
  eapply allfin_perm; [symmetry; exact H1|]. apply allfin_app; auto.
Qed.
Lemma fin_le_length r : length (fin r) <= length r.
Proof. unfold fin. pose proof (cnt_le (fun p : item => finite (fst p)) r). unfold cnt in *. lia. Qed.

(** if [b] has at least [length a] finite keys (and nothing is -inf), the low half is finite *)
Lemma msplit_lo_fin a b lo hi : msplit a b = (lo, hi) -> nonn a -> nonn b ->
  length a <= length (fin (a ++ b)) -> allfin lo.
Proof.
  intros H Ha Hb HL. pose proof (msplit_spec a b lo hi H) as (H1 & H2 & H3 & H4).
  assert (E : lo = firstn (length lo) (lo ++ hi)).
  { rewrite firstn_app, Nat.sub_diag. cbn [firstn]. rewrite app_nil_r. symmetry. apply firstn_all2. lia. }
  rewrite E. apply sorted_firstn_fin; [assumption| |].
  - eapply nonn_perm; [symmetry; exact H1|]. apply nonn_app; auto.
  - rewrite nfin_fin. rewrite (Permutation_length (fin_perm _ _ H1)). lia.
Qed.
Lemma msplit_hi_inf a b lo hi : msplit a b = (lo, hi) -> nonn a -> nonn b ->
  length (fin (a ++ b)) <= length a -> allinf hi.
Proof.
  intros H Ha Hb HL. pose proof (msplit_spec a b lo hi H) as (H1 & H2 & H3 & H4).
  assert (E : hi = skipn (length lo) (lo ++ hi)).
  { rewrite skipn_app, Nat.sub_diag. cbn [skipn]. rewrite skipn_all. reflexivity. }
  rewrite E. apply sorted_skipn_inf; [assumption| |].
  - eapply nonn_perm; [symmetry; exact H1|]. apply nonn_app; auto.
  - rewrite nfin_fin. rewrite (Permutation_length (fin_perm _ _ H1)). lia.
Qed.

(** concat and upd *)
Lemma concat_upd rs i : i < length rs ->
  exists rest, forall r, Permutation (concat (upd rs i r)) (r ++ rest).
Proof.
  revert i. induction rs as [|r0 rs IH]; intros i Hi; [cbn [length] in Hi; lia|].
  destruct i as [|i].
  - exists (concat rs). intros r. reflexivity.
  - cbn [length] in Hi. destruct (IH i ltac:(lia)) as [rest Hrest]. exists (r0 ++ rest).
    intros r. cbn [upd concat]. rewrite Hrest, !app_assoc. apply Permutation_app_tail, Permutation_app_comm.
Qed.
Lemma upd_same (A : Type) (l : list A) i d : upd l i (nth i l d) = l.
Proof. revert i; induction l as [|x t IH]; intros [|i]; cbn [upd nth]; auto. f_equal; auto. Qed.

Lemma perm_cancel_mid (x a b c d : row) : Permutation (x ++ a) b -> Permutation (a ++ x) b.
Proof. intros H. rewrite <- H. apply Permutation_app_comm. Qed.

(** heap order *)
Definition par (i : nat) : nat := (i - 1) / 2.
Definition rowi rs (i : nat) : row := nth i rs [].
Definition ordered rs := forall i, 1 <= i < length rs -> below (rowi rs (par i)) (rowi rs i).

Lemma par_lt i : 1 <= i -> par i < i.
Proof. unfold par. intros H. apply Nat.div_lt_upper_bound; lia. Qed.
Lemma par_lc i : par (lc i) = i.
Proof. unfold par, lc. replace (i * 2 + 1 - 1) with (i * 2) by lia. apply Nat.div_mul; lia. Qed.
Lemma par_rc i : par (rc i) = i.
Proof.
  unfold par, rc. replace (i * 2 + 2 - 1) with (1 + i * 2) by lia.
  rewrite Nat.div_add by lia. reflexivity.
Qed.
Lemma par_cases i c : 1 <= c -> par c = i -> c = lc i \/ c = rc i.
Proof.
  unfold par, lc, rc. intros Hc E. subst i. pose proof (Nat.div_mod (c - 1) 2 ltac:(lia)).
  pose proof (Nat.mod_upper_bound (c - 1) 2 ltac:(lia)). lia.
Qed.

Lemma rowi_upd rs i j r : i < length rs -> rowi (upd rs i r) j = if Nat.eqb i j then r else rowi rs j.
Proof.
  intros H. unfold rowi. rewrite nth_upd. destruct (Nat.eqb_spec i j); cbn [andb]; [|reflexivity].
  destruct (Nat.ltb_spec i (length rs)); [reflexivity|lia].
Qed.

Lemma ordered_upd rs i r : i < length rs -> ordered rs ->
  (1 <= i -> below (rowi rs (par i)) r) ->
  (forall c, 1 <= c < length rs -> par c = i -> below r (rowi rs c)) ->
  ordered (upd rs i r).
Proof.
  intros Hi HO Hp Hc j Hj. rewrite upd_length in Hj. rewrite !rowi_upd by assumption.
  pose proof (par_lt j ltac:(lia)) as Hlt.
  destruct (Nat.eqb_spec i (par j)) as [E|E]; destruct (Nat.eqb_spec i j) as [E2|E2].
  - lia.
  - apply Hc; auto.
  - subst j. apply Hp; lia.
  - apply HO; assumption.
Qed.

Lemma row_at_in rs i : i < length rs -> row_at rs i = rowi rs i.
Proof. intros H. unfold row_at, rowi. f_equal. lia. Qed.
End H.
