(** * DedupeExact.v — when deduplication is exact, and that it is always sound. *)
From Verif Require Import Jax KeyModel HashModel HashProofs StableSort TableModel TableLookup TableRounds ResolveProofs DedupeModel DedupeSpec DedupeProofs.

Section E.
Variables (ks rows : list (list N)) (filled : list bool) (uk : option (list costval)) (perm : list nat).
Notation n := (length filled).
Hypothesis Hperm : Permutation perm (seq 0 n).
Hypothesis Hcont : contiguous [] (map (fun i => nth i ks []) perm).
Notation F i := (nth i filled false = true).
Notation K i := (nth i ks []).
Notation R i := (nth i rows []).
(** equal rows get equal keys *)
Hypothesis Hkey : forall i i', i < n -> i' < n -> F i -> F i' -> R i = R i' -> K i = K i'.

Lemma from_sorted_sound : dedupe_sound [] rows filled (from_sorted ks filled uk perm).
Proof.
  assert (forall i, i < n -> nth i (fst (from_sorted ks filled uk perm)) false = true -> F i /\ i = rep_of ks filled uk perm i) as HU.
  { intros i Hi U. pose proof (uniq_spec ks filled uk perm Hperm i Hi) as HS. unfold uniq_of in HS. rewrite HS in U.
    apply andb_prop in U. destruct U as [U1 U2]. apply Nat.eqb_eq in U2. auto. }
  constructor.
  - apply (uniq_length ks filled uk perm Hperm).
  - destruct (Nat.eq_dec n 0) as [E|E].
    + unfold from_sorted. cbn [snd]. rewrite map_length, combine_length, E. reflexivity.
    + destruct (reps_raw ks filled uk perm Hperm 0 ltac:(lia)) as [HL _]. exact HL.
  - intros i Hi U. apply (HU i Hi U).
  - intros i Hi U. symmetry. apply (HU i Hi U).
  - intros i Hi. apply (rep_lt ks filled uk perm Hperm Hcont i Hi).
  - intros i i' Hi Hi' U U' E. apply (uniq_distinct ks filled uk perm Hperm Hcont i i' Hi Hi' U U').
    apply Hkey; auto; [apply (HU i Hi U)|apply (HU i' Hi' U')].
  - intros i i' Hi Hi' HF HF' E. apply (rep_same ks filled uk perm Hperm Hcont i i' Hi Hi' HF HF'). apply Hkey; auto.
  - intros i Hi HF. apply (rep_unfilled ks filled uk perm Hperm i Hi HF).
Qed.

Lemma from_sorted_exact :
  (forall i i', i < n -> i' < n -> F i -> F i' -> K i = K i' -> R i = R i') ->
  (forall i, i < n -> F i -> uk = None \/ (exists i', i' < n /\ F i' /\ K i' = K i /\ costof uk i' <> Cost PInf) \/
     (forall i', i' < n -> K i' = K i -> F i')) ->
  dedupe_nan [] rows filled uk (from_sorted ks filled uk perm).
Proof.
  intros Hinj Hfil. pose proof from_sorted_sound as S. constructor.
  - apply S.
  - apply S.
  - intros i Hi HF HNF. cbn zeta.
    assert (~ group_nan ks filled uk i) as HG.
    { intros (m & Hm & EK & EN). unfold mcost in EN. destruct (nth m filled false) eqn:EF; [|discriminate]. apply (HNF m Hm EF); [|exact EN]. apply Hinj; auto. }
    destruct (rep_char ks filled uk perm Hperm Hcont i Hi HF HG) as (A & B & C & D).
    pose proof (rep_filled ks filled uk perm Hperm Hcont i Hi HF HG (Hfil i Hi HF)) as HR.
    fold (rep_of ks filled uk perm i). set (r := rep_of ks filled uk perm i) in *.
    split; [exact A|]. split; [exact HR|]. split; [apply Hinj; auto|].
    intros i' Hi' HF' E. assert (K i' = K i) as EK by (apply Hkey; auto).
    unfold is_cand in C. destruct uk as [u|] eqn:EU.
    + destruct C as [C0 C]. split.
      * specialize (C i' Hi' ltac:(congruence)). unfold mcost in C. rewrite HR, HF' in C. exact C.
      * intros EC. apply D; auto. unfold mcost in C0. rewrite HR in C0. split; [unfold mcost; rewrite HF'; change (costof (Some u) i' <> CNaN); rewrite EC; exact C0|].
        intros q Hq EQ. specialize (C q Hq ltac:(congruence)).
        unfold mcost in *. rewrite HR in C. rewrite HF'. change (cost (Some u) i') with (costof (Some u) i').
        change (cost (Some u) r) with (costof (Some u) r) in C. rewrite EC. exact C.
    + cbn [costof]. split; [reflexivity|]. intros _. apply D; auto.
  - intros i i' Hi HF Hi' HF' E EN. apply (rep_nan ks filled uk perm Hperm Hcont i Hi). exists i'. split; [exact Hi'|]. split; [apply Hkey; auto|]. unfold mcost. rewrite HF'. exact EN.
  - intros i Hi. pose proof (uniq_spec ks filled uk perm Hperm i Hi) as HS. unfold uniq_of, rep_of in HS. rewrite HS.
    rewrite andb_true_iff, Nat.eqb_eq. split; intros [A B]; auto.
  - apply S.
Qed.

(** ** the adjacent collision check *)
Lemma adj_in {A} (f : A -> A -> bool) (dd : A) l : forall p, S p < length l ->
  nth p (adj f l) false = f (nth p l dd) (nth (S p) l dd) /\ p < length (adj f l).
Proof.
  intros p Hp. destruct l as [|a t]; [cbn in Hp; lia|]. cbn [adj]. cbn [length] in Hp.
  rewrite map_length, combine_length. cbn [length]. split; [|lia].
  rewrite (map_nth_lt _ _ p (dd, dd)) by (rewrite combine_length; cbn [length]; lia).
  assert (forall (t' : list A) l' q, S q < S (length t') -> length l' = S (length t') -> nth q (combine l' t') (dd, dd) = (nth q l' dd, nth q t' dd)) as HC.
  { clear. induction t' as [|y t' IH]; intros l' q Hq HL; [cbn in Hq; lia|]. destruct l' as [|x l']; [discriminate|].
    destruct q as [|q]; [reflexivity|]. cbn [combine nth]. apply IH; cbn in *; lia. }
  rewrite HC by (cbn; lia). reflexivity.
Qed.
Lemma no_collision : collision ks rows filled perm = false ->
  forall m p, p + m < n -> (forall q, p <= q <= p + m -> F (nth q perm 0) /\ K (nth q perm 0) = K (nth p perm 0)) ->
  R (nth (p + m) perm 0) = R (nth p perm 0).
Proof.
  intros HC. assert (length perm = n) as HPL by (rewrite (Permutation_length Hperm), seq_length; reflexivity).
  assert (forall p, S p < n -> F (nth p perm 0) -> F (nth (S p) perm 0) -> K (nth (S p) perm 0) = K (nth p perm 0) ->
     R (nth (S p) perm 0) = R (nth p perm 0)) as Hadj.
  { intros p Hp F1 F2 EK. unfold collision in HC.
    set (same := fun a b => roweqb (K b) (K a) && nth b filled false && nth a filled false) in *.
    assert (same (nth p perm 0) (nth (S p) perm 0) = true) as HS.
    { unfold same. rewrite F1, F2, (proj2 (roweqb_eq _ _) EK). reflexivity. }
    assert (any (adj same perm) = true) as HD.
    { destruct (adj_in same 0 perm p ltac:(lia)) as [E1 E2]. unfold any. apply existsb_exists. exists true. split; [|reflexivity].
      rewrite <- HS, <- E1. apply nth_In. exact E2. }
    rewrite HD in HC. set (f := fun a b => same a b && negb (roweqb (R b) (R a))) in *.
    pose proof (existsb_id_false _ HC p) as E0. destruct (adj_in f 0 perm p ltac:(lia)) as [E1 E2]. change (nth p (adj f perm) false = false) in E0. rewrite E1 in E0.
    unfold f in E0. rewrite HS in E0. cbn [andb] in E0. apply negb_false_iff in E0. apply roweqb_eq. exact E0. }
  induction m as [|m IH]; intros p Hp HQ.
  - rewrite Nat.add_0_r. reflexivity.
  - replace (p + S m) with (S (p + m)) in * by lia.
    destruct (HQ (p + m) ltac:(lia)) as [FA KA]. destruct (HQ (S (p + m)) ltac:(lia)) as [FB KB].
    rewrite Hadj; auto; [|congruence]. apply IH; [lia|]. intros q Hq. apply HQ. lia.
Qed.
(** if groups of filled rows contain only filled rows, the check is complete *)
Lemma check_complete : collision ks rows filled perm = false ->
  (forall i i', i < n -> i' < n -> F i -> K i' = K i -> F i') ->
  forall i i', i < n -> i' < n -> F i -> F i' -> K i = K i' -> R i = R i'.
Proof.
  intros HC HG.
  assert (length perm = n) as HPL by (rewrite (Permutation_length Hperm), seq_length; reflexivity).
  assert (forall p q, p <= q -> q < n -> F (nth p perm 0) -> K (nth q perm 0) = K (nth p perm 0) -> R (nth q perm 0) = R (nth p perm 0)) as HPQ.
  { intros p q Hpq Hq HF EK. replace q with (p + (q - p)) by lia. apply no_collision; [exact HC|lia|].
    intros z Hz.
    assert (K (nth z perm 0) = K (nth p perm 0)) as EZ.
    { destruct (Nat.eq_dec z p) as [->|]; [reflexivity|]. destruct (Nat.eq_dec z q) as [->|]; [exact EK|].
      pose proof (Hcont p z q ltac:(lia) ltac:(lia)) as H. rewrite map_length, HPL in H. specialize (H ltac:(lia)).
      rewrite !(map_nth_lt _ _ _ 0) in H by lia. symmetry in EK. exact (H EK). }
    split; [|exact EZ].
    assert (forall y, y < n -> nth y perm 0 < n) as Hlt.
    { intros y Hy. assert (In (nth y perm 0) (seq 0 n)) as HI by (eapply Permutation_in; [exact Hperm|apply nth_In; lia]). apply in_seq in HI. lia. }
    apply (HG (nth p perm 0)); auto; apply Hlt; lia. }
  intros i i' Hi Hi' HF HF' EK.
  destruct (perm_onto filled perm Hperm i Hi) as (p & Hp & <-), (perm_onto filled perm Hperm i' Hi') as (q & Hq & <-).
  destruct (Nat.le_ge_cases p q) as [H|H].
  - symmetry. apply HPQ; auto.
  - apply HPQ; auto.
Qed.
End E.

(** ** masked keys *)
Lemma mask_rows_length filled rows : length rows = length filled -> length (mask_rows filled rows) = length filled.
Proof. intros H. unfold mask_rows. rewrite map_length, combine_length. lia. Qed.
Lemma mask_rows_nth filled rows i : length rows = length filled -> i < length filled ->
  nth i (mask_rows filled rows) [] = mask_row (nth i filled false) (nth i rows []).
Proof.
  intros H Hi. unfold mask_rows. rewrite (map_nth_lt _ _ i (false, [])) by (rewrite combine_length; lia).
  rewrite combine_nth by lia. reflexivity.
Qed.
Definition reserved (w : nat) : list N := repeat sentinel w.
Lemma mask_false_row r w : length r = w -> mask_row false r = reserved w.
Proof. intros <-. unfold mask_row, reserved. induction r; cbn; [reflexivity|]. f_equal. exact IHr. Qed.
Lemma mask_rows_widths w filled rows : (forall r, In r rows -> length r = w) -> forall r, In r (mask_rows filled rows) -> length r = w.
Proof.
  intros H r Hr. unfold mask_rows in Hr. apply in_map_iff in Hr. destruct Hr as ((b & r0) & <- & HI). apply in_combine_r in HI.
  cbn [fst snd]. unfold mask_row. destruct b; [apply H; exact HI|rewrite map_length; apply H; exact HI].
Qed.
Lemma sig_length row : length (sig_of row) = 4.
Proof.
  unfold sig_of. destruct row as [|c t]; [reflexivity|].
  destruct (fold_left sig_step t (c, c, c, c)) as [[[a b] c'] d]. reflexivity.
Qed.

Section D.
Variables (w : nat) (rows : list (list N)) (filled : list bool) (uk : option (list costval)).
Notation n := (length filled).
Hypothesis HL : length rows = n.
Hypothesis HW : forall r, In r rows -> length r = w.
Notation F i := (nth i filled false = true).
Notation R i := (nth i rows []).
Definition all_filled : Prop := forall i, i < n -> F i.

(** keys computed row by row by [f], [v] words wide *)
Section K.
Variables (v : nat) (keys : list (list N)) (f : list N -> list N) (perm : list nat).
Hypothesis Hk : length keys = n.
Hypothesis Hv : forall r, In r keys -> length r = v.
Hypothesis Hf : forall i, i < n -> F i -> nth i keys [] = f (R i).
Let ks := mask_rows filled keys.
Hypothesis Hperm : Permutation perm (seq 0 n).
Hypothesis Hcont : contiguous [] (map (fun i => nth i ks []) perm).

Lemma ks_filled i : i < n -> F i -> nth i ks [] = f (R i).
Proof. intros Hi HF. unfold ks. rewrite mask_rows_nth, HF by auto. apply Hf; assumption. Qed.
Lemma ks_unfilled i : i < n -> nth i filled false = false -> nth i ks [] = reserved v.
Proof. intros Hi HF. unfold ks. rewrite mask_rows_nth, HF by auto. apply mask_false_row. apply Hv. apply nth_In. lia. Qed.
Lemma keyed_sound : dedupe_sound [] rows filled (from_sorted ks filled uk perm).
Proof. apply from_sorted_sound; auto. intros i i' Hi Hi' HF HF' E. rewrite !ks_filled by assumption. congruence. Qed.
Definition not_reserved : Prop := all_filled \/ forall i, i < n -> F i -> f (R i) <> reserved v.
Lemma group_filled : not_reserved -> forall i i', i < n -> i' < n -> F i -> nth i' ks [] = nth i ks [] -> F i'.
Proof.
  intros [HA|HR] i i' Hi Hi' HF E; [apply HA; exact Hi'|].
  destruct (nth i' filled false) eqn:E'; [reflexivity|exfalso]. rewrite ks_unfilled in E by assumption.
  rewrite ks_filled in E by assumption. apply (HR i Hi HF). congruence.
Qed.
Lemma keyed_exact : not_reserved ->
  (forall i i', i < n -> i' < n -> F i -> F i' -> f (R i) = f (R i') -> R i = R i') ->
  dedupe_nan [] rows filled uk (from_sorted ks filled uk perm).
Proof.
  intros HN HI. apply from_sorted_exact; auto.
  - intros i i' Hi Hi' HF HF' E. rewrite !ks_filled by assumption. congruence.
  - intros i i' Hi Hi' HF HF'. rewrite !ks_filled by assumption. auto.
  - intros i Hi HF. right; right. intros i' Hi' E. apply (group_filled HN i i'); assumption.
Qed.
Lemma keyed_checked : not_reserved -> collision ks rows filled perm = false ->
  dedupe_nan [] rows filled uk (from_sorted ks filled uk perm).
Proof.
  intros HN HC. apply keyed_exact; [exact HN|]. intros i i' Hi Hi' HF HF' E.
  refine (check_complete ks rows filled perm Hperm Hcont _ HC _ i i' Hi Hi' HF HF' _).
  - intros q q' Hq Hq' HFq HFq' EQ. rewrite !ks_filled by assumption. congruence.
  - apply (group_filled HN).
  - rewrite !ks_filled by assumption. exact E.
Qed.
End K.

(** ** full-row sorting *)
Let mrows := mask_rows filled rows.
Lemma full_order : Permutation (lsd w mrows n) (seq 0 n) /\ contiguous [] (map (fun i => nth i mrows []) (lsd w mrows n)).
Proof. apply lsd_contiguous; [apply mask_rows_length; exact HL|apply mask_rows_widths; exact HW]. Qed.
Definition rows_ok : Prop := uk = None \/ (forall i, i < n -> F i -> costof uk i <> Cost PInf) \/ not_reserved w (fun r => r).
Lemma full_sound : dedupe_sound [] rows filled (from_sorted mrows filled uk (lsd w mrows n)).
Proof. destruct full_order as [A B]. apply (keyed_sound rows (fun r => r)); auto. Qed.
Lemma full_exact : rows_ok -> dedupe_nan [] rows filled uk (from_sorted mrows filled uk (lsd w mrows n)).
Proof.
  intros HO. destruct full_order as [A B].
  assert (forall i, i < n -> F i -> nth i mrows [] = R i) as Hf by (intros i Hi HF; apply (ks_filled rows (fun r => r)); auto).
  apply from_sorted_exact; auto.
  - intros i i' Hi Hi' HF HF' E. rewrite !Hf by assumption. exact E.
  - intros i i' Hi Hi' HF HF'. rewrite !Hf by assumption. auto.
  - intros i Hi HF. destruct HO as [HO|[HO|HO]]; [left; exact HO|right; left|right; right].
    + exists i. repeat split; auto.
    + intros i' Hi' E. apply (group_filled w rows (fun r => r) HL HW) with (i := i); auto.
Qed.

(** ** signatures *)
Let sigs := mask_rows filled (map sig_of rows).
Lemma map_sig_nth i : i < n -> nth i (map sig_of rows) [] = sig_of (R i).
Proof. intros Hi. apply map_nth_lt. lia. Qed.
Lemma sig_widths r : In r (map sig_of rows) -> length r = 4.
Proof. intros H. apply in_map_iff in H. destruct H as (r0 & <- & _). apply sig_length. Qed.
Lemma sig_order : Permutation (lsd 4 sigs n) (seq 0 n) /\ contiguous [] (map (fun i => nth i sigs []) (lsd 4 sigs n)).
Proof. apply lsd_contiguous; [apply mask_rows_length; rewrite map_length; exact HL|apply mask_rows_widths; apply sig_widths]. Qed.
Definition sig_ok : Prop := w <= 8 \/ not_reserved 4 sig_of.

Lemma dedupe_rows_sound m : dedupe_sound [] rows filled (dedupe_rows m w rows filled uk).
Proof.
  assert (dedupe_sound [] rows filled (from_sorted sigs filled uk (lsd 4 sigs n))) as HS.
  { destruct sig_order as [A B]. apply (keyed_sound (map sig_of rows) sig_of); auto; [rewrite map_length; exact HL|].
    intros i Hi _. apply map_sig_nth. exact Hi. }
  unfold dedupe_rows. fold mrows sigs. destruct m.
  - destruct (w <=? 8); [apply full_sound|]. destruct (collision _ _ _ _); [apply full_sound|exact HS].
  - apply full_sound.
  - destruct (w <=? 8); [apply full_sound|exact HS].
Qed.
Lemma dedupe_rows_exact m : rows_ok -> m = Exact \/ (m = Safe /\ sig_ok) -> dedupe_nan [] rows filled uk (dedupe_rows m w rows filled uk).
Proof.
  intros HO [->|[-> HS]]; unfold dedupe_rows; fold mrows sigs; [apply full_exact; exact HO|].
  destruct (Nat.leb_spec w 8) as [H8|H8]; [apply full_exact; exact HO|].
  destruct (collision sigs rows filled (lsd 4 sigs n)) eqn:EC; [apply full_exact; exact HO|].
  destruct HS as [HS|HS]; [lia|]. destruct sig_order as [A B].
  apply (keyed_checked 4 (map sig_of rows) sig_of); auto; [rewrite map_length; exact HL|apply sig_widths|].
  intros i Hi _. apply map_sig_nth. exact Hi.
Qed.

(** ** hash pairs *)
Variable pairs : list (N * N).
Variable pairf : list N -> N * N.
Hypothesis HP : length pairs = n.
Hypothesis Hpf : forall i, i < n -> F i -> nth i pairs (0%N, 0%N) = pairf (R i).
Variable perm : list nat.
Hypothesis Hsort : sorting [] (pairs_keys filled pairs) perm.

Lemma pk_length : length (pairs_keys filled pairs) = n.
Proof. unfold pairs_keys. apply mask_rows_length. rewrite map_length. exact HP. Qed.
Lemma perm_ok : Permutation perm (seq 0 n) /\ contiguous [] (map (fun i => nth i (pairs_keys filled pairs) []) perm).
Proof.
  destruct Hsort as [A B]. rewrite pk_length in A. split; [exact A|].
  intros p q r Hpq Hqr Hr E. rewrite map_length in Hr. rewrite !(map_nth_lt _ _ _ 0) in * by lia. apply (B p q r); auto.
Qed.
Lemma pair_widths r : In r (map (fun p : N * N => [fst p; snd p]) pairs) -> length r = 2.
Proof. intros H. apply in_map_iff in H. destruct H as (p & <- & _). reflexivity. Qed.
Definition pairrow (r : list N) : list N := [fst (pairf r); snd (pairf r)].
Lemma pair_nth i : i < n -> F i -> nth i (map (fun p : N * N => [fst p; snd p]) pairs) [] = pairrow (R i).
Proof. intros Hi HF. rewrite (map_nth_lt _ _ i (0%N, 0%N)) by lia. rewrite Hpf by assumption. reflexivity. Qed.
Definition pair_ok : Prop := all_filled \/ forall i, i < n -> F i -> pairf (R i) <> (sentinel, sentinel).
Lemma pair_not_reserved : pair_ok -> not_reserved 2 pairrow.
Proof.
  intros [H|H]; [left; exact H|right]. intros i Hi HF E. apply (H i Hi HF). unfold pairrow, reserved in E. cbn in E.
  destruct (pairf (R i)) as [a b]. cbn in E. injection E as -> ->. reflexivity.
Qed.

Theorem dedupe_pairs_sound m : dedupe_sound [] rows filled (dedupe_pairs m w perm pairs rows filled uk).
Proof.
  destruct perm_ok as [A B].
  assert (dedupe_sound [] rows filled (from_sorted (pairs_keys filled pairs) filled uk perm)) as HS.
  { apply (keyed_sound (map (fun p : N * N => [fst p; snd p]) pairs) pairrow); auto; [rewrite map_length; exact HP|].
    intros i Hi HF. apply pair_nth; assumption. }
  unfold dedupe_pairs. fold (pairs_keys filled pairs). destruct m; [|apply dedupe_rows_sound|exact HS].
  destruct (collision _ _ _ _); [apply dedupe_rows_sound|exact HS].
Qed.
Theorem dedupe_pairs_exact m : 
  (m = Safe /\ pair_ok /\ sig_ok /\ rows_ok) \/ (m = Exact /\ rows_ok) \/
  (m = Approx /\ pair_ok /\ (forall i i', i < n -> i' < n -> F i -> F i' -> pairf (R i) = pairf (R i') -> R i = R i')) ->
  dedupe_nan [] rows filled uk (dedupe_pairs m w perm pairs rows filled uk).
Proof.
  destruct perm_ok as [A B]. unfold dedupe_pairs. fold (pairs_keys filled pairs).
  intros [(-> & H1 & H2 & H3)|[(-> & H3)|(-> & H1 & HI)]].
  - destruct (collision _ _ _ _) eqn:EC; [apply dedupe_rows_exact; auto|].
    apply (keyed_checked 2 (map (fun p : N * N => [fst p; snd p]) pairs) pairrow); auto;
      [rewrite map_length; exact HP|apply pair_widths|intros; apply pair_nth; assumption|apply pair_not_reserved; exact H1].
  - apply dedupe_rows_exact; auto.
  - apply (keyed_exact 2 (map (fun p : N * N => [fst p; snd p]) pairs) pairrow); auto;
      [rewrite map_length; exact HP|apply pair_widths|intros; apply pair_nth; assumption|apply pair_not_reserved; exact H1|].
    intros i i' Hi Hi' HF HF' E. apply HI; auto. unfold pairrow in E. injection E as E1 E2.
    destruct (pairf (R i)), (pairf (R i')). cbn in *. congruence.
Qed.
End D.

(** the default backend's order is a sorting order *)
Lemma default_sorting filled pairs : length pairs = length filled -> sorting [] (pairs_keys filled pairs) (default_perm filled pairs).
Proof.
  intros HP. assert (length (pairs_keys filled pairs) = length filled) as HL by (unfold pairs_keys; apply mask_rows_length; rewrite map_length; exact HP).
  destruct (lsd_contiguous (pairs_keys filled pairs) 2 (length filled)) as [A B]; [exact HL|apply mask_rows_widths; apply (pair_widths pairs)|].
  split; [rewrite HL; exact A|]. intros p q r Hpq Hqr Hr E. unfold default_perm in *.
  pose proof (B p q r Hpq Hqr) as H. rewrite map_length in H. specialize (H Hr). rewrite !(map_nth_lt _ _ _ 0) in H by lia. auto.
Qed.

(** without NaN costs deduplication is exact *)
Lemma exact_of_nan {row} (dr : row) rows filled uk res : (forall i, i < length filled -> nth i filled false = true -> costof uk i <> CNaN) ->
  dedupe_nan dr rows filled uk res -> dedupe_exact dr rows filled uk res.
Proof. intros HN D. constructor; try apply D. intros i Hi HF. apply (dn_rep _ _ _ _ _ D i Hi HF). intros i' Hi' HF' _. now apply HN. Qed.
