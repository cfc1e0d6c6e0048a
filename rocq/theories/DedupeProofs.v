(** * DedupeProofs.v — grouping, scatter-min and representatives. *)
From Verif Require Import Jax KeyModel HashModel HashProofs StableSort TableModel TableLookup TableRounds ResolveProofs DedupeModel.

Lemma roweqb_eq a b : roweqb a b = true <-> a = b.
Proof.
  revert b; induction a as [|x a IH]; intros [|y b]; cbn [roweqb]; try (split; congruence).
  rewrite andb_true_iff, N.eqb_eq, IH. split; [intros [-> ->]; reflexivity|intros E; injection E; auto].
Qed.
Lemma kle_refl a : kle a a = true. Proof. destruct a; cbn; auto. apply Z.leb_refl. Qed.
Lemma kle_trans a b c : kle a b = true -> kle b c = true -> kle a c = true.
Proof. destruct a, b, c; cbn; auto; try discriminate. lia. Qed.
Lemma kle_total a b : kle a b = false -> kle b a = true.
Proof. destruct a, b; cbn; auto; try discriminate. lia. Qed.
Lemma kle_antisym a b : kle a b = true -> kle b a = true -> a = b.
Proof. destruct a, b; cbn; auto; try discriminate. intros. f_equal. lia. Qed.
Lemma kle_PInf a : kle a PInf = true. Proof. destruct a; reflexivity. Qed.
Lemma ceq_eq a b : ceq a b = true <-> a = b /\ a <> CNaN.
Proof.
  destruct a as [|a], b as [|b]; cbn [ceq]; try (split; [discriminate|intros [E N]; congruence]). rewrite andb_true_iff. split.
  - intros [A B]. split; [f_equal; apply kle_antisym; assumption|discriminate].
  - intros [E _]. injection E as ->. split; apply kle_refl.
Qed.
Lemma cle_refl a : cle a a = true. Proof. destruct a as [|a]; cbn; auto. apply kle_refl. Qed.
Lemma cle_trans a b c : cle a b = true -> cle b c = true -> cle a c = true.
Proof. destruct a as [|a], b as [|b], c as [|c]; cbn; auto; try discriminate. apply kle_trans. Qed.
Lemma cle_total a b : cle a b = false -> cle b a = true.
Proof. destruct a as [|a], b as [|b]; cbn; auto; try discriminate. apply kle_total. Qed.
Lemma cle_antisym a b : cle a b = true -> cle b a = true -> a = b.
Proof. destruct a as [|a], b as [|b]; cbn; auto; try discriminate. intros. f_equal. now apply kle_antisym. Qed.
Lemma cle_PInf a : cle a (Cost PInf) = true. Proof. destruct a as [|a]; [reflexivity|apply kle_PInf]. Qed.
Lemma cnan_dec (a : costval) : a = CNaN \/ a <> CNaN. Proof. destruct a; [left; reflexivity|right; discriminate]. Qed.

(** ** scatter-min *)
Section Smin.
Context {T : Type} (le : T -> T -> bool) (dT : T).
Hypothesis le_refl : forall a, le a a = true.
Hypothesis le_trans : forall a b c, le a b = true -> le b c = true -> le a c = true.
Hypothesis le_total : forall a b, le a b = false -> le b a = true.
Lemma smin_length l : forall init, length (smin le dT l init) = length init.
Proof. unfold smin. induction l as [|a l IH]; intros init; cbn [fold_left]; [reflexivity|]. rewrite IH. apply upd_length. Qed.
Lemma smin_spec l : forall init g, g < length init ->
  let r := nth g (smin le dT l init) dT in
  le r (nth g init dT) = true /\ (forall c, In (g, c) l -> le r c = true) /\ (r = nth g init dT \/ In (g, r) l).
Proof.
  induction l as [|[g' c'] l IH]; intros init g Hg; cbn zeta.
  - cbn. split; [apply le_refl|]. split; [intros c []|left; reflexivity].
  - unfold smin. cbn [fold_left fst snd]. fold (smin le dT l (upd init g' (if le (nth g' init dT) c' then nth g' init dT else c'))).
    set (init' := upd init g' (if le (nth g' init dT) c' then nth g' init dT else c')).
    assert (g < length init') as Hg' by (unfold init'; rewrite upd_length; exact Hg).
    destruct (IH init' g Hg') as (A & B & C). 
    destruct (Nat.eq_dec g' g) as [->|Hne].
    + assert (nth g init' dT = if le (nth g init dT) c' then nth g init dT else c') as E by (unfold init'; apply nth_upd_eq; exact Hg).
      rewrite E in A, C. destruct (le (nth g init dT) c') eqn:EL.
      * split; [exact A|]. split.
        -- intros c [Ec|Hc]; [injection Ec as <-; eapply le_trans; eassumption|apply B; exact Hc].
        -- destruct C as [C|C]; [left; exact C|right; right; exact C].
      * apply le_total in EL. split; [eapply le_trans; eassumption|]. split.
        -- intros c [Ec|Hc]; [injection Ec as <-; exact A|apply B; exact Hc].
        -- destruct C as [C|C]; [right; left; congruence|right; right; exact C].
    + assert (nth g init' dT = nth g init dT) as E by (unfold init'; apply nth_upd_neq; exact Hne). rewrite E in A, C.
      split; [exact A|]. split.
      * intros c [Ec|Hc]; [congruence|apply B; exact Hc].
      * destruct C as [C|C]; [left; exact C|right; right; exact C].
Qed.
End Smin.

Lemma in_combine_nth {A B} (la : list A) (lb : list B) da db a b : length la = length lb ->
  (In (a, b) (combine la lb) <-> exists p, p < length la /\ nth p la da = a /\ nth p lb db = b).
Proof.
  intros HL. split.
  - intros HI. apply (In_nth _ _ (da, db)) in HI. destruct HI as (p & Hp & E). rewrite combine_length in Hp.
    rewrite combine_nth in E by exact HL. injection E as E1 E2. exists p. split; [lia|]. auto.
  - intros (p & Hp & <- & <-). rewrite <- combine_nth by exact HL. apply nth_In. rewrite combine_length. lia.
Qed.

(** ** representatives *)
Section Rep.
Variables (ks : list (list N)) (filled : list bool) (uk : option (list costval)) (perm : list nat).
Notation n := (length filled).
Hypothesis Hperm : Permutation perm (seq 0 n).
Hypothesis Hcont : contiguous [] (map (fun i => nth i ks []) perm).
Definition cost i : costval := match uk with None => Cost PInf | Some u => nth i u (Cost PInf) end.
(** the cost seen by the grouping: unfilled rows count as infinitely expensive *)
Definition mcost i : costval := if nth i filled false then cost i else Cost PInf.
Notation F i := (nth i filled false = true).
Notation K i := (nth i ks []).

Lemma perm_length : length perm = n.
Proof. rewrite (Permutation_length Hperm), seq_length. reflexivity. Qed.
Lemma perm_lt p : p < n -> nth p perm 0 < n.
Proof.
  intros Hp. assert (In (nth p perm 0) (seq 0 n)) as HI by (eapply Permutation_in; [exact Hperm|apply nth_In; rewrite perm_length; exact Hp]).
  apply in_seq in HI. lia.
Qed.
Lemma perm_onto i : i < n -> exists p, p < n /\ nth p perm 0 = i.
Proof.
  intros Hi. assert (In i perm) as HI by (eapply Permutation_in; [apply Permutation_sym; exact Hperm|apply in_seq; lia]).
  apply (In_nth _ _ 0) in HI. destruct HI as (p & Hp & E). rewrite perm_length in Hp. exists p. auto.
Qed.
Let sk := map (fun i => nth i ks []) perm.
Let gid := group_id roweqb sk.
Lemma gid_length : length gid = n.
Proof. unfold gid. rewrite group_id_length. unfold sk. rewrite map_length. apply perm_length. Qed.
Lemma sk_nth p : p < n -> nth p sk [] = K (nth p perm 0).
Proof. intros Hp. unfold sk. rewrite (map_nth_lt _ _ p 0) by (rewrite perm_length; exact Hp). reflexivity. Qed.
Lemma gid_lt p : p < n -> nth p gid 0 < n.
Proof.
  intros Hp. pose proof (group_id_lt roweqb [] roweqb_eq sk p) as H. unfold gid. 
  assert (p < length sk) as HL by (unfold sk; rewrite map_length, perm_length; exact Hp). specialize (H HL). lia.
Qed.
Lemma gid_eq p q : p < n -> q < n -> (nth p gid 0 = nth q gid 0 <-> K (nth p perm 0) = K (nth q perm 0)).
Proof.
  intros Hp Hq. rewrite <- !sk_nth by assumption. unfold gid.
  assert (length sk = n) as HL by (unfold sk; rewrite map_length; apply perm_length).
  apply (group_id_eq roweqb [] roweqb_eq sk p q Hcont); lia.
Qed.

Let cand := candidates gid filled uk perm.
Lemma cand_length : length cand = n.
Proof.
  unfold cand, candidates. destruct uk as [u|]; rewrite map_length; [|apply perm_length].
  rewrite !combine_length, map_length, gid_length, perm_length. lia.
Qed.
(** who is a candidate *)
Definition is_cand i : Prop :=
  match uk with
  | None => F i
  | Some _ => mcost i <> CNaN /\ forall i', i' < n -> K i' = K i -> cle (mcost i) (mcost i') = true
  end.
Lemma cand_nth p : p < n -> (is_cand (nth p perm 0) -> nth p cand 0 = nth p perm 0) /\
                           (~ is_cand (nth p perm 0) -> nth p cand 0 = n).
Proof.
  intros Hp. unfold cand, candidates, is_cand. destruct uk as [u|] eqn:EU.
  - set (masked := map (fun i => if nth i filled false then nth i u (Cost PInf) else Cost PInf) perm).
    assert (length masked = n) as HM by (unfold masked; rewrite map_length; apply perm_length).
    assert (forall q, q < n -> nth q masked (Cost PInf) = mcost (nth q perm 0)) as Hm.
    { intros q Hq. unfold masked. rewrite (map_nth_lt _ _ q 0) by (rewrite perm_length; exact Hq).
      unfold mcost, cost. rewrite EU. reflexivity. }
    rewrite (map_nth_lt _ _ p (0, (0, Cost PInf))) by (rewrite !combine_length, HM, gid_length, perm_length; lia).
    rewrite combine_nth by (rewrite combine_length, HM, gid_length, perm_length; lia).
    rewrite combine_nth by (rewrite HM, gid_length; reflexivity). cbn [fst snd].
    destruct (smin_spec cle (Cost PInf) cle_refl cle_trans cle_total (combine gid masked) (repeat (Cost PInf) n) (nth p gid 0)) as (A & B & C).
    { rewrite repeat_length. apply gid_lt. exact Hp. }
    set (mn := nth (nth p gid 0) (smin cle (Cost PInf) (combine gid masked) (repeat (Cost PInf) n)) (Cost PInf)) in *.
    assert (forall q, q < n -> nth q gid 0 = nth p gid 0 -> cle mn (nth q masked (Cost PInf)) = true) as B'.
    { intros q Hq E. apply B. apply (in_combine_nth _ _ 0 (Cost PInf)); [rewrite gid_length; lia|]. exists q. rewrite gid_length. auto. }
    rewrite Hm by exact Hp.
    split.
    + intros [HNN HC]. assert (mcost (nth p perm 0) = mn) as E; [|rewrite (proj2 (ceq_eq _ _) (conj E HNN)); reflexivity].
      apply cle_antisym.
      * destruct C as [C|C].
        -- assert (nth (nth p gid 0) (repeat (Cost PInf) n) (Cost PInf) = Cost PInf) as ER.
           { generalize (nth p gid 0). intros g. clear. revert g. induction n as [|m IH]; intros [|g]; cbn; auto. }
           rewrite C, ER. apply cle_PInf.
        -- apply (in_combine_nth _ _ 0 (Cost PInf)) in C; [|rewrite gid_length; lia]. destruct C as (q & Hq & E1 & E2).
           rewrite gid_length in Hq. rewrite <- E2, Hm by exact Hq. apply HC; [apply perm_lt; exact Hq|]. apply gid_eq; auto.
      * rewrite <- Hm by exact Hp. apply B'; auto.
    + intros HC. destruct (ceq (mcost (nth p perm 0)) mn) eqn:E; [|reflexivity]. exfalso. apply HC.
      apply ceq_eq in E. destruct E as [E HNN]. split; [exact HNN|]. intros i' Hi' EK. destruct (perm_onto i' Hi') as (q & Hq & <-). rewrite E, <- Hm by exact Hq.
      apply B'; [exact Hq|]. apply gid_eq; auto.
  - rewrite (map_nth_lt _ _ p 0) by (rewrite perm_length; exact Hp). destruct (nth (nth p perm 0) filled false) eqn:E.
    + split; [reflexivity|congruence].
    + split; [discriminate|reflexivity].
Qed.

Let rpg := map (fun r => if r =? n then 0 else r) (smin Nat.leb 0 (combine gid cand) (repeat n n)).
Definition rep_of i : nat := nth i (snd (from_sorted ks filled uk perm)) 0.
Definition uniq_of i : bool := nth i (fst (from_sorted ks filled uk perm)) false.

Lemma nleb_refl a : Nat.leb a a = true. Proof. apply Nat.leb_refl. Qed.
Lemma nleb_trans a b c : Nat.leb a b = true -> Nat.leb b c = true -> Nat.leb a c = true.
Proof. rewrite !Nat.leb_le. lia. Qed.
Lemma nleb_total a b : Nat.leb a b = false -> Nat.leb b a = true.
Proof. rewrite Nat.leb_le, Nat.leb_gt. lia. Qed.

Lemma reps_raw i : i < n -> length (snd (from_sorted ks filled uk perm)) = n /\
  exists p, p < n /\ nth p perm 0 = i /\ rep_of i = if nth i filled false then nth (nth p gid 0) rpg 0 else 0.
Proof.
  intros Hi. unfold rep_of, from_sorted. cbn [snd]. fold sk. fold gid. fold cand. fold rpg.
  set (rs := map (fun g => nth g rpg 0) gid).
  assert (length rs = n) as HR by (unfold rs; rewrite map_length; apply gid_length).
  assert (map fst (combine perm rs) = perm) as Hf by (apply map_fst_combine; rewrite perm_length; lia).
  destruct (scatter_nth fst snd 0 (combine perm rs) (repeat 0 n)) as (S1 & S2 & S3).
  { rewrite Hf. eapply Permutation_NoDup; [apply Permutation_sym; exact Hperm|apply seq_NoDup]. }
  rewrite repeat_length in S1, S3.
  set (reps0 := fold_left (fun a p => upd a (fst p) (snd p)) (combine perm rs) (repeat 0 n)) in *.
  split; [rewrite map_length, combine_length; lia|].
  destruct (perm_onto i Hi) as (p & Hp & Ep). exists p. split; [exact Hp|]. split; [exact Ep|].
  rewrite (map_nth_lt _ _ i (false, 0)) by (rewrite combine_length; lia). rewrite combine_nth by lia. cbn [fst snd].
  destruct (nth i filled false); [|reflexivity].
  assert (In (i, nth p rs 0) (combine perm rs)) as HI.
  { apply (in_combine_nth _ _ 0 0); [rewrite perm_length; lia|]. exists p. rewrite perm_length. auto. }
  specialize (S1 _ HI). cbn [fst snd] in S1. rewrite S1 by exact Hi.
  unfold rs. rewrite (map_nth_lt _ _ p 0) by (rewrite gid_length; exact Hp). reflexivity.
Qed.

Lemma uniq_spec i : i < n -> uniq_of i = nth i filled false && (i =? rep_of i).
Proof.
  intros Hi. destruct (reps_raw i Hi) as [HL _]. unfold uniq_of, rep_of, from_sorted. cbn [fst snd].
  unfold from_sorted in HL. cbn [snd] in HL.
  rewrite (map_nth_lt _ _ i (false, 0, 0)) by (rewrite !combine_length, seq_length, HL; lia).
  rewrite combine_nth by (rewrite combine_length, seq_length, HL; lia).
  rewrite combine_nth by (rewrite seq_length; reflexivity). rewrite seq_nth by exact Hi. reflexivity.
Qed.
Lemma uniq_length : length (fst (from_sorted ks filled uk perm)) = n.
Proof.
  destruct (Nat.eq_dec n 0) as [E|E].
  - unfold from_sorted. cbn [fst]. rewrite map_length, !combine_length, seq_length, E. reflexivity.
  - destruct (reps_raw 0) as [HL _]; [lia|]. unfold from_sorted in HL |- *. cbn [fst snd] in *.
    rewrite map_length, combine_length, HL, combine_length, seq_length. lia.
Qed.
Lemma rep_unfilled i : i < n -> nth i filled false = false -> rep_of i = 0.
Proof. intros Hi HF. destruct (reps_raw i Hi) as (_ & p & _ & _ & ->). rewrite HF. reflexivity. Qed.

(** the representative is the first candidate of the group, if there is one *)
Lemma rep_min i r : i < n -> F i -> r < n -> K r = K i -> is_cand r ->
  (forall i', i' < n -> K i' = K i -> is_cand i' -> r <= i') -> (forall i', is_cand i' \/ ~ is_cand i') -> rep_of i = r.
Proof.
  intros Hi HF Hr EK HC HMin Hdec. destruct (reps_raw i Hi) as (_ & p & Hp & Ep & ->). rewrite HF.
  unfold rpg. rewrite (map_nth_lt _ _ _ 0) by (rewrite smin_length, repeat_length; apply gid_lt; exact Hp).
  destruct (smin_spec Nat.leb 0 nleb_refl nleb_trans nleb_total (combine gid cand) (repeat n n) (nth p gid 0)) as (A & B & C).
  { rewrite repeat_length. apply gid_lt. exact Hp. }
  set (mn := nth (nth p gid 0) (smin Nat.leb 0 (combine gid cand) (repeat n n)) 0) in *.
  assert (nth (nth p gid 0) (repeat n n) 0 = n) as ER.
  { rewrite (nth_indep _ 0 n) by (rewrite repeat_length; apply gid_lt; exact Hp).
    generalize (nth p gid 0). generalize n. intros v g. clear. generalize v at 2. intros m. revert g. induction m as [|m IH]; intros [|g]; cbn; auto. }
  rewrite ER in *.
  destruct (perm_onto r Hr) as (q & Hq & Eq).
  assert (mn <= r) as H1.
  { apply Nat.leb_le. apply B. apply (in_combine_nth _ _ 0 0); [rewrite gid_length, cand_length; reflexivity|].
    exists q. rewrite gid_length. split; [exact Hq|]. split.
    - apply gid_eq; auto. rewrite Eq, Ep. exact EK.
    - rewrite (proj1 (cand_nth q Hq)); [exact Eq|]. rewrite Eq. exact HC. }
  assert (mn = r) as ->.
  { destruct C as [C|C]; [lia|]. apply (in_combine_nth _ _ 0 0) in C; [|rewrite gid_length, cand_length; reflexivity].
    destruct C as (q' & Hq' & E1 & E2). rewrite gid_length in Hq'.
    destruct (Hdec (nth q' perm 0)) as [HD|HD].
    - rewrite (proj1 (cand_nth q' Hq') HD) in E2. assert (r <= mn); [|lia]. rewrite <- E2. apply HMin; auto.
      + apply perm_lt. exact Hq'.
      + rewrite <- Ep. apply gid_eq; auto.
    - rewrite (proj2 (cand_nth q' Hq') HD) in E2. lia. }
  destruct (Nat.eqb_spec r n); [lia|reflexivity].
Qed.

Lemma is_cand_dec i : is_cand i \/ ~ is_cand i.
Proof.
  unfold is_cand. destruct uk as [u|]; [|destruct (nth i filled false); [left; reflexivity|right; discriminate]].
  destruct (cnan_dec (mcost i)) as [EN|EN]; [right; tauto|].
  destruct (forallb (fun i' => negb (roweqb (K i') (K i)) || cle (mcost i) (mcost i')) (seq 0 n)) eqn:E.
  - left. split; [exact EN|]. intros i' Hi' EK. rewrite forallb_forall in E. specialize (E i' ltac:(apply in_seq; lia)).
    rewrite (proj2 (roweqb_eq _ _) EK) in E. exact E.
  - right. intros [_ H]. assert (forallb (fun i' => negb (roweqb (K i') (K i)) || cle (mcost i) (mcost i')) (seq 0 n) = true); [|congruence].
    apply forallb_forall. intros i' Hi'. apply in_seq in Hi'. destruct (roweqb (K i') (K i)) eqn:EE; [|reflexivity].
    apply roweqb_eq in EE. cbn. apply H; [lia|exact EE].
Qed.
(** a group without candidates is mapped to entry 0 *)
Lemma rep_none i : i < n -> (forall i', i' < n -> K i' = K i -> ~ is_cand i') -> rep_of i = 0.
Proof.
  intros Hi HN. destruct (reps_raw i Hi) as (_ & p & Hp & Ep & ->). destruct (nth i filled false); [|reflexivity].
  unfold rpg. rewrite (map_nth_lt _ _ _ 0) by (rewrite smin_length, repeat_length; apply gid_lt; exact Hp).
  destruct (smin_spec Nat.leb 0 nleb_refl nleb_trans nleb_total (combine gid cand) (repeat n n) (nth p gid 0)) as (A & B & C).
  { rewrite repeat_length. apply gid_lt. exact Hp. }
  set (mn := nth (nth p gid 0) (smin Nat.leb 0 (combine gid cand) (repeat n n)) 0) in *.
  assert (nth (nth p gid 0) (repeat n n) 0 = n) as ER.
  { rewrite (nth_indep _ 0 n) by (rewrite repeat_length; apply gid_lt; exact Hp). apply nth_repeat. }
  rewrite ER in *. assert (mn = n) as ->; [|now rewrite Nat.eqb_refl].
  destruct C as [C|C]; [exact C|]. apply (in_combine_nth _ _ 0 0) in C; [|rewrite gid_length, cand_length; reflexivity].
  destruct C as (q' & Hq' & E1 & E2). rewrite gid_length in Hq'. rewrite <- E2. apply (proj2 (cand_nth q' Hq')). apply HN; [apply perm_lt; exact Hq'|].
  rewrite <- Ep. apply gid_eq; auto.
Qed.
(** a group with a NaN cost *)
Definition group_nan i : Prop := exists i', i' < n /\ K i' = K i /\ mcost i' = CNaN.
Lemma rep_nan i : i < n -> group_nan i -> rep_of i = 0.
Proof.
  intros Hi (m & Hm & EK & EN). apply rep_none; [exact Hi|]. intros i' Hi' EK'. unfold is_cand. destruct uk as [u|] eqn:EU.
  - intros [H1 H2]. specialize (H2 m Hm ltac:(congruence)). rewrite EN in H2. destruct (mcost i'); [now apply H1|discriminate].
  - exfalso. unfold mcost, cost in EN. rewrite EU in EN. destruct (nth m filled false); discriminate.
Qed.
Lemma group_nan_dec i : group_nan i \/ ~ group_nan i.
Proof.
  destruct (existsb (fun i' => roweqb (K i') (K i) && match mcost i' with CNaN => true | _ => false end) (seq 0 n)) eqn:E.
  - left. apply existsb_exists in E. destruct E as (m & Hm & E). apply in_seq in Hm. apply andb_prop in E. destruct E as [E1 E2]. apply roweqb_eq in E1. exists m. split; [lia|]. split; [exact E1|]. destruct (mcost m); [reflexivity|discriminate].
  - right. intros (m & Hm & E1 & E2). assert (existsb (fun i' => roweqb (K i') (K i) && match mcost i' with CNaN => true | _ => false end) (seq 0 n) = true); [|congruence].
    apply existsb_exists. exists m. split; [apply in_seq; lia|]. rewrite (proj2 (roweqb_eq _ _) E1), E2. reflexivity.
Qed.

(** least element of a decidable non-empty predicate *)
Lemma least (P : nat -> Prop) : (forall i, P i \/ ~ P i) -> forall m, P m -> exists r, P r /\ forall i, P i -> r <= i.
Proof.
  intros D m. induction m as [m IH] using lt_wf_ind. intros Hm.
  assert ((exists i, i < m /\ P i) \/ forall i, i < m -> ~ P i) as [(i & Hi & HP)|HN].
  { clear IH Hm. induction m as [|m IH]; [right; lia|]. destruct IH as [(i & Hi & HP)|HN]; [left; exists i; split; [lia|exact HP]|].
    destruct (D m) as [HP|HP]; [left; exists m; split; [lia|exact HP]|right]. intros i Hi. destruct (Nat.eq_dec i m) as [->|]; [exact HP|apply HN; lia]. }
  - apply (IH i Hi HP).
  - exists m. split; [exact Hm|]. intros i Hi. destruct (Nat.lt_ge_cases i m) as [H|H]; [exfalso; exact (HN i H Hi)|exact H].
Qed.

(** a group always has a cheapest member *)
Lemma cheapest i : i < n -> exists r, r < n /\ K r = K i /\ forall i', i' < n -> K i' = K i -> cle (mcost r) (mcost i') = true.
Proof.
  intros Hi.
  assert (forall m, m <= n -> (exists q, q < m /\ K q = K i) -> exists r, r < n /\ K r = K i /\ forall i', i' < m -> K i' = K i -> cle (mcost r) (mcost i') = true) as H.
  { induction m as [|m IH]; intros Hm (q & Hq & EK); [lia|].
    assert ((exists q', q' < m /\ K q' = K i) \/ ~ (exists q', q' < m /\ K q' = K i)) as [HE|HE].
    { clear. induction m as [|m IH]; [right; intros (q & Hq & _); lia|]. destruct IH as [(q & Hq & E)|HN]; [left; exists q; split; [lia|exact E]|].
      destruct (roweqb (K m) (K i)) eqn:E; [left; exists m; split; [lia|apply roweqb_eq; exact E]|right].
      intros (q & Hq & EQ). destruct (Nat.eq_dec q m) as [->|]; [apply roweqb_eq in EQ; congruence|apply HN; exists q; split; [lia|exact EQ]]. }
    - destruct (IH ltac:(lia) HE) as (r & Hr & Er & Hmin).
      destruct (roweqb (K m) (K i)) eqn:EM.
      + apply roweqb_eq in EM. destruct (cle (mcost r) (mcost m)) eqn:EL.
        * exists r. repeat split; auto. intros i' Hi' EK'. destruct (Nat.eq_dec i' m) as [->|]; [exact EL|apply Hmin; [lia|exact EK']].
        * apply cle_total in EL. exists m. split; [lia|]. split; [exact EM|]. intros i' Hi' EK'.
          destruct (Nat.eq_dec i' m) as [->|]; [apply cle_refl|]. eapply cle_trans; [exact EL|]. apply Hmin; [lia|exact EK'].
      + exists r. repeat split; auto. intros i' Hi' EK'. destruct (Nat.eq_dec i' m) as [->|]; [|apply Hmin; [lia|exact EK']].
        apply roweqb_eq in EK'. congruence.
    - assert (q = m) as -> by (destruct (Nat.eq_dec q m); [assumption|exfalso; apply HE; exists q; split; [lia|exact EK]]).
      exists m. split; [lia|]. split; [exact EK|]. intros i' Hi' EK'. destruct (Nat.eq_dec i' m) as [->|]; [apply cle_refl|].
      exfalso. apply HE. exists i'. split; [lia|exact EK']. }
  apply (H n (le_n _)). exists i. auto.
Qed.

(** the representative of a filled row: characterisation *)
Lemma rep_char i : i < n -> F i -> ~ group_nan i ->
  rep_of i < n /\ K (rep_of i) = K i /\ is_cand (rep_of i) /\
  (forall i', i' < n -> K i' = K i -> is_cand i' -> rep_of i <= i').
Proof.
  intros Hi HF HG.
  assert (exists m, m < n /\ K m = K i /\ is_cand m) as (m & Hm & EK & HC).
  { unfold is_cand. destruct uk as [u|] eqn:EU.
    - destruct (cheapest i Hi) as (r & Hr & EK & Hmin). exists r. split; [exact Hr|]. split; [exact EK|]. split.
      + intros EN. apply HG. exists r. auto.
      + intros i' Hi' E. apply Hmin; [exact Hi'|congruence].
    - exists i. auto. }
  destruct (least (fun r => r < n /\ K r = K i /\ is_cand r)) with (m := m) as (r & (Hr & Er & Cr) & Hmin).
  - intros q. destruct (is_cand_dec q) as [D|D]; [|right; tauto].
    destruct (Nat.lt_ge_cases q n) as [L|L]; [|right; lia].
    destruct (roweqb (K q) (K i)) eqn:E; [left; apply roweqb_eq in E; auto|right]. intros (_ & E' & _). apply roweqb_eq in E'. congruence.
  - auto.
  - assert (rep_of i = r) as ->; [|auto 10].
    apply rep_min; auto. intros q. apply is_cand_dec.
Qed.
Lemma rep_lt i : i < n -> rep_of i < n.
Proof.
  intros Hi. destruct (nth i filled false) eqn:HF; [|rewrite rep_unfilled by assumption; lia].
  destruct (group_nan_dec i) as [G|G]; [rewrite rep_nan by assumption; lia|apply rep_char; assumption].
Qed.
Lemma rep_same i i' : i < n -> i' < n -> F i -> F i' -> K i = K i' -> rep_of i = rep_of i'.
Proof.
  intros Hi Hi' HF HF' E. destruct (group_nan_dec i) as [G|G].
  - rewrite (rep_nan i Hi G). symmetry. apply rep_nan; [exact Hi'|]. destruct G as (m & Hm & E1 & E2). exists m. split; [exact Hm|]. split; [congruence|exact E2].
  - assert (~ group_nan i') as G' by (intros (m & Hm & E1 & E2); apply G; exists m; split; [exact Hm|split; [congruence|exact E2]]).
    destruct (rep_char i Hi HF G) as (A & B & C & D), (rep_char i' Hi' HF' G') as (A' & B' & C' & D').
    apply Nat.le_antisymm; [apply D|apply D']; auto; congruence.
Qed.
(** in every case, selected rows have pairwise different keys *)
Theorem uniq_distinct i i' : i < n -> i' < n -> uniq_of i = true -> uniq_of i' = true -> K i = K i' -> i = i'.
Proof.
  intros Hi Hi' U U' E. rewrite uniq_spec in U, U' by assumption. apply andb_prop in U, U'. destruct U as [F1 E1], U' as [F2 E2].
  apply Nat.eqb_eq in E1, E2. rewrite E1, E2. apply rep_same; assumption.
Qed.
(** a group with a filled row of finite cost (or no costs given) has a filled representative *)
Lemma rep_filled i : i < n -> F i -> ~ group_nan i -> (uk = None \/ (exists i', i' < n /\ F i' /\ K i' = K i /\ cost i' <> Cost PInf) \/
    (forall i', i' < n -> K i' = K i -> F i')) -> F (rep_of i).
Proof.
  intros Hi HF HG H. destruct (rep_char i Hi HF HG) as (A & B & C & D). unfold is_cand in C.
  destruct H as [H|[(i' & Hi' & F' & E' & HC)|H]].
  - rewrite H in C. exact C.
  - destruct uk as [u|] eqn:EU; [|exact C]. destruct (nth (rep_of i) filled false) eqn:EF; [reflexivity|exfalso].
    apply proj2 in C. specialize (C i' Hi' ltac:(congruence)). unfold mcost in C. rewrite EF, F' in C. apply HC.
    apply cle_antisym; [apply cle_PInf|exact C].
  - apply H; assumption.
Qed.
End Rep.

Lemma SS_impl {A} (R S : A -> A -> Prop) l : (forall a b, R a b -> S a b) -> StronglySorted R l -> StronglySorted S l.
Proof. intros H. induction 1 as [|a l Hl IH HF]; constructor; [exact IH|]. eapply Forall_impl; [|exact HF]. intros b. apply H. Qed.

(** ** the sequence of stable sorts orders rows lexicographically *)
Section Lsd.
Variables (rows : list (list N)).
Fixpoint lexr (cols : list nat) (a b : nat) : Prop :=
  match cols with
  | [] => True
  | j :: t => (nth j (nth a rows []) 0 <= nth j (nth b rows []) 0)%N /\
              ((nth j (nth b rows []) 0 <= nth j (nth a rows []) 0)%N -> lexr t a b)
  end.
Lemma lsd_perm cols l0 : Permutation (fold_right (stable_perm rows) l0 cols) l0.
Proof. induction cols as [|j t IH]; cbn [fold_right]; [apply Permutation_refl|]. unfold stable_perm at 1. rewrite isort_perm. exact IH. Qed.
Lemma lsd_sorted cols l0 : StronglySorted (lexr cols) (fold_right (stable_perm rows) l0 cols).
Proof.
  induction cols as [|j t IH]; cbn [fold_right].
  - cbn. induction l0; constructor; [assumption|]. apply Forall_forall. intros; exact I.
  - unfold stable_perm at 1.
    pose proof (isort_stable (fun a b => (nth j (nth a rows []) 0 <=? nth j (nth b rows []) 0)%N)
       ltac:(intros a b c; rewrite !N.leb_le; lia) ltac:(intros a b; rewrite N.leb_le, N.leb_gt; lia) (lexr t) _ IH) as H.
    eapply SS_impl; [|exact H]. intros a b [H1 H2]. cbn [lexr].
    split; [apply N.leb_le; exact H1|]. intros H3. apply H2. apply N.leb_le. exact H3.
Qed.
Lemma lexr_trans cols a b c : lexr cols a b -> lexr cols b c -> lexr cols a c.
Proof.
  induction cols as [|j t IH]; cbn [lexr]; [auto|]. intros [A1 A2] [B1 B2]. split; [lia|]. intros H.
  apply IH; [apply A2|apply B2]; lia.
Qed.
Lemma lexr_antisym cols a b : lexr cols a b -> lexr cols b a -> forall j, In j cols -> nth j (nth a rows []) 0%N = nth j (nth b rows []) 0%N.
Proof.
  induction cols as [|j t IH]; cbn [lexr]; [intros _ _ j []|]. intros [A1 A2] [B1 B2] j' [<-|Hj]; [lia|].
  apply IH; auto.
Qed.
Lemma lexr_refl_eq cols a b : nth a rows [] = nth b rows [] -> lexr cols a b.
Proof. intros E. induction cols as [|j t IH]; cbn [lexr]; [exact I|]. rewrite E. split; [lia|]. intros _. exact IH. Qed.
End Lsd.

Lemma lsd_contiguous rows w n : length rows = n -> (forall r, In r rows -> length r = w) ->
  Permutation (lsd w rows n) (seq 0 n) /\ contiguous [] (map (fun i => nth i rows []) (lsd w rows n)).
Proof.
  intros HL HW. unfold lsd. split; [apply lsd_perm|].
  set (P := fold_right (stable_perm rows) (seq 0 n) (seq 0 w)).
  assert (Permutation P (seq 0 n)) as HP by apply lsd_perm.
  pose proof (lsd_sorted rows (seq 0 w) (seq 0 n)) as HS. fold P in HS.
  assert (length P = n) as HPL by (rewrite (Permutation_length HP), seq_length; reflexivity).
  intros p q r Hpq Hqr Hr E. rewrite map_length, HPL in Hr.
  assert (forall x, x < n -> nth x (map (fun i => nth i rows []) P) [] = nth (nth x P 0) rows []) as Hn.
  { intros x Hx. rewrite (map_nth_lt _ _ x 0) by lia. reflexivity. }
  assert (forall x, x < n -> length (nth (nth x P 0) rows []) = w) as Hwd.
  { intros x Hx. apply HW. apply nth_In. rewrite HL. assert (In (nth x P 0) (seq 0 n)) as HI by (eapply Permutation_in; [exact HP|apply nth_In; lia]).
    apply in_seq in HI. lia. }
  rewrite !Hn in * by lia.
  pose proof (StronglySorted_nth _ 0 P HS p q Hpq ltac:(lia)) as H1.
  pose proof (StronglySorted_nth _ 0 P HS q r Hqr ltac:(lia)) as H2.
  assert (lexr rows (seq 0 w) (nth q P 0) (nth p P 0)) as H3.
  { eapply lexr_trans; [exact H2|]. apply lexr_refl_eq. congruence. }
  apply (nth_ext _ _ 0%N 0%N); [rewrite !Hwd by lia; reflexivity|].
  intros j Hj. rewrite Hwd in Hj by lia. apply (lexr_antisym rows (seq 0 w) _ _ H3 H1). apply in_seq. lia.
Qed.
