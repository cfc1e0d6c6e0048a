(** * PropLegacy.v — property C67: the legacy and the current implementation of unique_mask agree. *)
From Verif Require Import Jax KeyModel HashModel HashProofs StableSort GroupFirst DedupeModel DedupeProofs UniqueModel UniqueProofs PropUnique LegacyModel TableRounds.
Local Open Scope nat_scope.

(** ** jnp.unique *)
Section JU.
Variables (w : nat) (rows : list (list N)).
Hypothesis HK : Forall (fun r => length r = w) rows.
Let n := length rows.
Let perm := jnp_unique_perm w rows.
Lemma ju_perm : Permutation perm (seq 0 n).
Proof. apply lsd_perm. Qed.
Lemma ju_plen : length perm = n.
Proof. rewrite (Permutation_length ju_perm). apply seq_length. Qed.
Lemma ju_contig : contiguous [] (jnp_unique_sorted w rows).
Proof. apply (lsd_contiguous rows w n eq_refl). rewrite Forall_forall in HK. exact HK. Qed.
Lemma ju_slen : length (jnp_unique_sorted w rows) = n.
Proof. unfold jnp_unique_sorted. rewrite map_length. apply ju_plen. Qed.
Lemma ju_sk p : p < n -> nth p (jnp_unique_sorted w rows) [] = nth (nth p perm 0) rows [].
Proof. intros Hp. unfold jnp_unique_sorted. rewrite (map_nth_lt _ _ p 0) by (fold perm; rewrite ju_plen; exact Hp). reflexivity. Qed.
Lemma ju_gid_len : length (group_id roweqb (jnp_unique_sorted w rows)) = n.
Proof. unfold group_id. rewrite map_length, cumsum_from_length, group_start_length. apply ju_slen. Qed.
Lemma ju_inv_at p : p < n -> nth (nth p perm 0) (jnp_unique_inverse w rows) 0 = nth p (group_id roweqb (jnp_unique_sorted w rows)) 0.
Proof. intros Hp. apply (scatter_back_nth 0 perm _ n p ju_perm ju_gid_len Hp). Qed.
Lemma ju_inv_len : length (jnp_unique_inverse w rows) = n.
Proof. unfold jnp_unique_inverse. rewrite scatter_back_length. apply ju_plen. Qed.
Lemma ju_inv_lt i : i < n -> nth i (jnp_unique_inverse w rows) 0 < n.
Proof.
  intros Hi. destruct (perm_pos perm n i ju_perm Hi) as (p & Hp & <-). rewrite ju_inv_at by exact Hp.
  pose proof (group_id_lt roweqb [] roweqb_eq (jnp_unique_sorted w rows) p). rewrite ju_slen in H. specialize (H Hp). lia.
Qed.
Lemma ju_inv_eq i j : i < n -> j < n ->
  (nth i (jnp_unique_inverse w rows) 0 = nth j (jnp_unique_inverse w rows) 0 <-> nth i rows [] = nth j rows []).
Proof.
  intros Hi Hj. destruct (perm_pos perm n i ju_perm Hi) as (p & Hp & <-). destruct (perm_pos perm n j ju_perm Hj) as (q & Hq & <-).
  rewrite !ju_inv_at by assumption. rewrite <- !ju_sk by assumption.
  apply (group_id_eq roweqb [] roweqb_eq); [exact ju_contig|rewrite ju_slen; exact Hp|rewrite ju_slen; exact Hq].
Qed.
Lemma ju_stable p q : p < q -> q < n -> nth (nth p perm 0) rows [] = nth (nth q perm 0) rows [] -> nth p perm 0 < nth q perm 0.
Proof.
  intros Hpq Hq E. apply (lexb_eq rows lt (seq 0 w) _ _ E).
  apply (StronglySorted_nth _ 0 perm); [|exact Hpq|rewrite ju_plen; exact Hq].
  unfold perm, jnp_unique_perm, lsd. apply lsd_sorted_base. apply seq_sorted.
Qed.
Lemma ju_start p : p < n -> (nth p (group_start roweqb (jnp_unique_sorted w rows)) false = true <->
  forall j, j < n -> j <> nth p perm 0 -> nth j rows [] = nth (nth p perm 0) rows [] -> nth p perm 0 < j).
Proof.
  intros Hp. apply (first_of_group roweqb [] roweqb_eq n perm (fun i => nth i rows []) lt ju_perm ju_contig ju_stable); [|exact Hp].
  intros a b; lia.
Qed.
Lemma in_firstn_pad (l : list nat) m x y : In x (firstn m (l ++ repeat y m)) -> In x l \/ x = y.
Proof.
  intros H. assert (HI : In x (l ++ repeat y m)) by (rewrite <- (firstn_skipn m (l ++ repeat y m)); apply in_or_app; left; exact H).
  apply in_app_or in HI as [HI|HI]; [left; exact HI|right; apply repeat_spec in HI; exact HI].
Qed.
Lemma in_pad_firstn (l : list nat) m x y : length l <= m -> In x l -> In x (firstn m (l ++ repeat y m)).
Proof. intros HL HI. rewrite firstn_app. apply in_or_app. left. rewrite firstn_all2 by exact HL. exact HI. Qed.
Lemma filter_le {X} (f : X -> bool) l : length (filter f l) <= length l.
Proof. induction l as [|x l IH]; cbn [filter length]; [lia|]. destruct (f x); cbn [length]; lia. Qed.
(** the indices are the first occurrences *)
Lemma ju_index i : i < n -> (In i (jnp_unique_index w rows) <-> forall j, j < i -> nth j rows [] <> nth i rows []).
Proof.
  intros Hi. unfold jnp_unique_index. fold perm n.
  set (st := group_start roweqb (jnp_unique_sorted w rows)).
  assert (Hst : forall p, p < n -> nth p st false = true <-> forall j, j < nth p perm 0 -> nth j rows [] <> nth (nth p perm 0) rows []).
  { intros p Hp. unfold st. rewrite (ju_start p Hp). pose proof (perm_in_range perm n p ju_perm Hp) as HR. split.
    - intros H j Hj E. specialize (H j ltac:(lia) ltac:(lia) E). lia.
    - intros H j Hj Hne E. destruct (Nat.lt_ge_cases j (nth p perm 0)) as [L|L]; [|lia]. exfalso. exact (H j L E). }
  rewrite in_map_iff. split.
  - intros (p & <- & HIn). apply in_firstn_pad in HIn as [HIn| ->].
    + apply filter_In in HIn as [HIn HS]. apply in_seq in HIn. apply Hst; [lia|exact HS].
    + assert (H0 : 0 < n) by lia. apply (Hst 0 H0). unfold st. destruct (jnp_unique_sorted w rows) eqn:E; [|reflexivity].
      pose proof ju_slen as HL. rewrite E in HL. cbn in HL. lia.
  - intros H. destruct (perm_pos perm n i ju_perm Hi) as (p & Hp & <-). exists p. split; [reflexivity|].
    apply in_pad_firstn.
    + pose proof (filter_le (fun p => nth p st false) (seq 0 n)) as HF. rewrite seq_length in HF. exact HF.
    + apply filter_In. split; [apply in_seq; lia|]. apply Hst; [exact Hp|exact H].
Qed.
End JU.

(** ** Scatter with minimum *)
Section SM.
Context {A : Type} (le : A -> A -> Prop) (mn : A -> A -> A) (d : A).
Hypothesis le_refl : forall a, le a a.
Hypothesis le_trans : forall a b c, le a b -> le b c -> le a c.
Hypothesis mn_l : forall a b, le (mn a b) a.
Hypothesis mn_r : forall a b, le (mn a b) b.
Hypothesis mn_or : forall a b, mn a b = a \/ mn a b = b.
Lemma scatter_min_length init idx v : length (scatter_min mn d init idx v) = length init.
Proof.
  unfold scatter_min. generalize (combine idx v). intros l. revert init.
  induction l as [|p l IH]; intros init; [reflexivity|]. cbn [fold_left]. rewrite IH. apply upd_length.
Qed.
Lemma scatter_min_pairs (l : list (nat * A)) : forall init g, g < length init ->
  let r := nth g (fold_left (fun a p => upd a (fst p) (mn (nth (fst p) a d) (snd p))) l init) d in
  le r (nth g init d) /\ (forall v, In (g, v) l -> le r v) /\ (r = nth g init d \/ exists v, In (g, v) l /\ r = v).
Proof.
  induction l as [|[h x] l IH]; intros init g Hg; cbn [fold_left fst snd].
  - split; [apply le_refl|]. split; [intros v []|left; reflexivity].
  - set (init' := upd init h (mn (nth h init d) x)).
    destruct (IH init' g ltac:(unfold init'; rewrite upd_length; exact Hg)) as (I1 & I2 & I3).
    set (r := nth g (fold_left _ l init') d) in *.
    destruct (Nat.eq_dec h g) as [->|Hne].
    + unfold init' in I1, I3. rewrite nth_upd_eq in I1, I3 by exact Hg. split; [eapply le_trans; [exact I1|apply mn_l]|]. split.
      * intros v [E|Hv]; [injection E as ->; eapply le_trans; [exact I1|apply mn_r]|apply I2; exact Hv].
      * destruct I3 as [I3|(v & Hv & I3)].
        -- destruct (mn_or (nth g init d) x) as [E|E]; rewrite E in I3; [left; exact I3|right; exists x; split; [left; reflexivity|exact I3]].
        -- right. exists v. split; [right; exact Hv|exact I3].
    + unfold init' in I1, I3. rewrite nth_upd_neq in I1, I3 by exact Hne. split; [exact I1|]. split.
      * intros v [E|Hv]; [injection E as E1 _; congruence|apply I2; exact Hv].
      * destruct I3 as [I3|(v & Hv & I3)]; [left; exact I3|right; exists v; split; [right; exact Hv|exact I3]].
Qed.
Lemma scatter_min_spec n init idx v g : length idx = n -> length v = n -> g < length init ->
  let r := nth g (scatter_min mn d init idx v) d in
  le r (nth g init d) /\ (forall i, i < n -> nth i idx 0 = g -> le r (nth i v d)) /\
  (r = nth g init d \/ exists i, i < n /\ nth i idx 0 = g /\ r = nth i v d).
Proof.
  intros Hi Hv Hg. destruct (scatter_min_pairs (combine idx v) init g Hg) as (A1 & A2 & A3).
  assert (HC : forall i, i < n -> nth i (combine idx v) (0, d) = (nth i idx 0, nth i v d)) by (intros i H; apply combine_nth; congruence).
  assert (HCL : length (combine idx v) = n) by (rewrite combine_length; lia).
  split; [exact A1|]. split.
  - intros i Hin E. apply A2. rewrite <- E, <- HC by exact Hin. apply nth_In. rewrite HCL. exact Hin.
  - destruct A3 as [A3|(x & Hx & A3)]; [left; exact A3|right].
    apply (In_nth _ _ (0, d)) in Hx as (i & Hin & E). rewrite HCL in Hin. rewrite HC in E by exact Hin. injection E as E1 E2.
    exists i. split; [exact Hin|]. split; [exact E1|]. rewrite E2. exact A3.
Qed.
End SM.
Lemma kmin_l a b : kle (kmin a b) a = true.
Proof. unfold kmin. destruct (kle a b) eqn:E; [apply kle_refl|]. apply kle_total. exact E. Qed.
Lemma kmin_r a b : kle (kmin a b) b = true.
Proof. unfold kmin. destruct (kle a b) eqn:E; [exact E|apply kle_refl]. Qed.
Lemma kmin_or a b : kmin a b = a \/ kmin a b = b.
Proof. unfold kmin. destruct (kle a b); auto. Qed.

Lemma nmin_or a b : Nat.min a b = a \/ Nat.min a b = b.
Proof. lia. Qed.
(** ** The groups of the legacy implementation *)
Definition filled_b (filled : option (list bool)) (i : nat) : bool := match filled with None => true | Some f => nth i f false end.
Lemma filled_b_spec filled i : filled_b filled i = true <-> is_filled filled i.
Proof. destruct filled; cbn; tauto. Qed.
(** the [filled] array, when given, has one entry per item *)
Definition filled_ok (filled : option (list bool)) (n : nat) : Prop := match filled with None => True | Some f => length f = n end.
Section Leg.
Variables (k : nat) (rows : list (list N)) (filled : option (list bool)).
Hypothesis HK : Forall (fun r => length r = k) rows.
Hypothesis HFl : filled_ok filled (length rows).
Let n := length rows.
Let keys := legacy_keys rows filled.
Let W := legacy_width k filled.
Lemma lk_len : length keys = n.
Proof. unfold keys, legacy_keys. destruct filled as [f|]; [|reflexivity]. cbn in HFl. rewrite map_length, combine_length. fold n. unfold n. lia. Qed.
Lemma lk_at i : i < n -> nth i keys [] = nth i rows [] ++ (match filled with None => [] | Some f => [if nth i f false then 1%N else 0%N] end).
Proof.
  intros Hi. unfold keys, legacy_keys. destruct filled as [f|]; [|now rewrite app_nil_r]. cbn in HFl.
  rewrite (map_nth_lt _ _ i ([], false)) by (rewrite combine_length; unfold n in Hi; lia).
  rewrite combine_nth by congruence. reflexivity.
Qed.
Lemma row_k i : i < n -> length (nth i rows []) = k.
Proof. intros Hi. rewrite Forall_forall in HK. apply HK, nth_In, Hi. Qed.
Lemma lk_width : Forall (fun r => length r = W) keys.
Proof.
  apply Forall_forall. intros r Hr. apply (In_nth _ _ []) in Hr as (i & Hi & <-). rewrite lk_len in Hi. rewrite lk_at by exact Hi.
  rewrite app_length, row_k by exact Hi. unfold W, legacy_width. destruct filled; cbn [length]; lia.
Qed.
Lemma lk_eq i j : i < n -> j < n -> (nth i keys [] = nth j keys [] <-> row_at rows i = row_at rows j /\ filled_b filled i = filled_b filled j).
Proof.
  intros Hi Hj. rewrite !lk_at by assumption. unfold row_at. destruct filled as [f|]; cbn [filled_b].
  - split.
    + intros E. apply app_inj_tail in E as [E1 E2]. split; [exact E1|]. destruct (nth i f false), (nth j f false); congruence.
    + intros [-> ->]. reflexivity.
  - rewrite !app_nil_r. tauto.
Qed.
Lemma linv_len : length (unique_inverse_legacy k rows filled) = n.
Proof. etransitivity; [apply (ju_inv_len W keys)|apply lk_len]. Qed.
Lemma linv_lt i : i < n -> nth i (unique_inverse_legacy k rows filled) 0 < n.
Proof. intros Hi. pose proof (ju_inv_lt W keys i) as H. rewrite lk_len in H. apply H. exact Hi. Qed.
Lemma linv_eq i j : i < n -> j < n ->
  (nth i (unique_inverse_legacy k rows filled) 0 = nth j (unique_inverse_legacy k rows filled) 0 <->
   row_at rows i = row_at rows j /\ filled_b filled i = filled_b filled j).
Proof.
  intros Hi Hj. rewrite <- lk_eq by assumption. apply (ju_inv_eq W keys lk_width); rewrite lk_len; assumption.
Qed.

Variable cost : list key.
Hypothesis HCl : length cost = n.
Let inv := unique_inverse_legacy k rows filled.
Let mk := masked_key n filled cost.
Lemma mk_at i : i < n -> nth i mk PInf = if filled_b filled i then cost_at cost i else PInf.
Proof.
  intros Hi. unfold mk, masked_key, cost_at. destruct filled as [f|]; [|reflexivity]. cbn [filled_b].
  rewrite (map_nth_lt _ _ i 0) by (rewrite seq_length; exact Hi). rewrite seq_nth by exact Hi. reflexivity.
Qed.
Lemma mk_len : length mk = n.
Proof. unfold mk, masked_key. destruct filled; [rewrite map_length; apply seq_length|exact HCl]. Qed.
Let mins := scatter_min kmin PInf (repeat PInf n) inv mk.
Definition least (i : nat) : Prop := forall j, j < n -> nth j inv 0 = nth i inv 0 -> kle (nth i mk PInf) (nth j mk PInf) = true.
Lemma mins_spec i : i < n ->
  (kle (nth i mk PInf) (nth (nth i inv 0) mins PInf) && kle (nth (nth i inv 0) mins PInf) (nth i mk PInf) = true <-> least i).
Proof.
  intros Hi. destruct (scatter_min_spec (fun a b => kle a b = true) kmin PInf kle_refl kle_trans kmin_l kmin_r kmin_or n (repeat PInf n) inv mk (nth i inv 0))
    as (A1 & A2 & A3); [exact linv_len|exact mk_len|rewrite repeat_length; apply linv_lt; exact Hi|]. fold mins in A1, A2, A3.
  rewrite andb_true_iff. split.
  - intros [H1 _] j Hj Ej. eapply kle_trans; [exact H1|]. apply A2; assumption.
  - intros HL. split; [|apply A2; [exact Hi|reflexivity]]. destruct A3 as [A3|(j & Hj & Ej & A3)].
    + rewrite A3, nth_repeat. apply kle_PInf.
    + rewrite A3. apply HL; assumption.
Qed.
Lemma winner_spec i : i < n ->
  (i = nth (nth i inv 0) (legacy_winners k rows filled cost) n <->
   filled_b filled i = true /\ least i /\ (forall j, j < n -> nth j inv 0 = nth i inv 0 -> filled_b filled j = true -> least j -> i <= j)).
Proof.
  intros Hi. unfold legacy_winners. fold n. fold (unique_inverse_legacy k rows filled). fold inv. fold mk. fold mins.
  set (ism := map (fun i0 : nat => kle (nth i0 mk PInf) (nth (nth i0 inv 0) mins PInf) && kle (nth (nth i0 inv 0) mins PInf) (nth i0 mk PInf)) (seq 0 n)).
  match goal with |- context [scatter_min Nat.min n (repeat n n) inv ?c] => set (cons_ := c) end.
  assert (Him : forall j, j < n -> nth j ism false = true <-> least j).
  { intros j Hj. unfold ism. rewrite (map_nth_lt _ _ j 0) by (rewrite seq_length; exact Hj). rewrite seq_nth by exact Hj. apply mins_spec. exact Hj. }
  assert (Hco : forall j, j < n -> nth j cons_ n = if nth j ism false && filled_b filled j then j else n).
  { intros j Hj. unfold cons_. rewrite (map_nth_lt _ _ j 0) by (rewrite seq_length; exact Hj). rewrite seq_nth by exact Hj. reflexivity. }
  assert (Hcl : length cons_ = n) by (unfold cons_; rewrite map_length; apply seq_length).
  destruct (scatter_min_spec le Nat.min n Nat.le_refl Nat.le_trans Nat.le_min_l Nat.le_min_r nmin_or n (repeat n n) inv cons_ (nth i inv 0))
    as (A1 & A2 & A3); [exact linv_len|exact Hcl|rewrite repeat_length; apply linv_lt; exact Hi|].
  set (win := nth (nth i inv 0) (scatter_min Nat.min n (repeat n n) inv cons_) n) in *.
  assert (Hif : forall j, j < n -> (nth j ism false && filled_b filled j = true <-> least j /\ filled_b filled j = true)).
  { intros j Hj. rewrite andb_true_iff, Him by exact Hj. tauto. }
  split.
  - intros E. destruct A3 as [A3|(j & Hj & Ej & A3)].
    + rewrite nth_repeat in A3. lia.
    + rewrite Hco in A3 by exact Hj. destruct (nth j ism false && filled_b filled j) eqn:EJ; [|lia].
      assert (EIJ : j = i) by lia. rewrite EIJ in EJ. apply (Hif i Hi) in EJ as [L F]. clear j Hj Ej A3 EIJ. split; [exact F|]. split; [exact L|].
      intros j Hj2 Ej2 Fj Lj. specialize (A2 j Hj2 Ej2). rewrite Hco in A2 by exact Hj2.
      rewrite (proj2 (Hif j Hj2) (conj Lj Fj)) in A2. lia.
  - intros (F & L & H). pose proof (A2 i Hi eq_refl) as Hle. rewrite Hco, (proj2 (Hif i Hi) (conj L F)) in Hle by exact Hi.
    destruct A3 as [A3|(j & Hj & Ej & A3)].
    + rewrite nth_repeat in A3. lia.
    + rewrite Hco in A3 by exact Hj. destruct (nth j ism false && filled_b filled j) eqn:EJ; [|lia].
      apply (Hif j Hj) in EJ as [Lj Fj]. specialize (H j Hj Ej Fj Lj). lia.
Qed.
Lemma winner_beats i : i < n ->
  (i = nth (nth i inv 0) (legacy_winners k rows filled cost) n <->
   is_filled filled i /\ forall j, j < n -> j <> i -> is_filled filled j -> row_at rows j = row_at rows i -> beats cost i j).
Proof.
  intros Hi. rewrite winner_spec by exact Hi. rewrite filled_b_spec.
  assert (Hg : filled_b filled i = true -> forall j, j < n -> (nth j inv 0 = nth i inv 0 <-> row_at rows j = row_at rows i /\ filled_b filled j = true)).
  { intros F j Hj. unfold inv. rewrite linv_eq by assumption. rewrite F. tauto. }
  assert (Hl : forall i, i < n -> filled_b filled i = true ->
    (least i <-> forall j, j < n -> filled_b filled j = true -> row_at rows j = row_at rows i -> kle (cost_at cost i) (cost_at cost j) = true)).
  { intros a Ha Fa. unfold least. rewrite mk_at, Fa by exact Ha. split; intros H j Hj.
    - intros Fj Ej. specialize (H j Hj). rewrite mk_at, Fj in H by exact Hj. apply H. apply linv_eq; [exact Hj|exact Ha|]. rewrite Fa. tauto.
    - intros Ej. rewrite mk_at by exact Hj. apply linv_eq in Ej as [E1 E2]; [|exact Hj|exact Ha]. rewrite E2, Fa. apply H; [exact Hj|congruence|exact E1]. }
  split.
  - intros (F & L & H). apply filled_b_spec in F. rewrite (Hl i Hi F) in L. split; [apply filled_b_spec; exact F|].
    intros j Hj Hne Fj Ej. apply filled_b_spec in Fj. pose proof (L j Hj Fj Ej) as Lij. unfold beats.
    destruct (kle (cost_at cost j) (cost_at cost i)) eqn:EK; [right|left; reflexivity].
    assert (EQ : cost_at cost i = cost_at cost j) by (apply kle_antisym; assumption).
    split; [exact EQ|]. assert (i <= j); [|lia]. apply H; [exact Hj|apply Hg; tauto|exact Fj|].
    apply (Hl j Hj Fj). intros m Hm Fm Em. rewrite <- EQ. apply L; [exact Hm|exact Fm|congruence].
  - intros (F & H). pose proof F as F'. apply filled_b_spec in F'. split; [exact F|]. split.
    + apply (Hl i Hi F'). intros j Hj Fj Ej. destruct (Nat.eq_dec j i) as [->|Hne]; [apply kle_refl|].
      apply filled_b_spec in Fj. destruct (H j Hj Hne Fj Ej) as [B|[B _]]; [apply kle_total; exact B|rewrite B; apply kle_refl].
    + intros j Hj Ej Fj Lj. destruct (Nat.eq_dec j i) as [->|Hne]; [lia|]. apply (Hg F' j Hj) in Ej as [Ej _].
      apply filled_b_spec in Fj. destruct (H j Hj Hne Fj Ej) as [B|[_ B]]; [|lia]. exfalso.
      apply filled_b_spec in Fj. rewrite (Hl j Hj Fj) in Lj. rewrite (Lj i Hi F' (eq_sym Ej)) in B. discriminate B.
Qed.
End Leg.

(** ** Specification of the legacy mask *)
Definition legacy_marked k rows filled cost i := nth i (unique_mask_legacy k rows filled cost) false = true.

(** C67: with costs and a [filled] mask the legacy function marks the cheapest (earliest on ties) filled item of
    every row value, whatever its cost; without a mask, only if that cost is not +inf. *)
Theorem C67_legacy_cheapest : forall k rows filled cost i,
  Forall (fun r => length r = k) rows -> filled_ok filled (length rows) -> length cost = length rows -> i < length rows ->
  (legacy_marked k rows filled (Some cost) i <->
   is_filled filled i /\ (filled = None -> cost_at cost i <> PInf) /\
   forall j, j < length rows -> j <> i -> is_filled filled j -> row_at rows j = row_at rows i -> beats cost i j).
Proof.
  intros k rows filled cost i HK HF HC Hi. unfold legacy_marked, unique_mask_legacy.
  rewrite (map_nth_lt _ _ i 0) by (rewrite seq_length; exact Hi). rewrite seq_nth by exact Hi. cbn [Nat.add].
  rewrite andb_true_iff, Nat.eqb_eq. fold (unique_inverse_legacy k rows filled).
  rewrite (winner_beats k rows filled HK HF cost HC i Hi).
  assert (HV : (match filled with Some _ => true | None => negb (kle PInf (nth i cost PInf)) end) = true <-> (filled = None -> cost_at cost i <> PInf)).
  { unfold cost_at. destruct filled; [split; [discriminate|reflexivity]|].
    destruct (nth i cost PInf); cbn; split; intros H; try reflexivity; try discriminate H; [intros _; discriminate|intros _; discriminate|].
    exfalso. apply H; reflexivity. }
  rewrite HV. tauto.
Qed.

Lemma set_true_spec (l : list nat) : forall init i, i < length init ->
  (nth i (fold_left (fun a i => upd a i true) l init) false = true <-> In i l \/ nth i init false = true).
Proof.
  induction l as [|x l IH]; intros init i Hi; cbn [fold_left]; [cbn; tauto|].
  rewrite IH by (rewrite upd_length; exact Hi). cbn [In]. destruct (Nat.eq_dec x i) as [->|Hne].
  - rewrite nth_upd_eq by exact Hi. tauto.
  - rewrite nth_upd_neq by exact Hne. tauto.
Qed.
(** C67: without costs it marks the first filled item of every row value. *)
Theorem C67_legacy_first : forall k rows filled i,
  Forall (fun r => length r = k) rows -> filled_ok filled (length rows) -> i < length rows ->
  (legacy_marked k rows filled None i <->
   is_filled filled i /\ forall j, j < i -> is_filled filled j -> row_at rows j <> row_at rows i).
Proof.
  intros k rows filled i HK HF Hi. unfold legacy_marked, unique_mask_legacy.
  set (keys := legacy_keys rows filled). set (W := legacy_width k filled).
  set (m := fold_left _ _ _).
  assert (Hm : nth i m false = true <-> forall j, j < i -> nth j keys [] <> nth i keys []).
  { unfold m. rewrite set_true_spec by (rewrite repeat_length; exact Hi).
    rewrite nth_repeat. rewrite (ju_index W keys); [|apply lk_width; assumption|unfold keys; rewrite lk_len by assumption; exact Hi].
    split; [intros [H|H]; [exact H|discriminate H]|intros H; left; exact H]. }
  assert (HN : nth i (match filled with None => m | Some f => map (fun i => nth i m false && nth i f false) (seq 0 (length rows)) end) false = true <->
               nth i m false = true /\ is_filled filled i).
  { destruct filled as [f|]; [|cbn; tauto].
    rewrite (map_nth_lt _ _ i 0) by (rewrite seq_length; exact Hi). rewrite seq_nth by exact Hi. cbn [Nat.add is_filled]. apply andb_true_iff. }
  rewrite HN, Hm. split.
  - intros [H F]. split; [exact F|]. intros j Hj Fj E. apply (H j Hj). unfold keys. apply lk_eq; auto; [lia|].
    split; [exact E|]. apply filled_b_spec in F, Fj. congruence.
  - intros [F H]. split; [|exact F]. intros j Hj E. unfold keys in E. apply lk_eq in E; auto; [|lia]. destruct E as [E1 E2].
    apply (H j Hj); [|exact E1]. apply filled_b_spec. apply filled_b_spec in F. congruence.
Qed.

(** ** Agreement with the current implementation *)
Lemma same_mask (a b : list bool) n : length a = n -> length b = n ->
  (forall i, i < n -> (nth i a false = true <-> nth i b false = true)) -> a = b.
Proof.
  intros Ha Hb H. apply (nth_ext _ _ false false); [congruence|]. intros i Hi. rewrite Ha in Hi. specialize (H i Hi).
  destruct (nth i a false), (nth i b false); tauto || (destruct H; congruence) || (symmetry; tauto).
Qed.
Lemma set_true_len (l : list nat) : forall init, length (fold_left (fun a i => upd a i true) l init) = length init.
Proof. induction l as [|x l IH]; intros init; cbn [fold_left]; [reflexivity|]. rewrite IH. apply upd_length. Qed.
Lemma legacy_len k rows filled cost : length (unique_mask_legacy k rows filled cost) = length rows.
Proof.
  unfold unique_mask_legacy. destruct cost; [rewrite map_length; apply seq_length|].
  destruct filled; [rewrite map_length; apply seq_length|]. rewrite set_true_len. apply repeat_length.
Qed.

(** C67: the two implementations return the same mask for keys of at most four 32-bit columns (two in x64 mode):
    always when there are costs and no [filled] mask; when there is one, if no filled item costs +inf; *)
Theorem C67_agree_cost : forall x64 k rows filled cost,
  direct x64 k -> Forall (fun r => length r = k) rows -> filled_ok filled (length rows) -> length cost = length rows ->
  (forall i, i < length rows -> filled <> None -> is_filled filled i -> cost_at cost i <> PInf) ->
  unique_mask x64 k rows filled (Some cost) = unique_mask_legacy k rows filled (Some cost).
Proof.
  intros x64 k rows filled cost HD HK HF HC HI. apply (same_mask _ _ (length rows)); [apply mask_len; exact HK|apply legacy_len|].
  intros i Hi. fold (marked x64 k rows filled (Some cost) i). fold (legacy_marked k rows filled (Some cost) i).
  rewrite C38_cheapest, C67_legacy_cheapest by assumption. unfold selectable. split.
  - intros ((F & P) & H). split; [exact F|]. split; [intros _; exact P|]. intros j Hj Hne Fj Ej.
    destruct filled as [f|] eqn:EF; [apply H; auto; split; [exact Fj|apply HI; [exact Hj|discriminate|exact Fj]]|].
    destruct (cost_at cost j) eqn:EJ; [apply H; auto; rewrite EJ; split; [exact Fj|discriminate]..|].
    left. rewrite EJ. destruct (cost_at cost i); cbn; congruence.
  - intros (F & P & H). split.
    + split; [exact F|]. destruct filled as [f|]; [apply HI; [exact Hi|discriminate|exact F]|apply P; reflexivity].
    + intros j Hj Hne [Fj _] Ej. apply H; assumption.
Qed.
(** without costs, always when there is no mask, else if no filled key is all ones. *)
Theorem C67_agree_no_cost : forall x64 k rows filled,
  direct x64 k -> Forall (fun r => length r = k) rows -> filled_ok filled (length rows) ->
  (filled <> None -> forall i, i < length rows -> is_filled filled i -> row_at rows i <> all_ones k) ->
  unique_mask x64 k rows filled None = unique_mask_legacy k rows filled None.
Proof.
  intros x64 k rows filled HD HK HF HO. apply (same_mask _ _ (length rows)); [apply mask_len; exact HK|apply legacy_len|].
  intros i Hi. fold (marked x64 k rows filled None i). fold (legacy_marked k rows filled None i).
  rewrite C38_first, C67_legacy_first by assumption. split.
  - intros (F & H & _). split; assumption.
  - intros (F & H). split; [exact F|]. split; [exact H|]. intros EO. destruct filled as [f|]; [|intros; exact I].
    exfalso. exact (HO ltac:(discriminate) i Hi F EO).
Qed.

(** C67: outside those conditions they differ: on a filled item of cost +inf, *)
Theorem C67_infinite_cost_refuted : forall x64 k r, direct x64 k -> length r = k ->
  unique_mask x64 k [r] (Some [true]) (Some [PInf]) = [false] /\ unique_mask_legacy k [r] (Some [true]) (Some [PInf]) = [true].
Proof.
  intros x64 k r HD HL. assert (HK : Forall (fun r => length r = k) [r]) by (constructor; [exact HL|constructor]). split.
  - apply (same_mask _ _ 1); [apply (mask_len x64 k [r]); exact HK|reflexivity|]. intros i Hi.
    fold (marked x64 k [r] (Some [true]) (Some [PInf]) i). rewrite C38_cheapest by (auto; exact Hi). unfold selectable.
    assert (i = 0) by lia. subst i. cbn. split; [intros ((_ & H) & _); exfalso; apply H; reflexivity|discriminate].
  - apply (same_mask _ _ 1); [apply legacy_len|reflexivity|]. intros i Hi.
    fold (legacy_marked k [r] (Some [true]) (Some [PInf]) i). rewrite C67_legacy_cheapest by (auto; try exact Hi; reflexivity).
    assert (i = 0) by lia. subst i. split; [reflexivity|]. intros _. split; [reflexivity|]. split; [discriminate|].
    intros j Hj Hne. cbn in Hj. lia.
Qed.
(** on a key that is all ones after an unfilled item, *)
Theorem C67_all_ones_refuted : forall k x, 1 <= k -> direct false k -> length x = k ->
  unique_mask false k [x; all_ones k] (Some [false; true]) None = [false; false] /\
  unique_mask_legacy k [x; all_ones k] (Some [false; true]) None = [false; true].
Proof.
  intros k x H1 HD HL. split; [apply C38_all_ones_row_lost; assumption|].
  assert (HK : Forall (fun r => length r = k) [x; all_ones k]) by (repeat constructor; [exact HL|apply repeat_length]).
  apply (same_mask _ _ 2); [apply legacy_len|reflexivity|]. intros i Hi.
  fold (legacy_marked k [x; all_ones k] (Some [false; true]) None i). rewrite C67_legacy_first by (auto; try exact Hi; reflexivity).
  destruct i as [|[|i]]; [..|lia].
  - cbn. split; [intros [H _]; discriminate H|discriminate].
  - split; [reflexivity|]. intros _. split; [reflexivity|]. intros j Hj Fj. assert (j = 0) by lia. subst j. discriminate Fj.
Qed.
(** and on every row of five or more columns (32-bit mode): for each there is a different row that only the
    legacy function tells from it. *)
Theorem C67_wide_keys_refuted : forall es row, length es = length row -> 5 <= length row -> Forall (fun x => (x < 2 ^ 32)%N) row ->
  parity es = false -> In true es ->
  unique_mask false (length row) [row; flip_cols es row] None None = [true; false] /\
  unique_mask_legacy (length row) [row; flip_cols es row] None None = [true; true].
Proof.
  intros es row HL H5 HW HP HT. destruct (C38_wide_keys_merge es row HL H5 HW HP HT) as [Hne HM]. split; [exact HM|].
  assert (HL' : length (flip_cols es row) = length row) by (unfold flip_cols; rewrite map_length, combine_length; lia).
  assert (HK : Forall (fun r => length r = length row) [row; flip_cols es row]) by (repeat constructor; exact HL').
  apply (same_mask _ _ 2); [apply legacy_len|reflexivity|]. intros i Hi.
  fold (legacy_marked (length row) [row; flip_cols es row] None None i). rewrite C67_legacy_first by (auto; try exact Hi; exact I).
  destruct i as [|[|i]]; [..|lia]; (split; [reflexivity|]); intros _; (split; [exact I|]); intros j Hj _; [lia|].
  assert (j = 0) by lia. subst j. cbn. congruence.
Qed.
(** C67: the inverse array numbers the row values: two items share a number exactly when their keys (and, with a
    mask, their filled flags) are equal; *)
Theorem C67_legacy_inverse : forall k rows filled i j,
  Forall (fun r => length r = k) rows -> filled_ok filled (length rows) -> i < length rows -> j < length rows ->
  nth i (unique_inverse_legacy k rows filled) 0 < length rows /\
  (nth i (unique_inverse_legacy k rows filled) 0 = nth j (unique_inverse_legacy k rows filled) 0 <->
   row_at rows i = row_at rows j /\ (is_filled filled i <-> is_filled filled j)).
Proof.
  intros k rows filled i j HK HF Hi Hj. split; [apply linv_lt; assumption|]. rewrite linv_eq by assumption.
  rewrite <- !filled_b_spec. destruct (filled_b filled i), (filled_b filled j); intuition congruence.
Qed.

(** concrete: four rows, two equal; costs; a filled mask *)
Example C67_case : unique_mask_legacy 1 [[5]; [7]; [5]; [9]]%N (Some [true; true; true; false]) (Some [Fin 4; Fin 1; Fin 2; Fin 0]) = [false; true; true; false] /\
  unique_mask false 1 [[5]; [7]; [5]; [9]]%N (Some [true; true; true; false]) (Some [Fin 4; Fin 1; Fin 2; Fin 0]) = [false; true; true; false] /\
  unique_mask_legacy 1 [[5]; [7]; [5]; [9]]%N None None = [true; true; false; true] /\
  unique_inverse_legacy 1 [[5]; [7]; [5]; [9]]%N None = [0; 1; 0; 2].
Proof. repeat split; reflexivity. Qed.
Print Assumptions C67_agree_cost. Print Assumptions C67_agree_no_cost. Print Assumptions C67_wide_keys_refuted.
Print Assumptions C67_infinite_cost_refuted. Print Assumptions C67_legacy_inverse.
