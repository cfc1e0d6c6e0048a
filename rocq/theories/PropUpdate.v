(** * PropUpdate.v — property C37 (conditional update: the first true update wins). *)
From Verif Require Import Jax StableSort GroupFirst UpdateModel.
Local Open Scope nat_scope.

(** the lowest update whose condition is true and which addresses position [p] *)
Definition winner (indices : list Z) (condition : list bool) (p : nat) : option nat :=
  find (fun i => nth i condition false && (nth i indices (-1) =? Z.of_nat p)%Z) (seq 0 (length condition)).

Section Proof.
Context {A : Type}.
Variables (arr : list A) (indices : list Z) (condition : list bool).
Hypothesis Hi : length indices = length condition.
Let n := length arr.
Let m := length condition.
Let ti := true_indices n indices condition.
Let T (i : nat) : Z := nth i ti 0%Z.
Let perm := isort (fun a b => (nth a ti 0 <=? nth b ti 0)%Z) (seq 0 m).
Let valid (i : nat) : bool := nth i condition false && (0 <=? nth i indices (-1))%Z && (nth i indices (-1) <? Z.of_nat n)%Z.
Lemma ti_len : length ti = m.
Proof. unfold ti, true_indices. rewrite map_length, combine_length. fold m. lia. Qed.
Lemma T_eq i : i < m -> T i = if valid i then nth i indices (-1)%Z else Z.of_nat n.
Proof.
  intros H. unfold T, ti, true_indices.
  set (g := fun p : Z * bool => _). rewrite (nth_indep _ 0%Z (g ((-1)%Z, false))) by (rewrite map_length, combine_length; fold m; lia).
  rewrite (map_nth g), combine_nth by exact Hi. reflexivity.
Qed.
Lemma perm_perm : Permutation perm (seq 0 m).
Proof. apply isort_perm. Qed.
Lemma perm_len : length perm = m.
Proof. rewrite (Permutation_length perm_perm). apply seq_length. Qed.
Lemma seq_sorted k : forall s, StronglySorted lt (seq s k).
Proof.
  induction k as [|k IH]; intros s; cbn [seq]; constructor; [apply IH|]. apply Forall_forall. intros x Hx. apply in_seq in Hx. lia.
Qed.
Lemma perm_sorted p q : p < q -> q < m ->
  (T (nth p perm O) <= T (nth q perm O))%Z /\ (T (nth p perm 0) = T (nth q perm 0) -> nth p perm 0 < nth q perm 0).
Proof.
  intros Hpq Hq. pose proof (isort_stable (fun a b => (nth a ti 0 <=? nth b ti 0)%Z)
       ltac:(intros a b c; rewrite !Z.leb_le; lia) ltac:(intros a b; rewrite Z.leb_le, Z.leb_gt; lia) lt _ (seq_sorted m 0)) as H.
  fold perm in H. pose proof (StronglySorted_nth _ 0 perm H p q Hpq ltac:(rewrite perm_len; exact Hq)) as [H1 H2].
  unfold T. split; [apply Z.leb_le; exact H1|]. intros E. apply H2. apply Z.leb_le. lia.
Qed.
Let st := map (fun i => nth i ti 0%Z) perm.
Lemma st_nth p : p < m -> nth p st 0%Z = T (nth p perm 0).
Proof.
  intros H. unfold st. rewrite (nth_indep _ 0%Z (nth 0 ti 0%Z)) by (rewrite map_length, perm_len; exact H).
  rewrite (map_nth (fun i => nth i ti 0%Z) perm 0 p). reflexivity.
Qed.
Lemma st_contig : contiguous 0%Z st.
Proof.
  intros p q r Hpq Hqr Hr E. assert (length st = m) as HL by (unfold st; rewrite map_length; apply perm_len).
  rewrite !st_nth in * by lia. pose proof (perm_sorted p q Hpq ltac:(lia)) as [H1 _]. pose proof (perm_sorted q r Hqr ltac:(lia)) as [H2 _]. lia.
Qed.
Let starts := if m =? 1 then [true] else group_start Z.eqb st.
Let ws := map (fun p : bool * Z => fst p && negb (snd p =? Z.of_nat n)%Z) (combine starts st).
Let winners := scatter_back false perm ws.
Lemma starts_eq : m <> 0 -> starts = group_start Z.eqb st.
Proof.
  intros H. unfold starts. destruct (Nat.eqb_spec m 1) as [E|E]; [|reflexivity].
  assert (HL : length st = 1) by (unfold st; rewrite map_length, perm_len; exact E).
  destruct st as [|x [|y l]]; try discriminate. reflexivity.
Qed.
Lemma ws_len : m <> 0 -> length ws = m.
Proof.
  intros H. unfold ws. rewrite map_length, combine_length, starts_eq by exact H. rewrite group_start_length. unfold st. rewrite map_length, perm_len. lia.
Qed.
Lemma winners_spec i : i < m ->
  (nth i winners false = true <-> valid i = true /\ forall j, j < i -> valid j = true -> nth j indices (-1)%Z <> nth i indices (-1)%Z).
Proof.
  intros Him. assert (Hm : m <> 0) by lia.
  destruct (perm_pos perm m i perm_perm Him) as [p [Hp Ep]]. unfold winners. rewrite <- Ep.
  rewrite (scatter_back_nth false perm ws m p perm_perm (ws_len Hm) Hp).
  assert (Ews : nth p ws false = nth p (group_start Z.eqb st) false && negb (T (nth p perm O) =? Z.of_nat n)%Z).
  { assert (HL : length st = m) by (unfold st; rewrite map_length; apply perm_len).
    unfold ws. set (g := fun q : bool * Z => _). rewrite (nth_indep _ false (g (false, 0%Z))) by (rewrite map_length, combine_length, starts_eq, group_start_length by exact Hm; lia).
    rewrite (map_nth g), combine_nth by (rewrite starts_eq, group_start_length by exact Hm; reflexivity).
    unfold g. cbn [fst snd]. now rewrite st_nth, starts_eq. }
  rewrite Ews, andb_true_iff, negb_true_iff, Z.eqb_neq.
  change st with (map T perm). rewrite (first_of_group Z.eqb 0%Z Z.eqb_eq m perm T lt perm_perm st_contig).
  2:{ intros a b Hab Hb E. now apply (perm_sorted a b Hab Hb). }
  2:{ intros a b H1 H2. lia. }
  2:{ exact Hp. }
  rewrite Ep. rewrite T_eq by exact Him. split.
  - intros [H1 H2]. destruct (valid i) eqn:Vi; [|congruence]. split; [reflexivity|].
    intros j Hj Vj E. specialize (H1 j ltac:(lia) ltac:(lia)). rewrite T_eq, Vj in H1 by lia. specialize (H1 E). lia.
  - intros [Vi H]. rewrite Vi. unfold valid in Vi. split; [|lia].
    intros j Hj Hne E. rewrite T_eq in E by exact Hj. destruct (valid j) eqn:Vj; [|lia].
    destruct (Nat.lt_ge_cases j i) as [L|L]; [|lia]. exfalso. exact (H j L Vj E).
Qed.
Let safe := map (fun p : bool * Z => if fst p then snd p else Z.of_nat n) (combine winners indices).
Lemma winners_len : length winners = m.
Proof. unfold winners. rewrite scatter_back_length. apply perm_len. Qed.
Lemma safe_nth i : i < m -> nth i safe (-1)%Z = if nth i winners false then nth i indices (-1)%Z else Z.of_nat n.
Proof.
  intros H. unfold safe. set (g := fun q : bool * Z => _).
  rewrite (nth_indep _ (-1)%Z (g (false, (-1)%Z))) by (rewrite map_length, combine_length, winners_len; fold m in Hi; lia).
  rewrite (map_nth g), combine_nth by (rewrite winners_len; fold m in Hi; lia). reflexivity.
Qed.
Lemma safe_len : length safe = m.
Proof. unfold safe. rewrite map_length, combine_length, winners_len. fold m in Hi. lia. Qed.
End Proof.

(** scatter with drop, at most one in-range write per position *)
Lemma jsets_snoc {A} (l : list A) is vs i v : length is = length vs -> jsets l (is ++ [i]) (vs ++ [v]) = jset (jsets l is vs) i v.
Proof.
  intros H. unfold jsets. assert (E : combine (is ++ [i]) (vs ++ [v]) = combine is vs ++ [(i, v)]).
  { revert vs H. induction is as [|a is IH]; intros [|b vs] H; cbn in *; try lia; [reflexivity|]. now rewrite IH by lia. }
  rewrite E, fold_left_app. reflexivity.
Qed.
Lemma find_snoc {X} (f : X -> bool) l x : find f (l ++ [x]) = match find f l with Some k => Some k | None => if f x then Some x else None end.
Proof. induction l as [|a t IHt]; [reflexivity|]. cbn [app find]. destruct (f a); [reflexivity|exact IHt]. Qed.
Lemma jsets_nth {A} (d : A) (l : list A) p : p < length l -> forall is vs, length is = length vs ->
  (forall i, i < length is -> (0 <= nth i is (-1))%Z) ->
  (forall i j, i < j -> j < length is -> nth i is (-1)%Z = Z.of_nat p -> nth j is (-1)%Z <> Z.of_nat p) ->
  nth p (jsets l is vs) d = match find (fun i => (nth i is (-1) =? Z.of_nat p)%Z) (seq 0 (length is)) with Some i => nth i vs d | None => nth p l d end.
Proof.
  intros Hp is. induction is as [|i is IH] using rev_ind; intros vs Hl Hpos Huniq; [reflexivity|].
  destruct vs as [|v vs _] using rev_ind; [rewrite app_length in Hl; cbn in Hl; lia|]. rewrite !app_length in Hl. cbn in Hl.
  assert (Hl' : length is = length vs) by lia. rewrite jsets_snoc by exact Hl'.
  assert (Hi0 : (0 <= i)%Z). { specialize (Hpos (length is)). rewrite app_length, app_nth2, Nat.sub_diag in Hpos by lia. apply Hpos. cbn. lia. }
  assert (IH' := IH vs Hl').
  assert (H1 : forall k, k < length is -> (0 <= nth k is (-1))%Z).
  { intros k Hk. specialize (Hpos k). rewrite app_length, app_nth1 in Hpos by lia. apply Hpos. cbn. lia. }
  assert (H2 : forall a b, a < b -> b < length is -> nth a is (-1)%Z = Z.of_nat p -> nth b is (-1)%Z <> Z.of_nat p).
  { intros a b Hab Hb. specialize (Huniq a b Hab). rewrite app_length, !app_nth1 in Huniq by lia. apply Huniq. cbn. lia. }
  specialize (IH' H1 H2).
  rewrite app_length. cbn [length]. rewrite Nat.add_1_r, seq_S. cbn [Nat.add].
  rewrite find_snoc.
  assert (Eext : find (fun k => (nth k (is ++ [i]) (-1) =? Z.of_nat p)%Z) (seq 0 (length is)) = find (fun k => (nth k is (-1) =? Z.of_nat p)%Z) (seq 0 (length is))).
  { assert (G : forall t, (forall k, In k t -> k < length is) -> find (fun k => (nth k (is ++ [i]) (-1) =? Z.of_nat p)%Z) t = find (fun k => (nth k is (-1) =? Z.of_nat p)%Z) t).
    { induction t as [|a t IHt]; intros Ht; [reflexivity|]. cbn [find]. rewrite app_nth1 by (apply Ht; now left). rewrite IHt; [reflexivity|]. intros k Hk. apply Ht. now right. }
    apply G. intros k Hk. apply in_seq in Hk. lia. }
  rewrite Eext, app_nth2, Nat.sub_diag by lia. cbn [nth].
  destruct (Z.eqb_spec i (Z.of_nat p)) as [->|Ne].
  - assert (EN : find (fun k => (nth k is (-1) =? Z.of_nat p)%Z) (seq 0 (length is)) = None).
    { destruct (find _ _) as [k|] eqn:E; [|reflexivity]. exfalso. apply find_some in E. destruct E as [E1 E2]. apply in_seq in E1. apply Z.eqb_eq in E2.
      apply (Huniq k (length is) ltac:(lia)); [rewrite app_length; cbn; lia|rewrite app_nth1 by lia; exact E2|rewrite app_nth2, Nat.sub_diag by lia; reflexivity]. }
    rewrite EN. rewrite jset_in by (rewrite jsets_length; lia). rewrite Nat2Z.id, nth_upd_eq by (rewrite jsets_length; exact Hp).
    rewrite app_nth2 by lia. replace (length is - length vs) with 0 by lia. reflexivity.
  - assert (EJ : nth p (jset (jsets l is vs) i v) d = nth p (jsets l is vs) d).
    { destruct (Z.lt_ge_cases i (Z.of_nat (length l))) as [L|L].
      - rewrite jset_in by (rewrite jsets_length; lia). apply nth_upd_neq. lia.
      - rewrite jset_oob by (rewrite jsets_length; lia). reflexivity. }
    rewrite EJ, IH'. destruct (find (fun k => (nth k is (-1) =? Z.of_nat p)%Z) (seq 0 (length is))) as [k|] eqn:E; [|reflexivity].
    apply find_some in E. destruct E as [E1 _]. apply in_seq in E1. rewrite app_nth1 by lia. reflexivity.
Qed.
Lemma find_ext_in {X} (f g : X -> bool) l : (forall x, In x l -> f x = g x) -> find f l = find g l.
Proof.
  induction l as [|a l IH]; intros H; [reflexivity|]. cbn [find]. rewrite (H a) by now left. rewrite IH; [reflexivity|]. intros x Hx. apply H. now right.
Qed.
Lemma find_seq_spec (f : nat -> bool) k : forall s,
  match find f (seq s k) with
  | Some i => s <= i < s + k /\ f i = true /\ forall j, s <= j < i -> f j = false
  | None => forall j, s <= j < s + k -> f j = false
  end.
Proof.
  induction k as [|k IH]; intros s; cbn [seq find]; [intros j Hj; lia|].
  destruct (f s) eqn:E; [split; [lia|]; split; [exact E|intros j Hj; lia]|].
  specialize (IH (S s)). destruct (find f (seq (S s) k)) as [i|].
  - destruct IH as [H1 [H2 H3]]. split; [lia|]. split; [exact H2|]. intros j Hj. destruct (Nat.eq_dec j s) as [->|]; [exact E|apply H3; lia].
  - intros j Hj. destruct (Nat.eq_dec j s) as [->|]; [exact E|apply IH; lia].
Qed.

(** ** C37 *)
Theorem C37_first_true_wins : forall (A : Type) (arr : list A) (indices : list Z) (condition : list bool) (values : list A),
  length indices = length condition -> length values = length condition ->
  length (update_array arr indices condition values) = length arr /\
  forall p d, p < length arr ->
    nth p (update_array arr indices condition values) d =
      match winner indices condition p with Some i => nth i values d | None => nth p arr d end.
Proof.
  intros A arr indices condition values Hi Hv. unfold update_array.
  destruct (Nat.eqb_spec (length condition) 0) as [E0|E0].
  { split; [reflexivity|]. intros p d _. unfold winner. rewrite E0. reflexivity. }
  cbv zeta. split; [apply jsets_length|]. intros p d Hp.
  set (n := length arr) in *. set (m := length condition) in *.
  set (ti := true_indices n indices condition). set (perm := isort (fun a b => (nth a ti 0 <=? nth b ti 0)%Z) (seq 0 m)).
  set (st := map (fun i => nth i ti 0%Z) perm).
  set (ws := map (fun p0 : bool * Z => fst p0 && negb (snd p0 =? Z.of_nat n)%Z) (combine (if m =? 1 then [true] else group_start Z.eqb st) st)).
  set (winners := scatter_back false perm ws).
  set (safe := map (fun p0 : bool * Z => if fst p0 then snd p0 else Z.of_nat n) (combine winners indices)).
  assert (HW : forall i, i < m -> (nth i winners false = true <->
     (nth i condition false && (0 <=? nth i indices (-1))%Z && (nth i indices (-1) <? Z.of_nat n)%Z) = true /\
     forall j, j < i -> (nth j condition false && (0 <=? nth j indices (-1))%Z && (nth j indices (-1) <? Z.of_nat n)%Z) = true -> nth j indices (-1)%Z <> nth i indices (-1)%Z)).
  { intros i Him. exact (winners_spec arr indices condition Hi i Him). }
  assert (HS : forall i, i < m -> nth i safe (-1)%Z = if nth i winners false then nth i indices (-1)%Z else Z.of_nat n).
  { intros i Him. exact (safe_nth arr indices condition Hi i Him). }
  assert (HSL : length safe = m) by exact (safe_len arr indices condition Hi).
  assert (Hhit : forall i, i < m -> (nth i safe (-1)%Z = Z.of_nat p <-> nth i winners false = true /\ nth i indices (-1)%Z = Z.of_nat p)).
  { intros i Him. rewrite HS by exact Him. destruct (nth i winners false); [|split; [lia|intros [? _]; discriminate]]. split; [intros E; now split|tauto]. }
  rewrite jsets_nth; [|exact Hp|rewrite HSL; symmetry; exact Hv| |].
  - rewrite HSL. unfold winner. fold m.
    assert (EQ : find (fun i => (nth i safe (-1) =? Z.of_nat p)%Z) (seq 0 m) = find (fun i => nth i condition false && (nth i indices (-1) =? Z.of_nat p)%Z) (seq 0 m)).
    { pose proof (find_seq_spec (fun i => (nth i safe (-1) =? Z.of_nat p)%Z) m 0) as F1.
      pose proof (find_seq_spec (fun i => nth i condition false && (nth i indices (-1) =? Z.of_nat p)%Z) m 0) as F2.
      destruct (find (fun i => nth i condition false && (nth i indices (-1) =? Z.of_nat p)%Z) (seq 0 m)) as [k|].
      - destruct F2 as [Hk [Ek Hmin]]. apply andb_true_iff in Ek. destruct Ek as [Ck Ik]. apply Z.eqb_eq in Ik.
        assert (Wk : nth k winners false = true).
        { apply HW; [lia|]. rewrite Ck, Ik. split; [cbn [andb]; lia|]. intros j Hj Vj E. specialize (Hmin j ltac:(lia)).
          rewrite E, Z.eqb_refl in Hmin. rewrite !andb_true_iff in Vj. destruct Vj as [[Cj _] _]. rewrite Cj in Hmin. discriminate. }
        assert (Sk : nth k safe (-1)%Z = Z.of_nat p) by (apply Hhit; [lia|now split]).
        destruct (find (fun i => (nth i safe (-1) =? Z.of_nat p)%Z) (seq 0 m)) as [k'|].
        + destruct F1 as [Hk' [Ek' Hmin']]. f_equal. apply Z.eqb_eq in Ek'. apply Hhit in Ek'; [|lia]. destruct Ek' as [Wk' Ik'].
          destruct (Nat.lt_trichotomy k k') as [L|[L|L]]; [|symmetry; exact L|].
          * specialize (Hmin' k ltac:(lia)). rewrite Sk, Z.eqb_refl in Hmin'. discriminate.
          * apply HW in Wk'; [|lia]. destruct Wk' as [Vk' _]. specialize (Hmin k' ltac:(lia)). rewrite Ik', Z.eqb_refl in Hmin.
            rewrite !andb_true_iff in Vk'. destruct Vk' as [[Ck' _] _]. rewrite Ck' in Hmin. discriminate.
        + specialize (F1 k ltac:(lia)). cbv beta in F1. rewrite Sk, Z.eqb_refl in F1. discriminate.
      - destruct (find (fun i => (nth i safe (-1) =? Z.of_nat p)%Z) (seq 0 m)) as [k'|]; [|reflexivity].
        destruct F1 as [Hk' [Ek' _]]. apply Z.eqb_eq in Ek'. apply Hhit in Ek'; [|lia]. destruct Ek' as [Wk' Ik']. apply HW in Wk'; [|lia].
        destruct Wk' as [Vk' _]. specialize (F2 k' ltac:(lia)). cbv beta in F2. rewrite Ik', Z.eqb_refl in F2.
        rewrite !andb_true_iff in Vk'. destruct Vk' as [[Ck' _] _]. rewrite Ck' in F2. discriminate. }
    rewrite EQ. reflexivity.
  - intros i Him. rewrite HSL in Him. rewrite HS by exact Him. destruct (nth i winners false) eqn:E; [|lia]. apply HW in E; [lia|exact Him].
  - intros i j Hij Hj Ei Ej. rewrite HSL in Hj. apply Hhit in Ei; [|lia]. apply Hhit in Ej; [|lia].
    destruct Ei as [Wi Ii]. destruct Ej as [Wj Ij]. apply HW in Wi; [|lia]. apply HW in Wj; [|lia].
    apply (proj2 Wj i Hij); [apply Wi|congruence].
Qed.

(** several index arrays: coordinates are clipped to the array (never dropped) and
    row-major flattened; distinct in-range coordinates address distinct positions *)
Fixpoint in_shape (shape : list nat) (coord : list Z) : Prop :=
  match shape, coord with
  | [], [] => True
  | d :: s, c :: t => (0 <= c < Z.of_nat d)%Z /\ in_shape s t
  | _, _ => False
  end.
Fixpoint clip (shape : list nat) (coord : list Z) : list Z :=
  match shape, coord with
  | d :: s, c :: t => Z.max 0 (Z.min c (Z.of_nat d - 1)) :: clip s t
  | _, _ => []
  end.
Definition size (shape : list nat) : nat := fold_right Nat.mul 1 shape.
Lemma ravel_range shape : forall coord, in_shape shape coord -> (0 <= ravel_clip shape coord < Z.of_nat (size shape))%Z.
Proof.
  induction shape as [|d s IH]; intros [|c t] H; cbn [in_shape] in H; try contradiction; cbn [ravel_clip]; [cbn; lia|].
  destruct H as [Hc Ht]. specialize (IH t Ht). fold (size s). change (size (d :: s)) with (d * size s). rewrite Nat2Z.inj_mul.
  replace (Z.max 0 (Z.min c (Z.of_nat d - 1))) with c by lia. nia.
Qed.
Theorem C37_coordinates_distinct : forall shape c1 c2, in_shape shape c1 -> in_shape shape c2 ->
  ravel_clip shape c1 = ravel_clip shape c2 -> c1 = c2.
Proof.
  induction shape as [|d s IH]; intros [|x1 t1] [|x2 t2] H1 H2 E; cbn [in_shape] in *; try contradiction; [reflexivity|].
  destruct H1 as [A1 A2]. destruct H2 as [B1 B2]. cbn [ravel_clip] in E. fold (size s) in E.
  replace (Z.max 0 (Z.min x1 (Z.of_nat d - 1))) with x1 in E by lia. replace (Z.max 0 (Z.min x2 (Z.of_nat d - 1))) with x2 in E by lia.
  pose proof (ravel_range s t1 A2) as R1. pose proof (ravel_range s t2 B2) as R2.
  assert (x1 = x2) by nia. subst x2. f_equal. apply IH; [assumption|assumption|lia].
Qed.
Lemma clip_ravel shape : forall coord, length coord = length shape -> ravel_clip shape (clip shape coord) = ravel_clip shape coord.
Proof. induction shape as [|d s IH]; intros [|c t] H; cbn in *; try lia. rewrite IH by lia. f_equal. f_equal. lia. Qed.
Lemma clip_in_shape shape : Forall (fun d => 1 <= d) shape -> forall coord, length coord = length shape -> in_shape shape (clip shape coord).
Proof.
  induction 1 as [|d s Hd Hs IH]; intros [|c t] H; cbn in *; try lia. split; [lia|]. apply IH. lia.
Qed.
(** the update whose clipped coordinates are [pos], lowest first *)
Definition winner_nd (shape : list nat) (coords : list (list Z)) (condition : list bool) (pos : list Z) : option nat :=
  find (fun i => nth i condition false && (if list_eq_dec Z.eq_dec (clip shape (nth i coords [])) pos then true else false)) (seq 0 (length condition)).
Theorem C37_first_true_wins_nd : forall (A : Type) shape (arr : list A) (coords : list (list Z)) condition values,
  Forall (fun d => 1 <= d) shape -> length arr = size shape ->
  Forall (fun c => length c = length shape) coords -> length coords = length condition -> length values = length condition ->
  forall pos d, in_shape shape pos ->
    nth (Z.to_nat (ravel_clip shape pos)) (update_array_nd shape arr coords condition values) d =
      match winner_nd shape coords condition pos with Some i => nth i values d | None => nth (Z.to_nat (ravel_clip shape pos)) arr d end.
Proof.
  intros A shape arr coords condition values Hs Ha Hc Hl Hv pos d Hpos. unfold update_array_nd.
  pose proof (ravel_range shape pos Hpos) as R.
  destruct (C37_first_true_wins A arr (map (ravel_clip shape) coords) condition values) as [_ H]; [now rewrite map_length|exact Hv|].
  rewrite H by lia. unfold winner, winner_nd.
  rewrite (find_ext_in _ (fun i => nth i condition false && (if list_eq_dec Z.eq_dec (clip shape (nth i coords [])) pos then true else false))); [reflexivity|].
  intros i Hi. apply in_seq in Hi. f_equal.
  rewrite (nth_indep _ (-1)%Z (ravel_clip shape [])) by (rewrite map_length; lia). rewrite map_nth, Z2Nat.id by lia.
  assert (Hci : length (nth i coords []) = length shape) by (rewrite Forall_forall in Hc; apply Hc, nth_In; lia).
  destruct (list_eq_dec Z.eq_dec (clip shape (nth i coords [])) pos) as [E|E].
  - apply Z.eqb_eq. rewrite <- clip_ravel by exact Hci. now rewrite E.
  - apply Z.eqb_neq. intros E2. apply E. apply (C37_coordinates_distinct shape); [now apply clip_in_shape|exact Hpos|].
    rewrite clip_ravel by exact Hci. exact E2.
Qed.

(** a dataclass is updated field by field with the same winners, so whole rows are replaced:
    updating a projection is projecting the update *)
Theorem C37_rows_stay_together : forall (A B : Type) (f : A -> B) (arr : list A) indices condition values,
  length indices = length condition -> length values = length condition ->
  update_array (map f arr) indices condition (map f values) = map f (update_array arr indices condition values).
Proof.
  intros A B f arr indices condition values Hi Hv.
  destruct (C37_first_true_wins A arr indices condition values Hi Hv) as [L1 H1].
  destruct (C37_first_true_wins B (map f arr) indices condition (map f values) Hi ltac:(now rewrite map_length)) as [L2 H2].
  rewrite map_length in *. destruct arr as [|a0 arr0] eqn:Ea.
  { assert (X1 : update_array (map f []) indices condition (map f values) = []) by (destruct (update_array (map f []) indices condition (map f values)); [reflexivity|discriminate]).
    assert (X2 : update_array [] indices condition values = []) by (destruct (update_array [] indices condition values); [reflexivity|discriminate]).
    now rewrite X1, X2. }
  rewrite <- Ea in *. apply nth_ext_len with (d := f a0); [now rewrite map_length, L1, L2|].
  intros p Hp. rewrite L2 in Hp. rewrite H2 by exact Hp. rewrite !map_nth, H1 by exact Hp.
  destruct (winner indices condition p); now rewrite ?map_nth.
Qed.

(** negative and too large 1-D indices are ignored; two true updates of position 2: the first wins *)
Example ex_update : update_array [10; 11; 12; 13] [2; -1; 2; 9; 0; 2]%Z [false; true; true; true; true; true] [100; 101; 102; 103; 104; 105] = [104; 11; 102; 13].
Proof. vm_compute. reflexivity. Qed.
Example ex_update_nd : update_array_nd [2; 3] [0; 1; 2; 3; 4; 5] [[1; 7]; [1; 2]; [-3; 0]]%Z [true; true; true] [100; 101; 102] = [102; 1; 2; 3; 4; 100].
Proof. vm_compute. reflexivity. Qed.
Print Assumptions C37_first_true_wins.
Print Assumptions C37_first_true_wins_nd.
Print Assumptions C37_rows_stay_together.
