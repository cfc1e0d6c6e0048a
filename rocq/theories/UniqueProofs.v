(** * UniqueProofs.v — unique_mask. *)
From Verif Require Import Jax KeyModel HashModel HashProofs StableSort GroupFirst DedupeModel DedupeProofs UniqueModel.
Local Open Scope nat_scope.

(** the sequence of stable sorts, starting from an ordered permutation *)
Section Base.
Variables (rows : list (list N)) (R0 : nat -> nat -> Prop).
Fixpoint lexb (cols : list nat) (a b : nat) : Prop :=
  match cols with
  | [] => R0 a b
  | j :: t => (nth j (nth a rows []) 0 <= nth j (nth b rows []) 0)%N /\
              ((nth j (nth b rows []) 0 <= nth j (nth a rows []) 0)%N -> lexb t a b)
  end.
Lemma lsd_sorted_base cols l0 : StronglySorted R0 l0 -> StronglySorted (lexb cols) (fold_right (stable_perm rows) l0 cols).
Proof.
  intros H0. induction cols as [|j t IH]; cbn [fold_right]; [exact H0|].
  unfold stable_perm at 1.
  pose proof (isort_stable (fun a b => (nth j (nth a rows []) 0 <=? nth j (nth b rows []) 0)%N)
     ltac:(intros a b c; rewrite !N.leb_le; lia) ltac:(intros a b; rewrite N.leb_le, N.leb_gt; lia) (lexb t) _ IH) as H.
  eapply SS_impl; [|exact H]. intros a b [H1 H2]. cbn [lexb].
  split; [apply N.leb_le; exact H1|]. intros H3. apply H2. apply N.leb_le. exact H3.
Qed.
Lemma lexb_lexr cols a b : lexb cols a b -> lexr rows cols a b.
Proof. induction cols as [|j t IH]; cbn [lexb lexr]; [auto|]. intros [H1 H2]. split; [exact H1|]. intros H. apply IH, H2, H. Qed.
Lemma lexb_eq cols a b : nth a rows [] = nth b rows [] -> lexb cols a b -> R0 a b.
Proof. intros E. induction cols as [|j t IH]; cbn [lexb]; [auto|]. intros [_ H2]. apply IH, H2. rewrite E. lia. Qed.
End Base.
Lemma sorted_contiguous rows w n P : length rows = n -> (forall r, In r rows -> length r = w) -> Permutation P (seq 0 n) ->
  StronglySorted (lexr rows (seq 0 w)) P -> contiguous [] (map (fun i => nth i rows []) P).
Proof.
  intros HL HW HP HS.
  assert (length P = n) as HPL by (rewrite (Permutation_length HP), seq_length; reflexivity).
  intros p q r Hpq Hqr Hr E. rewrite map_length, HPL in Hr.
  assert (forall x, x < n -> nth x (map (fun i => nth i rows []) P) [] = nth (nth x P 0) rows []) as Hn.
  { intros x Hx. rewrite (nth_indep _ [] (nth 0 rows [])) by (rewrite map_length; lia). now rewrite (map_nth (fun i => nth i rows [])). }
  assert (forall x, x < n -> length (nth (nth x P 0) rows []) = w) as Hwd.
  { intros x Hx. apply HW. apply nth_In. rewrite HL. now apply perm_in_range. }
  rewrite !Hn in * by lia.
  pose proof (StronglySorted_nth _ 0 P HS p q Hpq ltac:(lia)) as H1.
  pose proof (StronglySorted_nth _ 0 P HS q r Hqr ltac:(lia)) as H2.
  assert (lexr rows (seq 0 w) (nth q P 0) (nth p P 0)) as H3.
  { eapply lexr_trans; [exact H2|]. apply lexr_refl_eq. congruence. }
  apply (nth_ext _ _ 0%N 0%N); [rewrite !Hwd by lia; reflexivity|].
  intros j Hj. rewrite Hwd in Hj by lia. apply (lexr_antisym rows (seq 0 w) _ _ H3 H1). apply in_seq. lia.
Qed.

Lemma seq_sorted k : forall s, StronglySorted lt (seq s k).
Proof.
  induction k as [|k IH]; intros s; cbn [seq]; constructor; [apply IH|]. apply Forall_forall. intros x Hx. apply in_seq in Hx. lia.
Qed.
Lemma hash_to_wide_length x64 row : length (hash_to_wide x64 row) = wide_width x64 (length row).
Proof.
  unfold hash_to_wide, wide_width. destruct x64.
  - destruct (length row <=? 2) eqn:E; [reflexivity|]. destruct row; [discriminate|reflexivity].
  - destruct (length row <=? 4) eqn:E; [reflexivity|]. unfold sig_of. destruct row as [|c t]; [discriminate|].
    destruct (fold_left sig_step t (c, c, c, c)) as [[[? ?] ?] ?]. reflexivity.
Qed.

Section Unique.
Variables (x64 : bool) (k : nat) (rows : list (list N)) (filled : option (list bool)) (cost : option (list key)).
Hypothesis HK : Forall (fun r => length r = k) rows.
Let n := length rows.
Let eff := effective n filled cost.
Let E (i : nat) : bool := nth i eff false.
Let H (i : nat) : list N := hash_to_wide x64 (nth i rows []).
Let mx := wide_max x64 k.
Let w := wide_width x64 k.
Let mrows := map (fun p : bool * list N => if fst p then snd p else map (fun _ => mx) (snd p)) (combine eff (map (hash_to_wide x64) rows)).
Let M (i : nat) : list N := nth i mrows [].
Let vk (i : nat) : key := match cost with None => PInf | Some u => if E i then nth i u PInf else PInf end.
Definition prior (i j : nat) : Prop := match cost with None => i < j | Some _ => kle (vk i) (vk j) = true /\ (kle (vk j) (vk i) = true -> i < j) end.
Let perm0 := match cost with
             | None => seq 0 n
             | Some u => isort (fun a b => kle (if nth a eff false then nth a u PInf else PInf) (if nth b eff false then nth b u PInf else PInf)) (seq 0 n)
             end.
Let perm := fold_right (stable_perm mrows) perm0 (seq 0 w).
Let ms := u_mask_sorted (unique_sorted x64 k rows filled cost).
Lemma eff_len : length eff = n.
Proof. unfold eff, effective. now rewrite map_length, seq_length. Qed.
Lemma row_len i : i < n -> length (nth i rows []) = k.
Proof. intros Hi. rewrite Forall_forall in HK. apply HK. now apply nth_In. Qed.
Lemma H_len i : i < n -> length (H i) = w.
Proof. intros Hi. unfold H. rewrite hash_to_wide_length, row_len by exact Hi. reflexivity. Qed.
Lemma mrows_len : length mrows = n.
Proof. unfold mrows. rewrite map_length, combine_length, eff_len, map_length. fold n. lia. Qed.
Lemma M_eq i : i < n -> M i = if E i then H i else repeat mx w.
Proof.
  intros Hi. unfold M, mrows. set (g := fun p : bool * list N => _).
  rewrite (nth_indep _ [] (g (false, hash_to_wide x64 []))) by (rewrite map_length, combine_length, eff_len, map_length; fold n; lia).
  rewrite (map_nth g), combine_nth by (rewrite eff_len, map_length; reflexivity).
  rewrite (map_nth (hash_to_wide x64)). unfold g. cbn [fst snd]. fold (E i). fold (H i). destruct (E i); [reflexivity|].
  rewrite <- (H_len i Hi). clear. induction (H i); cbn; [reflexivity|]. now f_equal.
Qed.
Lemma M_width r : In r mrows -> length r = w.
Proof.
  intros Hr. apply (In_nth _ _ []) in Hr. destruct Hr as [i [Hi Er]]. rewrite mrows_len in Hi. fold (M i) in Er. subst r. rewrite M_eq by exact Hi.
  destruct (E i); [now apply H_len|apply repeat_length].
Qed.
Lemma perm0_facts : Permutation perm0 (seq 0 n) /\ StronglySorted prior perm0.
Proof.
  unfold perm0, prior, vk. destruct cost as [u|].
  - split; [apply isort_perm|].
    pose proof (isort_stable (fun a b => kle (if nth a eff false then nth a u PInf else PInf) (if nth b eff false then nth b u PInf else PInf))
      ltac:(intros a b c; apply kle_trans) ltac:(intros a b; apply kle_total) lt _ (seq_sorted n 0)) as S.
    eapply SS_impl; [|exact S]. intros a b [H1 H2]. split; [exact H1|exact H2].
  - split; [apply Permutation_refl|apply seq_sorted].
Qed.
Lemma perm_perm : Permutation perm (seq 0 n).
Proof. unfold perm. rewrite lsd_perm. apply perm0_facts. Qed.
Lemma perm_sorted : StronglySorted (lexb mrows prior (seq 0 w)) perm.
Proof. apply lsd_sorted_base. apply perm0_facts. Qed.
Lemma perm_len : length perm = n.
Proof. rewrite (Permutation_length perm_perm). apply seq_length. Qed.
Lemma contig : contiguous [] (map M perm).
Proof.
  apply (sorted_contiguous mrows w n perm mrows_len M_width perm_perm). eapply SS_impl; [|exact perm_sorted]. intros a b. apply lexb_lexr.
Qed.
Lemma same_prior p q : p < q -> q < n -> M (nth p perm 0) = M (nth q perm 0) -> prior (nth p perm 0) (nth q perm 0).
Proof.
  intros Hpq Hq Em. apply (lexb_eq mrows prior (seq 0 w)); [exact Em|].
  apply (StronglySorted_nth _ 0 perm perm_sorted p q Hpq). now rewrite perm_len.
Qed.
Lemma prior_asym a b : prior a b -> prior b a -> False.
Proof. unfold prior. destruct cost; [|lia]. intros [A1 A2] [B1 B2]. specialize (A2 B1). specialize (B2 A1). lia. Qed.
Lemma perm_is : u_perm (unique_sorted x64 k rows filled cost) = perm.
Proof. reflexivity. Qed.
Lemma ms_eq : ms = map (fun p : bool * nat => fst p && E (snd p)) (combine (group_start roweqb (map M perm)) perm).
Proof. reflexivity. Qed.
Lemma ms_len : length ms = n.
Proof. rewrite ms_eq, map_length, combine_length, group_start_length, map_length, perm_len. lia. Qed.
Lemma ms_nth p : p < n -> nth p ms false = nth p (group_start roweqb (map M perm)) false && E (nth p perm 0).
Proof.
  intros Hp. rewrite ms_eq. set (g := fun q : bool * nat => _).
  rewrite (nth_indep _ false (g (false, 0))) by (rewrite map_length, combine_length, group_start_length, map_length, perm_len; lia).
  rewrite (map_nth g), combine_nth by (rewrite group_start_length, map_length; reflexivity). reflexivity.
Qed.
Lemma mask_len : length (unique_mask x64 k rows filled cost) = n.
Proof. unfold unique_mask. cbn [u_mask unique_sorted]. rewrite scatter_back_length. exact perm_len. Qed.
Lemma mask_at p : p < n -> nth (nth p perm 0) (unique_mask x64 k rows filled cost) false = nth p ms false.
Proof. intros Hp. apply (scatter_back_nth false perm ms n p perm_perm ms_len Hp). Qed.
Lemma mask_spec i : i < n ->
  (nth i (unique_mask x64 k rows filled cost) false = true <-> E i = true /\ forall j, j < n -> j <> i -> M j = M i -> prior i j).
Proof.
  intros Hi. destruct (perm_pos perm n i perm_perm Hi) as [p [Hp Ep]]. rewrite <- Ep, mask_at, ms_nth, andb_true_iff by exact Hp.
  rewrite (first_of_group roweqb [] roweqb_eq n perm M prior perm_perm contig same_prior prior_asym p Hp). tauto.
Qed.
(** [effective] spelled out *)
Lemma E_spec i : i < n -> E i = (match filled with None => true | Some f => nth i f false end) &&
                (match cost with None => true | Some u => match nth i u PInf with PInf => false | _ => true end end).
Proof.
  intros Hi. unfold E, eff, effective. rewrite (nth_indep _ false ((match filled with None => true | Some f => nth 0 f false end) && (match cost with None => true | Some u => match nth 0 u PInf with PInf => false | _ => true end end))) by (rewrite map_length, seq_length; exact Hi).
  set (g := fun i => _). change (nth i (map g (seq 0 n)) (g 0) = g i). rewrite map_nth, seq_nth by exact Hi. reflexivity.
Qed.

(** with costs: hash-equal candidates compete on (cost, index) *)
Lemma mask_cost u : cost = Some u -> forall i, i < n ->
  (nth i (unique_mask x64 k rows filled cost) false = true <->
   E i = true /\ forall j, j < n -> j <> i -> E j = true -> H j = H i ->
     kle (nth i u PInf) (nth j u PInf) = true /\ (kle (nth j u PInf) (nth i u PInf) = true -> i < j)).
Proof.
  intros Hc i Hi. rewrite mask_spec by exact Hi. split; intros [HE HF]; (split; [exact HE|]); intros j Hj Hne.
  - intros Ej Eh. specialize (HF j Hj Hne). rewrite !M_eq, HE, Ej in HF by assumption. specialize (HF Eh).
    unfold prior, vk in HF. rewrite Hc, HE, Ej in HF. exact HF.
  - intros Em. rewrite !M_eq, HE in Em by assumption. unfold prior, vk. rewrite Hc, HE. destruct (E j) eqn:Ej.
    + apply HF; assumption.
    + split; [apply kle_PInf|]. intros Hle. exfalso.
      assert (Hi2 := E_spec i Hi). rewrite HE in Hi2. symmetry in Hi2. apply andb_true_iff in Hi2. destruct Hi2 as [_ Hi2]. rewrite Hc in Hi2.
      destruct (nth i u PInf); [discriminate Hle|discriminate Hle|discriminate Hi2].
Qed.
(** without costs: the first item with that masked key *)
Lemma mask_nocost : cost = None -> forall i, i < n ->
  (nth i (unique_mask x64 k rows filled cost) false = true <->
   E i = true /\ forall j, j < i -> (E j = true -> H j <> H i) /\ (E j = false -> H i <> repeat mx w)).
Proof.
  intros Hc i Hi. rewrite mask_spec by exact Hi. unfold prior. rewrite Hc. split; intros [HE HF]; (split; [exact HE|]); intros j Hj.
  - specialize (HF j ltac:(lia) ltac:(lia)). rewrite !M_eq, HE in HF by lia. split; intros Ej EH; rewrite Ej in HF.
    + specialize (HF EH). lia.
    + specialize (HF (eq_sym EH)). lia.
  - intros Hne Em. destruct (Nat.lt_ge_cases j i) as [L|L]; [|lia]. exfalso. destruct (HF j L) as [F1 F2].
    rewrite !M_eq, HE in Em by lia. destruct (E j); [exact (F1 eq_refl Em)|exact (F2 eq_refl (eq_sym Em))].
Qed.

(** ** Indices and inverse *)
Lemma count_cumsum l : forall a p, p < length l -> nth p (cumsum_from a l) 0 = a + length (filter (fun b => b) (firstn (S p) l)).
Proof.
  induction l as [|b l IH]; intros a p Hp; cbn [length] in Hp; [lia|]. cbn [cumsum_from]. destruct p as [|p].
  - cbn [nth firstn]. destruct b; cbn; lia.
  - cbn [nth]. rewrite IH by lia. cbn [firstn filter]. destruct b; cbn [Nat.b2n length]; lia.
Qed.
Lemma filter_index (l : list nat) : forall (b : list bool) p, length l = length b -> nth p b false = true ->
  nth_error (map fst (filter snd (combine l b))) (length (filter (fun x => x) (firstn p b))) = Some (nth p l 0).
Proof.
  induction l as [|x l IH]; intros [|y b] p Hl Hp; cbn [length] in Hl; try lia; [destruct p; discriminate|].
  cbn [combine filter snd]. destruct p as [|p].
  - cbn [nth] in Hp. subst y. reflexivity.
  - cbn [nth] in Hp. cbn [firstn filter nth]. destruct y; cbn [map fst length nth_error]; (apply IH; [lia|exact Hp]).
Qed.
Lemma index_in r : In r (unique_index x64 k rows filled cost) <-> r < n /\ nth r (unique_mask x64 k rows filled cost) false = true.
Proof.
  unfold unique_index. rewrite perm_is. fold ms. rewrite in_map_iff. split.
  - intros [[r' b] [Er Hin]]. cbn [fst] in Er. subst r'. apply filter_In in Hin. destruct Hin as [Hin Hb]. cbn [snd] in Hb. subst b.
    apply (In_nth _ _ (0, false)) in Hin. destruct Hin as [p [Hp Ep]]. rewrite combine_length, perm_len, ms_len in Hp.
    rewrite combine_nth in Ep by (rewrite perm_len, ms_len; reflexivity). injection Ep as <- Em.
    split; [apply perm_in_range; [exact perm_perm|lia]|]. rewrite mask_at by lia. exact Em.
  - intros [Hr Hm]. destruct (perm_pos perm n r perm_perm Hr) as [p [Hp Ep]]. rewrite <- Ep, mask_at in Hm by exact Hp.
    exists (r, true). split; [reflexivity|]. apply filter_In. split; [|reflexivity]. rewrite <- Ep, <- Hm.
    rewrite <- combine_nth by (rewrite perm_len, ms_len; reflexivity). apply nth_In. rewrite combine_length, perm_len, ms_len. lia.
Qed.
Lemma index_nodup : NoDup (unique_index x64 k rows filled cost).
Proof.
  unfold unique_index. rewrite perm_is. fold ms.
  assert (ND : NoDup perm) by (eapply Permutation_NoDup; [apply Permutation_sym, perm_perm|apply seq_NoDup]).
  assert (HL : length perm = length ms) by (rewrite perm_len, ms_len; reflexivity). revert HL ND. generalize ms. generalize perm. clear.
  induction perm as [|a l IH]; intros [|b m] HL ND; cbn [length] in HL; try lia; [constructor|]. inversion ND; subst. cbn [combine filter snd].
  destruct b; [|apply IH; [lia|assumption]]. cbn [map fst]. constructor; [|apply IH; [lia|assumption]].
  intros Hin. apply H1. apply in_map_iff in Hin. destruct Hin as [[x y] [Ex Hin]]. cbn in Ex. subst x. apply filter_In in Hin. destruct Hin as [Hin _].
  now apply in_combine_l in Hin.
Qed.
Lemma inverse_spec i r : i < n -> r < n -> nth r (unique_mask x64 k rows filled cost) false = true -> M r = M i ->
  exists g, nth i (unique_inverse x64 k rows filled cost) (-1)%Z = Z.of_nat g /\ nth_error (unique_index x64 k rows filled cost) g = Some r.
Proof.
  intros Hi Hr Hm Em. destruct (perm_pos perm n i perm_perm Hi) as [p [Hp Ep]]. destruct (perm_pos perm n r perm_perm Hr) as [q [Hq Eq]].
  rewrite <- Eq, mask_at in Hm by exact Hq.
  assert (Hlen : length (map M perm) = n) by (rewrite map_length; apply perm_len).
  assert (Hsk : forall x, x < n -> nth x (map M perm) [] = M (nth x perm 0)).
  { intros x Hx. rewrite (nth_indep _ [] (M 0)) by lia. apply map_nth. }
  assert (Hgs : nth q (group_start roweqb (map M perm)) false = true) by (rewrite ms_nth in Hm by exact Hq; apply andb_true_iff in Hm; tauto).
  rewrite (group_start_spec roweqb [] roweqb_eq _ q contig) in Hgs by lia.
  assert (Hqp : q <= p).
  { destruct (Nat.lt_ge_cases p q) as [L|L]; [|exact L]. exfalso. apply (Hgs p L). rewrite !Hsk by lia. rewrite Ep, Eq. now symmetry. }
  assert (Hno : forall x, q < x <= p -> nth x ms false = false).
  { intros x Hx. apply not_true_is_false. intros Hx1. rewrite ms_nth in Hx1 by lia. apply andb_true_iff in Hx1. destruct Hx1 as [Hx1 _].
    rewrite (group_start_spec roweqb [] roweqb_eq _ x contig) in Hx1 by lia. apply (Hx1 q ltac:(lia)).
    destruct (Nat.eq_dec x p) as [->|Nx]; [rewrite !Hsk by lia; now rewrite Eq, Ep|].
    symmetry. apply (contig q x p); [lia|lia|lia|]. rewrite !Hsk by lia. now rewrite Eq, Ep. }
  assert (Hcnt : length (filter (fun b => b) (firstn (S p) ms)) = S (length (filter (fun b => b) (firstn q ms)))).
  { assert (G : forall d, q + d <= p -> length (filter (fun b => b) (firstn (S (q + d)) ms)) = S (length (filter (fun b => b) (firstn q ms)))).
    { assert (Step : forall y, y < n -> firstn (S y) ms = firstn y ms ++ [nth y ms false]).
      { intros y Hy. pose proof ms_len as HL. revert Hy HL. generalize n as N0. generalize ms. clear. intros l N0 Hy HL. rewrite <- HL in Hy. clear HL.
        revert y Hy. induction l as [|a l IH]; intros y Hy; cbn in Hy; [lia|]. destruct y as [|y]; [reflexivity|]. cbn [firstn app nth]. f_equal. apply IH. lia. }
      induction d as [|d IHd]; intros Hd.
      - rewrite Nat.add_0_r, Step, filter_app, app_length by lia. rewrite Hm. cbn. lia.
      - rewrite Nat.add_succ_r, Step, filter_app, app_length by lia. rewrite Hno by lia. cbn [filter length]. rewrite IHd by lia. lia. }
    specialize (G (p - q) ltac:(lia)). now replace (q + (p - q)) with p in G by lia. }
  exists (length (filter (fun b => b) (firstn q ms))). split.
  - unfold unique_inverse. rewrite perm_is. fold ms.
    set (f := fun c => (Z.of_nat c - 1)%Z). set (sb := scatter_back 0%Z perm (map f (cumsum_from 0 ms))).
    rewrite (nth_indep sb (-1)%Z 0%Z) by (unfold sb; rewrite scatter_back_length, perm_len; exact Hi).
    unfold sb. rewrite <- Ep. rewrite (scatter_back_nth 0%Z perm _ n p perm_perm); [|rewrite map_length, cumsum_from_length; exact ms_len|exact Hp].
    rewrite (nth_indep _ 0%Z (f 0)) by (rewrite map_length, cumsum_from_length, ms_len; exact Hp). rewrite map_nth.
    rewrite count_cumsum by (rewrite ms_len; exact Hp). unfold f. rewrite Hcnt. lia.
  - unfold unique_index. rewrite perm_is. fold ms. rewrite <- Eq. apply filter_index; [rewrite perm_len, ms_len; reflexivity|exact Hm].
Qed.
Lemma sized_spec size fill : unique_index_sized x64 k rows filled cost size fill = firstn size (unique_index x64 k rows filled cost ++ repeat fill size).
Proof.
  unfold unique_index_sized. rewrite perm_is. fold ms. fold n.
  rewrite <- firstn_map. f_equal. rewrite map_app. f_equal.
  - assert (Hl : length perm = n) by exact perm_len. assert (Hm : length ms = n) by exact ms_len.
    unfold unique_index. rewrite perm_is. fold ms. revert Hl Hm. generalize n as N0. generalize ms as m. generalize perm as l. clear.
    assert (G : forall (l : list nat) m s l0 fl, length m = length l -> (forall p, p < length l -> nth (s + p) (l0 ++ [fl]) 0 = nth p l 0) -> forall m0, (forall p, p < length l -> nth (s + p) m0 false = nth p m false) ->
        map (fun p => nth p (l0 ++ [fl]) 0) (filter (fun p => nth p m0 false) (seq s (length l))) = map fst (filter snd (combine l m))).
    { induction l as [|a l IH]; intros [|b m] s l0 fl HL H1 m0 H2; cbn [length] in *; try lia; [reflexivity|].
      cbn [seq filter combine snd]. pose proof (H2 0 ltac:(lia)) as E2. rewrite Nat.add_0_r in E2. cbn [nth] in E2. rewrite E2.
      pose proof (H1 0 ltac:(lia)) as E1. rewrite Nat.add_0_r in E1. cbn [nth] in E1.
      assert (EI : map (fun p => nth p (l0 ++ [fl]) 0) (filter (fun p => nth p m0 false) (seq (S s) (length l))) = map fst (filter snd (combine l m))).
      { apply IH; [lia| |]; intros p Hp; [pose proof (H1 (S p) ltac:(lia)) as Q|pose proof (H2 (S p) ltac:(lia)) as Q]; rewrite Nat.add_succ_r in Q; exact Q. }
      destruct b; cbn [map fst]; [now rewrite E1, EI|exact EI]. }
    intros l m N0 Hl Hm. rewrite <- Hl. apply G; [lia| |].
    + intros p Hp. cbn [Nat.add]. now rewrite app_nth1.
    + intros p Hp. reflexivity.
  - assert (Hl : length perm = n) by exact perm_len. induction size as [|s IH]; [reflexivity|]. cbn [repeat map]. rewrite IH. f_equal.
    rewrite app_nth2 by lia. rewrite Hl, Nat.sub_diag. reflexivity.
Qed.
End Unique.
