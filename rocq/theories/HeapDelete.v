(** * HeapDelete.v — delete_mins preserves the invariant and returns the minima. *)
From Verif Require Import Jax KeyModel SortProofs HeapModel HeapSpec HeapProofs HeapInsert HeapInv.

Section H.
Context {V : Type}.
Notation item := (key * V)%type.
Notation row := (list item).
Implicit Types r a b lo hi s carry cur bufx : list (key * V).
Implicit Types rs T : list (list (key * V)).
Implicit Types h : heap V.

Lemma concat_swap rs i r : i < length rs ->
  Permutation (concat (upd rs i r) ++ rowi rs i) (concat rs ++ r).
Proof.
  intros Hi. destruct (concat_upd rs i Hi) as [rest Hrest].
  rewrite (Hrest r). rewrite <- (upd_same _ rs i []) at 2. rewrite (Hrest (nth i rs [])).
  change (nth i rs []) with (rowi rs i). rewrite <- !app_assoc.
  rewrite (Permutation_app_comm rest (rowi rs i)), (Permutation_app_comm rest r).
  rewrite !app_assoc. apply Permutation_app_tail. apply Permutation_app_comm.
Qed.

Lemma perm_chain (A0 A1 A2 x1 y1 x2 y2 : row) :
  Permutation (A1 ++ x1) (A0 ++ y1) -> Permutation (A2 ++ x2) (A1 ++ y2) ->
  Permutation (A2 ++ x2 ++ x1) (A0 ++ y2 ++ y1).
Proof.
  intros H1 H2. rewrite app_assoc, H2, <- app_assoc, (Permutation_app_comm y2 x1), app_assoc, H1.
  rewrite <- app_assoc. apply Permutation_app_head. apply Permutation_app_comm.
Qed.

Lemma first_key_allinf r : allinf r -> first_key r = PInf.
Proof. destruct r as [|x t]; [reflexivity|]. intros H. exact (H x (or_introl eq_refl)). Qed.
Lemma first_key_min r x : sorted r -> In x r -> kle (first_key r) (fst x) = true.
Proof.
  destruct r as [|y t]; intros HS Hx; [destruct Hx|]. apply sorted_cons in HS as [H1 _].
  unfold first_key. cbn [map hd]. destruct Hx as [<-|Hx]; [apply kle_refl|exact (H1 x Hx)].
Qed.
Lemma last_key_allinf r : allinf r -> last_key r = PInf.
Proof.
  intros H. destruct r as [|x t]; [reflexivity|].
  destruct (last_key_In (x :: t) ltac:(discriminate)) as (y & Hy & <-). apply H; exact Hy.
Qed.

Section Sift.
Variable B n : nat.
Variable rs : list row.
Variable bufx : row.
Hypothesis HB : 1 <= B.
Hypothesis Hlen : n + 1 < length rs.
Hypothesis Hgood : goodrows B rs.
Hypothesis Hfull : forall i, 1 <= i <= n -> allfin (rowi rs i).
Hypothesis Hempty : forall i, n < i < length rs -> allinf (rowi rs i).

Definition ghost (st : @sstate V) : list row :=
  let '(c, cur, ups) := st in upd (scatter_rows rs ups) c cur.

Record SInv (st : @sstate V) : Prop := {
  s_c : fst (fst st) <= n;
  s_cur : good B (snd (fst st)) /\ allfin (snd (fst st));
  s_good : goodrows B (ghost st);
  s_full : forall i, 1 <= i <= n -> allfin (rowi (ghost st) i);
  s_empty : forall i, n < i < length rs -> allinf (rowi (ghost st) i);
  s_ord : forall i, 1 <= i < length rs -> par i <> fst (fst st) ->
          below (rowi (ghost st) (par i)) (rowi (ghost st) i);
  s_grand : 1 <= fst (fst st) -> forall i, 1 <= i < length rs -> par i = fst (fst st) ->
          below (rowi (ghost st) (par (fst (fst st)))) (rowi (ghost st) i);
  s_perm : Permutation (concat (ghost st)) (concat rs);
  s_buf : below (rowi (ghost st) 0) bufx;
  s_idx : forall p, In p (snd st) -> fst p < lc (fst (fst st)) /\ fst p <> fst (fst st) /\ fst p < length rs;
  s_nodup : NoDup (map fst (snd st));
  s_cnt : exists k, length (snd st) = 2 * k /\ 2 ^ k <= fst (fst st) + 1
}.

Lemma scatter_nth ups i : (forall p, In p ups -> fst p <> i) ->
  rowi (scatter_rows rs ups) i = rowi rs i.
Proof.
  unfold scatter_rows. generalize rs. induction ups as [|p t IH]; intros rs0 H; cbn [fold_left]; [reflexivity|].
  rewrite IH by (intros q Hq; apply H; right; exact Hq).
  unfold rowi. apply nth_upd_neq. apply H. left; reflexivity.
Qed.

Lemma row_at_big i : n < i -> allinf (row_at rs i).
Proof.
  intros Hi. unfold row_at. change (nth ?k rs []) with (rowi rs k).
  apply Hempty. lia.
Qed.

Lemma cond_true_child st : fst (fst st) <= n -> sift_cond rs st = true -> lc (fst (fst st)) <= n.
Proof.
  destruct st as [[c cur] ups]. cbn [fst snd sift_cond]. intros Hc HC.
  destruct (Nat.le_gt_cases (lc c) n) as [H|H]; [exact H|exfalso].
  rewrite (first_key_allinf (row_at rs (lc c))), (first_key_allinf (row_at rs (rc c))) in HC
    by (apply row_at_big; unfold lc, rc in *; lia).
  unfold kmin, kgt in HC. cbn [kle] in HC. rewrite kle_PInf in HC. discriminate.
Qed.

Lemma sift_step mu st : max_depth (length rs) * 2 + 1 = mu -> SInv st -> sift_cond rs st = true ->
  SInv (sift_body mu rs st) /\ length rs - fst (fst (sift_body mu rs st)) < length rs - fst (fst st).
Proof.
  intros Hmu HI HC. pose proof (cond_true_child st (s_c _ HI) HC) as Hlc.
  destruct st as [[c cur] ups].
  destruct HI as [I1 I2 I3 I4 I5 I6 I7 I8 I9 I10 I11 I12]. cbn [fst snd] in *.
  assert (Hc : c < length rs) by (unfold lc in *; lia).
  set (T := ghost (c, cur, ups)) in *.
  assert (HT : length T = length rs) by (unfold T, ghost; rewrite upd_length, scatter_length; reflexivity).
  assert (HTc : rowi T c = cur).
  { unfold T, ghost. rewrite rowi_upd by (rewrite scatter_length; exact Hc). rewrite Nat.eqb_refl. reflexivity. }
  assert (HTb : forall i, lc c <= i -> rowi T i = rowi rs i).
  { intros i Hi. unfold T, ghost. rewrite rowi_upd by (rewrite scatter_length; exact Hc).
    destruct (Nat.eqb_spec c i); [unfold lc in *; lia|]. apply scatter_nth.
    intros p Hp. pose proof (I10 p Hp). lia. }
  cbn [sift_body].
  rewrite !row_at_in by (unfold lc, rc in *; lia).
  rewrite <- (HTb (lc c)) by lia. rewrite <- (HTb (rc c)) by (unfold lc, rc; lia).
  set (l := rowi T (lc c)). set (r := rowi T (rc c)).
  assert (Gl : good B l) by (apply I3; unfold lc in *; lia).
  assert (Gr : good B r) by (apply I3; unfold lc, rc in *; lia).
  assert (Fl : allfin l) by (apply I4; unfold lc in *; lia).
  destruct I2 as [Gcur Fcur].
  destruct (msplit l r) as [ky kx] eqn:EM1.
  destruct (msplit cur ky) as [kc ky'] eqn:EM2.
  pose proof (msplit_spec _ _ _ _ EM1) as (A1 & A2 & A3 & A4).
  pose proof (msplit_parts _ _ _ _ EM1) as (A5 & A6 & A7).
  pose proof (msplit_nonn _ _ _ _ EM1 (proj2 (proj2 Gl)) (proj2 (proj2 Gr))) as (A8 & A9).
  assert (Gky : good B ky) by (destruct Gl as (? & _); split; [lia|split; assumption]).
  assert (Gkx : good B kx) by (destruct Gr as (? & _); split; [lia|split; assumption]).
  assert (Lr : length l = length r) by (destruct Gl as (? & _), Gr as (? & _); lia).
  assert (Fky : allfin ky).
  { apply (msplit_lo_fin l r ky kx EM1); [apply Gl|apply Gr|].
    rewrite fin_app, (fin_all l Fl), app_length. lia. }
  pose proof (msplit_spec _ _ _ _ EM2) as (D1 & D2 & D3 & D4).
  pose proof (msplit_parts _ _ _ _ EM2) as (D5 & D6 & D7).
  pose proof (msplit_nonn _ _ _ _ EM2 (proj2 (proj2 Gcur)) (proj2 (proj2 Gky))) as (D8 & D9).
  pose proof (msplit_allfin _ _ _ _ EM2 Fcur Fky) as (Fkc & Fky').
  assert (Lcy : length cur = length ky) by (destruct Gcur as (? & _), Gky as (? & _); lia).
  assert (Gkc : good B kc) by (destruct Gcur as (? & _); split; [lia|split; assumption]).
  assert (Gky' : good B ky') by (destruct Gky as (? & _); split; [lia|split; assumption]).
  (* choice of x and y *)
  assert (Hxy : exists x y, (if kgt (last_key l) (last_key r) then (lc c, rc c) else (rc c, lc c)) = (x, y) /\
      ((x = lc c /\ y = rc c) \/ (x = rc c /\ y = lc c)) /\ y <= n /\ x < length rs /\
      (forall z, In z (l ++ r) -> kle (fst z) (last_key (rowi T x)) = true) /\
      (1 <= x <= n -> allfin kx) /\ (n < x -> allinf kx)).
  { destruct (Nat.le_gt_cases (rc c) n) as [Hrc|Hrc].
    - assert (Fr : allfin r) by (apply I4; unfold rc in *; lia).
      pose proof (msplit_allfin _ _ _ _ EM1 Fl Fr) as [_ Fkx].
      destruct (kgt (last_key l) (last_key r)) eqn:EK.
      + exists (lc c), (rc c). split; [reflexivity|]. split; [auto|]. split; [lia|]. split; [unfold lc in *; lia|].
        split; [|split; [intros _; exact Fkx|unfold lc in *; lia]].
        intros z Hz. apply in_app_or in Hz as [Hz|Hz].
        * apply last_key_max; [apply Gl|exact Hz].
        * eapply kle_trans; [apply last_key_max; [apply Gr|exact Hz]|]. apply kle_false.
          apply kgt_true. exact EK.
      + exists (rc c), (lc c). split; [reflexivity|]. split; [auto|]. split; [unfold lc in *; lia|].
        split; [unfold rc in *; lia|].
        split; [|split; [intros _; exact Fkx|unfold rc in *; lia]].
        intros z Hz. apply in_app_or in Hz as [Hz|Hz].
        * eapply kle_trans; [apply last_key_max; [apply Gl|exact Hz]|]. apply kgt_false. exact EK.
        * apply last_key_max; [apply Gr|exact Hz].
    - assert (Fr : allinf r) by (apply I5; unfold lc, rc in *; lia).
      rewrite (last_key_allinf r Fr). unfold kgt. rewrite kle_PInf. cbn [negb].
      exists (rc c), (lc c). split; [reflexivity|]. split; [auto|]. split; [lia|]. split; [unfold lc, rc in *; lia|].
      split; [|split; [lia|]].
      + intros z Hz. change (rowi T (rc c)) with r. rewrite (last_key_allinf r Fr). apply kle_PInf.
      + intros _. apply (msplit_hi_inf l r ky kx EM1); [apply Gl|apply Gr|].
        rewrite fin_app, (fin_none r Fr), app_nil_r, (fin_all l Fl). lia. }
  destruct Hxy as (x & y & Exy & Hcase & Hy & Hx & Hmax & Hkx1 & Hkx2). rewrite Exy.
  assert (Hxc : par x = c /\ par y = c /\ x <> y /\ x <> c /\ y <> c /\ 1 <= x /\ 1 <= y /\ lc c <= x /\ lc c <= y).
  { pose proof (par_lc c). pose proof (par_rc c). unfold lc, rc in *. destruct Hcase as [[-> ->]|[-> ->]]; repeat split; auto; lia. }
  destruct Hxc as (Px & Py & Nxy & Nxc & Nyc & X1 & Y1 & X2 & Y2).
  (* update list *)
  destruct I12 as (k & K1 & K2).
  assert (Kd : k + 1 < max_depth (length rs)).
  { unfold max_depth. apply (Nat.pow_lt_mono_r_iff 2); [lia|].
    pose proof (Nat.log2_log2_up_spec (length rs + 1) ltac:(lia)) as [_ HH].
    rewrite Nat.add_1_r, Nat.pow_succ_r'. unfold lc in *. lia. }
  unfold write_update at 2.
  destruct (Nat.ltb_spec (length ups) mu) as [_|]; [|lia].
  unfold write_update. rewrite app_length. cbn [length].
  destruct (Nat.ltb_spec (length ups + 1) mu) as [_|]; [|lia].
  rewrite <- app_assoc. cbn [app].
  set (ups' := ups ++ [(c, kc); (x, kx)]).
  set (T1 := upd T c kc). set (T2 := upd T1 x kx). set (T3 := upd T2 y ky').
  assert (EG : ghost (y, ky', ups') = T3).
  { unfold T3, T2, T1, T, ghost, ups'. rewrite scatter_app. unfold scatter_rows at 1. cbn [fold_left fst snd].
    rewrite upd_upd. reflexivity. }
  assert (L1 : length T1 = length rs) by (unfold T1; rewrite upd_length; exact HT).
  assert (L2 : length T2 = length rs) by (unfold T2; rewrite upd_length; exact L1).
  assert (L3 : length T3 = length rs) by (unfold T3; rewrite upd_length; exact L2).
  assert (R3 : forall i, rowi T3 i = if y =? i then ky' else if x =? i then kx else if c =? i then kc else rowi T i).
  { intros i. unfold T3. rewrite rowi_upd by lia. unfold T2. rewrite rowi_upd by lia.
    unfold T1. rewrite rowi_upd by lia. reflexivity. }
  assert (R3y : rowi T3 y = ky') by (rewrite R3, Nat.eqb_refl; reflexivity).
  assert (R3x : rowi T3 x = kx).
  { rewrite R3. destruct (Nat.eqb_spec y x); [congruence|]. rewrite Nat.eqb_refl. reflexivity. }
  assert (R3c : rowi T3 c = kc).
  { rewrite R3. destruct (Nat.eqb_spec y c); [congruence|]. destruct (Nat.eqb_spec x c); [congruence|].
    rewrite Nat.eqb_refl. reflexivity. }
  assert (R3o : forall i, i <> y -> i <> x -> i <> c -> rowi T3 i = rowi T i).
  { intros i H1 H2 H3. rewrite R3. destruct (Nat.eqb_spec y i); [congruence|].
    destruct (Nat.eqb_spec x i); [congruence|]. destruct (Nat.eqb_spec c i); [congruence|reflexivity]. }
  assert (Hchild : forall j, 1 <= j -> par j = c -> j = x \/ j = y).
  { intros j Hj1 Hj2. pose proof (par_cases c j Hj1 Hj2). destruct Hcase as [[-> ->]|[-> ->]]; tauto. }
  (* kc is below ky (old), and ky is below y's children *)
  assert (Hkckx : below kc kx).
  { eapply msplit_below_r; [exact EM2|exact Lcy|exact A7]. }
  assert (Hyrow : rowi T y = l \/ rowi T y = r) by (destruct Hcase as [[_ ->]|[_ ->]]; auto).
  assert (Hgc : forall j, 1 <= j < length rs -> par j = y -> below kc (rowi T j)).
  { intros j Hj Pj. eapply msplit_below_r; [exact EM2|exact Lcy|].
    pose proof (I6 j Hj ltac:(lia)) as Hb. rewrite Pj in Hb.
    destruct Hyrow as [E|E]; rewrite E in Hb.
    - eapply msplit_below_l; [exact EM1|exact Hb].
    - eapply msplit_below_r; [exact EM1|exact Lr|exact Hb]. }
  split.
  2:{ cbn [fst snd]. unfold lc in *. lia. }
  constructor; cbn [fst snd]; rewrite ?EG.
  - exact Hy.
  - split; assumption.
  - intros i Hi. rewrite R3. destruct (y =? i); [exact Gky'|]. destruct (x =? i); [exact Gkx|].
    destruct (c =? i); [exact Gkc|]. apply I3. lia.
  - intros i Hi. rewrite R3. destruct (y =? i); [exact Fky'|].
    destruct (Nat.eqb_spec x i) as [E|E]; [subst i; apply Hkx1; exact Hi|].
    destruct (c =? i); [exact Fkc|]. apply I4; exact Hi.
  - intros i Hi. rewrite R3. destruct (Nat.eqb_spec y i) as [E|E]; [lia|].
    destruct (Nat.eqb_spec x i) as [E2|E2]; [subst i; apply Hkx2; lia|].
    destruct (Nat.eqb_spec c i) as [E3|E3]; [lia|]. apply I5; exact Hi.
  - intros j Hj Pj. pose proof (par_lt j ltac:(lia)) as Plt.
    destruct (Nat.eq_dec (par j) c) as [Ec|Ec].
    + rewrite Ec, R3c. destruct (Hchild j ltac:(lia) Ec) as [-> | ->].
      * rewrite R3x. exact Hkckx.
      * rewrite R3y. exact D7.
    + assert (Hjx : j <> x) by congruence. assert (Hjy : j <> y) by congruence.
      destruct (Nat.eq_dec (par j) x) as [Ex|Ex].
      * rewrite Ex, R3x. assert (Hjc : j <> c) by (unfold lc in *; lia).
        rewrite R3o by assumption. pose proof (I6 j Hj Ec) as Hb. rewrite Ex in Hb.
        intros z w Hz Hw. unfold ile.
        assert (Hz' : In z (l ++ r)).
        { eapply Permutation_in; [exact A1|]. apply in_or_app; right; exact Hz. }
        eapply kle_trans; [apply Hmax; exact Hz'|].
        assert (Hne : rowi T x <> []) by (apply (good_nonempty B); [exact HB|apply I3; lia]).
        destruct (last_key_In (rowi T x) Hne) as (u & Hu & <-). exact (Hb u w Hu Hw).
      * rewrite (R3o (par j)) by assumption.
        destruct (Nat.eq_dec j c) as [->|Hjc].
        -- rewrite R3c. pose proof (I6 c ltac:(lia) ltac:(lia)) as Hb. rewrite HTc in Hb.
           assert (Hl : below (rowi T (par c)) l) by (apply I7; [lia| |apply par_lc]; unfold lc in *; lia).
           assert (Hr : below (rowi T (par c)) r) by (apply I7; [lia| |apply par_rc]; unfold lc, rc in *; lia).
           pose proof (msplit_above _ _ _ _ _ EM1 Hl Hr) as [Hky _].
           exact (proj1 (msplit_above _ _ _ _ _ EM2 Hb Hky)).
        -- rewrite (R3o j) by assumption. apply I6; assumption.
  - intros _ j Hj Pj. rewrite Py, R3c. pose proof (par_lt j ltac:(lia)).
    rewrite R3o; [apply Hgc; assumption| | |].
    + lia.
    + intros ->. congruence.
    + unfold lc in *; lia.
  - rewrite <- I8.
    assert (Hs : Permutation (concat T3 ++ rowi T2 y ++ rowi T1 x ++ rowi T c) (concat T ++ ky' ++ kx ++ kc)).
    { pose proof (concat_swap T c kc ltac:(lia)) as S1. fold T1 in S1.
      pose proof (concat_swap T1 x kx ltac:(lia)) as S2. fold T2 in S2.
      pose proof (concat_swap T2 y ky' ltac:(lia)) as S3. fold T3 in S3.
      exact (perm_chain _ _ _ _ _ _ _ (perm_chain _ _ _ _ _ _ _ S1 S2) S3). }
    assert (E1 : rowi T1 x = rowi T x).
    { unfold T1. rewrite rowi_upd by lia. destruct (Nat.eqb_spec c x); [congruence|reflexivity]. }
    assert (E2 : rowi T2 y = rowi T y).
    { unfold T2. rewrite rowi_upd by lia. destruct (Nat.eqb_spec x y); [congruence|].
      unfold T1. rewrite rowi_upd by lia. destruct (Nat.eqb_spec c y); [congruence|reflexivity]. }
    rewrite E1, E2, HTc in Hs.
    assert (Hin : Permutation (rowi T y ++ rowi T x ++ cur) (ky' ++ kx ++ kc)).
    { transitivity ((l ++ r) ++ cur).
      - rewrite app_assoc. apply Permutation_app_tail.
        destruct Hcase as [[-> ->]|[-> ->]]; fold l; fold r; [apply Permutation_app_comm|reflexivity].
      - rewrite <- A1. rewrite <- app_assoc, (Permutation_app_comm kx cur), app_assoc.
        rewrite (Permutation_app_comm ky cur), <- D1. rewrite <- app_assoc.
        rewrite (Permutation_app_comm kc (ky' ++ kx)), <- app_assoc. reflexivity. }
    rewrite Hin in Hs. apply Permutation_app_inv_r in Hs. exact Hs.
  - destruct (Nat.eq_dec c 0) as [E|E].
    + rewrite E in *. rewrite R3c. eapply msplit_below_l; [exact EM2|]. rewrite <- HTc. exact I9.
    + rewrite R3o by lia. exact I9.
  - intros p Hp. unfold ups' in Hp. apply in_app_or in Hp as [Hp|[<-|[<-|[]]]]; cbn [fst].
    + pose proof (I10 p Hp) as (J1 & J2 & J3). unfold lc in *. repeat split; lia.
    + unfold lc in *; repeat split; lia.
    + repeat split; try lia. unfold lc in *. destruct Hcase as [[-> ->]|[-> ->]]; unfold lc, rc in *; lia.
  - unfold ups'. rewrite map_app. cbn [map fst].
    assert (Hnot : forall q, In q (map fst ups) -> q < lc c /\ q <> c).
    { intros q Hq. apply in_map_iff in Hq as (p & <- & Hp). pose proof (I10 p Hp). tauto. }
    clear -I11 Hnot X2 Nxc. induction (map fst ups) as [|q t IH]; cbn [app].
    + constructor; [intros [E|[]]; congruence|]. constructor; [intros []|constructor].
    + apply NoDup_cons_iff in I11 as [J1 J2]. constructor.
      * intros HH. apply in_app_or in HH as [HH|[HH|[HH|[]]]]; [contradiction| |];
          pose proof (Hnot q (or_introl eq_refl)); lia.
      * apply IH; [exact J2|]. intros q' Hq'. apply Hnot. right; exact Hq'.
  - exists (k + 1). unfold ups'. rewrite app_length. cbn [length]. split; [lia|].
    rewrite Nat.add_1_r, Nat.pow_succ_r'. unfold lc in *. lia.
Qed.

Lemma sift_done st : SInv st -> sift_cond rs st = false -> RInv B n (ghost st).
Proof.
  intros HI HC. destruct st as [[c cur] ups].
  destruct HI as [I1 I2 I3 I4 I5 I6 I7 I8 I9 I10 I11 I12]. cbn [fst snd] in *.
  set (T := ghost (c, cur, ups)) in *.
  assert (HT : length T = length rs) by (unfold T, ghost; rewrite upd_length, scatter_length; reflexivity).
  assert (HTc : rowi T c = cur).
  { unfold T, ghost. rewrite rowi_upd by (rewrite scatter_length; lia). rewrite Nat.eqb_refl. reflexivity. }
  assert (HTb : forall i, lc c <= i -> rowi T i = rowi rs i).
  { intros i Hi. unfold T, ghost. rewrite rowi_upd by (rewrite scatter_length; lia).
    destruct (Nat.eqb_spec c i); [unfold lc in *; lia|]. apply scatter_nth.
    intros p Hp. pose proof (I10 p Hp). lia. }
  constructor; auto; [lia|intros i Hi; apply I5; lia|].
  intros j Hj. rewrite HT in Hj.
  destruct (Nat.eq_dec (par j) c) as [E|E]; [|apply I6; assumption].
  rewrite E, HTc. intros u w Hu Hw. unfold ile.
  destruct I2 as [Gcur Fcur].
  eapply kle_trans; [apply last_key_max; [apply Gcur|exact Hu]|].
  cbn [sift_cond] in HC. apply kgt_false in HC. eapply kle_trans; [exact HC|].
  assert (Hjr : rowi T j = row_at rs j).
  { rewrite row_at_in by lia. apply HTb. destruct (par_cases c j ltac:(lia) E) as [->| ->]; unfold lc, rc; lia. }
  destruct (par_cases c j ltac:(lia) E) as [Ej|Ej]; subst j; rewrite Hjr in Hw.
  - eapply kle_trans; [apply kmin_le_l|]. apply first_key_min; [|exact Hw].
    rewrite row_at_in by lia. apply Hgood; lia.
  - eapply kle_trans; [apply kmin_le_r|]. apply first_key_min; [|exact Hw].
    rewrite row_at_in by lia. apply Hgood; lia.
Qed.
End Sift.

Lemma below_inf_tail B a b : good B a -> length (fin a) < B -> below a b -> allinf b.
Proof.
  intros (G1 & G2 & G3) HL Hb. destruct (sorted_fin_split a G2 G3) as (_ & F2 & _).
  rewrite nfin_fin in F2. intros y Hy.
  destruct (skipn (length (fin a)) a) as [|x t] eqn:E.
  - pose proof (skipn_length (length (fin a)) a) as HH. rewrite E in HH. cbn [length] in HH. lia.
  - specialize (Hb x y).
    assert (Hx : In x a) by (apply (skipn_In _ (length (fin a))); rewrite E; left; reflexivity).
    specialize (Hb Hx Hy). unfold ile in Hb. rewrite (F2 x (or_introl eq_refl)) in Hb.
    apply kle_PInf_inv; exact Hb.
Qed.

Lemma sorted_fin a : sorted a -> sorted (fin a).
Proof.
  unfold fin. induction a as [|x t IH]; intros H; [constructor|]. apply sorted_cons in H as [H1 H2].
  cbn [filter]. destruct (finite (fst x)); [|apply IH; exact H2].
  apply sorted_cons. split; [|apply IH; exact H2].
  intros y Hy. apply filter_In in Hy as [Hy _]. apply H1; exact Hy.
Qed.

Lemma del_out B (bag bag' rest root : row) : 1 <= B -> good B root ->
  below root rest -> Permutation bag' (fin rest) ->
  Permutation bag (fin root ++ fin rest) ->
  del_spec B bag root bag'.
Proof.
  intros HB HG Hb HP' HP. pose proof HG as (G1 & G2 & G3).
  destruct (sorted_fin_split root G2 G3) as (F1 & F2 & F3).
  exists (fin root), (skipn (nfin root) root). split; [|split; [|split; [|split; [|split; [|split]]]]].
  - rewrite F3. symmetry. apply firstn_skipn.
  - exact G1.
  - rewrite (Permutation_length HP), app_length. pose proof (fin_le_length root) as HL.
    destruct (Nat.eq_dec (length (fin root)) B) as [E|E]; [lia|].
    rewrite (fin_none rest) by (apply (below_inf_tail B root); auto; lia). cbn [length]. lia.
  - exact F2.
  - apply sorted_fin; exact G2.
  - rewrite HP'. exact HP.
  - apply (below_sub root (fin root) rest); [apply fin_sub| |exact Hb].
    intros x Hx. apply fin_sub. eapply Permutation_in; [exact HP'|exact Hx].
Qed.

Lemma del_heapify_ok h : Inv h -> 1 <= hsize h ->
  exists h', delete_heapify h = Some h' /\ Inv h' /\ batch h' = batch h /\ branch h' = branch h /\
    Permutation (contents h) (rowi (rows h) 0 ++ contents h').
Proof.
  intros [HB HL HR Hbuf Hrb Hbs Hsm] Hn1. pose proof HR as [HG Hn HF HE HO].
  unfold delete_heapify. rewrite row_at_in by lia.
  set (lr := rowi (rows h) (hsize h)).
  assert (Glr : good (batch h) lr) by (apply HG; lia).
  assert (Flr : allfin lr) by (apply HF; lia).
  destruct (msplit lr (buf h)) as [root buf'] eqn:EM.
  pose proof (msplit_spec _ _ _ _ EM) as (M1 & M2 & M3 & M4).
  pose proof (msplit_parts _ _ _ _ EM) as (M5 & M6 & M7).
  pose proof (msplit_nonn _ _ _ _ EM (proj2 (proj2 Glr)) (proj2 (proj2 Hbuf))) as (M8 & M9).
  assert (Froot : allfin root).
  { apply (msplit_lo_fin _ _ _ _ EM); [apply Glr|apply Hbuf|]. rewrite fin_app, (fin_all lr Flr), app_length. lia. }
  assert (Groot : good (batch h) root) by (destruct Glr as (? & _); split; [lia|split; assumption]).
  assert (Gbuf' : good (batch h - 1) buf') by (destruct Hbuf as (? & _); split; [lia|split; assumption]).
  set (rs1 := upd (rows h) (hsize h) (clear_keys lr)).
  set (rs := upd rs1 0 root).
  assert (L1 : length rs1 = length (rows h)) by apply upd_length.
  assert (L2 : length rs = length (rows h)) by (unfold rs; rewrite upd_length; exact L1).
  assert (R : forall i, rowi rs i = if 0 =? i then root else if hsize h =? i then clear_keys lr else rowi (rows h) i).
  { intros i. unfold rs. rewrite rowi_upd by lia. unfold rs1. rewrite rowi_upd by lia. reflexivity. }
  assert (Ro : forall i, i <> 0 -> i <> hsize h -> rowi rs i = rowi (rows h) i).
  { intros i H1 H2. rewrite R. destruct (Nat.eqb_spec 0 i); [congruence|]. destruct (Nat.eqb_spec (hsize h) i); [congruence|reflexivity]. }
  assert (R0 : rowi rs 0 = root) by (rewrite R; reflexivity).
  assert (Gclear : good (batch h) (clear_keys lr)).
  { split; [rewrite clear_length; apply Glr|]. split; [apply sorted_allinf, allinf_clear|apply allinf_nonn, allinf_clear]. }
  assert (Hgood : goodrows (batch h) rs).
  { apply goodrows_upd; [|exact Groot]. apply goodrows_upd; assumption. }
  assert (Hfull : forall i, 1 <= i <= hsize h - 1 -> allfin (rowi rs i)).
  { intros i Hi. rewrite Ro by lia. apply HF; lia. }
  assert (Hempty : forall i, hsize h - 1 < i < length rs -> allinf (rowi rs i)).
  { intros i Hi. rewrite R. destruct (Nat.eqb_spec 0 i); [lia|].
    destruct (Nat.eqb_spec (hsize h) i); [apply allinf_clear|]. apply HE; lia. }
  assert (HI0 : SInv (batch h) (hsize h - 1) rs buf' (0, root, [])).
  { assert (EG : ghost rs (0, root, []) = rs).
    { unfold ghost, scatter_rows. cbn [fold_left]. rewrite <- R0. unfold rowi. apply upd_same. }
    constructor; rewrite ?EG; cbn [fst snd]; auto; try lia.
    - intros i Hi Hp. pose proof (par_lt i ltac:(lia)) as Hlt.
      destruct (Nat.eq_dec i (hsize h)) as [->|Hne].
      + apply below_allinf. apply Hempty; lia.
      + destruct (Nat.eq_dec (par i) (hsize h)) as [E|E].
        * apply below_allinf. apply Hempty; lia.
        * rewrite !Ro by lia. apply HO; lia.
    - rewrite R0. exact M7.
    - intros p [].
    - constructor.
    - exists 0. split; [reflexivity|cbn [Nat.pow]; lia]. }
  rewrite <- HL, <- L2.
  destruct (while_total (SInv (batch h) (hsize h - 1) rs buf') (fun st => length rs - fst (fst st))
             (sift_cond rs) (sift_body (max_depth (length rs) * 2 + 1) rs)
             ltac:(intros st Hst Hcnd; apply (sift_step (batch h) (hsize h - 1) rs buf'); auto; lia)
             (length rs) (0, root, []) HI0 ltac:(cbn [fst]; lia)) as (st & EW & HI & HC).
  rewrite EW.
  assert (HRI : RInv (batch h) (hsize h - 1) (ghost rs st)).
  { apply (sift_done (batch h) (hsize h - 1) rs buf'); auto; lia. }
  destruct st as [[c cur] ups].
  pose proof HI as [I1 I2 I3 I4 I5 I6 I7 I8 I9 I10 I11 I12]. cbn [fst snd] in *.
  destruct I12 as (k & K1 & K2).
  assert (Kd : k < max_depth (length rs)).
  { unfold max_depth. apply (Nat.pow_lt_mono_r_iff 2); [lia|].
    pose proof (Nat.log2_log2_up_spec (length rs + 1) ltac:(lia)) as [_ HH]. lia. }
  unfold write_update. destruct (Nat.ltb_spec (length ups) (max_depth (length rs) * 2 + 1)) as [_|]; [|lia].
  assert (EG : scatter_rows rs (ups ++ [(c, cur)]) = ghost rs (c, cur, ups)).
  { rewrite scatter_app. reflexivity. }
  rewrite EG. set (T := ghost rs (c, cur, ups)) in *.
  assert (HT : length T = length (rows h)) by (unfold T, ghost; rewrite upd_length, scatter_length; exact L2).
  eexists. split; [reflexivity|]. split; [|split; [reflexivity|split; [cbn [branch]; lia|]]].
  - constructor; cbn [rows buf hsize bsize branch batch]; auto; try lia.
    + rewrite Hbs. rewrite !nfin_fin.
      pose proof (Permutation_length (fin_perm _ _ M1)) as HH. rewrite !fin_app, !app_length in HH.
      rewrite (fin_all root Froot), (fin_all lr Flr) in HH. lia.
    + unfold small in *. lia.
  - unfold contents. cbn [rows buf]. rewrite !fin_app. rewrite (fin_perm _ _ I8).
    assert (Hs : Permutation (concat rs ++ rowi rs1 0 ++ rowi (rows h) (hsize h)) (concat (rows h) ++ root ++ clear_keys lr)).
    { pose proof (concat_swap (rows h) (hsize h) (clear_keys lr) ltac:(lia)) as S1. fold rs1 in S1.
      pose proof (concat_swap rs1 0 root ltac:(lia)) as S2. fold rs in S2.
      exact (perm_chain _ _ _ _ _ _ _ S1 S2). }
    assert (E1 : rowi rs1 0 = rowi (rows h) 0).
    { unfold rs1. rewrite rowi_upd by lia. destruct (Nat.eqb_spec (hsize h) 0); [lia|reflexivity]. }
    rewrite E1 in Hs. fold lr in Hs. apply fin_perm in Hs. rewrite !fin_app in Hs.
    rewrite (fin_none (clear_keys lr)), app_nil_r in Hs by apply allinf_clear.
    pose proof (rinv_root_full _ _ _ HB HR Hn1) as Fr0.
    rewrite (fin_all _ Fr0) in Hs.
    apply (Permutation_app_inv_r (fin root)).
    transitivity (rowi (rows h) 0 ++ fin (concat rs) ++ fin lr ++ fin (buf h)).
    + transitivity ((fin (concat (rows h)) ++ fin root) ++ fin (buf h)); [perm|]. rewrite <- Hs. perm.
    + pose proof (fin_perm _ _ M1) as M1'. rewrite !fin_app in M1'.
      transitivity (rowi (rows h) 0 ++ fin (concat rs) ++ (fin root ++ fin buf')).
      * do 2 apply Permutation_app_head. symmetry. exact M1'.
      * perm.
Qed.

Theorem delete_ok h : Inv h ->
  exists h' out, delete_mins h = Some (h', out) /\ Inv h' /\ batch h' = batch h /\ branch h' = branch h /\
    del_spec (batch h) (contents h) out (contents h').
Proof.
  intros HI. pose proof HI as [HB HL HR Hbuf Hrb Hbs Hsm]. pose proof HR as [HG Hn HF HE HO].
  unfold delete_mins. rewrite row_at_in by lia.
  assert (HbR : below (rowi (rows h) 0) (concat (tl (rows h)) ++ buf h)).
  { apply below_app_r. split; [|exact Hrb]. apply (root_below_rest (batch h)); assumption. }
  assert (HcR : contents h = fin (rowi (rows h) 0) ++ fin (concat (tl (rows h)) ++ buf h)).
  { rewrite contents_root by lia. rewrite fin_app. reflexivity. }
  destruct (Nat.eqb_spec (hsize h) 0) as [E|E].
  - unfold make_empty. rewrite row_at_in by lia.
    destruct (msplit (clear_keys (rowi (rows h) 0)) (buf h)) as [root buf'] eqn:EM.
    pose proof (msplit_spec _ _ _ _ EM) as (M1 & M2 & M3 & M4). rewrite clear_length in M3.
    pose proof (msplit_parts _ _ _ _ EM) as (M5 & M6 & M7).
    pose proof (HG 0 ltac:(lia)) as (G1 & G2 & G3). destruct Hbuf as (B1 & B2 & B3).
    pose proof (msplit_nonn _ _ _ _ EM (allinf_nonn _ (allinf_clear _)) B3) as (M8 & M9).
    assert (Ibuf : allinf buf').
    { apply (msplit_hi_inf _ _ _ _ EM (allinf_nonn _ (allinf_clear _)) B3).
      rewrite fin_app, (fin_none (clear_keys _)), clear_length by apply allinf_clear. cbn [app].
      pose proof (fin_le_length (buf h)). lia. }
    assert (Hempty : forall i, 1 <= i < length (rows h) -> allinf (rowi (rows h) i)) by (intros i Hi; apply HE; lia).
    eexists. exists (rowi (rows h) 0). split; [reflexivity|]. split; [|split; [reflexivity|split; [reflexivity|]]].
    + constructor; cbn [rows buf hsize bsize branch batch]; auto.
      * rewrite upd_length. exact HL.
      * constructor.
        -- apply goodrows_upd; [exact HG|]. split; [lia|split; assumption].
        -- rewrite upd_length. exact Hn.
        -- intros i Hi. lia.
        -- intros i Hi. rewrite upd_length in Hi. rewrite rowi_upd by lia.
           destruct (Nat.eqb_spec 0 i); [lia|]. apply Hempty; lia.
        -- apply ordered_upd; auto; [lia|lia|]. intros c Hc _. apply below_allinf. apply Hempty; lia.
      * split; [lia|split; assumption].
      * rewrite rowi_upd by lia. exact M7.
      * rewrite nfin_fin, (fin_none buf' Ibuf). reflexivity.
    + assert (Hrest : fin (concat (tl (rows h))) = []).
      { apply fin_none. intros x Hx. apply In_concat_tl in Hx as (i & Hi & Hx). exact (Hempty i Hi x Hx). }
      apply (del_out _ _ _ (concat (tl (rows h)) ++ buf h)); auto.
      * apply HG; lia.
      * unfold contents. cbn [rows buf]. destruct (rows h) as [|r0 t]; [cbn [length] in *; lia|].
        cbn [upd concat tl] in *. rewrite !fin_app, Hrest, (fin_none buf' Ibuf), !app_nil_r. cbn [app].
        pose proof (fin_perm _ _ M1) as M1'. rewrite !fin_app in M1'.
        rewrite (fin_none buf' Ibuf), (fin_none (clear_keys _)), app_nil_r in M1' by apply allinf_clear. exact M1'.
      * rewrite HcR. reflexivity.
  - destruct (del_heapify_ok h HI ltac:(lia)) as (h' & E1 & E2 & E3 & E4 & E5).
    rewrite E1. exists h', (rowi (rows h) 0). split; [reflexivity|]. split; [exact E2|]. split; [exact E3|]. split; [exact E4|].
    pose proof (rinv_root_full _ _ _ HB HR ltac:(lia)) as Fr0.
    apply (del_out _ _ _ (concat (tl (rows h)) ++ buf h)); auto.
    + apply HG; lia.
    + rewrite HcR in E5. rewrite (fin_all _ Fr0) in E5. apply Permutation_app_inv_l in E5. symmetry. exact E5.
    + rewrite HcR. reflexivity.
Qed.

Theorem size_ok h : Inv h -> (Z.of_nat (branch h + 1) * Z.of_nat (batch h) <= 2 ^ 31)%Z ->
  size h = Z.of_nat (length (contents h)).
Proof.
  intros [HB HL HR Hbuf Hrb Hbs Hsm] Hb. pose proof HR as [HG Hn HF HE HO].
  unfold size. rewrite row_at_in by lia.
  assert (Hc : length (contents h) = length (fin (rowi (rows h) 0)) + hsize h * batch h + nfin (buf h)).
  { unfold contents. rewrite fin_app, app_length, (rinv_count _ _ _ HR), nfin_fin. reflexivity. }
  pose proof (fin_le_length (rowi (rows h) 0)) as H1. pose proof (fin_le_length (buf h)) as H2.
  destruct (HG 0 ltac:(lia)) as (G1 & _). destruct Hbuf as (B1 & _). rewrite G1 in H1.
  rewrite nfin_fin in *. rewrite Hbs, Hc.
  assert (Hm : (Z.of_nat (hsize h + 1) * Z.of_nat (batch h) <= Z.of_nat (branch h) * Z.of_nat (batch h))%Z) by nia.
  destruct (Nat.eqb_spec (hsize h) 0) as [E|E].
  - rewrite E. rewrite i32_small; [lia|]. nia.
  - rewrite (fin_all (rowi (rows h) 0)) by (apply (rinv_root_full _ _ _ HB HR); lia).
    rewrite G1. rewrite (u32_small ((_ + 1) * _)) by (unfold U32; nia).
    rewrite u32_small by (unfold U32; nia). rewrite i32_small by nia. lia.
Qed.

Lemma rowi_repeat (r : row) m i : i < m -> rowi (repeat r m) i = r.
Proof. intros H. unfold rowi. apply (repeat_spec m r). apply nth_In. rewrite repeat_length. exact H. Qed.

Theorem build_ok (dv : V) total B : 1 <= B -> 1 <= total -> small total ->
  Inv (build dv total B) /\ contents (build dv total B) = [] /\ batch (build dv total B) = B /\
  branch (build dv total B) = (total + B - 1) / B.
Proof.
  intros HB Ht Hs. unfold build.
  set (br := if total mod B =? 0 then total / B else total / B + 1).
  assert (Hbr : br = (total + B - 1) / B).
  { unfold br. pose proof (Nat.div_mod total B ltac:(lia)) as HD.
    pose proof (Nat.mod_upper_bound total B ltac:(lia)) as HM.
    destruct (Nat.eqb_spec (total mod B) 0) as [E|E].
    - apply (Nat.div_unique _ _ _ (B - 1)); lia.
    - apply (Nat.div_unique _ _ _ (total mod B - 1)); lia. }
  assert (Hbr1 : 1 <= br).
  { rewrite Hbr. apply Nat.div_le_lower_bound; lia. }
  assert (Hbr2 : br <= total).
  { rewrite Hbr. apply Nat.lt_succ_r, Nat.div_lt_upper_bound; [lia|nia]. }
  assert (HI : allinf (repeat (PInf, dv) B)) by (intros x Hx; apply repeat_spec in Hx; subst x; reflexivity).
  assert (HI' : allinf (repeat (PInf, dv) (B - 1))) by (intros x Hx; apply repeat_spec in Hx; subst x; reflexivity).
  assert (HG : good B (repeat (PInf, dv) B)).
  { split; [apply repeat_length|split; [apply sorted_allinf; exact HI|apply allinf_nonn; exact HI]]. }
  assert (HL : length (repeat (repeat (PInf, dv) B) br) = br) by apply repeat_length.
  cbn [rows buf hsize bsize branch batch].
  split; [|split; [|split; [reflexivity|exact Hbr]]].
  - constructor; cbn [rows buf hsize bsize branch batch]; auto.
    + constructor; rewrite ?HL; try lia.
      * intros i Hi. rewrite HL in Hi. rewrite rowi_repeat by exact Hi. exact HG.
      * intros i Hi. rewrite rowi_repeat by lia. exact HI.
      * intros i Hi. rewrite HL in Hi. rewrite !rowi_repeat by (pose proof (par_lt i); lia). apply below_allinf; exact HI.
    + split; [apply repeat_length|split; [apply sorted_allinf; exact HI'|apply allinf_nonn; exact HI']].
    + rewrite rowi_repeat by lia. apply below_allinf; exact HI'.
    + rewrite nfin_fin, (fin_none _ HI'). reflexivity.
    + unfold small in *. lia.
  - unfold contents. cbn [rows buf]. apply fin_none. intros x Hx. apply in_app_or in Hx as [Hx|Hx]; [|apply HI'; exact Hx].
    apply in_concat in Hx as (r & Hr & Hx). apply repeat_spec in Hr. subst r. apply HI; exact Hx.
Qed.
End H.
