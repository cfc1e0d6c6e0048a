(** * PropRows5.v — property C52: moving, rotating and stacking batch axes. *)
From Coq Require Import String.
From Verif Require Import Jax StructModel ArrayModel ArrayFacts ShapeModel PropShape RowsModel RowsLift PropRows PropRows2 PropRows3 EqModel RowsModel2.

(** ** Composition of row-wise operations *)
Lemma rowwise1_ext f g B B' src fl : (forall a I, ashape a = B ++ I -> wfa a -> f a = g a) -> rowwise1 g B B' src fl -> rowwise1 f B B' src fl.
Proof. intros HE [H1 H2]. split; [exact H1|]. intros a J ES W. rewrite (HE a J ES W). now apply H2. Qed.
Lemma rowwise1_comp f g B1 B2 B3 s1 s2 fl : rowwise1 f B1 B2 (fun b => Some (s1 b)) fl -> rowwise1 g B2 B3 (fun b => Some (s2 b)) fl ->
  rowwise1 (fun a => obind (f a) g) B1 B3 (fun b => Some (s1 (s2 b))) fl.
Proof.
  intros [F1 F2] [G1 G2]. split; [intros b' Hb; apply F1, G1, Hb|]. intros a J ES W.
  destruct (F2 a J ES W) as (x & E1 & D1 & S1 & W1 & K1). destruct (G2 x J S1 W1) as (y & E2 & D2 & S2 & W2 & K2).
  exists y. rewrite E1. cbn [obind]. split; [exact E2|]. split; [congruence|]. split; [exact S2|]. split; [exact W2|].
  intros b' t Hb Ht. rewrite K2 by assumption. apply K1; [apply G1, Hb|exact Ht].
Qed.
Lemma rowwise1_src f B B' s1 s2 fl : (forall b', inb b' B' -> s1 b' = s2 b') -> rowwise1 f B B' (fun b => Some (s1 b)) fl -> rowwise1 f B B' (fun b => Some (s2 b)) fl.
Proof.
  intros HE [H1 H2]. split; [intros b' Hb; rewrite <- HE by exact Hb; now apply H1|]. intros a J ES W. destruct (H2 a J ES W) as (x & E1 & D1 & S1 & W1 & K1).
  exists x. repeat (split; [assumption|]). intros b' t Hb Ht. rewrite <- HE by exact Hb. now apply K1.
Qed.
Lemma rowwise1_id B fl : rowwise1 (fun a => Some a) B B (fun b => Some b) fl.
Proof. split; [auto|]. intros a J ES W. exists a. auto. Qed.
(** the element version of a bijection given by its inverse *)
Definition flip_at (k : nat) (B b : list nat) : list nat := upd k (nth k B 0 - 1 - nth k b 0) b.
Lemma rowwise_flip B k : k < length B -> rowwise1 (a_flip (Z.of_nat k)) B B (fun b => Some (flip_at k B b)) nofill.
Proof.
  intros Hk. apply (rowwise1_build _ _ _ _ _ (fun a idx => get a (upd k (nth k (ashape a) 0 - 1 - nth k idx 0) idx))).
  - intros b Hb. unfold flip_at. pose proof (inb_nth _ _ k Hb Hk) as HBK. rewrite <- (upd_same k B 0 Hk) at 2. apply (inb_upd k _ (nth k B 0)); [exact Hk|now rewrite upd_same|lia].
  - intros a J Hs Hw. unfold a_flip. unfold ndim. rewrite Hs, app_length, norm_axis_pos by lia. reflexivity.
  - intros a J b t Hs Hw Hb Ht. pose proof (inb_length _ _ Hb) as LB. unfold flip_at. rewrite Hs, !app_nth1 by lia. now rewrite upd_app by lia.
Qed.
Definition swap_at (i j : nat) (b : list nat) : list nat := upd i (nth j b 0) (upd j (nth i b 0) b).
Lemma swap_map i j n (l : list nat) : i < n -> j < n -> length l = n -> map (fun k => nth k l 0) (swap_list i j n) = swap_at i j l.
Proof.
  intros Hi Hj HL. unfold swap_at. apply (nth_ext _ _ 0 0); [unfold swap_list; rewrite !map_length, seq_length, !upd_length; lia|]. intros m Hm. unfold swap_list in *. rewrite !map_length, seq_length in Hm.
  rewrite map_map. set (g := fun x => nth _ l 0). rewrite (nth_indep _ 0 (g 0)) by (now rewrite map_length, seq_length). rewrite (map_nth g), seq_nth by exact Hm. unfold g. cbn [Nat.add].
  rewrite !nth_upd by (rewrite ?upd_length; lia). destruct (Nat.eqb_spec m i) as [->|]; [reflexivity|]. destruct (Nat.eqb_spec m j); reflexivity.
Qed.
Lemma swap_invol i j n (l : list nat) : i < n -> j < n -> length l = n -> swap_at i j (swap_at i j l) = l.
Proof.
  intros Hi Hj HL. unfold swap_at. apply (nth_ext _ _ 0 0); [rewrite !upd_length; lia|]. intros m Hm. rewrite !upd_length in Hm.
  repeat (rewrite nth_upd by (rewrite ?upd_length; lia)).
  repeat match goal with |- context [?x =? ?y] => destruct (Nat.eqb_spec x y) end; congruence.
Qed.
(** transposing the batch axes of every leaf *)
Lemma rowwise_transpose_leaf f B ks : perm_axes ks (length B) ->
  (forall a I, ashape a = B ++ I -> f a = a_transpose (map Z.of_nat (ks ++ seq (length B) (length I))) a) ->
  rowwise1 f B (map (fun k => nth k B 0) ks) (fun b' => Some (map (fun m => nth (index_of m ks) b' 0) (seq 0 (length B)))) nofill.
Proof.
  intros HP HF. apply (rowwise1_ext f (leaf_transpose (length B) (map Z.of_nat ks))); [|now apply rowwise_transpose].
  intros a J ES W. rewrite (HF a J ES). unfold leaf_transpose, ndim. rewrite ES, app_length. replace (length B + length J <? length B) with false by (symmetry; apply Nat.ltb_ge; lia).
  replace (length B + length J - length B) with (length J) by lia. now rewrite map_app.
Qed.
Lemma inb_swap i j B b : i < length B -> j < length B -> inb b B -> inb (swap_at i j b) (swap_at i j B).
Proof.
  intros Hi Hj Hb. pose proof (inb_length _ _ Hb) as LB. rewrite <- (swap_map i j (length B) b), <- (swap_map i j (length B) B) by auto.
  apply transpose_src; [now apply swap_perm|exact Hb].
Qed.
Lemma rowwise_swap B i j : i < length B -> j < length B -> rowwise1 (a_swapaxes (Z.of_nat i) (Z.of_nat j)) B (swap_at i j B) (fun b => Some (swap_at i j b)) nofill.
Proof.
  intros Hi Hj. pose proof (swap_perm i j (length B) Hi Hj) as HP. rewrite <- (swap_map i j (length B) B Hi Hj eq_refl).
  apply (rowwise1_src _ _ _ (fun b' => map (fun m => nth (index_of m (swap_list i j (length B))) b' 0) (seq 0 (length B)))).
  - intros b' Hb'. rewrite swap_map in Hb' by auto. pose proof (inb_length _ _ Hb') as LB. unfold swap_at in LB at 1. rewrite !upd_length in LB.
    assert (HI : inb (swap_at i j b') B). { rewrite <- (swap_invol i j (length B) B Hi Hj eq_refl). apply inb_swap; [unfold swap_at; rewrite !upd_length; lia..|exact Hb']. }
    destruct (transpose_src B _ (swap_at i j b') HP HI) as [T _]. rewrite (swap_map i j (length B) (swap_at i j b')) in T; [|exact Hi|exact Hj|apply (inb_length _ _ HI)].
    rewrite (swap_invol i j (length B) b' Hi Hj LB) in T. exact T.
  - apply rowwise_transpose_leaf; [exact HP|]. intros a J ES. unfold a_swapaxes, ndim. rewrite ES, app_length, !norm_axis_pos by lia. now rewrite swap_list_app.
Qed.

(** ** moveaxis *)
Section MovePerm.
Let ins (perm : list nat) (p : nat * nat) : list nat := insert (fst p) (snd p) perm.
Lemma sorted_bound N xs : forall x, StronglySorted lt (x :: xs) -> (forall y, In y (x :: xs) -> y < N) -> x + length xs < N.
Proof.
  induction xs as [|y ys IH]; intros x HS HB; [specialize (HB x (or_introl eq_refl)); cbn; lia|].
  apply StronglySorted_inv in HS. destruct HS as [HS HF]. specialize (IH y HS (fun z Hz => HB z (or_intror Hz))). inversion HF; subst. cbn [length]. lia.
Qed.
Lemma nth_insert_lt {X} k (x : X) l j d : j < k -> k <= length l -> nth j (insert k x l) d = nth j l d.
Proof. intros H1 H2. unfold insert. rewrite app_nth1 by (rewrite firstn_length; lia). rewrite <- (firstn_skipn k l) at 2. rewrite app_nth1 by (rewrite firstn_length; lia). reflexivity. Qed.
Lemma nth_insert_eq {X} k (x : X) l d : k <= length l -> nth k (insert k x l) d = x.
Proof. intros H. unfold insert. rewrite app_nth2 by (rewrite firstn_length; lia). rewrite firstn_length. replace (k - Nat.min k (length l)) with 0 by lia. reflexivity. Qed.
Lemma ins_fold : forall l r, StronglySorted lt (map fst l) -> (forall p, In p l -> fst p < length l + length r) ->
  length (fold_left ins l r) = length l + length r /\
  (forall p, In p l -> nth (fst p) (fold_left ins l r) 0 = snd p) /\
  (forall j, (forall p, In p l -> j < fst p) -> nth j (fold_left ins l r) 0 = nth j r 0 \/ length r <= j) /\
  (forall f, (forall p, In p l -> f (snd p) = false) -> filter f (fold_left ins l r) = filter f r) /\
  Permutation (fold_left ins l r) (map snd l ++ r) /\
  (forall t, fold_left ins l (r ++ t) = fold_left ins l r ++ t).
Proof.
  induction l as [|p l IH]; intros r HS HB; [cbn; repeat (split; auto); intros _ []|]. cbn [map] in HS.
  assert (HP : fst p <= length r).
  { pose proof (sorted_bound (length (p :: l) + length r) _ _ HS) as H. rewrite map_length in H. cbn [length] in H. assert (fst p + length l < S (length l) + length r); [|lia]. apply H.
    intros y [<-|Hy]; [apply (HB p); now left|]. apply in_map_iff in Hy. destruct Hy as (q & <- & Hq). apply (HB q). now right. }
  apply StronglySorted_inv in HS. destruct HS as [HS HF]. rewrite Forall_forall in HF.
  assert (HF' : forall q, In q l -> fst p < fst q) by (intros q Hq; apply HF, in_map, Hq).
  destruct (IH (ins r p) HS) as (L1 & L2 & L3 & L4 & L5 & L6).
  { intros q Hq. unfold ins. rewrite insert_length. specialize (HB q (or_intror Hq)). cbn [length] in HB. lia. }
  cbn [fold_left]. assert (LI : length (ins r p) = S (length r)) by apply insert_length. rewrite LI in L1. split; [rewrite L1; cbn [length]; lia|]. split; [|split; [|split; [|split]]].
  - intros q [<-|Hq]; [|now apply L2]. destruct (L3 (fst p) HF') as [E|E]; [|unfold ins in E; rewrite insert_length in E; lia]. rewrite E. unfold ins. now apply nth_insert_eq.
  - intros j Hj. destruct (L3 j (fun q Hq => Hj q (or_intror Hq))) as [E|E]; [|unfold ins in E; rewrite insert_length in E; right; lia].
    left. rewrite E. unfold ins. apply nth_insert_lt; [apply Hj; now left|exact HP].
  - intros f Hf. rewrite L4 by (intros q Hq; apply Hf; now right). unfold ins, insert. rewrite filter_app. cbn [filter]. rewrite (Hf p) by now left. rewrite <- filter_app, firstn_skipn. reflexivity.
  - rewrite L5. unfold ins, insert. cbn [map app]. rewrite <- (firstn_skipn (fst p) r) at 3. rewrite !app_assoc. symmetry. rewrite <- app_assoc. rewrite app_comm_cons. rewrite app_assoc. apply Permutation_middle.
  - intros t. unfold ins at 2. rewrite insert_app by exact HP. apply L6.
Qed.
Lemma ins_pair_perm p l : Permutation (ins_pair p l) (p :: l).
Proof. induction l as [|q r IH]; [reflexivity|]. cbn [ins_pair]. destruct (fst p <=? fst q); [reflexivity|]. rewrite IH. apply perm_swap. Qed.
Lemma ins_pair_sorted p l : ~ In (fst p) (map fst l) -> StronglySorted lt (map fst l) -> StronglySorted lt (map fst (ins_pair p l)).
Proof.
  induction l as [|q r IH]; intros HN HS; [repeat constructor|]. cbn [ins_pair]. cbn [map] in HS, HN. apply StronglySorted_inv in HS as HS'. destruct HS' as [HS1 HF].
  assert (fst p <> fst q) by (intros E; apply HN; left; auto). destruct (Nat.leb_spec (fst p) (fst q)).
  - cbn [map]. constructor; [exact HS|]. constructor; [lia|]. eapply Forall_impl; [|exact HF]. cbn. intros; lia.
  - cbn [map]. constructor; [apply IH; [intros K; apply HN; now right|exact HS1]|]. rewrite Forall_forall in *. intros x Hx. apply in_map_iff in Hx. destruct Hx as (y & <- & Hy).
    apply (Permutation_in _ (ins_pair_perm p r)) in Hy. destruct Hy as [<-|Hy]; [lia|]. now apply HF, in_map.
Qed.
Lemma sort_pairs_perm l : Permutation (sort_pairs l) l.
Proof. induction l as [|p l IH]; [reflexivity|]. cbn. rewrite ins_pair_perm. now constructor. Qed.
Lemma sort_pairs_sorted l : NoDup (map fst l) -> StronglySorted lt (map fst (sort_pairs l)).
Proof.
  induction l as [|p l IH]; intros HN; [constructor|]. cbn [map] in HN. apply NoDup_cons_iff in HN. destruct HN as [H1 H2]. cbn. apply ins_pair_sorted; [|now apply IH].
  intros K. apply H1. eapply Permutation_in; [|exact K]. apply Permutation_map, sort_pairs_perm.
Qed.
Lemma combine_fst {X Y} (l : list X) (m : list Y) : length l = length m -> map fst (combine l m) = l.
Proof. revert m. induction l as [|x l IH]; intros [|y m] H; cbn in *; try lia; [reflexivity|]. f_equal. apply IH. lia. Qed.
Lemma combine_snd {X Y} (l : list X) (m : list Y) : length l = length m -> map snd (combine l m) = m.
Proof. revert m. induction l as [|x l IH]; intros [|y m] H; cbn in *; try lia; [reflexivity|]. f_equal. apply IH. lia. Qed.
Lemma existsb_In x l : existsb (Nat.eqb x) l = true <-> In x l.
Proof. rewrite existsb_exists. split; [intros (y & H & E); apply Nat.eqb_eq in E; now subst|intros H; exists x; split; [exact H|apply Nat.eqb_refl]]. Qed.
Lemma filter_len_split {X} (f : X -> bool) l : length (filter f l) + length (filter (fun x => negb (f x)) l) = length l.
Proof. induction l as [|x l IH]; [reflexivity|]. cbn. destruct (f x); cbn; lia. Qed.
Lemma filter_in_perm s n : NoDup s -> (forall k, In k s -> k < n) -> Permutation (filter (fun i => existsb (Nat.eqb i) s) (seq 0 n)) s.
Proof.
  intros ND HB. apply NoDup_Permutation; [apply NoDup_filter, seq_NoDup|exact ND|]. intros x. rewrite filter_In, in_seq, existsb_In. split; [tauto|]. intros H. specialize (HB x H). split; [lia|exact H].
Qed.
(** the order of the axes after moveaxis: the moved axes are where they were sent, and the
    other axes keep their order *)
Lemma move_perm_spec n m s d : NoDup s -> NoDup d -> length s = length d -> (forall k, In k s -> k < n) -> (forall k, In k d -> k < n) ->
  perm_axes (move_perm n s d) n /\ (forall i, i < length s -> nth (nth i d 0) (move_perm n s d) 0 = nth i s 0) /\
  filter (fun k => negb (existsb (Nat.eqb k) s)) (move_perm n s d) = filter (fun k => negb (existsb (Nat.eqb k) s)) (seq 0 n) /\
  move_perm (n + m) s d = move_perm n s d ++ seq n m.
Proof.
  intros NS ND HL HS HD. set (l := sort_pairs (combine d s)). set (rest := filter (fun k => negb (existsb (Nat.eqb k) s)) (seq 0 n)).
  assert (PL : Permutation l (combine d s)) by apply sort_pairs_perm.
  assert (LL : length l = length s) by (rewrite (Permutation_length PL), combine_length; lia).
  pose proof (filter_in_perm s n NS HS) as PS. pose proof (filter_len_split (fun i => existsb (Nat.eqb i) s) (seq 0 n)) as LF. rewrite (Permutation_length PS), seq_length in LF. fold rest in LF.
  assert (IL : forall p, In p l -> In (fst p) d /\ In (snd p) s).
  { intros [a b] Hp. apply (Permutation_in _ PL) in Hp. split; [now apply in_combine_l in Hp|now apply in_combine_r in Hp]. }
  destruct (ins_fold l rest) as (L1 & L2 & _ & L4 & L5 & L6).
  - apply sort_pairs_sorted. rewrite combine_fst by auto. exact ND.
  - intros p Hp. rewrite LL. destruct (IL p Hp) as [H _]. specialize (HD _ H). lia.
  - change (fold_left ins l rest) with (move_perm n s d) in *. split; [|split; [|split]].
    + assert (PP : Permutation (move_perm n s d) (seq 0 n)).
      { rewrite L5. assert (PM : Permutation (map snd l) s) by (pose proof (Permutation_map snd PL) as Q; rewrite (combine_snd d s (eq_sym HL)) in Q; exact Q). rewrite PM, <- PS. unfold rest. clear.
        induction (seq 0 n) as [|x q IH]; [reflexivity|]. cbn [filter]. destruct (existsb (Nat.eqb x) s); cbn [negb app]; [now constructor|]. rewrite <- Permutation_middle. now constructor. }
      split; [|split].
      * eapply Permutation_NoDup; [symmetry; exact PP|apply seq_NoDup].
      * rewrite (Permutation_length PP). apply seq_length.
      * intros k Hk. apply (Permutation_in _ PP) in Hk. apply in_seq in Hk. lia.
    + intros i Hi. apply (L2 (nth i d 0, nth i s 0)). apply (Permutation_in _ (Permutation_sym PL)). rewrite <- combine_nth by auto. apply nth_In. rewrite combine_length. lia.
    + rewrite L4; [|intros p Hp; destruct (IL p Hp) as [_ H]; apply negb_false_iff, existsb_In, H]. unfold rest. clear. induction (seq 0 n) as [|x q IH]; [reflexivity|].
      cbn [filter]. destruct (negb (existsb (Nat.eqb x) s)) eqn:E; [cbn [filter]; rewrite E; now f_equal|exact IH].
    + rewrite <- (L6 (seq n m)). unfold move_perm. fold l. unfold ins. f_equal. rewrite seq_app, filter_app. fold rest. f_equal. cbn [Nat.add].
      assert (HQ : forall k, In k (seq n m) -> negb (existsb (Nat.eqb k) s) = true).
      { intros k Hk. apply negb_true_iff. destruct (existsb (Nat.eqb k) s) eqn:E; [|reflexivity]. apply existsb_In, HS in E. apply in_seq in Hk. lia. }
      revert HQ. clear. induction (seq n m) as [|x q IH]; intros HQ; [reflexivity|]. cbn [filter]. rewrite HQ by now left. f_equal. apply IH. intros k Hk. apply HQ. now right.
Qed.
End MovePerm.
Theorem C52_moveaxis : forall c B o s d, batched c B o -> NoDup s -> NoDup d -> length s = length d ->
  (forall k, In k s -> k < length B) -> (forall k, In k d -> k < length B) ->
  exists o' ks, obj_moveaxis (map Z.of_nat s) (map Z.of_nat d) o = Some o' /\
    (** the new order of the axes: a permutation that puts axis [s_i] at position [d_i] and leaves the others in order *)
    perm_axes ks (length B) /\ (forall i, i < length s -> nth (nth i d 0) ks 0 = nth i s 0) /\
    filter (fun k => negb (existsb (Nat.eqb k) s)) ks = filter (fun k => negb (existsb (Nat.eqb k) s)) (seq 0 (length B)) /\
    batched c (map (fun k => nth k B 0) ks) o' /\ forall b, inb b B -> elem (map (fun k => nth k b 0) ks) o' = elem b o.
Proof.
  intros c B o s d [HC HB] NS ND HL HS HD. set (ks := move_perm (length B) s d).
  destruct (move_perm_spec (length B) 0 s d NS ND HL HS HD) as (P1 & P2 & P3 & _).
  assert (HR : rowwise1 (a_moveaxis (map Z.of_nat s) (map Z.of_nat d)) B (map (fun k => nth k B 0) ks) (fun b' => Some (map (fun m => nth (index_of m ks) b' 0) (seq 0 (length B)))) nofill).
  { apply rowwise_transpose_leaf; [exact P1|]. intros a J ES. unfold a_moveaxis, ndim. rewrite ES, app_length.
    rewrite !norm_axes_nat by (intros k Hk; first [specialize (HS k Hk)|specialize (HD k Hk)]; lia). rewrite HL, Nat.eqb_refl, !nodupb_true by assumption. cbn [andb].
    now rewrite (proj2 (proj2 (proj2 (move_perm_spec (length B) (length J) s d NS ND HL HS HD)))). }
  destruct (lift_one _ _ _ _ _ c o HR HC HB) as (o' & E1 & E2 & E3 & E4). exists o', ks. split; [exact E1|]. split; [exact P1|]. split; [exact P2|]. split; [exact P3|].
  split; [split; assumption|]. intros b Hb. destruct (transpose_src B ks b P1 Hb) as [T1 T2]. rewrite E4 by exact T2. now rewrite T1.
Qed.

(** ** rot90 *)
Lemma iter_S {X} n (f : X -> X) x : Nat.iter (S n) f x = f (Nat.iter n f x).
Proof. reflexivity. Qed.
(** one quarter turn of the plane of axes [i] and [j]: the position of an element in a batch
    of shape [B], before and after *)
Definition quarter (i j : nat) (Bb : list nat * list nat) : list nat * list nat :=
  let '(B, b) := Bb in (upd i (nth j B 0) (upd j (nth i B 0) B), upd i (nth j B 0 - 1 - nth j b 0) (upd j (nth i b 0) b)).
Lemma inb_flip k B b : k < length B -> inb b B -> inb (flip_at k B b) B.
Proof.
  intros Hk Hb. unfold flip_at. pose proof (inb_nth _ _ k Hb Hk) as HBK. rewrite <- (upd_same k B 0 Hk) at 2. apply (inb_upd k _ (nth k B 0)); [exact Hk|now rewrite upd_same|lia].
Qed.
Ltac upd_cases := repeat (rewrite nth_upd by (rewrite ?upd_length; lia)); repeat (match goal with |- context [?x =? ?y] => destruct (Nat.eqb_spec x y) end; subst; try congruence; try lia).
Lemma quarter_inb i j B b : i < length B -> j < length B -> i <> j -> inb b B -> inb (snd (quarter i j (B, b))) (fst (quarter i j (B, b))).
Proof.
  intros Hi Hj Hn Hb. pose proof (inb_length _ _ Hb) as LB. cbn [quarter fst snd]. apply inb_of_nth; [rewrite !upd_length; exact LB|]. rewrite !upd_length. intros m Hm.
  pose proof (inb_nth _ _ i Hb Hi). pose proof (inb_nth _ _ j Hb Hj). pose proof (inb_nth _ _ m Hb Hm). upd_cases.
Qed.
Theorem C52_rot90 : forall c B o k i j, batched c B o -> i < length B -> j < length B -> i <> j ->
  exists o', obj_rot90 k (Z.of_nat i, Z.of_nat j) o = Some o' /\
    let turn := Nat.iter (Z.to_nat (k mod 4)) (quarter i j) in
    (forall b, fst (turn (B, b)) = fst (turn (B, []))) /\ batched c (fst (turn (B, []))) o' /\
    forall b, inb b B -> inb (snd (turn (B, b))) (fst (turn (B, []))) /\ elem (snd (turn (B, b))) o' = elem b o.
Proof.
  intros c B o k i j [HC HB] Hi Hj Hn. assert (Hnb : (i =? j) = false) by (apply Nat.eqb_neq; exact Hn).
  set (q := Z.to_nat (k mod 4)). assert (Hq : q < 4) by (pose proof (Z.mod_pos_bound k 4); lia).
  set (B1 := swap_at i j B). assert (L1 : length B1 = length B) by (unfold B1, swap_at; now rewrite !upd_length).
  set (src := fun b' => match q with 0 => b' | 1 => flip_at j B (swap_at i j b') | 2 => flip_at i B (flip_at j B b') | _ => swap_at i j (flip_at j B1 b') end).
  set (B' := match q with 0 | 2 => B | _ => B1 end).
  assert (HR : rowwise1 (a_rot90 k (Z.of_nat i, Z.of_nat j)) B B' (fun b => Some (src b)) nofill).
  { assert (S1 : swap_at i j B1 = B) by (unfold B1; now apply (swap_invol i j (length B))).
    apply (rowwise1_ext _ (fun a => match q with 0 => Some a | 2 => obind (a_flip (Z.of_nat i) a) (a_flip (Z.of_nat j)) | 1 => obind (a_flip (Z.of_nat j) a) (a_swapaxes (Z.of_nat i) (Z.of_nat j)) | _ => obind (a_swapaxes (Z.of_nat i) (Z.of_nat j) a) (a_flip (Z.of_nat j)) end)).
    - intros a J ES W. unfold a_rot90, ndim. cbn [fst snd]. rewrite ES, app_length, !norm_axis_pos, Hnb by lia. reflexivity.
    - unfold src, B'. destruct q as [|[|[|[|q']]]]; [..|lia].
      + apply rowwise1_id.
      + apply (rowwise1_comp _ _ B B B1 (flip_at j B) (swap_at i j)); [now apply rowwise_flip|now apply rowwise_swap].
      + apply (rowwise1_comp _ _ B B B (flip_at i B) (flip_at j B)); now apply rowwise_flip.
      + apply (rowwise1_comp _ _ B B1 B1 (swap_at i j) (flip_at j B1)); [now apply rowwise_swap|apply rowwise_flip; lia]. }
  destruct (lift_one _ _ _ _ _ c o HR HC HB) as (o' & E1 & E2 & E3 & E4). exists o'. split; [exact E1|]. cbn zeta.
  assert (HF : forall b, fst (Nat.iter q (quarter i j) (B, b)) = B').
  { intros b. unfold B', B1. clear - Hq Hi Hj Hn. destruct q as [|[|[|[|q']]]]; [..|lia]; cbn [Nat.iter nat_rect quarter fst]; [reflexivity|reflexivity|..].
    - apply (swap_invol i j (length B)); auto.
    - pose proof (swap_invol i j (length B) B Hi Hj eq_refl) as H. unfold swap_at in H. unfold swap_at. rewrite H. reflexivity. }
  split; [intros b; now rewrite !HF|]. rewrite HF. split; [split; assumption|]. intros b Hb. pose proof (inb_length _ _ Hb) as LB.
  assert (HIN : inb (snd (Nat.iter q (quarter i j) (B, b))) B').
  { rewrite <- (HF b). clear - Hb Hi Hj Hn. induction q as [|q IH]; [exact Hb|]. rewrite !iter_S.
    assert (HLq : length (fst (Nat.iter q (quarter i j) (B, b))) = length B) by (clear; induction q as [|q IH]; [reflexivity|]; rewrite iter_S; destruct (Nat.iter q (quarter i j) (B, b)); cbn [quarter fst] in *; now rewrite !upd_length).
    destruct (Nat.iter q (quarter i j) (B, b)) as [Bq bq]. cbn [fst snd] in HLq, IH. apply quarter_inb; [lia|lia|exact Hn|exact IH]. }
  split; [exact HIN|]. rewrite E4 by exact HIN. f_equal. unfold src. pose proof (inb_nth _ _ i Hb Hi). pose proof (inb_nth _ _ j Hb Hj).
  clear - Hq Hi Hj Hn LB H H0. destruct q as [|[|[|[|q']]]]; [..|lia]; cbn [Nat.iter nat_rect quarter fst snd]; [reflexivity|..];
    unfold B1, flip_at, swap_at; (apply (nth_ext _ _ 0 0); [now rewrite !upd_length|]); intros m Hm; rewrite !upd_length in Hm; upd_cases.
Qed.

(** ** flip and roll with several axes, repeat with one count per position *)
Lemma fold_obind_none {X Y} (g : Y -> X -> option Y) l : fold_left (fun x k => obind x (fun y => g y k)) l None = None.
Proof. induction l; [reflexivity|]. exact IHl. Qed.
Lemma rowwise_flips B ks : (forall k, In k ks -> k < length B) -> forall f0 s0, rowwise1 f0 B B (fun b => Some (s0 b)) nofill ->
  rowwise1 (fun a => fold_left (fun x k => obind x (a_flip (Z.of_nat k))) ks (f0 a)) B B (fun b => Some (s0 (fold_right (fun k b => flip_at k B b) b ks))) nofill.
Proof.
  induction ks as [|k ks IH]; intros HK f0 s0 H0; [exact H0|]. cbn [fold_left fold_right].
  apply (IH (fun q Hq => HK q (or_intror Hq)) (fun a => obind (f0 a) (a_flip (Z.of_nat k))) (fun b => s0 (flip_at k B b))).
  apply (rowwise1_comp f0 _ B B B s0 (flip_at k B)); [exact H0|]. apply rowwise_flip, HK. now left.
Qed.
Lemma flips_nth B ks b m : NoDup ks -> (forall k, In k ks -> k < length B) -> length b = length B ->
  length (fold_right (fun k b => flip_at k B b) b ks) = length B /\
  nth m (fold_right (fun k b => flip_at k B b) b ks) 0 = if existsb (Nat.eqb m) ks then nth m B 0 - 1 - nth m b 0 else nth m b 0.
Proof.
  intros ND. induction ND as [|k ks HN ND IH]; intros HK LB; [auto|]. cbn [fold_right existsb]. destruct (IH (fun q Hq => HK q (or_intror Hq)) LB) as [IH1 IH2].
  unfold flip_at at 1 3. rewrite upd_length. split; [exact IH1|]. pose proof (HK k (or_introl eq_refl)) as Hk. rewrite nth_upd by lia.
  destruct (Nat.eqb_spec m k) as [->|]; [|exact IH2]. cbn [orb]. rewrite IH2. destruct (existsb (Nat.eqb k) ks) eqn:E; [apply existsb_In in E; contradiction|reflexivity].
Qed.
Theorem C52_flip_axes : forall c B o ks, batched c B o -> NoDup ks -> (forall k, In k ks -> k < length B) ->
  exists o', obj_flips (map Z.of_nat ks) o = Some o' /\ batched c B o' /\
    forall b b', inb b B -> length b' = length B ->
      (forall m, m < length B -> nth m b' 0 = if existsb (Nat.eqb m) ks then nth m B 0 - 1 - nth m b 0 else nth m b 0) -> elem b' o' = elem b o.
Proof.
  intros c B o ks [HC HB] ND HK.
  assert (HR : rowwise1 (a_flips (map Z.of_nat ks)) B B (fun b => Some (fold_right (fun k b => flip_at k B b) b ks)) nofill).
  { apply (rowwise1_ext _ (fun a => fold_left (fun x k => obind x (a_flip (Z.of_nat k))) ks (Some a))).
    - intros a J ES W. unfold a_flips, ndim. rewrite ES, app_length, norm_axes_nat, nodupb_true; [reflexivity|exact ND|]. intros k Hk. specialize (HK k Hk). lia.
    - apply (rowwise_flips B ks HK (fun a => Some a) (fun b => b)). apply rowwise1_id. }
  destruct (lift_one _ _ _ _ _ c o HR HC HB) as (o' & E1 & E2 & E3 & E4). exists o'. split; [exact E1|]. split; [split; assumption|].
  intros b b' Hb LB' HE. pose proof (inb_length _ _ Hb) as LB.
  assert (EB : fold_right (fun k b => flip_at k B b) b' ks = b).
  { destruct (flips_nth B ks b' 0 ND HK LB') as [FL _]. apply (nth_ext _ _ 0 0); [lia|]. intros m Hm. rewrite FL in Hm. rewrite (proj2 (flips_nth B ks b' m ND HK LB')), (HE m Hm).
    pose proof (inb_nth _ _ m Hb Hm). destruct (existsb (Nat.eqb m) ks); lia. }
  rewrite E4, EB; [reflexivity|]. apply inb_of_nth; [exact LB'|]. intros m Hm. rewrite (HE m Hm). pose proof (inb_nth _ _ m Hb Hm). destruct (existsb (Nat.eqb m) ks); lia.
Qed.

Definition roll_at (shift : Z) (k : nat) (B b : list nat) : list nat := upd k (Z.to_nat ((Z.of_nat (nth k b 0%nat) - shift) mod Z.of_nat (nth k B 0%nat))) b.
Lemma rowwise_roll B shift k : k < length B -> rowwise1 (a_roll shift (Z.of_nat k)) B B (fun b => Some (roll_at shift k B b)) nofill.
Proof.
  intros Hk. apply (rowwise1_build _ _ _ _ _ (fun a idx => get a (upd k (Z.to_nat ((Z.of_nat (nth k idx 0%nat) - shift) mod Z.of_nat (nth k (ashape a) 0%nat))) idx))).
  - intros b Hb. unfold roll_at. pose proof (inb_nth _ _ k Hb Hk) as HBK. rewrite <- (upd_same k B 0 Hk) at 2. apply (inb_upd k _ (nth k B 0)); [exact Hk|now rewrite upd_same|].
    pose proof (Z.mod_pos_bound (Z.of_nat (nth k b 0) - shift) (Z.of_nat (nth k B 0)) ltac:(lia)). lia.
  - intros a J Hs Hw. unfold a_roll. unfold ndim. rewrite Hs, app_length, norm_axis_pos by lia. reflexivity.
  - intros a J b t Hs Hw Hb Ht. pose proof (inb_length _ _ Hb) as LB. rewrite Hs, !app_nth1 by lia. unfold roll_at. now rewrite upd_app by lia.
Qed.
Lemma rowwise_rolls B sh : (forall p, In p sh -> snd p < length B) -> forall f0 s0, rowwise1 f0 B B (fun b => Some (s0 b)) nofill ->
  rowwise1 (fun a => fold_left (fun x p => obind x (a_roll (fst p) (Z.of_nat (snd p)))) sh (f0 a)) B B (fun b => Some (s0 (fold_right (fun p b => roll_at (fst p) (snd p) B b) b sh))) nofill.
Proof.
  induction sh as [|p sh IH]; intros HK f0 s0 H0; [exact H0|]. cbn [fold_left fold_right].
  apply (IH (fun q Hq => HK q (or_intror Hq)) (fun a => obind (f0 a) (a_roll (fst p) (Z.of_nat (snd p)))) (fun b => s0 (roll_at (fst p) (snd p) B b))).
  apply (rowwise1_comp f0 _ B B B s0 (roll_at (fst p) (snd p) B)); [exact H0|]. apply rowwise_roll, HK. now left.
Qed.
(** the total shift of an axis: a repeated axis is shifted by the sum *)
Definition total_shift (sh : list (Z * nat)) (m : nat) : Z := fold_right Z.add 0%Z (map fst (filter (fun p => snd p =? m) sh)).
Lemma rolls_nth B sh b m : (forall p, In p sh -> snd p < length B) -> inb b B -> m < length B ->
  length (fold_right (fun p b => roll_at (fst p) (snd p) B b) b sh) = length B /\
  Z.of_nat (nth m (fold_right (fun p b => roll_at (fst p) (snd p) B b) b sh) 0) = ((Z.of_nat (nth m b 0%nat) - total_shift sh m) mod Z.of_nat (nth m B 0%nat))%Z.
Proof.
  intros HK Hb Hm. pose proof (inb_length _ _ Hb) as LB. pose proof (inb_nth _ _ m Hb Hm) as HBm. induction sh as [|p sh IH]; [cbn; rewrite Z.sub_0_r, Z.mod_small by lia; split; [exact LB|reflexivity]|].
  cbn [fold_right]. destruct (IH (fun q Hq => HK q (or_intror Hq))) as [IH1 IH2].
  unfold roll_at at 1 3. rewrite upd_length. split; [exact IH1|]. pose proof (HK p (or_introl eq_refl)) as Hk. rewrite nth_upd by lia. unfold total_shift. cbn [filter].
  rewrite (Nat.eqb_sym (snd p) m). destruct (Nat.eqb_spec m (snd p)) as [E|]; [|exact IH2]. rewrite <- E. rewrite Z2Nat.id by (apply Z.mod_pos_bound; lia). rewrite IH2.
  cbn [map fold_right]. fold (total_shift sh m). rewrite Zminus_mod_idemp_l. f_equal. lia.
Qed.
Theorem C52_roll_axes : forall c B o sh, batched c B o -> (forall p, In p sh -> snd p < length B) ->
  exists o', obj_rolls (map (fun p => (fst p, Z.of_nat (snd p))) sh) o = Some o' /\ batched c B o' /\
    forall b b', inb b B -> length b' = length B ->
      (forall m, m < length B -> Z.of_nat (nth m b' 0) = ((Z.of_nat (nth m b 0%nat) + total_shift sh m) mod Z.of_nat (nth m B 0%nat))%Z) -> elem b' o' = elem b o.
Proof.
  intros c B o sh [HC HB] HK.
  assert (HR : rowwise1 (a_rolls (map (fun p => (fst p, Z.of_nat (snd p))) sh)) B B (fun b => Some (fold_right (fun p b => roll_at (fst p) (snd p) B b) b sh)) nofill).
  { apply (rowwise1_ext _ (fun a => fold_left (fun x p => obind x (a_roll (fst p) (Z.of_nat (snd p)))) sh (Some a))).
    - intros a J ES W. unfold a_rolls. clear. generalize (Some a). induction sh as [|p sh IH]; intros x; [reflexivity|]. cbn [map fold_left fst snd]. apply IH.
    - apply (rowwise_rolls B sh HK (fun a => Some a) (fun b => b)). apply rowwise1_id. }
  destruct (lift_one _ _ _ _ _ c o HR HC HB) as (o' & E1 & E2 & E3 & E4). exists o'. split; [exact E1|]. split; [split; assumption|].
  intros b b' Hb LB' HE. pose proof (inb_length _ _ Hb) as LB.
  assert (HI : inb b' B).
  { apply inb_of_nth; [exact LB'|]. intros m Hm. pose proof (inb_nth _ _ m Hb Hm). specialize (HE m Hm). pose proof (Z.mod_pos_bound (Z.of_nat (nth m b 0) + total_shift sh m) (Z.of_nat (nth m B 0)) ltac:(lia)). lia. }
  rewrite E4 by exact HI. f_equal. destruct (le_lt_dec (length B) 0) as [H0|H0].
  { destruct B; [|cbn in H0; lia]. destruct b; [|cbn in LB; lia]. destruct b'; [|cbn in LB'; lia]. destruct sh as [|p sh]; [reflexivity|]. specialize (HK p (or_introl eq_refl)). cbn in HK. lia. }
  apply (nth_ext _ _ 0 0); [rewrite (proj1 (rolls_nth B sh b' 0 HK HI H0)); lia|]. intros m Hm. rewrite (proj1 (rolls_nth B sh b' 0 HK HI H0)) in Hm. apply Nat2Z.inj.
  rewrite (proj2 (rolls_nth B sh b' m HK HI Hm)), (HE m Hm), Zminus_mod_idemp_l. replace (Z.of_nat (nth m b 0%nat) + total_shift sh m - total_shift sh m)%Z with (Z.of_nat (nth m b 0%nat)) by lia.
  pose proof (inb_nth _ _ m Hb Hm). now rewrite Z.mod_small by lia.
Qed.

Lemma repeat_src_len rs : forall i, length (repeat_src i rs) = list_sum rs.
Proof. induction rs as [|r rs IH]; intros i; [reflexivity|]. cbn [repeat_src]. rewrite app_length, repeat_length, IH. reflexivity. Qed.
Lemma repeat_src_nth rs : forall i j q, j < length rs -> q < nth j rs 0 -> nth (list_sum (firstn j rs) + q) (repeat_src i rs) 0 = i + j.
Proof.
  induction rs as [|r rs IH]; intros i j q Hj Hq; [cbn in Hj; lia|]. cbn [repeat_src]. destruct j as [|j]; cbn [nth] in Hq.
  - cbn [firstn list_sum fold_right Nat.add]. rewrite app_nth1 by (rewrite repeat_length; exact Hq). rewrite nth_repeat_lt by exact Hq. lia.
  - change (list_sum (firstn (S j) (r :: rs))) with (r + list_sum (firstn j rs)). cbn [length] in Hj. rewrite app_nth2 by (rewrite repeat_length; lia). rewrite repeat_length.
    replace (r + list_sum (firstn j rs) + q - r) with (list_sum (firstn j rs) + q) by lia. rewrite IH by lia. lia.
Qed.
Lemma repeat_src_lt rs : forall i m, m < list_sum rs -> nth m (repeat_src i rs) 0 < i + length rs.
Proof.
  intros i m Hm. destruct (locate_lt rs m Hm) as (L1 & L2 & L3). rewrite L3. rewrite repeat_src_nth by assumption. lia.
Qed.
Theorem C52_repeat_counts : forall c B o rs k, batched c B o -> k < length B -> length rs = nth k B 0 ->
  exists o', obj_repeats rs (Z.of_nat k) o = Some o' /\ batched c (upd k (list_sum rs) B) o' /\
    forall b q, inb b B -> q < nth (nth k b 0) rs 0 -> elem (upd k (list_sum (firstn (nth k b 0) rs) + q) b) o' = elem b o.
Proof.
  intros c B o rs k [HC HB] Hk HL.
  assert (HR : rowwise1 (a_repeats rs (Z.of_nat k)) B (upd k (list_sum rs) B) (fun b => Some (upd k (nth (nth k b 0) (repeat_src 0 rs) 0) b)) nofill).
  { apply (rowwise1_build _ _ _ _ _ (fun a idx => get a (upd k (nth (nth k idx 0) (repeat_src 0 rs) 0) idx))).
    - intros b Hb. pose proof (inb_nth _ _ k Hb) as HBK. rewrite upd_length, nth_upd, Nat.eqb_refl in HBK by exact Hk. specialize (HBK Hk). rewrite <- (upd_same k B 0 Hk) at 1. apply (inb_upd k _ (list_sum rs)); [exact Hk|exact Hb|].
      pose proof (repeat_src_lt rs 0 _ HBK). lia.
    - intros a J Hs Hw. unfold a_repeats. unfold ndim. rewrite Hs, app_length, norm_axis_pos by lia. rewrite app_nth1 by lia. rewrite HL, Nat.eqb_refl, repeat_src_len. now rewrite upd_app by lia.
    - intros a J b t Hs Hw Hb Ht. pose proof (inb_length _ _ Hb) as LB. rewrite upd_length in LB. rewrite app_nth1 by lia. now rewrite upd_app by lia. }
  destruct (lift_one _ _ _ _ _ c o HR HC HB) as (o' & E1 & E2 & E3 & E4). exists o'. split; [exact E1|]. split; [split; assumption|].
  intros b q Hb Hq. pose proof (inb_length _ _ Hb) as LB. pose proof (inb_nth _ _ k Hb Hk) as HBK. rewrite E4.
  - rewrite nth_upd by lia. rewrite Nat.eqb_refl, upd_upd, repeat_src_nth by lia. cbn [Nat.add]. now rewrite upd_same by lia.
  - apply (inb_upd k _ (nth k B 0)); [exact Hk|now rewrite upd_same|]. apply nth_le_sum; lia.
Qed.
