(** * ArrayFacts.v — laws of multi-indices, [get] and [build]. *)
From Verif Require Import Jax StructModel ArrayModel.

Lemma prod_cons d s : prod (d :: s) = d * prod s.
Proof. reflexivity. Qed.
Lemma prod_app s t : prod (s ++ t) = prod s * prod t.
Proof. induction s as [|d s IH]; cbn [app]; [cbn; lia|]. rewrite !prod_cons, IH. lia. Qed.
Lemma inb_length idx s : inb idx s -> length idx = length s.
Proof. induction 1; cbn; lia. Qed.
Lemma inb_nil : inb [] [].
Proof. constructor. Qed.
Lemma inb_cons i idx d s : inb (i :: idx) (d :: s) <-> i < d /\ inb idx s.
Proof. split; [intros H; inversion H; subst; auto|intros [? ?]; now constructor]. Qed.
Lemma inb_app_intro i j s t : inb i s -> inb j t -> inb (i ++ j) (s ++ t).
Proof. apply Forall2_app. Qed.
Lemma inb_app_inv idx s t : inb idx (s ++ t) -> exists i j, idx = i ++ j /\ inb i s /\ inb j t.
Proof. intros H. apply Forall2_app_inv_r in H. destruct H as [i [j [H1 [H2 E]]]]. eauto. Qed.
Lemma inb_app i j s t : length i = length s -> (inb (i ++ j) (s ++ t) <-> inb i s /\ inb j t).
Proof.
  intros HL. split; [|intros []; now apply inb_app_intro]. revert s HL. induction i as [|x i IH]; intros [|d s] HL H; try discriminate.
  - split; [constructor|exact H].
  - cbn [app] in H. apply inb_cons in H. injection HL as HL. destruct H as [Hx H]. apply IH in H; [|exact HL]. destruct H. split; [now apply inb_cons|assumption].
Qed.
Lemma inb_nth idx s k : inb idx s -> k < length s -> nth k idx 0 < nth k s 0.
Proof. intros H. revert k. induction H as [|i d idx s Hi H IH]; intros k Hk; cbn in Hk; [lia|]. destruct k; cbn; [exact Hi|]. apply IH. lia. Qed.
Lemma inb_of_nth idx s : length idx = length s -> (forall k, k < length s -> nth k idx 0 < nth k s 0) -> inb idx s.
Proof.
  revert s. induction idx as [|i idx IH]; intros [|d s] HL H; try discriminate; [constructor|].
  apply inb_cons. split; [apply (H 0); cbn; lia|]. apply IH; [cbn in HL; lia|]. intros k Hk. apply (H (S k)). cbn. lia.
Qed.

Lemma ravel_lt s idx : inb idx s -> ravel s idx < prod s.
Proof.
  induction 1 as [|i d idx s Hi H IH]; [cbn; lia|]. cbn [ravel]. rewrite prod_cons. nia.
Qed.
Lemma unravel_ravel s idx : inb idx s -> unravel s (ravel s idx) = idx.
Proof.
  induction 1 as [|i d idx s Hi H IH]; [reflexivity|]. cbn [ravel unravel]. pose proof (ravel_lt _ _ H) as HL. f_equal.
  - rewrite Nat.div_add_l by lia. rewrite Nat.div_small by lia. lia.
  - rewrite Nat.add_comm, Nat.mod_add, Nat.mod_small by lia. exact IH.
Qed.
Lemma unravel_inb s k : k < prod s -> inb (unravel s k) s.
Proof.
  revert k. induction s as [|d s IH]; intros k Hk; [constructor|]. cbn [unravel]. rewrite prod_cons in Hk.
  apply inb_cons. split; [apply Nat.div_lt_upper_bound; lia|]. apply IH, Nat.mod_upper_bound. lia.
Qed.
Lemma ravel_unravel s k : k < prod s -> ravel s (unravel s k) = k.
Proof.
  revert k. induction s as [|d s IH]; intros k Hk; [cbn in *; lia|]. cbn [unravel ravel]. rewrite prod_cons in Hk.
  rewrite IH by (apply Nat.mod_upper_bound; lia). pose proof (Nat.div_mod k (prod s)). lia.
Qed.
Lemma ravel_app s t i j : length i = length s -> ravel (s ++ t) (i ++ j) = ravel s i * prod t + ravel t j.
Proof.
  revert i. induction s as [|d s IH]; intros [|x i] HL; try discriminate; [reflexivity|]. cbn [app ravel]. rewrite IH by (cbn in HL; lia). rewrite prod_app. lia.
Qed.

Lemma build_wfa dt s f : wfa (build dt s f).
Proof. unfold wfa, build. cbn. now rewrite map_length, seq_length. Qed.
Lemma get_build dt s f idx : inb idx s -> get (build dt s f) idx = f idx.
Proof.
  intros H. unfold get, build. cbn [adata ashape]. pose proof (ravel_lt _ _ H) as HL.
  rewrite (nth_indep _ 0%Z (f (unravel s 0))) by (rewrite map_length, seq_length; exact HL).
  rewrite (map_nth (fun k => f (unravel s k)) (seq 0 (prod s)) 0), seq_nth by exact HL. cbn [Nat.add]. now rewrite unravel_ravel.
Qed.
Lemma build_ext dt s f g : (forall idx, inb idx s -> f idx = g idx) -> build dt s f = build dt s g.
Proof. intros H. unfold build. f_equal. apply map_ext_in. intros k Hk. apply in_seq in Hk. apply H, unravel_inb. lia. Qed.
Lemma build_get a : wfa a -> build (adtype a) (ashape a) (get a) = a.
Proof.
  intros H. destruct a as [dt s l]. unfold build, get, wfa in *. cbn [adtype ashape adata] in *. f_equal.
  transitivity (map (fun k => nth k l 0%Z) (seq 0 (length l))).
  - rewrite H. apply map_ext_in. intros k Hk. apply in_seq in Hk. now rewrite ravel_unravel by lia.
  - clear. induction l as [|x l IH]; [reflexivity|]. cbn [length seq map]. f_equal. rewrite <- seq_shift, map_map. exact IH.
Qed.
Lemma array_ext a b : wfa a -> wfa b -> adtype a = adtype b -> ashape a = ashape b -> (forall idx, inb idx (ashape a) -> get a idx = get b idx) -> a = b.
Proof.
  intros Wa Wb Ed Es H. rewrite <- (build_get a Wa), <- (build_get b Wb). rewrite <- Ed, <- Es. apply build_ext. exact H.
Qed.

(** ** Lists *)
Lemma upd_length {X} k (x : X) l : length (upd k x l) = length l.
Proof.
  unfold upd. rewrite app_length, firstn_length. destruct (skipn k l) as [|y r] eqn:E.
  - pose proof (skipn_length k l) as HL. rewrite E in HL. cbn in *. lia.
  - pose proof (skipn_length k l) as HL. rewrite E in HL. cbn in *. lia.
Qed.
Lemma insert_length {X} k (x : X) l : length (insert k x l) = S (length l).
Proof. unfold insert. rewrite app_length, firstn_length. cbn. rewrite skipn_length. lia. Qed.
Lemma skipn_cons_nth {X} k (l : list X) (d : X) : k < length l -> skipn k l = nth k l d :: skipn (S k) l.
Proof. revert l. induction k as [|k IH]; intros [|x l] H; cbn in *; try lia; [reflexivity|]. apply IH. lia. Qed.
Lemma upd_eq {X} k (x : X) l : k < length l -> upd k x l = firstn k l ++ x :: skipn (S k) l.
Proof. intros H. unfold upd. now rewrite (skipn_cons_nth k l x H). Qed.
Lemma nth_upd {X} k (x : X) l j d : k < length l -> nth j (upd k x l) d = if j =? k then x else nth j l d.
Proof.
  revert k j. induction l as [|y l IH]; intros [|k] [|j] H; cbn in H; try lia; try reflexivity.
  change (nth j (upd k x l) d = if j =? k then x else nth j l d). apply IH. lia.
Qed.
Lemma upd_app {X} k (x : X) l r : k < length l -> upd k x (l ++ r) = upd k x l ++ r.
Proof.
  intros H. rewrite !upd_eq by (rewrite ?app_length; lia). rewrite firstn_app, skipn_app.
  replace (k - length l) with 0 by lia. replace (S k - length l) with 0 by lia. rewrite firstn_O, skipn_O, app_nil_r, <- app_assoc. reflexivity.
Qed.
Lemma insert_app {X} k (x : X) l r : k <= length l -> insert k x (l ++ r) = insert k x l ++ r.
Proof.
  intros H. unfold insert. rewrite firstn_app, skipn_app. replace (k - length l) with 0 by lia. rewrite firstn_O, skipn_O, app_nil_r, <- app_assoc. reflexivity.
Qed.
Lemma remove_app {X} k (l r : list X) : k < length l -> remove_nth k (l ++ r) = remove_nth k l ++ r.
Proof.
  intros H. unfold remove_nth. rewrite firstn_app, skipn_app. replace (k - length l) with 0 by lia. replace (S k - length l) with 0 by lia.
  rewrite firstn_O, skipn_O, app_nil_r, <- app_assoc. reflexivity.
Qed.
Lemma remove_length {X} k (l : list X) : k < length l -> length (remove_nth k l) = length l - 1.
Proof. intros H. unfold remove_nth. rewrite app_length, firstn_length, skipn_length. lia. Qed.
Lemma inb_firstn k idx s : inb idx s -> inb (firstn k idx) (firstn k s).
Proof. intros H. revert k. induction H; intros [|k]; cbn; constructor; auto. apply IHForall2. Qed.
Lemma inb_skipn k idx s : inb idx s -> inb (skipn k idx) (skipn k s).
Proof. intros H. revert k. induction H; intros [|k]; cbn; try constructor; auto. Qed.
Lemma inb_upd k x d idx s : k < length s -> inb idx (upd k d s) -> forall e, x < e -> inb (upd k x idx) (upd k e s).
Proof.
  intros Hk H e Hx. pose proof (inb_length _ _ H) as HL. rewrite upd_length in HL.
  rewrite upd_eq in * by lia. rewrite (upd_eq k e s) by lia.
  pose proof (inb_firstn k _ _ H) as H1. pose proof (inb_skipn (S k) _ _ H) as H2.
  rewrite firstn_app in H1. rewrite skipn_app in H2. assert (LF : length (firstn k s) = k) by (rewrite firstn_length; lia). rewrite LF in H1, H2.
  replace (k - k) with 0 in H1 by lia. replace (S k - k) with 1 in H2 by lia. rewrite firstn_firstn, Nat.min_id, firstn_O, app_nil_r in H1.
  rewrite (skipn_all2 (firstn k s)) in H2 by lia. cbn [app skipn] in H2.
  apply inb_app_intro; [exact H1|]. apply inb_cons. split; [exact Hx|exact H2].
Qed.
Lemma upd_same {X} k (l : list X) d : k < length l -> upd k (nth k l d) l = l.
Proof. intros H. rewrite upd_eq by exact H. rewrite <- (skipn_cons_nth k l d H). apply firstn_skipn. Qed.
Lemma upd_ge {X} k (x : X) l : length l <= k -> upd k x l = l.
Proof. intros H. unfold upd. rewrite skipn_all2, firstn_all2, app_nil_r by exact H. reflexivity. Qed.
Lemma upd_upd {X} k (x y : X) l : upd k x (upd k y l) = upd k x l.
Proof.
  destruct (Nat.lt_ge_cases k (length l)) as [H|H].
  - rewrite (upd_eq k x (upd k y l)) by (now rewrite upd_length). rewrite !upd_eq by exact H.
    rewrite firstn_app, skipn_app, firstn_length. replace (k - Nat.min k (length l)) with 0 by lia. replace (S k - Nat.min k (length l)) with 1 by lia.
    rewrite firstn_firstn, Nat.min_id, firstn_O, app_nil_r. rewrite skipn_all2 by (rewrite firstn_length; lia). reflexivity.
  - rewrite !upd_ge by (rewrite ?upd_ge by exact H; exact H). reflexivity.
Qed.
Lemma inb_insert k i n idx s : k <= length s -> inb idx s -> i < n -> inb (insert k i idx) (insert k n s).
Proof.
  intros Hk H Hi. unfold insert. apply inb_app_intro; [now apply inb_firstn|]. apply inb_cons. split; [exact Hi|now apply inb_skipn].
Qed.
Lemma inb_insert_inv k n idx s : k <= length s -> inb idx (insert k n s) -> nth k idx 0 < n /\ inb (remove_nth k idx) s.
Proof.
  intros Hk H. unfold insert in H. apply inb_app_inv in H. destruct H as [i [j [-> [H1 H2]]]].
  destruct j as [|x j]; [inversion H2|]. apply inb_cons in H2. destruct H2 as [Hx H2].
  pose proof (inb_length _ _ H1) as L1. rewrite firstn_length in L1. assert (EL : length i = k) by lia.
  split; [rewrite app_nth2 by lia; replace (k - length i) with 0 by lia; exact Hx|].
  unfold remove_nth. rewrite firstn_app, skipn_app. replace (k - length i) with 0 by lia. replace (S k - length i) with 1 by lia.
  rewrite firstn_O, app_nil_r. rewrite firstn_all2 by lia. rewrite skipn_all2 by lia. cbn [app skipn].
  rewrite <- (firstn_skipn k s). now apply inb_app_intro.
Qed.
Lemma insert_remove {X} k (l : list X) d : k < length l -> insert k (nth k l d) (remove_nth k l) = l.
Proof.
  intros H. unfold insert, remove_nth. rewrite firstn_app, skipn_app, firstn_length. replace (k - Nat.min k (length l)) with 0 by lia.
  rewrite firstn_firstn, Nat.min_id, firstn_O, skipn_O, app_nil_r. rewrite skipn_all2 by (rewrite firstn_length; lia). cbn [app].
  rewrite <- (skipn_cons_nth k l d H). apply firstn_skipn.
Qed.
Lemma remove_insert {X} k (x : X) l : k <= length l -> remove_nth k (insert k x l) = l.
Proof.
  intros H. unfold insert, remove_nth. rewrite firstn_app, skipn_app, firstn_length. replace (k - Nat.min k (length l)) with 0 by lia.
  replace (S k - Nat.min k (length l)) with 1 by lia. rewrite firstn_firstn, Nat.min_id, firstn_O, app_nil_r. rewrite skipn_all2 by (rewrite firstn_length; lia).
  cbn [app skipn]. apply firstn_skipn.
Qed.
Lemma norm_axis_pos k n : k < n -> norm_axis (Z.of_nat k) n = Some k.
Proof.
  intros H. unfold norm_axis. destruct (Z.ltb_spec (Z.of_nat k) 0); [lia|]. destruct (Z.ltb_spec (Z.of_nat k) (Z.of_nat n)); [|lia]. f_equal. lia.
Qed.
Lemma norm_axis_lt z n k : norm_axis z n = Some k -> k < n.
Proof.
  unfold norm_axis. destruct (Z.ltb_spec z 0).
  - destruct (Z.leb_spec 0 (Z.of_nat n + z)); [|discriminate]. intros E. injection E as <-. lia.
  - destruct (Z.ltb_spec z (Z.of_nat n)); [|discriminate]. intros E. injection E as <-. lia.
Qed.
Lemma shape_eqb_refl s : shape_eqb s s = true.
Proof. unfold shape_eqb. destruct (list_eq_dec Nat.eq_dec s s); congruence. Qed.
Lemma shape_eqb_eq s t : shape_eqb s t = true <-> s = t.
Proof. unfold shape_eqb. destruct (list_eq_dec Nat.eq_dec s t); split; congruence. Qed.
Lemma dtype_eqb_refl s : dtype_eqb s s = true.
Proof. unfold dtype_eqb. destruct (dtype_eq_dec s s); congruence. Qed.
