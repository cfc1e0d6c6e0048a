(** * TableMap.v — slot assignment does not look at the stored items: it commutes with
      changing the item type along a function that preserves hashes. *)
From Verif Require Import Jax KeyModel HashModel StableSort TableModel DedupeModel ParInsertModel TritonModel PallasModel.

Lemma while_map {S1 S2 : Type} (g : S1 -> S2) c1 b1 c2 b2 : (forall s, c2 (g s) = c1 s) -> (forall s, b2 (g s) = g (b1 s)) ->
  forall f s, while f c2 b2 (g s) = option_map g (while f c1 b1 s).
Proof.
  intros HC HB. induction f as [|f IH]; intros s; cbn [while]; rewrite HC; destruct (c1 s); try reflexivity. rewrite HB. apply IH.
Qed.
Lemma filter_map_comm {X Y} (f : X -> Y) (p : Y -> bool) l : filter p (map f l) = map f (filter (fun x => p (f x)) l).
Proof. induction l as [|a l IH]; [reflexivity|]. cbn. rewrite IH. destruct (p (f a)); reflexivity. Qed.
Lemma fold_left_map {X Y Z} (f : Z -> Y -> Z) (g : X -> Y) l : forall z, fold_left f (map g l) z = fold_left (fun a x => f a (g x)) l z.
Proof. induction l as [|a l IH]; intros z; [reflexivity|]. cbn. apply IH. Qed.
Lemma combine_map_l {X Y Z} (f : X -> Y) (l : list X) (m : list Z) : combine (map f l) m = map (fun p => (f (fst p), snd p)) (combine l m).
Proof. revert m. induction l as [|a l IH]; intros [|b m]; try reflexivity. cbn. now rewrite IH. Qed.
Lemma fold_left_ext {X Z} (f g : Z -> X -> Z) l : (forall z x, f z x = g z x) -> forall z, fold_left f l z = fold_left g l z.
Proof. intros H. induction l as [|a l IH]; intros z; [reflexivity|]. cbn. now rewrite H, IH. Qed.
Lemma existsb_map {X Y} (f : X -> Y) p l : existsb p (map f l) = existsb (fun x => p (f x)) l.
Proof. induction l as [|a l IH]; [reflexivity|]. cbn. now rewrite IH. Qed.

Section M.
Context {A B : Type} (phi : A -> B) (hpA : A -> N * N) (hpB : B -> N * N) (dA : A).
Hypothesis Hhp : forall x, hpB (phi x) = hpA x.
Notation dB := (phi dA).
Definition retab (l : list B) (T : @table A) : @table B := MkT (cap T) (bsz T) (maxp T) (size T) l (fill T) (occ T) (fps T).
Definition mapI (r : @irow A) : @irow B := MkI (phi (ix r)) (iupd r) (ib r) (is_ r) (ipend r).

Lemma start_nat c x : start_of hpB c (phi x) = start_of hpA c x.
Proof. unfold start_of. now rewrite Hhp. Qed.
Lemma step_nat c x : step_of hpB c (phi x) = step_of hpA c x.
Proof. unfold step_of. now rewrite Hhp. Qed.
Lemma fp_nat x : fp_of hpB (phi x) = fp_of hpA x.
Proof. unfold fp_of. now rewrite Hhp. Qed.
Lemma advance_nat l T x p : advance hpB (retab l T) (phi x) p = advance hpA T x p.
Proof. unfold advance. destruct p as [b s]. cbn [retab cap bsz fill fillOf]. rewrite step_nat. reflexivity. Qed.
Lemma move_nat l T r : move hpB (retab l T) (mapI r) = mapI (move hpA T r).
Proof.
  unfold move. cbn [mapI ipend ix ib is_ iupd]. destruct (ipend r) eqn:E; [|now destruct r; cbn in *; subst]. rewrite advance_nat.
  destruct (advance hpA T (ix r) (ib r, is_ r)) as [b s]. unfold mapI. cbn. reflexivity.
Qed.
Lemma settle_nat l T rows : settle (retab l T) (map mapI rows) = map mapI (settle T rows).
Proof.
  unfold settle. rewrite !map_map. cbn [mapI ib is_ iupd retab bsz]. rewrite combine_map_l, !map_map. apply map_ext. intros [r b]. reflexivity.
Qed.
Lemma rounds_nat l T rows : rounds hpB (retab l T) (map mapI rows) = option_map (map mapI) (rounds hpA T rows).
Proof.
  unfold rounds. cbn [retab maxp]. rewrite settle_nat.
  pose proof (while_map (fun s : list irow * N => (map mapI (fst s), snd s)) (rd_cond T) (rd_body hpA T) (rd_cond (retab l T)) (rd_body hpB (retab l T))
    ltac:(intros [s n]; unfold rd_cond; cbn [fst snd retab maxp]; now rewrite existsb_map)
    ltac:(intros [s n]; unfold rd_body; cbn [fst snd]; f_equal; rewrite <- (settle_nat l), !map_map; f_equal; apply map_ext; intros r; apply move_nat)
    (S (N.to_nat (maxp T))) (settle T rows, 0%N)) as E.
  cbn [fst snd] in E. rewrite E. clear E. destruct (while _ _ _ (settle T rows, 0%N)) as [[s n]|]; reflexivity.
Qed.
Lemma commit_nat l T rows : commit hpB (retab l T) (map mapI rows) = retab (tab (commit hpB (retab l T) (map mapI rows))) (commit hpA T rows).
Proof.
  unfold commit, retab. cbn [cap bsz maxp size tab fill occ fps]. change (fun r => succ_row _ r) with (succ_row (retab l T)).
  assert (E : filter (succ_row {| cap := cap T; bsz := bsz T; maxp := maxp T; size := size T; tab := l; fill := fill T; occ := occ T; fps := fps T |}) (map mapI rows) = map mapI (filter (succ_row T) rows)).
  { rewrite filter_map_comm. reflexivity. }
  rewrite E, map_length, !fold_left_map. cbn [mapI ix ib is_]. f_equal; try reflexivity. apply fold_left_ext. intros z r. now rewrite fp_nat.
Qed.
Lemma xla_nat l T rows : exists l', xla hpB (retab l T) (map mapI rows) = option_map (fun p => (retab l' (fst p), snd p)) (xla hpA T rows).
Proof.
  unfold xla. rewrite rounds_nat. destruct (rounds hpA T rows) as [rows'|]; cbn [option_map fst snd]; [|exists []; reflexivity].
  eexists. rewrite <- commit_nat. rewrite map_map. reflexivity.
Qed.
Notation rowA rows i := (nth i rows (MkI dA false 0 0 false)).
Notation rowB rows i := (nth i rows (MkI dB false 0 0 false)).
Lemma row_nat rows i : rowB (map mapI rows) i = mapI (rowA rows i).
Proof. replace (MkI dB false 0 0 false) with (mapI (MkI dA false 0 0 false)) by reflexivity. apply map_nth. Qed.
Lemma tstep_nat l T rows maxb c c' : tstep dB hpB (retab l T) (map mapI rows) maxb c c' <-> tstep dA hpA T rows maxb c c'.
Proof.
  split; intros H; inversion H as [i p b H1 H2 H3 |i p b v H1 H2 H3 H4 H5|i p b a v H1 H2 H3 H4 ll old H5|i p b a v H1 H2 H3 H4 ll old H5|i p b a v H1 H2 H3 H4|i p b a v H1 H2 H3]; subst;
    rewrite ?row_nat in *; cbn [mapI iupd ix retab bsz cap] in *; rewrite ?step_nat in *.
  - eapply s_exit; eassumption.
  - eapply s_load; eassumption.
  - subst ll old. eapply s_claim; eassumption.
  - subst ll old. eapply s_retry; eassumption.
  - eapply s_nofree; eassumption.
  - eapply s_next; eassumption.
  - eapply s_exit; [eassumption..|]. now rewrite row_nat.
  - eapply s_load; [eassumption..| |eassumption|eassumption]. now rewrite row_nat.
  - subst ll old. apply (s_claim dB hpB (retab l T) (map mapI rows) maxb c i p b a v); assumption.
  - subst ll old. apply (s_retry dB hpB (retab l T) (map mapI rows) maxb c i p b a v); assumption.
  - apply (s_nofree dB hpB (retab l T) (map mapI rows) maxb c i p b a v); assumption.
  - replace (next_bucket (cap T) (step_of hpA (cap T) (ix (rowA rows i))) b) with (next_bucket (cap (retab l T)) (step_of hpB (cap (retab l T)) (ix (rowB (map mapI rows) i))) b).
    + apply (s_next dB hpB (retab l T) (map mapI rows) maxb c i p b a v); assumption.
    + rewrite row_nat. cbn [mapI ix retab cap]. now rewrite step_nat.
Qed.
Lemma treach_nat l T rows maxb c : treach dB hpB (retab l T) (map mapI rows) maxb c <-> treach dA hpA T rows maxb c.
Proof.
  assert (ES : start (retab l T) (map mapI rows) = start T rows) by (unfold start; cbn [retab occ]; now rewrite map_map).
  split; induction 1 as [|c c' H IH HS]; [rewrite ES|apply tstep_nat in HS|rewrite <- ES|]; try (now constructor); econstructor; try eassumption. now apply tstep_nat.
Qed.
Lemma commit_gpu_nat l T rows occ' res : commit_gpu hpB (retab l T) (map mapI rows) occ' res = retab (tab (commit_gpu hpB (retab l T) (map mapI rows) occ' res)) (commit_gpu hpA T rows occ' res).
Proof.
  unfold commit_gpu, retab. cbn [cap bsz maxp size tab fill occ fps]. rewrite combine_map_l, filter_map_comm. cbn [fst snd]. rewrite map_length, !fold_left_map. cbn [fst snd mapI ix].
  f_equal; try reflexivity. apply fold_left_ext. intros z r. now rewrite fp_nat.
Qed.
Lemma triton_nat l T rows maxb : (forall T' res, triton_result dA hpA T rows maxb T' res -> exists l', triton_result dB hpB (retab l T) (map mapI rows) maxb (retab l' T') res) /\
  (forall M' res, triton_result dB hpB (retab l T) (map mapI rows) maxb M' res -> exists l' T', M' = retab l' T' /\ triton_result dA hpA T rows maxb T' res).
Proof.
  split.
  - intros T' res (c & HR & HF & -> & ->). eexists. exists c. split; [now apply treach_nat|]. split; [exact HF|]. split; [reflexivity|]. symmetry. apply commit_gpu_nat.
  - intros M' res (c & HR & HF & -> & ->). rewrite commit_gpu_nat. eexists _, _. split; [reflexivity|]. exists c. split; [now apply treach_nat in HR|]. auto.
Qed.
Lemma kprog_nat l T sb gs gl s pid : kprog (retab l T) sb gs gl s pid = kprog T sb gs gl s pid.
Proof. reflexivity. Qed.
Lemma pbody_nat l T rows order s : pbody dB hpB (retab l T) (map mapI rows) order s = pbody dA hpA T rows order s.
Proof.
  destruct s as [[sh st] r]. unfold pbody, psorted. cbn [retab cap]. rewrite map_length. change (kprog (retab l T)) with (kprog T).
  destruct (fold_left _ _ _) as [sh' [sl il]]. f_equal. f_equal. apply map_ext. intros i. rewrite row_nat. cbn [mapI ix]. rewrite step_nat. reflexivity.
Qed.
Lemma pallas_nat l T rows maxb order : exists l', pallas dB hpB (retab l T) (map mapI rows) maxb order = option_map (fun p => (retab l' (fst p), snd p)) (pallas dA hpA T rows maxb order).
Proof.
  assert (E : preserve dB hpB (retab l T) (map mapI rows) maxb order = preserve dA hpA T rows maxb order).
  { unfold preserve, pinit. cbn [retab fill occ]. rewrite map_map. cbn [mapI ib iupd].
    rewrite (while_map (fun s => s) (pcond maxb) (pbody dA hpA T rows order) (pcond maxb) (pbody dB hpB (retab l T) (map mapI rows) order) ltac:(reflexivity) ltac:(intros s; apply pbody_nat)).
    destruct (while _ _ _ _) as [[[sh st] r]|]; reflexivity. }
  unfold pallas. rewrite E. clear E. destruct (preserve dA hpA T rows maxb order) as [[[fl oc] res]|]; [|exists []; reflexivity]. eexists. cbn [option_map fst snd]. f_equal. f_equal. unfold retab. cbn [cap bsz maxp size tab fill occ fps].
  rewrite combine_map_l, filter_map_comm. cbn [fst snd]. rewrite map_length, !fold_left_map. cbn [fst snd mapI ix]. f_equal; try reflexivity. apply fold_left_ext. intros z r. now rewrite fp_nat.
Qed.
End M.

(** ** the stored items after a batch *)
(** [x.at[safe].set(vs, mode="drop")] where row [q] goes to its slot if accepted *)
Definition batch_tab {X} (tab : list X) (xs : list X) (n : nat) (res : list (bool * (nat * nat))) : list X :=
  fold_left (fun a p => upd a (fst (snd (snd p)) * n + snd (snd (snd p))) (fst p)) (filter (fun p => fst (snd p)) (combine xs res)) tab.
Lemma batch_tab_map {X Y} (f : X -> Y) tab xs n res : map f (batch_tab tab xs n res) = batch_tab (map f tab) (map f xs) n res.
Proof.
  unfold batch_tab. rewrite combine_map_l, filter_map_comm, fold_left_map. cbn [fst snd]. generalize (filter (fun p => fst (snd p)) (combine xs res)). intros l. revert tab.
  induction l as [|p l IH]; intros tab; [reflexivity|]. cbn [fold_left]. rewrite IH. f_equal. clear. generalize (fst (snd (snd p)) * n + snd (snd (snd p))). intros i. revert i. induction tab as [|a t IH]; intros [|i]; cbn; try reflexivity. now rewrite IH.
Qed.
Section T.
Context {A : Type} (d : A) (hp : A -> N * N).
Lemma settle_ix (T : @table A) rows : map ix (settle T rows) = map ix rows.
Proof.
  unfold settle. rewrite map_map. cbn [ix].
  assert (H : forall (l : list bool), length l = length rows -> map (fun p : @irow A * bool => ix (fst p)) (combine rows l) = map ix rows).
  { clear. intros l. revert l. induction rows as [|r rows IH]; intros [|b l] H; try discriminate; [reflexivity|]. cbn. f_equal. apply IH. now injection H. }
  assert (HL : forall (f : list bool -> (N * nat) * bool -> list bool) (HF : forall a r, length (f a r) = length a) q a, length (fold_left f q a) = length a).
  { clear. intros f HF q. induction q as [|p q IH]; intros a; [reflexivity|]. cbn [fold_left]. now rewrite IH. }
  apply H. unfold resolve. rewrite HL by (intros; apply upd_length). now rewrite repeat_length, map_length.
Qed.
Lemma while_inv {S : Type} (P : S -> Prop) c b : (forall s, P s -> P (b s)) -> forall f s s', P s -> while f c b s = Some s' -> P s'.
Proof. intros HB. induction f as [|f IH]; intros s s' HP E; cbn [while] in E; destruct (c s); try discriminate; [now injection E as <-|apply (IH (b s)); auto|now injection E as <-]. Qed.
Lemma rounds_ix (T : @table A) rows rows' : rounds hp T rows = Some rows' -> map ix rows' = map ix rows.
Proof.
  unfold rounds. destruct (while _ _ _ _) as [[s n]|] eqn:E; [|discriminate]. intros H. injection H as <-. cbn [fst].
  refine (while_inv (fun s => map ix (fst s) = map ix rows) _ _ _ _ _ (s, n) _ E).
  - intros [r k] HP. cbn [rd_body fst]. rewrite settle_ix, map_map. cbn [fst] in HP. rewrite <- HP. apply map_ext. intros a. unfold move. destruct (ipend a); [|reflexivity]. destruct (advance _ _ _ _); reflexivity.
  - cbn [fst]. apply settle_ix.
Qed.
Lemma combine_self {X Y} (f : X -> Y) l : combine l (map f l) = map (fun x => (x, f x)) l.
Proof. induction l as [|a l IH]; [reflexivity|]. cbn. now rewrite IH. Qed.
Lemma xla_tab (T : @table A) rows T' res : xla hp T rows = Some (T', res) -> tab T' = batch_tab (tab T) (map ix rows) (bsz T) res.
Proof.
  unfold xla. destruct (rounds hp T rows) as [rows'|] eqn:E; [|discriminate]. intros H. assert (T' = commit hp T rows' /\ res = map (fun r => (succ_row T r, (ib r, is_ r))) rows') as [-> ->] by (split; congruence).
  rewrite <- (rounds_ix T rows rows' E). cbn [commit tab]. unfold batch_tab. rewrite combine_map_l, combine_self, map_map. cbn [fst snd]. rewrite filter_map_comm, fold_left_map. cbn [fst snd]. reflexivity.
Qed.
Lemma xla_length (T : @table A) rows T' res : xla hp T rows = Some (T', res) -> length res = length rows.
Proof.
  unfold xla. destruct (rounds hp T rows) as [rows'|] eqn:E; [|discriminate]. intros H. assert (res = map (fun r => (succ_row T r, (ib r, is_ r))) rows') as -> by congruence. rewrite map_length.
  apply rounds_ix in E. rewrite <- (map_length ix rows), <- E, map_length. reflexivity.
Qed.
Lemma triton_tab (T : @table A) rows maxb T' res : triton_result d hp T rows maxb T' res -> tab T' = batch_tab (tab T) (map ix rows) (bsz T) res.
Proof. intros (c & _ & _ & -> & ->). cbn [commit_gpu tab]. unfold batch_tab. rewrite combine_map_l, filter_map_comm, fold_left_map. reflexivity. Qed.
Lemma triton_length (T : @table A) rows maxb T' res : triton_result d hp T rows maxb T' res -> length res = length rows.
Proof.
  intros (c & HR & _ & -> & _). rewrite map_length. induction HR as [|c c' H IH HS]; [cbn; apply map_length|]. inversion HS; subst; cbn [pcs]; now rewrite upd_length.
Qed.
Lemma pallas_tab (T : @table A) rows maxb order T' res : pallas d hp T rows maxb order = Some (T', res) -> tab T' = batch_tab (tab T) (map ix rows) (bsz T) res.
Proof.
  unfold pallas. destruct (preserve _ _ _ _ _ _) as [[[fl oc] r]|]; [|discriminate]. intros E. assert (ER : r = res) by congruence. subst r. injection E as <-. cbn [tab]. unfold batch_tab. rewrite combine_map_l, filter_map_comm, fold_left_map. reflexivity.
Qed.
Lemma pallas_length (T : @table A) rows maxb order T' res : pallas d hp T rows maxb order = Some (T', res) -> length res = length rows.
Proof.
  unfold pallas. destruct (preserve _ _ _ _ _ _) as [[[fl oc] r]|] eqn:E; [|discriminate]. intros H. assert (ER : r = res) by congruence. subst r. clear H. unfold preserve in E.
  destruct (while _ _ _ _) as [[[sh st] k]|] eqn:EW; [|discriminate]. assert (ER : res = map (fun s => (qins s, (qb s, qs s))) st) by congruence. subst res. rewrite map_length.
  refine (while_inv (fun s => length (snd (fst s)) = length rows) _ _ _ _ _ (sh, st, k) _ EW).
  - intros [[sh0 st0] k0] _. unfold pbody. destruct (fold_left _ _ _) as [sh' [sl il]]. cbn [fst snd]. now rewrite map_length, seq_length.
  - unfold pinit. cbn [fst snd]. apply map_length.
Qed.
End T.
