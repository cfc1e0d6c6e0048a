(** * PropFiles.v — property C55: saved files over time (histories, interrupted saves,
    paths, a class that changed since the save). *)
From Coq Require Import String Ascii.
From Verif Require Import Jax StructModel BitpackModel EqModel PromoteModel IOModel PropBitpack PropIO FilesModel.
Local Open Scope string_scope.

(** ** Specification *)
(** the call writes the file at path [p] (possibly not to the end) *)
Definition touches (p : string) (c : call) : Prop :=
  written_path (c_path c) = p /\ c_out c <> StoppedBefore /\
  save (c_packed c) (c_mod c) (c_name c) (c_class c) (c_obj c) <> None.
(** number of archive members [save] writes *)
Definition members (c : call) : nat :=
  match save (c_packed c) (c_mod c) (c_name c) (c_class c) (c_obj c) with Some d => length d | None => 0 end.
(** the call ran to the point where every member was written *)
Definition all_written (c : call) : Prop :=
  match c_out c with Finished => True | StoppedAt k _ => members c <= k | _ => False end.
(** the call is well formed: legal field names, an instance of its class, and the class is
    importable under its name *)
Definition call_ok (env : string -> string -> option class) (c : call) : Prop :=
  good_class_names (c_class c) /\ shaped (c_class c) (c_obj c) /\ env (c_mod c) (c_name c) = Some (c_class c).
Definition saved_as (c : call) : (string * string) * obj := ((c_mod c, c_name c), restored (c_packed c) (c_class c) (c_obj c)).

(** ** Archives and dictionaries *)
Lemma aget_complete d k : aget (complete d) k = option_map Some (dget d k).
Proof.
  unfold aget, dget, complete. induction d as [|[k' e] d IH]; [reflexivity|]. cbn [map find fst snd].
  destruct (String.eqb k' k); [reflexivity|exact IH].
Qed.
Lemma aload_array_complete key dt d : aload_array key dt (complete d) = load_array key dt d.
Proof.
  unfold aload_array, load_array. rewrite !aget_complete.
  destruct (dget d (bp_key key "data")) as [x|]; destruct (dget d (bp_key key "shape")) as [y|]; destruct (dget d (bp_key key "bits")) as [z|];
    cbn [option_map]; try reflexivity; destruct (dget d key) as [[a|s]|]; reflexivity.
Qed.
Lemma aload_complete_both :
  (forall d key x, aload_v key d (complete x) = load_v key d x) /\ (forall c prefix x, aload_obj prefix c (complete x) = load_obj prefix c x).
Proof.
  apply desc_class_ind.
  - intros dt ish b pb fl key x. cbn [aload_v load_v]. now rewrite aload_array_complete.
  - intros c IH ish key x. cbn [aload_v load_v]. now rewrite IH.
  - reflexivity.
  - intros n d IHd r IHr prefix x. cbn [aload_obj load_obj]. now rewrite IHd, IHr.
Qed.
Lemma aload_complete env d : option_map snd (aload env (complete d)) = load env d.
Proof.
  unfold aload, load. rewrite !aget_complete. destruct (dget d module_key) as [[a|m]|]; cbn [option_map]; try reflexivity.
  destruct (dget d name_key) as [[a|n]|]; cbn [option_map]; try reflexivity. destruct (env m n) as [c|]; [|reflexivity].
  rewrite (proj2 aload_complete_both). destruct (load_obj "" c d); reflexivity.
Qed.
Lemma stopped_all d k s : length d <= k -> stopped d k s = complete d.
Proof.
  intros H. unfold stopped. rewrite (proj2 (nth_error_None (rev d) k)) by (rewrite rev_length; exact H).
  rewrite firstn_all2 by (rewrite rev_length; exact H). rewrite map_rev, rev_involutive. reflexivity.
Qed.
(** the last member of a saved dictionary is the class name, and it is its only binding *)
Lemma save_shape packed m n c o d : save packed m n c o = Some d -> ~ In name_key (names c) -> good_names c ->
  exists d', d = ((name_key, EStr n) :: d')%list /\ (forall e, ~ In (name_key, e) d').
Proof.
  intros HS HN HG. unfold save in HS. destruct (negb packed || packable c o); [|discriminate]. destruct (dget _ "file"); [discriminate|].
  injection HS as <-. eexists. split; [reflexivity|]. intros e [E|Hin]; [discriminate|].
  apply (proj2 (flatten_owned_both packed)) in Hin. destruct Hin as [x [Hx [E|[s E]]]]; cbn [append] in E; [subst x; contradiction|].
  exact (dotless_no name_key x s eq_refl E).
Qed.
Lemma aget_none (d : archive) k : (forall e, ~ In (k, e) d) -> aget d k = None.
Proof.
  intros H. unfold aget. destruct (find (fun e => String.eqb (fst e) k) d) as [[k' e]|] eqn:E; [|reflexivity].
  apply find_some in E. destruct E as [Hin Ek]. cbn in Ek. apply String.eqb_eq in Ek. subst. exfalso. exact (H e Hin).
Qed.
Lemma stopped_early packed m n c o d k s : save packed m n c o = Some d -> ~ In name_key (names c) -> good_names c -> k < length d ->
  aget (stopped d k s) name_key = None \/ aget (stopped d k s) name_key = Some None.
Proof.
  intros HS HN HG HK. destruct (save_shape _ _ _ _ _ _ HS HN HG) as [d' [-> HU]].
  assert (W : forall e, ~ In (name_key, e) (rev (map (fun e : string * entry => (fst e, Some (snd e))) (firstn k (rev ((name_key, EStr n) :: d')))))).
  { intros e Hin. rewrite <- in_rev in Hin. apply in_map_iff in Hin. destruct Hin as [[k2 e2] [E Hin]]. cbn [fst snd] in E. injection E as E1 E2. subst k2 e.
    cbn [rev] in Hin. cbn [length] in HK. rewrite firstn_app in Hin. replace (k - length (rev d')) with 0 in Hin by (rewrite rev_length; lia).
    cbn [firstn] in Hin. rewrite app_nil_r in Hin.
    apply (HU e2). apply in_rev. rewrite <- (firstn_skipn k (rev d')). apply in_or_app. now left. }
  unfold stopped. destruct (nth_error (rev ((name_key, EStr n) :: d')) k) as [[k3 e3]|].
  - destruct s; [|left; now apply aget_none]. cbn [fst]. unfold aget. cbn [find fst snd].
    destruct (String.eqb_spec k3 name_key) as [->|Hne]; [right; reflexivity|]. left.
    pose proof (aget_none _ _ W) as E. exact E.
  - left. now apply aget_none.
Qed.
(** ** Interrupted saves *)
(** an interrupted save leaves a file that does not load, whatever the classes available *)
Theorem C55_interrupted : forall packed m n c o d env k started,
  good_class_names c -> save packed m n c o = Some d -> k < length d -> aload env (stopped d k started) = None.
Proof.
  intros packed m n c o d env k s [HG [H1 H2]] HS HK. unfold aload.
  destruct (stopped_early _ _ _ _ _ _ k s HS H2 HG HK) as [-> | ->]; destruct (aget (stopped d k s) module_key) as [[[a|x]|]|]; reflexivity.
Qed.
Lemma load_whole env c d : call_ok env c -> save (c_packed c) (c_mod c) (c_name c) (c_class c) (c_obj c) = Some d ->
  aload env (complete d) = Some (saved_as c).
Proof.
  intros (HN & HC & HE) HS. pose proof (C36_roundtrip _ env _ _ _ _ _ HN HC HE HS) as HL. rewrite <- aload_complete in HL.
  unfold aload in *. rewrite !aget_complete in *.
  destruct (save_shape _ _ _ _ _ _ HS (proj2 (proj2 HN)) (proj1 HN)) as [d' [E HU]].
  assert (EN : dget d name_key = Some (EStr (c_name c))) by (subst d; unfold dget; cbn [find fst]; now rewrite String.eqb_refl).
  assert (EM : dget d module_key = Some (EStr (c_mod c))).
  { clear - HS. unfold save in HS. destruct (negb (c_packed c) || packable (c_class c) (c_obj c)); [|discriminate]. destruct (dget _ "file"); [discriminate|].
    injection HS as <-. reflexivity. }
  rewrite EN, EM in *. cbn [option_map] in *. rewrite HE in *.
  destruct (aload_obj "" (c_class c) (complete d)) as [x|]; cbn [option_map snd] in *; [|discriminate]. injection HL as ->. reflexivity.
Qed.

(** ** Histories *)
Lemma run_untouched c f p : ~ touches p c -> run_save f c p = f p.
Proof.
  intros H. unfold run_save. unfold touches in H. destruct (save _ _ _ _ _) as [d|]; [|reflexivity].
  destruct (String.eqb_spec (written_path (c_path c)) p) as [E|E].
  - destruct (c_out c); try reflexivity; exfalso; apply H; (split; [exact E|split; discriminate]).
  - destruct (c_out c); try reflexivity; unfold write; destruct (String.eqb_spec (written_path (c_path c)) p); congruence.
Qed.
(** saves to other paths (and calls that raise before they open the file) leave a file alone *)
Theorem C55_untouched : forall h f p, (forall c, In c h -> ~ touches p c) -> run_saves f h p = f p.
Proof.
  intros h. unfold run_saves. induction h as [|c h IH]; intros f p H; [reflexivity|]. cbn [fold_left].
  rewrite IH by (intros x Hx; apply H; now right). apply run_untouched. apply H. now left.
Qed.
(** for every history, what a path loads as is decided by the last call that touched it *)
Theorem C55_last_save : forall env h c h' f p, call_ok env c -> touches p c -> (forall x, In x h' -> ~ touches p x) ->
  (all_written c -> load_path env (run_saves f (h ++ c :: h')%list) p = Some (saved_as c)) /\
  (~ all_written c -> load_path env (run_saves f (h ++ c :: h')%list) p = None).
Proof.
  intros env h c h' f p HOK [HP [HO HS]] HU. unfold run_saves. rewrite fold_left_app. cbn [fold_left]. fold (run_saves f h).
  unfold load_path. change (fold_left run_save h' (run_save (run_saves f h) c)) with (run_saves (run_save (run_saves f h) c) h').
  rewrite (C55_untouched h' (run_save (run_saves f h) c) p HU). generalize (run_saves f h) as g. intros g. unfold run_save.
  unfold all_written, members in *. destruct (save (c_packed c) (c_mod c) (c_name c) (c_class c) (c_obj c)) as [d|] eqn:ES; [|congruence].
  subst p. destruct (c_out c) as [| |k s|] eqn:EO; unfold write; rewrite ?String.eqb_refl.
  - split; [intros _|tauto]. now apply load_whole.
  - congruence.
  - split; intros H.
    + rewrite stopped_all by exact H. now apply load_whole.
    + destruct HOK as (HN & _ & _). eapply C55_interrupted; [exact HN|exact ES|lia].
  - split; [tauto|reflexivity].
Qed.
Lemma last_touch p (h : list call) : (forall c, In c h -> ~ touches p c) \/ exists h1 c h2, h = (h1 ++ c :: h2)%list /\ touches p c /\ (forall x, In x h2 -> ~ touches p x).
Proof.
  assert (DEC : forall c, touches p c \/ ~ touches p c).
  { intros c. unfold touches. destruct (string_dec (written_path (c_path c)) p); [|tauto].
    destruct (save (c_packed c) (c_mod c) (c_name c) (c_class c) (c_obj c)); [|tauto].
    destruct (c_out c); try (left; split; [assumption|split; discriminate]). right. tauto. }
  induction h as [|c h IH]; [left; intros c []|]. destruct IH as [IH|(h1 & x & h2 & -> & H1 & H2)].
  - destruct (DEC c) as [D|D].
    + right. exists [], c, h. auto.
    + left. intros x [<-|Hx]; [exact D|now apply IH].
  - right. exists (c :: h1)%list, x, h2. auto.
Qed.
(** a load never returns a mixture: whatever loads after any history is what one save call
    that wrote everything would give back, or the file was there before and untouched *)
Theorem C55_no_mixture : forall env h f p r, (forall c, In c h -> call_ok env c) ->
  load_path env (run_saves f h) p = Some r ->
  (exists c, In c h /\ touches p c /\ all_written c /\ r = saved_as c) \/
  ((forall c, In c h -> ~ touches p c) /\ load_path env f p = Some r).
Proof.
  intros env h f p r HOK HL. destruct (last_touch p h) as [H|(h1 & c & h2 & -> & HT & HU)].
  - right. split; [exact H|]. unfold load_path in *. now rewrite (C55_untouched h f p H) in HL.
  - left. assert (Hin : In c (h1 ++ c :: h2)%list) by (apply in_or_app; right; now left).
    destruct (C55_last_save env h1 c h2 f p (HOK c Hin) HT HU) as [A B].
    assert (D : all_written c \/ ~ all_written c).
    { unfold all_written. destruct (c_out c) as [| |k s|]; try tauto. destruct (le_dec (members c) k); tauto. }
    destruct D as [D|D]; [|rewrite (B D) in HL; discriminate]. exists c. rewrite (A D) in HL. injection HL as <-. auto.
Qed.
(** ... but overwriting is not atomic: whenever a save over an existing file is stopped
    while writing, neither the new nor the old instance can be loaded *)
Theorem C55_overwrite_loses_refuted : forall env f p old new, call_ok env old -> call_ok env new ->
  touches p old -> touches p new -> all_written old -> ~ all_written new ->
  load_path env (run_saves f [old]) p = Some (saved_as old) /\ load_path env (run_saves f [old; new]) p = None.
Proof.
  intros env f p old new H1 H2 T1 T2 A1 A2. split.
  - apply (C55_last_save env [] old [] f p H1 T1); [intros x []|exact A1].
  - apply (C55_last_save env [old] new [] f p H2 T2); [intros x []|exact A2].
Qed.

(** ** Paths *)
Lemma append_inj_r a b : a ++ ".npz" = b ++ ".npz" -> a = b.
Proof.
  revert b. induction a as [|x a IH]; intros [|y b] E; [reflexivity| | |].
  - exfalso. apply (f_equal String.length) in E. cbn in E. assert (L : forall s t, String.length (s ++ t) = String.length s + String.length t) by (induction s; intros; cbn; auto).
    rewrite L in E. cbn in E. lia.
  - exfalso. apply (f_equal String.length) in E. cbn in E. assert (L : forall s t, String.length (s ++ t) = String.length s + String.length t) by (induction s; intros; cbn; auto).
    rewrite L in E. cbn in E. lia.
  - cbn in E. injection E as -> E. f_equal. now apply IH.
Qed.
Lemma append_longer p s : String.length (p ++ s) = String.length p + String.length s.
Proof. induction p as [|x p IH]; cbn; [reflexivity|now rewrite IH]. Qed.
Lemma ends_npz_app p : ends_npz (p ++ ".npz") = true.
Proof. induction p as [|x p IH]; [reflexivity|]. cbn [append ends_npz]. rewrite IH. apply orb_true_r. Qed.
Lemma ends_npz_spec p : ends_npz p = true <-> exists q, p = q ++ ".npz".
Proof.
  split.
  - induction p as [|x p IH]; [discriminate|]. cbn [ends_npz]. intros H. apply orb_true_iff in H. destruct H as [H|H].
    + apply String.eqb_eq in H. exists "". exact H.
    + destruct (IH H) as [q ->]. exists (String x q). reflexivity.
  - intros [q ->]. apply ends_npz_app.
Qed.
(** saving to a path and loading from the same path works exactly for paths ending in .npz:
    for any other path the file goes to path.npz, and load(path) finds what was at [path]
    before *)
Theorem C55_path : forall env f c, call_ok env c -> c_out c = Finished -> touches (written_path (c_path c)) c ->
  ((exists q, c_path c = q ++ ".npz") -> load_path env (run_save f c) (c_path c) = Some (saved_as c)) /\
  (~ (exists q, c_path c = q ++ ".npz") ->
     load_path env (run_save f c) (c_path c) = load_path env f (c_path c) /\
     load_path env (run_save f c) (c_path c ++ ".npz") = Some (saved_as c)).
Proof.
  intros env f c HOK HF HT. assert (A : all_written c) by (unfold all_written; now rewrite HF).
  destruct (C55_last_save env [] c [] f (written_path (c_path c)) HOK HT (fun x H => match H with end)) as [L _]. specialize (L A). cbn [app run_saves fold_left] in L.
  rewrite <- ends_npz_spec. unfold written_path in *. destruct (ends_npz (c_path c)) eqn:EP.
  - split; [intros _; exact L|intros H; now contradiction H].
  - split; [discriminate|intros _]. split; [|exact L]. unfold load_path. rewrite run_untouched; [reflexivity|].
    unfold touches, written_path. rewrite EP. intros [E _]. apply (f_equal String.length) in E. rewrite append_longer in E. cbn in E. lia.
Qed.
Theorem C55_path_refuted : forall env c, call_ok env c -> c_out c = Finished -> touches (written_path (c_path c)) c ->
  ~ (exists q, c_path c = q ++ ".npz") -> load_path env (run_save (fun _ => None) c) (c_path c) = None.
Proof. intros env c H1 H2 H3 H4. destruct (C55_path env (fun _ => None) c H1 H2 H3) as [_ H]. now rewrite (proj1 (H H4)). Qed.
(** two paths share a file exactly when they differ by the suffix alone *)
Theorem C55_same_file : forall p q, written_path p = written_path q <-> p = q \/ p = q ++ ".npz" /\ ends_npz q = false \/ q = p ++ ".npz" /\ ends_npz p = false.
Proof.
  intros p q. unfold written_path. destruct (ends_npz p) eqn:EP; destruct (ends_npz q) eqn:EQ; split; intros H.
  - now left.
  - destruct H as [->|[[_ H]|[_ H]]]; [reflexivity|discriminate|discriminate].
  - right. left. auto.
  - destruct H as [->|[[H _]|[_ H]]]; [congruence|exact H|discriminate].
  - right. right. auto.
  - destruct H as [->|[[_ H]|[H _]]]; [congruence|discriminate|now symmetry].
  - left. now apply append_inj_r.
  - destruct H as [->|[[-> _]|[-> _]]]; [reflexivity| |]; rewrite ends_npz_app in *; discriminate.
Qed.

(** ** Cls.load *)
(** returns the saved instance exactly when its class is (a subclass of) the class asked for *)
Theorem C55_class_load : forall issub env f c cls, call_ok env c -> touches (written_path (c_path c)) c -> c_out c = Finished ->
  class_load issub env cls (run_save f c) (written_path (c_path c)) =
  if issub (c_mod c, c_name c) cls then Some (restored (c_packed c) (c_class c) (c_obj c)) else None.
Proof.
  intros issub env f c cls HOK HT HF.
  destruct (C55_last_save env [] c [] f (written_path (c_path c)) HOK HT (fun x H => match H with end)) as [L _].
  cbn [app run_saves fold_left] in L. unfold class_load. rewrite L by (unfold all_written; now rewrite HF). reflexivity.
Qed.

(** ** Non-vacuity *)
Definition ex_call (p : string) (out : outcome) : call := Save p true "mod" "State" ex_io_class ex_io_obj out.
Lemma ex_call_ok p out : call_ok ex_env (ex_call p out).
Proof. split; [apply ex_io_hyps|]. split; [apply conforms_shaped, ex_io_hyps|reflexivity]. Qed.
Example ex_touches_1 : touches "a.npz" (ex_call "a.npz" Finished).
Proof. unfold touches. cbn. repeat split; discriminate. Qed.
Example ex_touches_2 : touches "a.npz" (ex_call "a" (StoppedAt 14 true)).
Proof. unfold touches. cbn. repeat split; discriminate. Qed.
Example ex_touches_3 : ~ touches "b.npz" (ex_call "a" Finished).
Proof. intros [E _]. discriminate. Qed.
Example ex_written : all_written (ex_call "a.npz" Finished) /\ ~ all_written (ex_call "a" (StoppedAt 14 true)).
Proof. split; [exact Logic.I|]. unfold all_written. cbn. lia. Qed.
Example ex_history : forall f,
  load_path ex_env (run_saves f [ex_call "a.npz" Finished; ex_call "b.npz" Killed]) "a.npz" = Some (("mod", "State"), ex_io_obj) /\
  load_path ex_env (run_saves f [ex_call "a.npz" Finished; ex_call "a" (StoppedAt 14 true)]) "a.npz" = None.
Proof. intros f. split; reflexivity. Qed.
Print Assumptions C55_last_save.
Print Assumptions C55_no_mixture.
Print Assumptions C55_path.
