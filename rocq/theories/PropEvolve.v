(** * PropEvolve.v — property C56: loading a file after the class has changed. *)
From Coq Require Import String Ascii.
From Verif Require Import Jax StructModel BitpackModel EqModel PromoteModel IOModel PropBitpack PropIO.
Local Open Scope string_scope.

(** ** Specification *)
(** the descriptor and the value of field [n] of an instance *)
Fixpoint field (n : string) (c : class) (o : obj) : option (desc * value) :=
  match c, o with
  | CCons m d r, OCons _ v q => if String.eqb m n then Some (d, v) else field n r q
  | _, _ => None
  end.
(** what loading with the new class [c'] gives for an instance [o] saved with class [c]:
    every field of [c'] is looked up by name; an array field takes the saved array (stored
    plainly: as it was, whatever dtype the new class declares; stored in bits: cast to the
    newly declared dtype), a nested field is loaded the same way (from nothing if it was
    not saved as a nested field), and an array field that was not saved as one makes the
    load fail *)
Fixpoint migrate_v (packed : bool) (d' : desc) (x : option (desc * value)) : option value :=
  match d' with
  | Prim dt' _ _ _ _ =>
      match x with
      | Some (Prim _ _ bits pb _, VArr a) =>
          Some (VArr (match io_packed packed bits pb with
                      | Some b => MkArr dt' (ashape a) (map (restored_elem (adtype a) dt' b) (adata a))
                      | None => a
                      end))
      | _ => None
      end
  | Nest c' _ =>
      match x with
      | Some (Nest c _, VObj o) => option_map VObj (migrate packed c' c o)
      | _ => option_map VObj (migrate packed c' CNil ONil)
      end
  end
with migrate (packed : bool) (c' c : class) (o : obj) : option obj :=
  match c' with
  | CNil => Some ONil
  | CCons n d' r =>
      match migrate_v packed d' (field n c o), migrate packed r c o with
      | Some v, Some q => Some (OCons n v q)
      | _, _ => None
      end
  end.
(** no field is called __xtructure_bitpack__ *)
Fixpoint no_bp_d (d : desc) : Prop := match d with Prim _ _ _ _ _ => True | Nest c _ => no_bp c end
with no_bp (c : class) : Prop := match c with CNil => True | CCons n d r => n <> bitpack_prefix /\ no_bp_d d /\ no_bp r end.

(** ** Lookup *)
Lemma field_owned packed c : forall o prefix n k, good_names c -> dotless n = true -> owns prefix n k ->
  dget (flatten_obj packed prefix c o) k =
  match field n c o with Some (d, v) => dget (flatten_v packed (prefix ++ n) d v) k | None => None end.
Proof.
  induction c as [|m d r IH]; intros o prefix n k HG Hn Ho; [reflexivity|].
  destruct o as [|m2 v q]; [reflexivity|]. cbn [flatten_obj field good_names] in *. destruct HG as (G1 & G2 & G3 & G4).
  rewrite dget_app. rewrite (IH q prefix n k G4 Hn Ho). destruct (String.eqb_spec m n) as [->|Hne].
  - replace (field n r q) with (@None (desc * value)); [reflexivity|]. symmetry. clear - G2. revert q. induction r as [|x d' r IH]; intros q; [reflexivity|].
    destruct q as [|y v q]; [reflexivity|]. cbn [field names In] in *. destruct (String.eqb_spec x n) as [->|_]; [exfalso; apply G2; now left|]. apply IH. tauto.
  - assert (Z : dget (flatten_v packed (prefix ++ m) d v) k = None).
    { apply dget_none. intros e Hin. apply (proj1 (flatten_owned_both packed)) in Hin. apply Hne. eapply owns_unique; [exact G1|exact Hn|exact Hin|exact Ho]. }
    destruct (field n r q) as [[d2 v2]|]; [|exact Z]. destruct (dget (flatten_v packed (prefix ++ n) d2 v2) k); [reflexivity|exact Z].
Qed.
Lemma field_shaped c : forall o n d v, good_names c -> shaped c o -> field n c o = Some (d, v) -> shaped_v d v /\ good_names_d d /\ In n (names c).
Proof.
  induction c as [|m d r IH]; intros o n d0 v0 HG HC HF; [discriminate|]. destruct o as [|m2 v q]; [discriminate|].
  cbn [field shaped good_names] in *. destruct (String.eqb_spec m n) as [->|_].
  - injection HF as <- <-. cbn. tauto.
  - destruct (IH q n d0 v0) as (A & B & C); [tauto|tauto|exact HF|]. cbn. tauto.
Qed.
Lemma field_packable c : forall o n d v, packable c o = true -> field n c o = Some (d, v) -> packable_v d v = true.
Proof.
  induction c as [|m d r IH]; intros o n d0 v0 HP HF; [discriminate|]. destruct o as [|m2 v q]; [discriminate|]. cbn [field packable] in *.
  apply andb_true_iff in HP. destruct HP as [P1 P2]. destruct (String.eqb m n); [injection HF as <- <-; exact P1|exact (IH _ _ _ _ P2 HF)].
Qed.
Lemma field_no_bp c : forall o n d v, no_bp c -> field n c o = Some (d, v) -> no_bp_d d.
Proof.
  induction c as [|m d r IH]; intros o n d0 v0 HP HF; [discriminate|]. destruct o as [|m2 v q]; [discriminate|]. cbn [field no_bp] in *.
  destruct (String.eqb m n); [injection HF as <- <-; tauto|]. eapply IH; [|exact HF]. tauto.
Qed.
Lemma dotless_bp : dotless bitpack_prefix = true. Proof. reflexivity. Qed.
(** an array field reads nothing when the file has nothing under its keys *)
Lemma load_array_absent key dt data : dget data (bp_key key "data") = None -> dget data key = None -> load_array key dt data = None.
Proof. intros H1 H2. unfold load_array. rewrite H1, H2. reflexivity. Qed.

Lemma migrate_both packed :
  (forall d' prefix n data x, good_names_d d' -> no_bp_d d' -> dotless n = true ->
     match x with
     | Some (d, v) => shaped_v d v /\ good_names_d d /\ no_bp_d d /\ (packed = true -> packable_v d v = true)
     | None => True
     end ->
     (forall k, owns prefix n k -> dget data k = match x with Some (d, v) => dget (flatten_v packed (prefix ++ n) d v) k | None => None end) ->
     load_v (prefix ++ n) d' data = migrate_v packed d' x) /\
  (forall c' prefix data c o, good_names c' -> no_bp c' -> good_names c -> no_bp c -> shaped c o -> (packed = true -> packable c o = true) ->
     (forall n k, In n (names c') -> owns prefix n k -> dget data k = dget (flatten_obj packed prefix c o) k) ->
     load_obj prefix c' data = migrate packed c' c o).
Proof.
  apply desc_class_ind.
  - intros dt ish bits pb fl prefix n data x _ _ Hn HX HG. cbn [load_v migrate_v].
    assert (ABS : (forall k, owns prefix n k -> k = bp_key (prefix ++ n) "data" \/ k = prefix ++ n -> dget data k = None) ->
      option_map VArr (load_array (prefix ++ n) dt data) = None).
    { intros H. rewrite load_array_absent; [reflexivity| |]; apply H; auto; [apply owns_bp|now left]. }
    destruct x as [[d v]|]; [|apply ABS; intros k Ho _; now rewrite HG].
    destruct HX as (HC & GN & NB & HP). destruct d as [dt2 ish2 bits2 pb2 fl2|c2 ish2]; destruct v as [a|o]; cbn [shaped_v] in HC; try contradiction.
    + cbn [flatten_v] in HG. pose proof HC as HL.
      assert (E : load_array (prefix ++ n) dt data = Some (match io_packed packed bits2 pb2 with
            | Some b => MkArr dt (ashape a) (map (restored_elem (adtype a) dt b) (adata a)) | None => a end)); [|now rewrite E].
      assert (HB : forall b, io_packed packed bits2 pb2 = Some b -> 1 <= b <= 32).
      { intros b Hb. unfold io_packed in Hb. destruct packed; [|discriminate]. destruct pb2; [discriminate|]. cbn in Hb. subst bits2.
        specialize (HP eq_refl). cbn [packable_v orb] in HP. apply andb_true_iff in HP. destruct HP as [HP _]. apply andb_true_iff in HP.
        destruct HP as [P1 P2]. apply Nat.leb_le in P1, P2. lia. }
      assert (HW : forall w, dget data (bp_key (prefix ++ n) w) = dget (save_array packed (prefix ++ n) bits2 pb2 a) (bp_key (prefix ++ n) w)) by (intros w; apply HG; apply owns_bp).
      assert (HK : dget data (prefix ++ n) = dget (save_array packed (prefix ++ n) bits2 pb2 a) (prefix ++ n)) by (apply HG; now left).
      exact (load_save_array packed (prefix ++ n) dt bits2 pb2 a data HL HB HW HK).
    + apply ABS. intros k Ho Hk. rewrite HG by exact Ho. apply dget_none. intros e Hin. cbn [flatten_v] in Hin.
      apply (proj2 (flatten_owned_both packed)) in Hin. destruct Hin as [m [Hm Hm2]]. cbn [good_names_d no_bp_d] in *.
      assert (NM : m <> bitpack_prefix).
      { clear - NB Hm. induction c2 as [|y d r IH]; [contradiction|]. cbn [no_bp names] in *. destruct Hm as [<-|Hm]; [tauto|now apply IH]. }
      destruct Hk as [-> | ->].
      * unfold bp_key in Hm2. destruct Hm2 as [E|[s E]]; rewrite !append_assoc in E; apply append_inj, append_inj in E; cbn [append] in E; injection E as E.
        -- symmetry in E. exact (dotless_no m bitpack_prefix "data" (names_dotless c2 GN m Hm) E).
        -- apply NM. eapply (dotless_split m bitpack_prefix s "data"); [apply (names_dotless c2 GN m Hm)|reflexivity|]. symmetry. exact E.
      * destruct Hm2 as [E|[s E]]; rewrite !append_assoc in E; apply append_inj in E; symmetry in E; exact (append_self _ _ E).
  - intros c' IH ish prefix n data x GN NB Hn HX HG. cbn [load_v migrate_v good_names_d no_bp_d] in *.
    destruct x as [[d v]|].
    + destruct HX as (HC & GN2 & NB2 & HP). destruct d as [dt2 ish2 bits2 pb2 fl2|c2 ish2]; destruct v as [a|o]; cbn [shaped_v] in HC; try contradiction.
      * rewrite (IH ((prefix ++ n) ++ ".") data CNil ONil); auto; try exact Logic.I.
        intros m k Hm Ho. rewrite HG by (eapply owns_nested; exact Ho). cbn [flatten_obj flatten_v]. rewrite (dget_none [] k) by (intros e []).
        apply dget_none. intros e Hin.
        assert (NM : m <> bitpack_prefix).
        { clear - NB Hm. induction c' as [|y d r IH]; [contradiction|]. cbn [no_bp names] in *. destruct Hm as [<-|Hm]; [tauto|now apply IH]. }
        assert (KK : k = prefix ++ n \/ exists w, k = bp_key (prefix ++ n) w).
        { unfold save_array in Hin. destruct bits2 as [b|]; [destruct (packed && negb pb2)|]; cbn [In] in Hin;
            repeat (destruct Hin as [Hin|Hin]; [injection Hin as <- _; first [now left|right; eexists; reflexivity]|]); contradiction. }
        destruct KK as [-> | [w ->]].
        -- destruct Ho as [E|[s E]]; rewrite !append_assoc in E; apply append_inj in E; symmetry in E; exact (append_self _ _ E).
        -- unfold bp_key in Ho. destruct Ho as [E|[s E]]; rewrite !append_assoc in E; apply append_inj, append_inj in E; cbn [append] in E; injection E as E.
           ++ symmetry in E. exact (dotless_no m bitpack_prefix w (names_dotless c' GN m Hm) E).
           ++ apply NM. eapply (dotless_split m bitpack_prefix s w); [apply (names_dotless c' GN m Hm)|reflexivity|]. symmetry. exact E.
      * rewrite (IH ((prefix ++ n) ++ ".") data c2 o); auto. intros m k Hm Ho. rewrite HG by (eapply owns_nested; exact Ho). reflexivity.
    + rewrite (IH ((prefix ++ n) ++ ".") data CNil ONil); auto; try exact Logic.I.
      intros m k Hm Ho. rewrite HG by (eapply owns_nested; exact Ho). reflexivity.
  - reflexivity.
  - intros n d' IHd r IHr prefix data c o GN' NB' GN NB HC HP HG. cbn [load_obj migrate good_names no_bp] in *.
    destruct GN' as (N1 & N2 & N3 & N4). destruct NB' as (B1 & B2 & B3).
    rewrite (IHd prefix n data (field n c o) N3 B2 N1).
    + rewrite (IHr prefix data c o N4 B3 GN NB HC HP); [reflexivity|]. intros m k Hm Ho. apply (HG m); [now right|exact Ho].
    + destruct (field n c o) as [[d v]|] eqn:EF; [|exact Logic.I]. destruct (field_shaped c o n d v GN HC EF) as (A & B & _).
      split; [exact A|]. split; [exact B|]. split; [eapply field_no_bp; eassumption|]. intros E. eapply field_packable; [exact (HP E)|exact EF].
    + intros k Ho. rewrite (HG n k) by (try exact Ho; now left). now apply field_owned.
Qed.

(** ** C56: what load returns when the class has changed *)
Theorem C56_migrate : forall packed env m n c c' o d,
  good_class_names c -> no_bp c -> shaped c o -> save packed m n c o = Some d ->
  good_class_names c' -> no_bp c' -> env m n = Some c' ->
  load env d = migrate packed c' c o.
Proof.
  intros packed env m n c c' o d [HN [H1 H2]] NB HC HS [HN' [H1' H2']] NB' HE. unfold save in HS.
  destruct (negb packed || packable c o) eqn:EP; [|discriminate]. destruct (dget (flatten_obj packed "" c o) "file") eqn:EF; [discriminate|].
  injection HS as <-. unfold load, dset.
  assert (HP : packed = true -> packable c o = true) by (intros ->; exact EP).
  assert (D1 : forall (k k' : string) e (l : dict), k <> k' -> dget ((k, e) :: l)%list k' = dget l k').
  { intros k k' e l Hne. unfold dget. cbn [find fst]. destruct (String.eqb_spec k k'); [contradiction|reflexivity]. }
  assert (D2 : forall (k : string) e (l : dict), dget ((k, e) :: l)%list k = Some e).
  { intros k e l. unfold dget. cbn [find fst]. now rewrite String.eqb_refl. }
  rewrite D1 by discriminate. rewrite !D2. rewrite HE.
  apply (proj2 (migrate_both packed)); auto. intros x k Hx Ho.
  assert (NM : forall y, dotless y = true -> ~ In y (names c') -> y <> k).
  { intros y Hy Hny E. subst k. destruct Ho as [E|[s E]]; cbn [append] in E; [subst y; contradiction|]. exact (dotless_no y x s Hy E). }
  rewrite !D1 by (apply NM; [reflexivity|assumption]). reflexivity.
Qed.
(** a class none of whose names or nested names begins with the reserved prefix, unchanged:
    the same as C36 *)
Lemma migrate_same packed :
  (forall d v, good_names_d d -> shaped_v d v -> migrate_v packed d (Some (d, v)) = Some (restored_v packed d v)) /\
  (forall c' c o, good_names c -> shaped c o -> forall o', shaped c' o' ->
     (forall n d v, field n c' o' = Some (d, v) -> field n c o = Some (d, v)) -> good_names c' -> migrate packed c' c o = Some (restored packed c' o')).
Proof.
  apply desc_class_ind.
  - intros dt ish bits pb fl [a|o] _ HC; [|contradiction]. reflexivity.
  - intros c IH ish [a|o] GN HC; [contradiction|]. cbn [migrate_v restored_v shaped_v good_names_d] in *. rewrite (IH c o GN HC o HC); auto.
  - intros c o _ _ [|x v q] HC _ _; [reflexivity|contradiction].
  - intros n d IHd r IHr c o GN HC [|x v q] HC' HF GN'; [contradiction|]. cbn [shaped good_names] in HC', GN'. destruct HC' as (<- & C1 & C2). destruct GN' as (N1 & N2 & N3 & N4).
    cbn [migrate restored]. rewrite (HF n d v) by (cbn [field]; now rewrite String.eqb_refl). rewrite (IHd v N3 C1).
    rewrite (IHr c o GN HC q C2); [reflexivity| |exact N4]. intros n2 d2 v2 E. apply HF. cbn [field].
    destruct (String.eqb_spec n n2) as [<-|_]; [|exact E]. destruct (field_shaped r q n d2 v2 N4 C2 E) as (_ & _ & Hin). contradiction.
Qed.
(** removing fields and reordering them is harmless: if the new class's fields are some of
    the old class's, in any order, the load gives exactly their values *)
Theorem C56_subset : forall packed env m n c c' o o' d,
  good_class_names c -> no_bp c -> shaped c o -> save packed m n c o = Some d ->
  good_class_names c' -> no_bp c' -> env m n = Some c' ->
  shaped c' o' -> (forall x dx v, field x c' o' = Some (dx, v) -> field x c o = Some (dx, v)) ->
  load env d = Some (restored packed c' o').
Proof.
  intros packed env m n c c' o o' d HN NB HC HS HN' NB' HE HC' HF. rewrite (C56_migrate packed env m n c c' o d) by assumption.
  apply (proj2 (migrate_same packed)); auto; [apply HN|apply HN'].
Qed.
(** adding an array field makes every old file unreadable, wherever the field is added *)
Fixpoint adds_array_d (d' : desc) (x : option desc) : Prop :=
  match d' with
  | Prim _ _ _ _ _ => match x with Some (Prim _ _ _ _ _) => False | _ => True end
  | Nest c' _ => match x with Some (Nest c _) => adds_array c' c | _ => adds_array c' CNil end
  end
with adds_array (c' c : class) : Prop :=
  match c' with
  | CNil => False
  | CCons n d' r => adds_array_d d' ((fix look c := match c with CNil => None | CCons m d r => if String.eqb m n then Some d else look r end) c) \/ adds_array r c
  end.
Definition look (n : string) := fix look (c : class) : option desc := match c with CNil => None | CCons m d r => if String.eqb m n then Some d else look r end.
Lemma field_look n c : forall o, shaped c o -> option_map fst (field n c o) = look n c.
Proof.
  induction c as [|m d r IH]; intros [|x v q] HC; try contradiction; [reflexivity|]. cbn [field look shaped] in *.
  destruct (String.eqb m n); [reflexivity|]. apply IH. tauto.
Qed.
Lemma migrate_none_both packed :
  (forall d' x, match x with Some (d, v) => shaped_v d v /\ good_names_d d | None => True end -> (migrate_v packed d' x = None <-> adds_array_d d' (option_map fst x))) /\
  (forall c' c o, good_names c -> shaped c o -> (migrate packed c' c o = None <-> adds_array c' c)).
Proof.
  apply desc_class_ind.
  - intros dt ish bits pb fl [[d v]|] HX; cbn [migrate_v adds_array_d option_map fst]; [|tauto]. destruct HX as [HC _].
    destruct d; destruct v; cbn [shaped_v] in HC; try contradiction; split; try tauto; discriminate.
  - intros c' IH ish x HX. cbn [migrate_v adds_array_d]. destruct x as [[d v]|]; cbn [option_map fst].
    + destruct HX as [HC HG]. destruct d as [dt2 ish2 b2 p2 f2|c2 ish2]; destruct v as [a|o]; cbn [shaped_v good_names_d] in *; try contradiction.
      * rewrite <- (IH CNil ONil Logic.I Logic.I). destruct (migrate packed c' CNil ONil); cbn; split; congruence.
      * rewrite <- (IH c2 o HG HC). destruct (migrate packed c' c2 o); cbn; split; congruence.
    + rewrite <- (IH CNil ONil Logic.I Logic.I). destruct (migrate packed c' CNil ONil); cbn; split; congruence.
  - intros c o _ _. cbn. split; [discriminate|contradiction].
  - intros n d' IHd r IHr c o HG HC. cbn [migrate adds_array]. fold (look n c). rewrite <- (field_look n c o HC). rewrite <- (IHr c o HG HC).
    rewrite <- IHd.
    + destruct (migrate_v packed d' (field n c o)); destruct (migrate packed r c o); split; intros H; try tauto; try discriminate; destruct H; discriminate.
    + destruct (field n c o) as [[d v]|] eqn:EF; [|exact Logic.I]. destruct (field_shaped c o n d v HG HC EF) as (A & B & _). auto.
Qed.
Theorem C56_fails_iff : forall packed env m n c c' o d,
  good_class_names c -> no_bp c -> shaped c o -> save packed m n c o = Some d ->
  good_class_names c' -> no_bp c' -> env m n = Some c' ->
  (load env d = None <-> adds_array c' c).
Proof.
  intros packed env m n c c' o d HN NB HC HS HN' NB' HE. rewrite (C56_migrate packed env m n c c' o d) by assumption.
  apply (proj2 (migrate_none_both packed)); [apply HN|exact HC].
Qed.
(** changing an array field's declared dtype: a field stored plainly comes back with the
    OLD dtype, so the loaded instance does not conform to its own class *)
Theorem C56_dtype_refuted : forall env m n x dt dt' ish fl fl' a d,
  dotless x = true -> x <> module_key -> x <> name_key -> x <> bitpack_prefix ->
  dt <> dt' -> adtype a = dt -> length (adata a) = prod (ashape a) ->
  let c := CCons x (Prim dt ish None false fl) CNil in
  let c' := CCons x (Prim dt' ish None false fl') CNil in
  env m n = Some c' -> save true m n c (OCons x (VArr a) ONil) = Some d ->
  load env d = Some (OCons x (VArr a) ONil) /\ ~ conforms c' (OCons x (VArr a) ONil).
Proof.
  intros env m n x dt dt' ish fl fl' a d H1 H2 H3 H4 HD HA HL c c' HE HS. split.
  - rewrite (C56_migrate true env m n c c' (OCons x (VArr a) ONil) d); auto.
    + cbn. rewrite String.eqb_refl. reflexivity.
    + unfold c, good_class_names. cbn. intuition congruence.
    + unfold c. cbn. tauto.
    + unfold c. cbn. tauto.
    + unfold c', good_class_names. cbn. intuition congruence.
    + unfold c'. cbn. tauto.
  - unfold c'. cbn. intros (_ & [E _] & _). congruence.
Qed.
(** ... while a field stored in bits (one bit per element included) is cast to the new dtype *)
Theorem C56_dtype_packed : forall env m n x dt dt' ish b bits' fl fl' a d,
  dotless x = true -> x <> module_key -> x <> name_key -> x <> bitpack_prefix ->
  adtype a = dt -> length (adata a) = prod (ashape a) ->
  let c := CCons x (Prim dt ish (Some b) false fl) CNil in
  let c' := CCons x (Prim dt' ish bits' false fl') CNil in
  env m n = Some c' -> save true m n c (OCons x (VArr a) ONil) = Some d ->
  load env d = Some (OCons x (VArr (MkArr dt' (ashape a) (map (restored_elem (adtype a) dt' b) (adata a)))) ONil).
Proof.
  intros env m n x dt dt' ish b bits' fl fl' a d H1 H2 H3 H4 HA HL c c' HE HS.
  rewrite (C56_migrate true env m n c c' (OCons x (VArr a) ONil) d); auto.
  - cbn. rewrite String.eqb_refl. reflexivity.
  - unfold c, good_class_names. cbn. intuition congruence.
  - unfold c. cbn. tauto.
  - unfold c. cbn. tauto.
  - unfold c', good_class_names. cbn. intuition congruence.
  - unfold c'. cbn. tauto.
Qed.
(** turning bit annotation on or off, or changing it, does not affect loading: the width is
    read from the file.  For every file, two classes that declare the same field names and
    dtypes load the same instance *)
Fixpoint dtypes_only_d (d : desc) : desc :=
  match d with Prim dt _ _ _ _ => Prim dt [] None false 0 | Nest c _ => Nest (dtypes_only c) [] end
with dtypes_only (c : class) : class := match c with CNil => CNil | CCons n d r => CCons n (dtypes_only_d d) (dtypes_only r) end.
Lemma load_dtypes_only : (forall d key x, load_v key (dtypes_only_d d) x = load_v key d x) /\ (forall c prefix x, load_obj prefix (dtypes_only c) x = load_obj prefix c x).
Proof.
  apply desc_class_ind.
  - reflexivity.
  - intros c IH ish key x. cbn [dtypes_only_d load_v]. now rewrite IH.
  - reflexivity.
  - intros n d IHd r IHr prefix x. cbn [dtypes_only load_obj]. now rewrite IHd, IHr.
Qed.
Theorem C56_bits_in_file : forall env env' file,
  (forall m n, option_map dtypes_only (env m n) = option_map dtypes_only (env' m n)) -> load env file = load env' file.
Proof.
  intros env env' file H. unfold load. destruct (dget file module_key) as [[a|m]|]; try reflexivity.
  destruct (dget file name_key) as [[a|n]|]; try reflexivity. specialize (H m n).
  destruct (env m n) as [c|]; destruct (env' m n) as [c'|]; try discriminate; [|reflexivity]. cbn in H. injection H as H.
  rewrite <- (proj2 load_dtypes_only c), <- (proj2 load_dtypes_only c'), H. reflexivity.
Qed.

(** ** Non-vacuity: a class with a field removed, fields reordered, a nested field added *)
Definition ex_old : class := ex_io_class.
Definition ex_new : class :=
  CCons "inner" (Nest (CCons "delta" (Prim (DInt 16) [] (Some 16) false 0) CNil) [])
  (CCons "pos" (Prim (DUInt 16) [2] None false 0)
  (CCons "extra" (Nest CNil []) CNil)).
Example ex_evolve : exists d, save true "mod" "State" ex_old ex_io_obj = Some d /\
  (forall env, env "mod" "State" = Some ex_new ->
   load env d = Some (OCons "inner" (VObj (OCons "delta" (VArr (MkArr (DInt 16) [3] [-5; 9; -32768]%Z)) ONil))
    (OCons "pos" (VArr (MkArr (DUInt 16) [3; 2] [1; 7; 0; 3; 5; 6]%Z)) (OCons "extra" (VObj ONil) ONil)))).
Proof.
  eexists. split; [reflexivity|]. intros env HE.
  rewrite (C56_migrate true env "mod" "State" ex_old ex_new ex_io_obj); auto; try reflexivity;
    try (unfold good_class_names, module_key, name_key; cbn; intuition discriminate); cbn; unfold bitpack_prefix; intuition (try discriminate; try lia).
Qed.
Example ex_adds : adds_array (CCons "new" (Prim DBool [] None false 0) ex_old) ex_old /\ ~ adds_array ex_new ex_old.
Proof. cbn. tauto. Qed.
Print Assumptions C56_migrate.
Print Assumptions C56_fails_iff.
