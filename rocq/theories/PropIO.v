(** * PropIO.v — property C36 (save and load). *)
From Coq Require Import String Ascii.
From Verif Require Import Jax StructModel ArrayModel BitpackModel EqModel PromoteModel IOModel PropBitpack.
Local Open Scope string_scope.

(** ** Specification *)
(** Python identifiers: no dot, and not one of the two metadata keys *)
Fixpoint dotless (s : string) : bool :=
  match s with EmptyString => true | String a t => negb (Ascii.eqb a "."%char) && dotless t end.
Fixpoint good_names_d (d : desc) : Prop := match d with Prim _ _ _ _ _ => True | Nest c _ => good_names c end
with good_names (c : class) : Prop :=
  match c with CNil => True | CCons n d r => dotless n = true /\ ~ In n (names r) /\ good_names_d d /\ good_names r end.
Definition good_class_names (c : class) : Prop := good_names c /\ ~ In module_key (names c) /\ ~ In name_key (names c).
(** an instance of the class, whatever the dtypes of its arrays *)
Fixpoint shaped_v (d : desc) (v : value) : Prop :=
  match d, v with
  | Prim _ _ _ _ _, VArr a => length (adata a) = prod (ashape a)
  | Nest c _, VObj o => shaped c o
  | _, _ => False
  end
with shaped (c : class) (o : obj) : Prop :=
  match c, o with
  | CNil, ONil => True
  | CCons n d r, OCons m v q => n = m /\ shaped_v d v /\ shaped r q
  | _, _ => False
  end.
(** what one element, of dtype [f], of a field with declared dtype [dt] becomes *)
Definition restored_elem (f dt : dtype) (bits : nat) (z : Z) : Z := conv (loaded_dtype bits) dt (Z.of_N (survives bits (packed_value f z))).
Definition io_packed (packed : bool) (bits : option nat) (packed_bits : bool) : option nat :=
  if packed && negb packed_bits then bits else None.
Fixpoint restored_v (packed : bool) (d : desc) (v : value) : value :=
  match d, v with
  | Prim dt _ bits pb _, VArr a =>
      VArr (match io_packed packed bits pb with
            | Some b => MkArr dt (ashape a) (map (restored_elem (adtype a) dt b) (adata a))
            | None => a
            end)
  | Nest c _, VObj o => VObj (restored packed c o)
  | _, v => v
  end
with restored (packed : bool) (c : class) (o : obj) : obj :=
  match c, o with
  | CCons n d r, OCons m v q => OCons m (restored_v packed d v) (restored packed r q)
  | _, o => o
  end.
(** every element of an IO-packed field comes back unchanged *)
Fixpoint all_packed_v (P : dtype -> nat -> Z -> Prop) (packed : bool) (d : desc) (v : value) : Prop :=
  match d, v with
  | Prim dt _ bits pb _, VArr a =>
      match io_packed packed bits pb with Some b => Forall (P dt b) (adata a) | None => True end
  | Nest c _, VObj o => all_packed P packed c o
  | _, _ => True
  end
with all_packed (P : dtype -> nat -> Z -> Prop) (packed : bool) (c : class) (o : obj) : Prop :=
  match c, o with
  | CCons n d r, OCons _ v q => all_packed_v P packed d v /\ all_packed P packed r q
  | _, _ => True
  end.

(** ** Strings *)
Lemma append_assoc a b c : (a ++ b) ++ c = a ++ (b ++ c).
Proof. induction a as [|x a IH]; cbn; [reflexivity|]. now rewrite IH. Qed.
Lemma append_inj p a b : p ++ a = p ++ b -> a = b.
Proof. induction p as [|x p IH]; cbn; [auto|]. intros E. injection E as E. auto. Qed.
Lemma append_eqb p a b : String.eqb (p ++ a) (p ++ b) = String.eqb a b.
Proof. induction p as [|x p IH]; cbn; [reflexivity|]. rewrite Ascii.eqb_refl. exact IH. Qed.
Lemma append_nil a : a ++ "" = a.
Proof. induction a as [|x a IH]; cbn; [reflexivity|]. now rewrite IH. Qed.
Lemma append_self a s : a ++ "." ++ s <> a.
Proof. intros E. rewrite <- (append_nil a) in E at 2. apply append_inj in E. discriminate. Qed.
Lemma dotless_split n1 : forall n2 s1 s2, dotless n1 = true -> dotless n2 = true -> n1 ++ "." ++ s1 = n2 ++ "." ++ s2 -> n1 = n2.
Proof.
  induction n1 as [|x n1 IH]; intros [|y n2] s1 s2 H1 H2 E; [reflexivity| | |].
  - cbn in E. injection E as E1 E2. subst y. cbn in H2. discriminate.
  - cbn in E. injection E as E1 E2. subst x. cbn in H1. discriminate.
  - cbn in E. injection E as E1 E2. subst y. cbn in H1, H2. apply andb_true_iff in H1, H2. f_equal. eapply IH; [tauto|tauto|]. exact E2.
Qed.
Lemma dotless_no n1 : forall n2 s, dotless n1 = true -> n1 <> n2 ++ "." ++ s.
Proof.
  induction n1 as [|x n1 IH]; intros [|y n2] s H E; cbn in E; try discriminate.
  - injection E as E1 E2. subst x. discriminate.
  - injection E as E1 E2. cbn in H. apply andb_true_iff in H. apply (IH n2 s); tauto.
Qed.
(** the keys that belong to field [n] of the object at [prefix] *)
Definition owns (prefix n k : string) : Prop := k = prefix ++ n \/ exists s, k = prefix ++ n ++ "." ++ s.
Lemma owns_unique prefix n m k : dotless n = true -> dotless m = true -> owns prefix n k -> owns prefix m k -> n = m.
Proof.
  intros Hn Hm [->|[s ->]] [E|[t E]]; apply append_inj in E.
  - exact E.
  - exfalso. exact (dotless_no n m t Hn E).
  - exfalso. symmetry in E. exact (dotless_no m n s Hm E).
  - eapply dotless_split; eassumption.
Qed.
Lemma owns_bp prefix n w : owns prefix n (bp_key (prefix ++ n) w).
Proof. right. exists (bitpack_prefix ++ "." ++ w). unfold bp_key. now rewrite !append_assoc. Qed.
Lemma owns_nested prefix n m k : owns ((prefix ++ n) ++ ".") m k -> owns prefix n k.
Proof. intros [->|[s ->]]; right; [exists m|exists (m ++ "." ++ s)]; now rewrite !append_assoc. Qed.

(** ** Dictionaries *)
Lemma dget_app a b k : dget (a ++ b)%list k = match dget a k with Some e => Some e | None => dget b k end.
Proof.
  unfold dget. induction a as [|[k' e] a IH]; cbn [app find fst snd]; [reflexivity|]. destruct (String.eqb k' k); [reflexivity|exact IH].
Qed.
Lemma dget_none d k : (forall e, ~ In (k, e) d) -> dget d k = None.
Proof.
  intros H. unfold dget. destruct (find (fun e => String.eqb (fst e) k) d) as [[k' e]|] eqn:E; [|reflexivity].
  apply find_some in E. destruct E as [Hin Ek]. cbn in Ek. apply String.eqb_eq in Ek. subst. exfalso. exact (H e Hin).
Qed.
Lemma dget_single k e : dget [(k, e)] k = Some e.
Proof. unfold dget. cbn. now rewrite String.eqb_refl. Qed.
Lemma bp_neq key w : bp_key key w <> key.
Proof. unfold bp_key. apply append_self. Qed.
Lemma bp_eqb key a b : String.eqb (bp_key key a) (bp_key key b) = String.eqb a b.
Proof. unfold bp_key. now rewrite !append_eqb. Qed.

(** every key of the flattened form belongs to one of the fields *)
Lemma flatten_owned_both packed :
  (forall d v prefix n k e, In (k, e) (flatten_v packed (prefix ++ n) d v) -> owns prefix n k) /\
  (forall c o prefix k e, In (k, e) (flatten_obj packed prefix c o) -> exists n, In n (names c) /\ owns prefix n k).
Proof.
  apply desc_class_ind.
  - intros dt ish bits pb fill [a|o] prefix n k e Hin; cbn [flatten_v] in Hin; [|contradiction].
    unfold save_array in Hin. destruct bits as [b|]; [destruct (packed && negb pb)|].
    + cbn [In] in Hin. destruct Hin as [E|[E|[E|[E|[]]]]]; injection E as <- _; apply owns_bp.
    + destruct Hin as [E|[]]. injection E as <- _. now left.
    + destruct Hin as [E|[]]. injection E as <- _. now left.
  - intros c IH ish [a|o] prefix n k e Hin; cbn [flatten_v] in Hin; [contradiction|].
    destruct (IH o _ k e Hin) as [m [_ Ho]]. eapply owns_nested. exact Ho.
  - intros o prefix k e Hin. contradiction.
  - intros n d IHd r IHr o prefix k e Hin. destruct o as [|m v q]; [contradiction|]. cbn [flatten_obj] in Hin.
    apply in_app_or in Hin. destruct Hin as [Hin|Hin].
    + destruct (IHr q prefix k e Hin) as [n' [H1 H2]]. exists n'. split; [now right|exact H2].
    + exists n. split; [now left|]. eapply IHd. exact Hin.
Qed.
Lemma names_dotless c : good_names c -> forall n, In n (names c) -> dotless n = true.
Proof.
  induction c as [|n d r IH]; intros H m Hin; [contradiction|]. cbn [good_names] in H. destruct H as (H1 & H2 & H3 & H4).
  destruct Hin as [<-|Hin]; [exact H1|now apply IH].
Qed.

(** ** Loading what was saved *)
Lemma prod_raw (a : array) : length (adata a) = prod (ashape a) -> prod (map Z.to_nat (map Z.of_nat (ashape a))) = length (map (packed_value (adtype a)) (adata a)).
Proof.
  intros H. rewrite map_map, map_length, H. f_equal. rewrite <- (map_id (ashape a)) at 2. apply map_ext. intros n. apply Nat2Z.id.
Qed.
Lemma map_toN l : map Z.to_N (map Z.of_N l) = l.
Proof. rewrite map_map. rewrite <- (map_id l) at 2. apply map_ext. intros n. apply N2Z.id. Qed.
Lemma load_save_array packed key dt bits pb a data :
  length (adata a) = prod (ashape a) ->
  (forall b, io_packed packed bits pb = Some b -> 1 <= b <= 32) ->
  (forall w, dget data (bp_key key w) = dget (save_array packed key bits pb a) (bp_key key w)) ->
  dget data key = dget (save_array packed key bits pb a) key ->
  load_array key dt data = Some (match io_packed packed bits pb with
            | Some b => MkArr dt (ashape a) (map (restored_elem (adtype a) dt b) (adata a))
            | None => a
            end).
Proof.
  intros HL HB HG HK. unfold load_array. rewrite !HG. unfold save_array, io_packed in *.
  assert (PLAIN : forall e, match dget [(key, EArr a)] (bp_key key "data"), dget [(key, EArr a)] (bp_key key "shape"), dget [(key, EArr a)] (bp_key key "bits") with
     | Some x, Some y, Some z => e x y z
     | _, _, _ => match dget [(key, EArr a)] key with Some (EArr a) => Some a | _ => None end end = Some a).
  { intros e. rewrite dget_single. rewrite (dget_none [(key, EArr a)] (bp_key key "data")); [reflexivity|].
    intros x [E|[]]. injection E as E _. symmetry in E. exact (bp_neq key _ E). }
  destruct bits as [b|]; [destruct (packed && negb pb) eqn:EP|].
  - specialize (HB b eq_refl).
    unfold dget. cbn [find fst snd]. rewrite !bp_eqb. cbn [String.eqb Ascii.eqb Bool.eqb snd].
    cbn [adata hd]. rewrite Nat2Z.id, map_toN, prod_raw by exact HL. rewrite C34_roundtrip by exact HB.
    rewrite !map_map. f_equal. f_equal.
    rewrite <- (map_id (ashape a)) at 2. apply map_ext. intros n. apply Nat2Z.id.
  - rewrite HK. destruct (packed && negb pb); [discriminate|]. apply PLAIN.
  - rewrite HK. destruct (packed && negb pb); apply PLAIN.
Qed.

Lemma load_ok_both packed :
  (forall d v prefix n data, good_names_d d -> shaped_v d v -> (packed = true -> packable_v d v = true) ->
     (forall k, owns prefix n k -> dget data k = dget (flatten_v packed (prefix ++ n) d v) k) ->
     load_v (prefix ++ n) d data = Some (restored_v packed d v)) /\
  (forall c o prefix data, good_names c -> shaped c o -> (packed = true -> packable c o = true) ->
     (forall n k, In n (names c) -> owns prefix n k -> dget data k = dget (flatten_obj packed prefix c o) k) ->
     load_obj prefix c data = Some (restored packed c o)).
Proof.
  apply desc_class_ind.
  - intros dt ish bits pb fill [a|o] prefix n data _ HC HP HG; [|contradiction]. cbn [shaped_v] in HC.
    cbn [load_v restored_v flatten_v] in *. rewrite (load_save_array packed (prefix ++ n) dt bits pb a data HC); [reflexivity| | |].
    + intros b Hb. unfold io_packed in Hb. destruct packed; [|discriminate]. destruct pb; [discriminate|]. cbn in Hb. subst bits.
      specialize (HP eq_refl). cbn [packable_v orb] in HP. apply andb_true_iff in HP. destruct HP as [HP _]. apply andb_true_iff in HP.
      destruct HP as [P1 P2]. apply Nat.leb_le in P1, P2. lia.
    + intros w. apply HG. apply owns_bp.
    + apply HG. now left.
  - intros c IH ish [a|o] prefix n data HN HC HP HG; [contradiction|]. cbn [load_v restored_v flatten_v] in *.
    rewrite (IH o ((prefix ++ n) ++ ".") data HN HC HP); [reflexivity|]. intros m k _ Ho. apply HG. eapply owns_nested. exact Ho.
  - intros [|? ? ?] prefix data _ HC _ _; [reflexivity|contradiction].
  - intros n d IHd r IHr o prefix data HN HC HP HG. destruct o as [|m v q]; [contradiction|]. cbn [shaped] in HC. destruct HC as (<- & HC1 & HC2).
    cbn [good_names] in HN. destruct HN as (N1 & N2 & N3 & N4). cbn [load_obj restored].
    assert (HP1 : packed = true -> packable_v d v = true) by (intros E; specialize (HP E); cbn [packable] in HP; apply andb_true_iff in HP; tauto).
    assert (HP2 : packed = true -> packable r q = true) by (intros E; specialize (HP E); cbn [packable] in HP; apply andb_true_iff in HP; tauto).
    rewrite (IHd v prefix n data N3 HC1 HP1).
    + rewrite (IHr q prefix data N4 HC2 HP2); [reflexivity|].
      intros m k Hm Ho. rewrite (HG m k) by (try exact Ho; now right). cbn [flatten_obj]. rewrite dget_app.
      destruct (dget (flatten_obj packed prefix r q) k) as [e|] eqn:E; [reflexivity|].
      apply dget_none. intros e Hin. apply (proj1 (flatten_owned_both packed)) in Hin.
      assert (n = m) by (eapply owns_unique; [exact N1|apply (names_dotless r N4 m Hm)|exact Hin|exact Ho]). subst m. contradiction.
    + intros k Ho. rewrite (HG n k) by (try exact Ho; now left). cbn [flatten_obj]. rewrite dget_app.
      rewrite (dget_none (flatten_obj packed prefix r q)); [reflexivity|].
      intros e Hin. apply (proj2 (flatten_owned_both packed)) in Hin. destruct Hin as [m [Hm Hm2]].
      assert (n = m) by (eapply owns_unique; [exact N1|apply (names_dotless r N4 m Hm)|exact Ho|exact Hm2]). subst m. contradiction.
Qed.
(** ** C36: what load returns for every saved instance *)
Theorem C36_roundtrip : forall packed env m n c o d,
  good_class_names c -> shaped c o -> env m n = Some c -> save packed m n c o = Some d ->
  load env d = Some (restored packed c o).
Proof.
  intros packed env m n c o d [HN [H1 H2]] HC HE HS. unfold save in HS.
  destruct (negb packed || packable c o) eqn:EP; [|discriminate]. destruct (dget (flatten_obj packed "" c o) "file") eqn:EF; [discriminate|].
  injection HS as <-. unfold load, dset.
  assert (HP : packed = true -> packable c o = true) by (intros ->; exact EP).
  assert (D1 : forall (k k' : string) e (l : dict), k <> k' -> dget ((k, e) :: l)%list k' = dget l k').
  { intros k k' e l Hne. unfold dget. cbn [find fst]. destruct (String.eqb_spec k k'); [contradiction|reflexivity]. }
  assert (D2 : forall (k : string) e (l : dict), dget ((k, e) :: l)%list k = Some e).
  { intros k e l. unfold dget. cbn [find fst]. now rewrite String.eqb_refl. }
  rewrite D1 by discriminate. rewrite !D2. rewrite HE.
  apply (proj2 (load_ok_both packed)); auto. intros x k Hx Ho.
  assert (NM : forall y, dotless y = true -> ~ In y (names c) -> y <> k).
  { intros y Hy Hny E. subst k. destruct Ho as [E|[s E]]; cbn [append] in E; [subst y; contradiction|]. exact (dotless_no y x s Hy E). }
  rewrite !D1 by (apply NM; [reflexivity|assumption]). reflexivity.
Qed.
(** saving succeeds exactly when nothing is stored under the key "file" and, with packing,
    every bit-annotated field that is not already packed has 1-32 bits and an array of an
    integer dtype (of any dtype for one bit) *)
Theorem C36_save_succeeds : forall packed m n c o,
  (exists d, save packed m n c o = Some d) <-> (packed = true -> packable c o = true) /\ dget (flatten_obj packed "" c o) "file" = None.
Proof.
  intros. unfold save. destruct packed; cbn [negb orb].
  - destruct (packable c o); [destruct (dget _ "file"); split; [intros [d E]; discriminate|intros [_ E]; discriminate|intros _; split; auto|intros _; eexists; reflexivity]|].
    split; [intros [d E]; discriminate|intros [E _]; specialize (E eq_refl); discriminate].
  - destruct (dget _ "file"); split; [intros [d E]; discriminate|intros [_ E]; discriminate|intros _; split; [discriminate|auto]|intros _; eexists; reflexivity].
Qed.
Lemma conforms_shaped : (forall d v, conforms_v d v -> shaped_v d v) /\ (forall c o, conforms c o -> shaped c o).
Proof.
  apply desc_class_ind.
  - intros dt ish bits pb fill [a|o] H; [|contradiction]. exact (proj2 H).
  - intros c IH ish [a|o] H; [contradiction|]. exact (IH o H).
  - intros [|? ? ?] H; [exact Logic.I|contradiction].
  - intros n d IHd r IHr [|m v q] H; [contradiction|]. cbn [conforms shaped] in *. split; [tauto|]. split; [apply IHd|apply IHr]; tauto.
Qed.
(** ** Equality *)
Lemma restored_eq_both packed :
  (forall d v, conforms_v d v -> (restored_v packed d v = v <-> all_packed_v (fun dt b z => restored_elem dt dt b z = z) packed d v)) /\
  (forall c o, conforms c o -> (restored packed c o = o <-> all_packed (fun dt b z => restored_elem dt dt b z = z) packed c o)).
Proof.
  apply desc_class_ind.
  - intros dt ish bits pb fill [a|o] HC; [|contradiction]. cbn [conforms_v restored_v all_packed_v] in *. destruct HC as [HD _].
    destruct (io_packed packed bits pb) as [b|]; [|split; auto]. split.
    + intros E. injection E as E. apply (f_equal adata) in E. cbn [adata] in E. rewrite HD in E. rewrite <- (map_id (adata a)) in E at 2. apply Forall_forall. intros z Hz.
      revert z Hz. apply ext_in_map. exact E.
    + intros HF. f_equal. destruct a as [adt ash ad]. cbn [adtype ashape adata] in *. subst adt. f_equal.
      rewrite <- (map_id ad) at 2. apply map_ext_in. rewrite Forall_forall in HF. exact HF.
  - intros c IH ish [a|o] HC; [contradiction|]. cbn [conforms_v restored_v all_packed_v] in *. rewrite <- IH by exact HC.
    split; [intros E; now injection E|now intros ->].
  - intros [|? ? ?] HC; [|contradiction]. cbn. tauto.
  - intros n d IHd r IHr [|m v q] HC; [contradiction|]. cbn [conforms restored all_packed] in *. destruct HC as (<- & HC1 & HC2).
    rewrite <- IHd, <- IHr by assumption. split; [intros E; injection E; auto|intros [-> ->]; reflexivity].
Qed.
(** loading gives back the saved instance exactly when every element of every IO-packed
    field survives *)
Theorem C36_equal_iff : forall packed env m n c o d,
  good_class_names c -> conforms c o -> env m n = Some c -> save packed m n c o = Some d ->
  (load env d = Some o <-> all_packed (fun dt b z => restored_elem dt dt b z = z) packed c o).
Proof.
  intros packed env m n c o d HN HC HE HS. rewrite (C36_roundtrip _ _ _ _ _ _ _ HN (proj2 conforms_shaped _ _ HC) HE HS).
  rewrite <- (proj2 (restored_eq_both packed)) by exact HC. split; [intros E; now injection E|now intros ->].
Qed.
(** which elements survive, for every dtype and width; the pattern of 1.0 *)
Definition float_one (w : nat) : Z := if Nat.eqb w 16 then 0x3C00%Z else if Nat.eqb w 32 then 0x3F800000%Z else 0x3FF0000000000000%Z.
Definition fits (dt : dtype) (bits : nat) (z : Z) : Prop :=
  match dt with
  | DInt w => (if (bits =? 1)%nat then 0 <= z < 2 else if (w <=? bits)%nat then True else 0 <= z < 2 ^ Z.of_nat bits)%Z
  | DFloat w => z = 0%Z \/ z = float_one w
  | _ => (0 <= z < 2 ^ Z.of_nat bits)%Z
  end.
Lemma raw_mod z bits : 1 <= bits <= 64 -> (Z.of_N (raw z mod 2 ^ N.of_nat bits) = z mod 2 ^ Z.of_nat bits)%Z.
Proof.
  intros Hb. unfold raw. rewrite N2Z.inj_mod, Z2N.id by (apply Z.mod_pos_bound; lia). rewrite N2Z.inj_pow, nat_N_Z. change (Z.of_N 2) with 2%Z.
  rewrite <- Znumtheory.Zmod_div_mod; [reflexivity|apply Z.pow_pos_nonneg; lia|lia|].
  exists (2 ^ (64 - Z.of_nat bits))%Z. rewrite <- Z.pow_add_r by lia. f_equal. lia.
Qed.
Lemma raw_zero z dt : (match dt with DUInt w | DInt w => (w <= 64)%nat | _ => True end) -> in_dtype dt z -> is_int dt = true \/ dt = DBool ->
  (raw z = 0%N <-> z = 0%Z).
Proof.
  intros Hw Hz Hd. unfold raw. split; [|intros ->; reflexivity]. intros E.
  assert (E0 : (z mod 2 ^ 64 = 0)%Z) by (pose proof (Z.mod_pos_bound z (2 ^ 64) ltac:(lia)); lia).
  assert (HB : (- 2 ^ 63 <= z < 2 ^ 64)%Z).
  { destruct dt as [|w|w|w]; cbn [in_dtype] in Hz; try (destruct Hd; discriminate); [lia| |].
    - assert (2 ^ Z.of_nat w <= 2 ^ 64)%Z by (apply Z.pow_le_mono_r; lia). lia.
    - assert (2 ^ (Z.of_nat w - 1) <= 2 ^ 63)%Z by (apply Z.pow_le_mono_r; lia). lia. }
  apply Z.mod_divide in E0; [|lia]. destruct E0 as [q E0]. lia.
Qed.

Definition sane_dtype (dt : dtype) : Prop := match dt with DBool => True | DUInt w => 1 <= w <= 64 | DInt w => 2 <= w <= 64 | DFloat w => w = 16 \/ w = 32 \/ w = 64 end.
Definition not_float (dt : dtype) : Prop := match dt with DFloat _ => False | _ => True end.
Lemma cast_one dt : sane_dtype dt -> not_float dt -> cast dt 1 = 1%Z.
Proof.
  destruct dt as [|w|w|w]; cbn [sane_dtype cast not_float]; intros H HF; [reflexivity| | |contradiction].
  - apply Z.mod_small. split; [lia|]. change 1%Z with (2 ^ 0)%Z at 1. apply Z.pow_lt_mono_r; lia.
  - unfold wrap. assert (2 ^ 0 < 2 ^ Z.of_nat w)%Z by (apply Z.pow_lt_mono_r; lia). assert (2 ^ 0 < 2 ^ (Z.of_nat w - 1))%Z by (apply Z.pow_lt_mono_r; lia).
    change (2 ^ 0)%Z with 1%Z in *. rewrite Z.mod_small by lia. replace (1 <? 2 ^ (Z.of_nat w - 1))%Z with true by (symmetry; apply Z.ltb_lt; lia). reflexivity.
Qed.
Lemma wrap_id w z : 1 <= w -> (- 2 ^ (Z.of_nat w - 1) <= z < 2 ^ (Z.of_nat w - 1))%Z -> wrap w z = z.
Proof.
  intros Hw Hz. unfold wrap. assert (E : (2 ^ Z.of_nat w = 2 * 2 ^ (Z.of_nat w - 1))%Z) by (rewrite <- Z.pow_succ_r by lia; f_equal; lia).
  rewrite E. set (h := (2 ^ (Z.of_nat w - 1))%Z) in *.
  destruct (Z.lt_ge_cases z 0) as [L|L].
  - replace (z mod (2 * h))%Z with (z + 2 * h)%Z; [destruct (Z.ltb_spec (z + 2 * h) h); lia|].
    apply (Z.mod_unique _ _ (-1)); lia.
  - rewrite Z.mod_small by lia. destruct (Z.ltb_spec z h); lia.
Qed.
Lemma survives_small bits v : 1 <= bits <= 32 -> (survives bits v < 2 ^ N.of_nat bits)%N.
Proof.
  intros HB. unfold survives. destruct (Nat.eqb_spec bits 1) as [->|H].
  - destruct (v =? 0)%N; cbn; lia.
  - apply N.mod_lt. apply N.pow_nonzero. lia.
Qed.
(** reading the stored bits into a boolean or integer dtype is a cast *)
Lemma restored_int f dt bits z : not_float f -> not_float dt -> 1 <= bits <= 32 ->
  restored_elem f dt bits z = cast dt (Z.of_N (survives bits (raw z))).
Proof.
  intros HS HF HB. unfold restored_elem. replace (packed_value f z) with (raw z) by (destruct f; cbn in *; tauto).
  pose proof (survives_small bits (raw z) HB) as HV. set (v := survives bits (raw z)) in *. clearbody v. unfold conv.
  destruct (dtype_eqb (loaded_dtype bits) dt) eqn:E.
  - unfold dtype_eqb in E. destruct (dtype_eq_dec (loaded_dtype bits) dt) as [E2|]; [|discriminate]. subst dt. symmetry. unfold loaded_dtype.
    destruct (Nat.eqb_spec bits 1) as [->|N1]; [|destruct (Nat.leb_spec bits 8)]; cbn [cast].
    + change (2 ^ N.of_nat 1)%N with 2%N in HV. destruct (Z.eqb_spec (Z.of_N v) 0); lia.
    + apply Z.mod_small. split; [lia|].
      assert (2 ^ N.of_nat bits <= 2 ^ 8)%N by (apply N.pow_le_mono_r; lia). change (2 ^ 8)%N with 256%N in *. change (2 ^ Z.of_nat 8)%Z with 256%Z. lia.
    + apply Z.mod_small. split; [lia|].
      assert (2 ^ N.of_nat bits <= 2 ^ 32)%N by (apply N.pow_le_mono_r; lia). change (2 ^ 32)%N with 4294967296%N in *. change (2 ^ Z.of_nat 32)%Z with 4294967296%Z. lia.
  - destruct dt as [|w|w|w]; try contradiction; unfold loaded_dtype; (destruct (Nat.eqb bits 1); [|destruct (Nat.leb bits 8)]); reflexivity.
Qed.
(** a float comes back as 0.0 or 1.0 *)
Lemma restored_float w z : w = 16 \/ w = 32 \/ w = 64 ->
  restored_elem (DFloat w) (DFloat w) 1 z = (if fmag w z =? 0 then 0 else float_one w)%Z.
Proof.
  intros Hw. unfold restored_elem, survives, packed_value. cbn [Nat.eqb]. destruct (fmag w z =? 0)%Z; destruct Hw as [->|[-> | ->]]; vm_compute; reflexivity.
Qed.
Lemma float_element w z : w = 16 \/ w = 32 \/ w = 64 -> (restored_elem (DFloat w) (DFloat w) 1 z = z <-> fits (DFloat w) 1 z).
Proof.
  intros Hw. rewrite (restored_float w z Hw). cbn [fits]. destruct (Z.eqb_spec (fmag w z) 0) as [E|E]; (split; [auto|]).
  - intros [->| ->]; [reflexivity|]. exfalso. revert E. destruct Hw as [->|[-> | ->]]; vm_compute; discriminate.
  - intros [->| ->]; [|reflexivity]. exfalso. apply E. unfold fmag. apply Zmod_0_l.
Qed.
Theorem C36_element : forall dt bits z, sane_dtype dt -> in_dtype dt z -> 1 <= bits <= 32 -> bits = 1 \/ is_int dt = true ->
  (restored_elem dt dt bits z = z <-> fits dt bits z).
Proof.
  intros dt bits z HS HZ HB HI. assert (HF : not_float dt \/ exists w, dt = DFloat w) by (destruct dt; cbn; eauto).
  destruct HF as [HF|[w ->]]; [|destruct HI as [->|HI]; [now apply float_element|discriminate]].
  rewrite restored_int by assumption. unfold survives.
  assert (HD : is_int dt = true \/ dt = DBool) by (destruct dt; cbn in *; auto; contradiction).
  assert (HW : match dt with DUInt w | DInt w => (w <= 64)%nat | _ => True end) by (destruct dt; cbn in *; try lia; contradiction).
  destruct (Nat.eqb_spec bits 1) as [->|Hb].
  - pose proof (raw_zero z dt HW HZ HD) as RZ. change (2 ^ Z.of_nat 1)%Z with 2%Z.
    assert (FE : fits dt 1 z <-> (0 <= z < 2)%Z) by (destruct dt; cbn in *; tauto). rewrite FE.
    destruct (N.eqb_spec (raw z) 0) as [E|E].
    + apply RZ in E. subst z. change (Z.of_N 0) with 0%Z. assert (cast dt 0 = 0%Z); [|split; [lia|auto]].
      destruct dt as [|w|w|w]; cbn; try reflexivity; try contradiction. unfold wrap. rewrite Z.mod_0_l by lia.
      destruct (Z.ltb_spec 0 (2 ^ (Z.of_nat w - 1))%Z) as [L|L]; [reflexivity|]. assert (0 < 2 ^ (Z.of_nat w - 1))%Z by (apply Z.pow_pos_nonneg; [lia|cbn in HS; lia]). lia.
    + assert (z <> 0%Z) by (intros E2; apply E, RZ, E2). change (Z.of_N 1) with 1%Z. rewrite cast_one by assumption. split; lia.
  - destruct HI as [HI|HI]; [contradiction|]. rewrite raw_mod by lia.
    assert (PB : (0 < 2 ^ Z.of_nat bits)%Z) by (apply Z.pow_pos_nonneg; lia).
    pose proof (Z.mod_pos_bound z _ PB) as MB.
    destruct dt as [|w|w|w]; try discriminate; cbn [sane_dtype in_dtype cast fits] in *.
    + assert (ML : (0 <= z -> z mod 2 ^ Z.of_nat bits <= z)%Z) by (intros; apply Z.mod_le; lia).
      rewrite Z.mod_small by lia. split; intros E.
      * rewrite <- E. exact MB.
      * now apply Z.mod_small.
    + destruct (Nat.eqb_spec bits 1); [contradiction|]. destruct (Nat.leb_spec w bits) as [L|L].
      * split; [auto|intros _]. transitivity (wrap w z); [|apply wrap_id; lia]. unfold wrap.
        replace ((z mod 2 ^ Z.of_nat bits) mod 2 ^ Z.of_nat w)%Z with (z mod 2 ^ Z.of_nat w)%Z; [reflexivity|].
        apply Znumtheory.Zmod_div_mod; [apply Z.pow_pos_nonneg; lia|exact PB|].
        exists (2 ^ (Z.of_nat bits - Z.of_nat w))%Z. rewrite <- Z.pow_add_r by lia. f_equal. lia.
      * assert (2 ^ Z.of_nat bits <= 2 ^ (Z.of_nat w - 1))%Z by (apply Z.pow_le_mono_r; lia).
        rewrite wrap_id by lia. split; [intros <-; exact MB|intros; now apply Z.mod_small].
Qed.

(** an array of another dtype than the declared one is loaded with the declared dtype; the
    numbers that fit in the bits and in the declared dtype are kept *)
Theorem C36_element_other : forall f dt bits z, sane_dtype f -> not_float f -> sane_dtype dt -> not_float dt -> in_dtype f z -> in_dtype dt z ->
  1 <= bits <= 32 -> bits = 1 \/ is_int f = true -> (0 <= z < 2 ^ Z.of_nat bits)%Z -> restored_elem f dt bits z = z.
Proof.
  intros f dt bits z SF NF SD ND ZF ZD HB _ HZ. rewrite restored_int by assumption.
  assert (E : Z.of_N (survives bits (raw z)) = z).
  { unfold survives. destruct (Nat.eqb_spec bits 1) as [->|N1]; [|rewrite raw_mod by lia; apply Z.mod_small; exact HZ].
    assert (RZ : raw z = 0%N <-> z = 0%Z).
    { apply (raw_zero z f); [destruct f; cbn in *; try lia; exact Logic.I|exact ZF|destruct f; cbn in *; auto; contradiction]. }
    change (2 ^ Z.of_nat 1)%Z with 2%Z in HZ. destruct (N.eqb_spec (raw z) 0) as [E|E]; [apply RZ in E; subst z; reflexivity|].
    assert (z <> 0%Z) by (intros E2; apply E, RZ, E2). change (Z.of_N 1) with 1%Z. lia. }
  rewrite E. destruct dt as [|w|w|w]; cbn [cast in_dtype sane_dtype not_float] in *; try contradiction.
  - destruct ZD as [->| ->]; reflexivity.
  - now apply Z.mod_small.
  - apply wrap_id; lia.
Qed.

(** ** The readable corollaries *)
(** unsigned elements below 2^bits (and any signed element when bits >= width) round-trip;
    with packed=False, or without bit annotations, everything does *)
Fixpoint sane_d (d : desc) : Prop := match d with Prim dt _ (Some b) pb _ => pb = true \/ (sane_dtype dt /\ 1 <= b <= 32 /\ (b = 1 \/ is_int dt = true)) | Prim _ _ None _ _ => True | Nest c _ => sane c end
with sane (c : class) : Prop := match c with CNil => True | CCons _ d r => sane_d d /\ sane r end.
Fixpoint in_range_v (d : desc) (v : value) : Prop :=
  match d, v with
  | Prim dt _ _ _ _, VArr a => Forall (in_dtype dt) (adata a)
  | Nest c _, VObj o => in_range c o
  | _, _ => True
  end
with in_range (c : class) (o : obj) : Prop :=
  match c, o with CCons _ d r, OCons _ v q => in_range_v d v /\ in_range r q | _, _ => True end.
Lemma all_packed_fits packed :
  (forall d v, sane_d d -> in_range_v d v -> conforms_v d v -> (all_packed_v (fun dt b z => restored_elem dt dt b z = z) packed d v <-> all_packed_v fits packed d v)) /\
  (forall c o, sane c -> in_range c o -> conforms c o -> (all_packed (fun dt b z => restored_elem dt dt b z = z) packed c o <-> all_packed fits packed c o)).
Proof.
  apply desc_class_ind.
  - intros dt ish bits pb fill [a|o] HS HR HC; [|contradiction]. cbn [all_packed_v]. unfold io_packed.
    destruct (packed && negb pb) eqn:EP; [|tauto]. destruct bits as [b|]; [|tauto]. cbn [sane_d] in HS.
    apply andb_true_iff in EP. destruct EP as [_ EP]. apply negb_true_iff in EP. destruct HS as [HS|(S1 & S2 & S3)]; [congruence|].
    cbn [in_range_v] in HR. rewrite !Forall_forall in *. split; intros H z Hz; apply (C36_element dt b z S1 (HR z Hz) S2 S3); auto.
  - intros c IH ish [a|o] HS HR HC; [contradiction|]. cbn [all_packed_v]. apply IH; assumption.
  - intros [|? ? ?] _ _ HC; [tauto|contradiction].
  - intros n d IHd r IHr [|m v q] HS HR HC; [contradiction|]. cbn [sane in_range conforms all_packed] in *.
    rewrite IHd, IHr by tauto. reflexivity.
Qed.
Theorem C36_exact : forall packed env m n c o d,
  good_class_names c -> sane c -> conforms c o -> in_range c o -> env m n = Some c -> save packed m n c o = Some d ->
  (load env d = Some o <-> all_packed fits packed c o).
Proof.
  intros packed env m n c o d HN HS HC HR HE HSv. rewrite (C36_equal_iff _ _ _ _ _ _ _ HN HC HE HSv).
  now apply (proj2 (all_packed_fits packed)).
Qed.
Lemma all_packed_false P : (forall d v, all_packed_v P false d v) /\ (forall c o, all_packed P false c o).
Proof.
  apply desc_class_ind; try (intros; exact I); try (intros; destruct v; cbn [all_packed_v io_packed andb]; auto; fail).
  intros n d IHd r IHr [|m v q]; cbn; auto.
Qed.
Theorem C36_unpacked : forall env m n c o d,
  good_class_names c -> conforms c o -> env m n = Some c -> save false m n c o = Some d -> load env d = Some o.
Proof. intros. apply (C36_equal_iff false env m n c o d); auto. apply all_packed_false. Qed.
Fixpoint no_bits_d (d : desc) : Prop := match d with Prim _ _ bits pb _ => bits = None \/ pb = true | Nest c _ => no_bits c end
with no_bits (c : class) : Prop := match c with CNil => True | CCons _ d r => no_bits_d d /\ no_bits r end.
Lemma all_packed_no_bits P packed : (forall d v, no_bits_d d -> all_packed_v P packed d v) /\ (forall c o, no_bits c -> all_packed P packed c o).
Proof.
  apply desc_class_ind; try (intros; exact I).
  - intros dt ish bits pb fill [a|o] H; cbn [all_packed_v no_bits_d] in *; [|exact I]. unfold io_packed.
    destruct H as [-> | ->]; [destruct (packed && negb pb); exact I|]. rewrite andb_false_r. exact I.
  - intros c IH ish [a|o] H; cbn; [exact I|]. now apply IH.
  - intros n d IHd r IHr [|m v q] H; cbn [all_packed no_bits] in *; [exact I|]. split; [apply IHd|apply IHr]; tauto.
Qed.
Theorem C36_unannotated : forall packed env m n c o d,
  good_class_names c -> no_bits c -> conforms c o -> env m n = Some c -> save packed m n c o = Some d -> load env d = Some o.
Proof. intros. apply (C36_equal_iff packed env m n c o d); auto. now apply all_packed_no_bits. Qed.

(** ** The default instance of an unsigned bit-annotated field is altered *)
Theorem C36_default_altered : forall env m n name w ish b shape d,
  dotless name = true -> name <> module_key -> name <> name_key -> 1 <= b <= 32 -> b < w <= 64 -> 1 <= prod (shape ++ ish)%list ->
  let c := CCons name (Prim (DUInt w) ish (Some b) false (default_fill (DUInt w))) CNil in
  env m n = Some c -> save true m n c (default_obj shape c) = Some d ->
  load env d <> Some (default_obj shape c) /\
  load env d = Some (OCons name (VArr (full (DUInt w) (shape ++ ish) (2 ^ Z.of_nat b - 1))) ONil).
Proof.
  intros env m n name w ish b shape d H1 H2 H3 Hb Hw HP c HE HS.
  assert (HN : good_class_names c) by (unfold c, good_class_names; cbn; intuition congruence).
  assert (HC : conforms c (default_obj shape c)) by (cbn; rewrite repeat_length; auto).
  pose proof (C36_roundtrip true env m n c _ d HN (proj2 conforms_shaped _ _ HC) HE HS) as HL.
  assert (P1 : (2 ^ Z.of_nat b < 2 ^ Z.of_nat w)%Z) by (apply Z.pow_lt_mono_r; lia).
  assert (P2 : (0 < 2 ^ Z.of_nat b)%Z) by (apply Z.pow_pos_nonneg; lia).
  assert (ER : restored_elem (DUInt w) (DUInt w) b (2 ^ Z.of_nat w - 1) = (2 ^ Z.of_nat b - 1)%Z).
  { rewrite restored_int by (exact Logic.I || lia). unfold survives. destruct (Nat.eqb_spec b 1) as [->|Nb].
    - assert (E : raw (2 ^ Z.of_nat w - 1) <> 0%N).
      { intros E. apply (raw_zero _ (DUInt w)) in E; [|lia|cbn; lia|now left]. change (2 ^ Z.of_nat 1)%Z with 2%Z in P1. lia. }
      destruct (N.eqb_spec (raw (2 ^ Z.of_nat w - 1)) 0); [contradiction|]. change (Z.of_N 1) with 1%Z. rewrite cast_one by (cbn; lia || exact Logic.I). reflexivity.
    - rewrite raw_mod by lia. cbn [cast].
      assert (E : ((2 ^ Z.of_nat w - 1) mod 2 ^ Z.of_nat b = 2 ^ Z.of_nat b - 1)%Z).
      { symmetry. apply (Z.mod_unique _ _ (2 ^ (Z.of_nat w - Z.of_nat b) - 1)); [lia|].
        rewrite Z.mul_sub_distr_l, <- Z.pow_add_r by lia. replace (Z.of_nat b + (Z.of_nat w - Z.of_nat b))%Z with (Z.of_nat w) by lia. lia. }
      rewrite E. apply Z.mod_small. lia. }
  assert (EL : load env d = Some (OCons name (VArr (full (DUInt w) (shape ++ ish) (2 ^ Z.of_nat b - 1))) ONil)).
  { rewrite HL. cbn [c default_obj default_v restored restored_v io_packed andb negb default_fill full ashape adata adtype]. do 4 f_equal.
    unfold full. f_equal. clear HP. induction (prod (shape ++ ish)%list) as [|k IH]; [reflexivity|]. cbn [repeat map]. now rewrite ER, IH. }
  split; [|exact EL]. rewrite EL. cbn [c default_obj default_v default_fill]. unfold full. intros E. injection E as E.
  destruct (prod (shape ++ ish)%list) as [|k]; [lia|]. cbn [repeat] in E. injection E as E _. lia.
Qed.
(** a top-level array field named "file" cannot be saved at all *)
Theorem C36_file_field_refuted : forall packed m n dt ish fill a,
  save packed m n (CCons "file" (Prim dt ish None false fill) CNil) (OCons "file" (VArr a) ONil) = None.
Proof. intros. unfold save. cbn [packable packable_v]. rewrite orb_true_r. reflexivity. Qed.

(** ** Non-vacuity *)
Definition ex_io_class : class :=
  CCons "pos" (Prim (DUInt 8) [2] (Some 3) false 255)
  (CCons "flag" (Prim DBool [] (Some 1) false 0)
  (CCons "inner" (Nest (CCons "cost" (Prim (DFloat 32) [] None false 0x7F800000) (CCons "delta" (Prim (DInt 16) [] (Some 16) false 0) CNil)) []) CNil)).
Definition ex_io_obj : obj :=
  OCons "pos" (VArr (MkArr (DUInt 8) [3; 2] [1; 7; 0; 3; 5; 6]%Z))
  (OCons "flag" (VArr (MkArr DBool [3] [1; 0; 1]%Z))
  (OCons "inner" (VObj (OCons "cost" (VArr (MkArr (DFloat 32) [3] [0x3F800000; 0; 0x7F800000]%Z)) (OCons "delta" (VArr (MkArr (DInt 16) [3] [-5; 9; -32768]%Z)) ONil))) ONil)).
(** one bit per float: everything but 0.0 and -0.0 comes back as 1.0.  An int32 array in a field
    declared uint8 comes back as uint8 *)
Definition ex_loose_class : class := CCons "p" (Prim (DFloat 32) [] (Some 1) false 0) (CCons "u" (Prim (DUInt 8) [] (Some 3) false 255) CNil).
Definition ex_loose_obj : obj :=
  OCons "p" (VArr (MkArr (DFloat 32) [3] [0x40200000; 0x80000000; 0x3F800000]%Z)) (OCons "u" (VArr (MkArr (DInt 32) [3] [5; -1; 9]%Z)) ONil).
Example ex_io_loose : shaped ex_loose_class ex_loose_obj /\ ~ conforms ex_loose_class ex_loose_obj /\
  exists d, save true "mod" "Loose" ex_loose_class ex_loose_obj = Some d /\
    load (fun m n => if String.eqb n "Loose" then Some ex_loose_class else None) d =
    Some (OCons "p" (VArr (MkArr (DFloat 32) [3] [0x3F800000; 0; 0x3F800000]%Z)) (OCons "u" (VArr (MkArr (DUInt 8) [3] [5; 7; 1]%Z)) ONil)).
Proof.
  split; [cbn; auto|]. split; [cbn; intuition discriminate|]. eexists. split; [vm_compute; reflexivity|]. vm_compute. reflexivity.
Qed.
Definition ex_env : string -> string -> option class := fun m n => if String.eqb m "mod" && String.eqb n "State" then Some ex_io_class else None.
Example ex_io_hyps : good_class_names ex_io_class /\ sane ex_io_class /\ conforms ex_io_class ex_io_obj /\ in_range ex_io_class ex_io_obj /\ all_packed fits true ex_io_class ex_io_obj.
Proof.
  split; [unfold good_class_names, module_key, name_key; cbn; intuition discriminate|]. split; [cbn; intuition (try lia)|]. split; [cbn; intuition|].
  split; [cbn; repeat split; repeat constructor; cbn; lia|]. cbn. repeat split; repeat constructor; cbn; try lia.
Qed.
Example ex_io : exists d, save true "mod" "State" ex_io_class ex_io_obj = Some d /\ load ex_env d = Some ex_io_obj /\ length d = 15.
Proof.
  eexists. split; [reflexivity|]. split; [|reflexivity].
  apply (C36_exact true ex_env "mod" "State" ex_io_class ex_io_obj); try apply ex_io_hyps; reflexivity.
Qed.

Print Assumptions C36_roundtrip.
Print Assumptions C36_exact.
Print Assumptions C36_default_altered.
