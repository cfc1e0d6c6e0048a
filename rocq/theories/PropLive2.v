(** * PropLive2.v — property C82, second part: histories of questions, assignments, replace,
    tree operations and copies on one instance, with all its caches. *)
From Coq Require Import String.
From Verif Require Import Jax StructModel ArrayModel ArrayFacts ShapeModel PropShape LiveModel PropLive.

(** ** Specification: the same history on the data alone, each question answered from the data at that moment *)
Definition raise_or {A} (f : A -> answer) (r : option A) : answer := match r with Some x => f x | None => ARaise end.
Definition truth (q : query) (c : class) (o : obj) : answer :=
  match q with
  | QShape => raise_or AShape (get_shape c o)
  | QDtype => raise_or ADtype (get_dtype c o)
  | QStype => raise_or (fun b => AStype (structured_type b)) (get_batch c o)
  | QBatch => raise_or ABatch (get_batch c o)
  | QLen => raise_or (fun b => raise_or ANum (get_len b)) (get_batch c o)
  | QNdim => raise_or (fun b => raise_or ANum (get_ndim b)) (get_batch c o)
  end.
(** the nested instance at a path of attribute names, with its class *)
Fixpoint reach (p : list string) (c : class) (o : obj) : option (class * obj) :=
  match p with
  | [] => Some (c, o)
  | n :: p' => match find_desc c n, field_of o n with Some (Nest k _), Some (VObj u) => reach p' k u | _, _ => None end
  end.
Fixpoint assign_at (p : list string) (n : string) (v : value) (o : obj) : obj :=
  match p with
  | [] => set_field o n v
  | m :: p' => match field_of o m with Some (VObj u) => set_field o m (VObj (assign_at p' n v u)) | _ => o end
  end.
Definition spec_step (c : class) (o : obj) (s : step) : list answer * obj :=
  match s with
  | Ask p q => ([match reach p c o with Some (k, u) => truth q k u | None => ARaise end], o)
  | Assign p n v => ([], assign_at p n v o)
  | Replace n v => ([], set_field o n v)
  | Rebuild | Copy => ([], o)
  end.
Fixpoint spec_run (c : class) (o : obj) (h : list step) : list answer :=
  match h with [] => [] | s :: r => let '(a, o') := spec_step c o s in a ++ spec_run c o' r end.
(** assigned values are of the field's kind (array or nested instance), to fields that exist *)
Definition value_ok (c : class) (o : obj) (p : list string) (n : string) (v : value) : Prop :=
  exists k u d, reach p c o = Some (k, u) /\ find_desc k n = Some d /\ kind_v d v.
Fixpoint kinds_ok (c : class) (o : obj) (h : list step) : Prop :=
  match h with
  | [] => True
  | s :: r => match s with Assign p n v => value_ok c o p n v | Replace n v => value_ok c o [] n v | _ => True end /\ kinds_ok c (snd (spec_step c o s)) r
  end.
(** [asked]: the paths asked since the last pass through jax.tree_util.  An assignment is
    careful if neither the instance assigned to nor one that contains it has been asked. *)
Fixpoint prefix (q p : list string) : bool :=
  match q, p with [], _ => true | a :: q', b :: p' => String.eqb a b && prefix q' p' | _, _ => false end.
Fixpoint careful (asked : list (list string)) (h : list step) : Prop :=
  match h with
  | [] => True
  | Ask p _ :: r => careful (p :: asked) r
  | Assign p _ _ :: r => (forall q, In q asked -> prefix q p = false) /\ careful asked r
  | Replace _ _ :: r | Copy :: r => careful asked r
  | Rebuild :: r => careful [] r
  end.

(** ** Invariants *)
Definition caches_ok (c : class) (o : obj) (cs : option stree) (cd : option dtree) (ct : option stype) : Prop :=
  (forall t, cs = Some t -> get_shape c o = Some t) /\ (forall t, cd = Some t -> get_dtype c o = Some t) /\ (forall t, ct = Some t -> get_stype c o = Some t).
Fixpoint sound_v (d : desc) (v : live) : Prop :=
  match d, v with
  | Prim _ _ _ _ _, LArr _ => True
  | Nest c _, LObj (Inst fs cs cd ct) => caches_ok c (data_fields fs) cs cd ct /\ sound_fields c fs
  | _, _ => False
  end
with sound_fields (c : class) (fs : lfields) : Prop :=
  match c, fs with
  | CNil, LNil => True
  | CCons n d r, LCons m v q => n = m /\ sound_v d v /\ sound_fields r q
  | _, _ => False
  end.
Definition sound (c : class) (i : linst) : Prop := match i with Inst fs cs cd ct => caches_ok c (data_fields fs) cs cd ct /\ sound_fields c fs end.

Lemma no_caches c o : caches_ok c o None None None.
Proof. repeat split; discriminate. Qed.
Lemma live_data : (forall v, data_v (live_v v) = v) /\ (forall o, data_fields (live_fields o) = o).
Proof. apply value_obj_ind; intros; cbn [live_v live_fields data_v data data_fields]; congruence. Qed.
Lemma live_sound : (forall d v, kind_v d v -> sound_v d (live_v v)) /\ (forall c o, kind c o -> sound_fields c (live_fields o)).
Proof.
  apply desc_class_ind.
  - intros dt ish bits pb fill v H. destruct v; [exact I|destruct H].
  - intros c IH ish v H. destruct v as [|o]; [destruct H|]. cbn [live_v sound_v]. split; [apply no_caches|now apply IH].
  - intros o H. destruct o; [exact I|destruct H].
  - intros n d IHd r IHr o H. destruct o as [|m v q]; [destruct H|]. destruct H as [-> [H1 H2]]. cbn [live_fields sound_fields]. auto.
Qed.
Lemma sound_kind : (forall d v, sound_v d v -> kind_v d (data_v v)) /\ (forall c fs, sound_fields c fs -> kind c (data_fields fs)).
Proof.
  apply desc_class_ind.
  - intros dt ish bits pb fill v H. destruct v; [exact I|destruct H].
  - intros c IH ish v H. destruct v as [|[fs cs cd ct]]; [destruct H|]. destruct H as [_ H]. cbn [data_v data kind_v]. now apply IH.
  - intros fs H. destruct fs; [exact I|destruct H].
  - intros n d IHd r IHr fs H. destruct fs as [|m v q]; [destruct H|]. destruct H as [-> [H1 H2]]. cbn [data_fields kind]. auto.
Qed.

(** reading: right answer, same data, still sound *)
Lemma rd_shape_both :
  (forall d v, sound_v d v -> let '(r, v') := rd_shape_v d v in r = shape_v d (data_v v) /\ data_v v' = data_v v /\ sound_v d v') /\
  (forall c fs, sound_fields c fs -> let '(r, fs') := rd_shape_fields c fs in r = shape_fields c (data_fields fs) /\ data_fields fs' = data_fields fs /\ sound_fields c fs').
Proof.
  apply desc_class_ind.
  - intros dt ish bits pb fill v H. destruct v; [|destruct H]. cbn. auto.
  - intros c IH ish v H. destruct v as [|[fs cs cd ct]]; [destruct H|]. destruct H as [HC HF]. cbn [rd_shape_v data_v data shape_v].
    change (match shape_fields c (data_fields fs) with Some (bs, fs) => Some (SNode (final bs) fs) | None => None end) with (get_shape c (data_fields fs)).
    destruct cs as [t|].
    + split; [symmetry; now apply HC|]. split; [reflexivity|]. now split.
    + specialize (IH fs HF). destruct (rd_shape_fields c fs) as [r fs'] eqn:E. destruct IH as [E1 [E2 E3]].
      assert (G : get_shape c (data_fields fs) = match r with Some (bs, ss) => Some (SNode (final bs) ss) | None => None end) by (unfold get_shape; now rewrite <- E1).
      destruct r as [[bs ss]|]; cbn [data_v data sound_v]; rewrite E2; (split; [now symmetry|]; split; [reflexivity|]; split; [|exact E3]);
        destruct HC as [_ [HD HT]]; repeat split; auto; congruence.
  - intros fs H. destruct fs; [cbn; auto|destruct H].
  - intros n d IHd r IHr fs H. destruct fs as [|m v q]; [destruct H|]. destruct H as [-> [H1 H2]]. cbn [rd_shape_fields data_fields shape_fields].
    specialize (IHd v H1). destruct (rd_shape_v d v) as [t v']. destruct IHd as [<- [Ev Sv]]. destruct t as [t|].
    2:{ cbn [data_fields sound_fields]. rewrite Ev. auto. }
    destruct (entry (ish_of d) t) as [[b t']|].
    2:{ cbn [data_fields sound_fields]. rewrite Ev. auto. }
    specialize (IHr q H2). destruct (rd_shape_fields r q) as [rr q']. destruct IHr as [<- [Eq Sq]]. destruct rr as [[bs ss]|]; cbn [data_fields sound_fields]; rewrite Ev, Eq; auto.
Qed.
Lemma rd_dtype_both :
  (forall d v, sound_v d v -> let '(r, v') := rd_dtype_v d v in r = dtype_v d (data_v v) /\ data_v v' = data_v v /\ sound_v d v') /\
  (forall c fs, sound_fields c fs -> let '(r, fs') := rd_dtype_fields c fs in r = dtype_fields c (data_fields fs) /\ data_fields fs' = data_fields fs /\ sound_fields c fs').
Proof.
  apply desc_class_ind.
  - intros dt ish bits pb fill v H. destruct v; [|destruct H]. cbn. auto.
  - intros c IH ish v H. destruct v as [|[fs cs cd ct]]; [destruct H|]. destruct H as [HC HF]. cbn [rd_dtype_v data_v data dtype_v].
    change (match dtype_fields c (data_fields fs) with Some fs => Some (DNode fs) | None => None end) with (get_dtype c (data_fields fs)).
    destruct cd as [t|].
    + split; [symmetry; now apply HC|]. split; [reflexivity|]. now split.
    + specialize (IH fs HF). destruct (rd_dtype_fields c fs) as [r fs'] eqn:E. destruct IH as [E1 [E2 E3]].
      assert (G : get_dtype c (data_fields fs) = option_map DNode r) by (unfold get_dtype; now rewrite <- E1).
      destruct r as [ds|]; cbn [data_v data sound_v option_map] in *; rewrite E2; (split; [now symmetry|]; split; [reflexivity|]; split; [|exact E3]);
        destruct HC as [HS [_ HT]]; repeat split; auto; congruence.
  - intros fs H. destruct fs; [cbn; auto|destruct H].
  - intros n d IHd r IHr fs H. destruct fs as [|m v q]; [destruct H|]. destruct H as [-> [H1 H2]]. cbn [rd_dtype_fields data_fields dtype_fields].
    specialize (IHd v H1). destruct (rd_dtype_v d v) as [t v']. destruct IHd as [<- [Ev Sv]]. destruct t as [t|].
    2:{ cbn [data_fields sound_fields]. rewrite Ev. auto. }
    specialize (IHr q H2). destruct (rd_dtype_fields r q) as [rr q']. destruct IHr as [<- [Eq Sq]]. destruct rr as [ds|]; cbn [data_fields sound_fields]; rewrite Ev, Eq; auto.
Qed.
Lemma rd_shape_ok c i : sound c i -> let '(r, i') := rd_shape c i in r = get_shape c (data i) /\ data i' = data i /\ sound c i'.
Proof.
  destruct i as [fs cs cd ct]. intros H. pose proof (proj1 rd_shape_both (Nest c []) (LObj (Inst fs cs cd ct)) H) as K. cbn [rd_shape_v shape_v data_v] in K. unfold rd_shape.
  destruct cs as [t|]; [split; [symmetry; destruct H as [HC _]; now apply HC|]; auto|].
  destruct (rd_shape_fields c fs) as [[[bs ss]|] fs']; cbn [data_v data] in *; destruct K as [K1 [K2 K3]]; (split; [exact K1|]; split; [now injection K2|exact K3]).
Qed.
Lemma rd_dtype_ok c i : sound c i -> let '(r, i') := rd_dtype c i in r = get_dtype c (data i) /\ data i' = data i /\ sound c i'.
Proof.
  destruct i as [fs cs cd ct]. intros H. pose proof (proj1 rd_dtype_both (Nest c []) (LObj (Inst fs cs cd ct)) H) as K. cbn [rd_dtype_v dtype_v data_v] in K. unfold rd_dtype.
  destruct cd as [t|]; [split; [symmetry; destruct H as [HC _]; now apply HC|]; auto|]. unfold get_dtype. cbn [data] in *.
  destruct (rd_dtype_fields c fs) as [[ds|] fs']; cbn [data_v data] in *; destruct K as [K1 [K2 K3]]; destruct (dtype_fields c (data_fields fs)); (split; [exact K1|]; split; [now injection K2|exact K3]).
Qed.
Lemma ask_ok q c i : sound c i -> let '(a, i') := ask q c i in a = truth q c (data i) /\ data i' = data i /\ sound c i'.
Proof.
  intros H. pose proof (rd_shape_ok c i H) as KS. pose proof (C82_batch c (data i)) as KB.
  destruct q; cbn [ask].
  - destruct (rd_shape c i) as [r i']. destruct KS as [-> KS]. now split.
  - pose proof (rd_dtype_ok c i H) as KD. destruct (rd_dtype c i) as [r i']. destruct KD as [-> KD]. now split.
  - unfold rd_stype. cbn [truth]. rewrite <- KB. destruct i as [fs cs cd ct]. destruct ct as [s|].
    + split; [|now split]. destruct H as [[_ [_ HT]] _]. specialize (HT s eq_refl). unfold get_stype in HT. cbn [data] in *.
      destruct (get_shape c (data_fields fs)); [|discriminate]. cbn in *. congruence.
    + destruct (rd_shape c (Inst fs cs cd None)) as [r [fs' cs' cd' ct']]. destruct KS as [-> [K1 [K2 K3]]]. cbn [data] in *.
      destruct (get_shape c (data_fields fs)) as [t|] eqn:E; cbn [wrapa option_map raise_or]; (split; [reflexivity|]); (split; [exact K1|]); split; try exact K3; cbn [data_fields].
      * destruct K2 as [A1 [A2 A3]]. repeat split; auto. intros x EX. injection EX as <-. unfold get_stype. rewrite K1, E. reflexivity.
      * exact K2.
  - unfold rd_batch. cbn [truth]. rewrite <- KB. destruct (rd_shape c i) as [r i']. destruct KS as [-> KS]. split; [|exact KS]. destruct (get_shape c (data i)); reflexivity.
  - unfold rd_len, rd_batch. cbn [truth]. rewrite <- KB. destruct (rd_shape c i) as [r i']. destruct KS as [-> KS]. split; [|exact KS]. destruct (get_shape c (data i)); reflexivity.
  - unfold rd_ndim, rd_batch. cbn [truth]. rewrite <- KB. destruct (rd_shape c i) as [r i']. destruct KS as [-> KS]. split; [|exact KS]. destruct (get_shape c (data i)); reflexivity.
Qed.

(** paths *)
Lemma put_data fs n v : data_fields (put fs n v) = set_field (data_fields fs) n (data_v v).
Proof. induction fs as [|m w r IH]; cbn [put data_fields set_field]; [reflexivity|]. destruct (String.eqb m n); cbn [data_fields]; [reflexivity|now rewrite IH]. Qed.
Fixpoint set_id (o : obj) (n : string) (v : value) {struct o} : field_of o n = Some v -> set_field o n v = o.
Proof. destruct o as [|m w r]; cbn; [discriminate|]. destruct (String.eqb m n); intros H; [congruence|]. f_equal. now apply set_id. Qed.
Lemma find_data fs n : field_of (data_fields fs) n = option_map data_v (find_live fs n).
Proof. induction fs as [|m w r IH]; cbn; [reflexivity|]. destruct (String.eqb m n); [reflexivity|exact IH]. Qed.
Lemma sound_find c fs n d v : sound_fields c fs -> find_desc c n = Some d -> find_live fs n = Some v -> sound_v d v.
Proof.
  revert fs. induction c as [|m d0 r IH]; intros fs HS HD HV; destruct fs as [|m' w q]; try (destruct HS; fail); [discriminate|]. destruct HS as [-> [S1 S2]]. cbn in *.
  destruct (String.eqb m' n); [congruence|]. now apply (IH q).
Qed.
Lemma sound_put c fs n d v : sound_fields c fs -> find_desc c n = Some d -> sound_v d v -> sound_fields c (put fs n v).
Proof.
  revert fs. induction c as [|m d0 r IH]; intros fs HS HD HV; destruct fs as [|m' w q]; try (destruct HS; fail); [discriminate|]. destruct HS as [-> [S1 S2]]. cbn in *.
  destruct (String.eqb m' n); cbn; [injection HD as ->; auto|]. split; [reflexivity|]. split; [exact S1|]. now apply IH.
Qed.
Lemma ask_path_ok q p : forall c i, sound c i -> let '(a, i') := at_path p ARaise (ask q) c i in
  a = match reach p c (data i) with Some (k, u) => truth q k u | None => ARaise end /\ data i' = data i /\ sound c i'.
Proof.
  induction p as [|n p IH]; intros c i H; cbn [at_path reach]; [apply ask_ok; exact H|]. destruct i as [fs cs cd ct]. cbn [data]. rewrite find_data.
  destruct (find_desc c n) as [[|k ish]|] eqn:ED; [now split|destruct (find_live fs n) as [[a|j]|] eqn:EL; cbn [option_map data_v]; [now split| |now split]|now split].
  destruct H as [HC HF]. assert (Sj : sound k j).
  { pose proof (sound_find c fs n _ _ HF ED EL) as K. destruct j. exact K. }
  specialize (IH k j Sj). destruct (at_path p ARaise (ask q) k j) as [a j']. destruct IH as [-> [Ed Sj']]. split; [reflexivity|].
  assert (EP : data_fields (put fs n (LObj j')) = data_fields fs).
  { rewrite put_data. cbn [data_v]. rewrite Ed. apply set_id. now rewrite find_data, EL. }
  cbn [data sound]. rewrite EP. split; [reflexivity|]. split; [exact HC|]. apply (sound_put c fs n (Nest k ish)); auto.
Qed.

(** *** which instances have no caches *)
Definition below (n : string) (A : list (list string)) : list (list string) :=
  flat_map (fun q => match q with [] => [[]] | m :: q' => if String.eqb m n then [q'] else [] end) A.
Fixpoint cold_v (A : list (list string)) (v : live) : Prop := match v with LArr _ => True | LObj i => cold A i end
with cold (A : list (list string)) (i : linst) : Prop :=
  match i with Inst fs cs cd ct => (~ In [] A -> cs = None /\ cd = None /\ ct = None) /\ cold_fields A fs end
with cold_fields (A : list (list string)) (fs : lfields) : Prop :=
  match fs with LNil => True | LCons n v r => cold_v (below n A) v /\ cold_fields A r end.
Scheme live_mut := Induction for live Sort Prop with linst_mut := Induction for linst Sort Prop with lfields_mut := Induction for lfields Sort Prop.
Combined Scheme live_all_ind from live_mut, linst_mut, lfields_mut.
Lemma in_below n A q : In q (below n A) <-> (q = [] /\ In [] A) \/ In (n :: q) A.
Proof.
  unfold below. rewrite in_flat_map. split.
  - intros [[|m r] [HI HQ]]; [left; destruct HQ as [<-|[]]; auto|]. destruct (String.eqb_spec m n) as [->|]; [|destruct HQ]. destruct HQ as [<-|[]]. auto.
  - intros [[-> H]|H]; [exists []; cbn; auto|]. exists (n :: q). split; [exact H|]. rewrite String.eqb_refl. cbn. auto.
Qed.
Lemma cold_mono : (forall v A B, incl A B -> cold_v A v -> cold_v B v) /\ (forall i A B, incl A B -> cold A i -> cold B i) /\ (forall fs A B, incl A B -> cold_fields A fs -> cold_fields B fs).
Proof.
  apply live_all_ind; cbn [cold_v cold cold_fields]; intros.
  - exact I.
  - eapply H; eauto.
  - destruct H1 as [H1 H2]. split; [intros HB; apply H1; auto|eapply H; eauto].
  - exact I.
  - destruct H2 as [H2 H3]. split; [|eapply H0; eauto]. eapply H; [|exact H2]. intros q. rewrite !in_below. intros [[-> K]|K]; auto.
Qed.
Lemma cold_root : (forall v A, In [] A -> cold_v A v) /\ (forall i A, In [] A -> cold A i) /\ (forall fs A, In [] A -> cold_fields A fs).
Proof.
  apply live_all_ind; cbn [cold_v cold cold_fields]; intros.
  - exact I.
  - auto.
  - split; [tauto|auto].
  - exact I.
  - split; [apply H; rewrite in_below; auto|auto].
Qed.
Lemma cold_live : (forall v A, cold_v A (live_v v)) /\ (forall o A, cold_fields A (live_fields o)).
Proof. apply value_obj_ind; cbn [live_v live_fields cold_v cold cold_fields]; intros; auto. Qed.
Lemma cold_find A fs n v : cold_fields A fs -> find_live fs n = Some v -> cold_v (below n A) v.
Proof. induction fs as [|m w r IH]; cbn; [discriminate|]. intros [H1 H2] H. destruct (String.eqb_spec m n) as [->|]; [congruence|auto]. Qed.
Lemma cold_put A fs n v : cold_fields A fs -> cold_v (below n A) v -> cold_fields A (put fs n v).
Proof. induction fs as [|m w r IH]; cbn; [auto|]. intros [H1 H2] H. destruct (String.eqb_spec m n) as [->|]; cbn; auto. Qed.
Lemma below_cons n q A : incl (q :: below n A) (below n ((n :: q) :: A)).
Proof. intros r [<-|H]; rewrite in_below; cbn; [auto|]. apply in_below in H. tauto. Qed.
Lemma ask_path_cold q p : forall c i A, cold A i -> cold (p :: A) (snd (at_path p ARaise (ask q) c i)).
Proof.
  induction p as [|n p IH]; intros c i A H; [apply cold_root; cbn; auto|]. assert (H' : cold ((n :: p) :: A) i) by (apply (proj1 (proj2 cold_mono) i A); [apply incl_tl, incl_refl|exact H]).
  cbn [at_path]. destruct i as [fs cs cd ct]. destruct (find_desc c n) as [[|k ish]|]; [exact H'| |exact H']. destruct (find_live fs n) as [[a|j]|] eqn:EL; [exact H'| |exact H'].
  destruct H as [HA HF]. specialize (IH k j (below n A) (cold_find A fs n _ HF EL)). destruct (at_path p ARaise (ask q) k j) as [a j']. cbn [snd] in *.
  destruct H' as [HA' HF']. split; [exact HA'|]. apply cold_put; [exact HF'|]. cbn [cold_v]. apply (proj1 (proj2 cold_mono) _ _ _ (below_cons n p A)). exact IH.
Qed.
Lemma below_prefix n p A : (forall q, In q A -> prefix q (n :: p) = false) -> forall q, In q (below n A) -> prefix q p = false.
Proof.
  intros H q HQ. apply in_below in HQ. destruct HQ as [[-> HQ]|HQ]; [specialize (H [] HQ); discriminate|]. specialize (H (n :: q) HQ). cbn in H. now rewrite String.eqb_refl in H.
Qed.
Lemma assign_path_ok p n v : forall c i A, sound c i -> cold A i -> (forall q, In q A -> prefix q p = false) -> value_ok c (data i) p n v ->
  let i' := snd (at_path p tt (fun _ j => (tt, assign n v j)) c i) in data i' = assign_at p n v (data i) /\ sound c i' /\ cold A i'.
Proof.
  induction p as [|m p IH]; intros c i A HS HA HP HV; destruct i as [fs cs cd ct]; destruct HS as [HC HF]; destruct HA as [HA1 HA2].
  all: assert (HN : ~ In [] A) by (intros K; specialize (HP [] K); discriminate); destruct (HA1 HN) as [-> [-> ->]].
  - cbn [at_path snd assign data assign_at]. rewrite put_data. rewrite (proj1 live_data). split; [reflexivity|].
    destruct HV as [k [u [d [E1 [E2 E3]]]]]. cbn in E1. injection E1 as <- <-. split.
    + split; [apply no_caches|]. apply (sound_put c fs n d); auto. now apply live_sound.
    + split; [auto|]. apply cold_put; [exact HA2|]. apply cold_live.
  - destruct HV as [k [u [d [E1 [E2 E3]]]]]. cbn [reach data] in E1. rewrite find_data in E1. cbn [at_path data assign_at]. rewrite find_data.
    destruct (find_desc c m) as [[|k0 ish]|] eqn:ED; [discriminate| |discriminate]. destruct (find_live fs m) as [[a|j]|] eqn:EL; [discriminate| |discriminate]. cbn [option_map data_v] in *.
    assert (Sj : sound k0 j) by (pose proof (sound_find c fs m _ _ HF ED EL) as K; destruct j; exact K).
    assert (VJ : value_ok k0 (data j) p n v) by (exists k, u, d; auto).
    specialize (IH k0 j (below m A) Sj (cold_find A fs m _ HA2 EL) (below_prefix m p A HP) VJ). cbv zeta in IH.
    destruct (at_path p tt (fun _ j => (tt, assign n v j)) k0 j) as [x j']. cbn [snd] in *. destruct IH as [I1 [I2 I3]]. split; [|split].
    + cbn [data]. rewrite put_data. cbn [data_v]. now rewrite I1.
    + split; [apply no_caches|]. apply (sound_put c fs m (Nest k0 ish)); auto.
    + split; [auto|]. now apply cold_put.
Qed.

Lemma run_ok c : forall h i A, sound c i -> cold A i -> kinds_ok c (data i) h -> careful A h -> fst (run c i h) = spec_run c (data i) h.
Proof.
  induction h as [|s h IH]; intros i A HS HA HK HC; [reflexivity|]. cbn [run spec_run]. destruct HK as [HV HK].
  assert (K : forall a i' A', do_step c i s = (a, i') -> fst (spec_step c (data i) s) = a -> data i' = snd (spec_step c (data i) s) -> sound c i' -> cold A' i' -> careful A' h ->
    fst (let '(a, i') := do_step c i s in let '(b, i'') := run c i' h in (a ++ b, i'')) = (let '(a, o') := spec_step c (data i) s in a ++ spec_run c o' h)).
  { intros a i' A' E E1 E2 E3 E4 E5. rewrite E. destruct (spec_step c (data i) s) as [a0 o']. cbn [fst snd] in *. subst a0 o'. specialize (IH i' A' E3 E4 HK E5).
    destruct (run c i' h) as [b i'']. cbn [fst] in *. now rewrite IH. }
  destruct s as [p q|p n v|n v| |]; cbn [do_step spec_step careful fst snd] in *.
  - pose proof (ask_path_ok q p c i HS) as K1. pose proof (ask_path_cold q p c i A HA) as K2. destruct (at_path p ARaise (ask q) c i) as [a i']. destruct K1 as [-> [E S]]. cbn [snd] in K2.
    apply (K _ _ (p :: A) eq_refl); auto.
  - destruct HC as [HP HC]. pose proof (assign_path_ok p n v c i A HS HA HP HV) as K1. cbv zeta in K1. destruct K1 as [E [S C]]. apply (K _ _ A eq_refl); auto.
  - assert (R : data (replace n v i) = set_field (data i) n v /\ sound c (replace n v i) /\ cold A (replace n v i)).
    { destruct i as [fs cs cd ct]. cbn [replace data]. rewrite put_data, (proj1 live_data). split; [reflexivity|]. destruct HV as [k [u [d [E1 [E2 E3]]]]]. cbn in E1. injection E1 as <- <-.
      destruct HS as [_ HF]. destruct HA as [_ HA]. split.
      - split; [apply no_caches|]. apply (sound_put c fs n d); auto. now apply live_sound.
      - split; [auto|]. apply cold_put; [exact HA|]. apply cold_live. }
    destruct R as [R1 [R2 R3]]. apply (K _ _ A eq_refl); auto.
  - assert (R : data (rebuild i) = data i /\ sound c (rebuild i) /\ cold [] (rebuild i)).
    { unfold rebuild, make. cbn [data]. split; [apply live_data|]. split.
      - split; [apply no_caches|]. apply live_sound. destruct i as [fs cs cd ct]. destruct HS as [_ HF]. now apply sound_kind.
      - split; [auto|]. apply cold_live. }
    destruct R as [R1 [R2 R3]]. apply (K _ _ [] eq_refl); auto.
  - assert (R : copy i = i) by (destruct i; reflexivity). rewrite R in *. apply (K _ _ A eq_refl); auto.
Qed.

(** ** C82: histories *)
(** every answer is the one for the data at that moment, provided nothing is assigned inside
    an instance that has been asked since it was last rebuilt *)
Theorem C82_history : forall c o h, kind c o -> kinds_ok c o h -> careful [] h -> fst (run c (make o) h) = spec_run c o h.
Proof.
  intros c o h HK HO HC. pose proof (run_ok c h (make o) []) as R. unfold make in *. cbn [data] in R. rewrite (proj2 live_data o) in R. apply R; auto.
  - split; [apply no_caches|]. now apply live_sound.
  - split; [auto|]. apply cold_live.
Qed.
(** in particular with [replace], tree operations and copies in the place of assignment: no condition *)
Definition no_assign (s : step) : Prop := match s with Assign _ _ _ => False | _ => True end.
Theorem C82_replace_is_safe : forall c o h, kind c o -> kinds_ok c o h -> Forall no_assign h -> fst (run c (make o) h) = spec_run c o h.
Proof.
  intros c o h HK HO HN. apply C82_history; auto. generalize (@nil (list string)). clear - HN.
  induction HN as [|s h H HN IH]; intros A; [exact I|]. destruct s; cbn; auto. destruct H.
Qed.

(** ** Refutations: each of the three caches goes stale, also through a nested instance *)
Local Open Scope string_scope.
Definition U8 := DUInt 8.
Definition kid : class := CCons "u" (Prim U8 [] None false 0%Z) CNil.
Definition cls2 : class := CCons "x" (Prim U8 [] None false 0%Z) (CCons "kid" (Nest kid []) CNil).
Definition obj2 : obj := OCons "x" (VArr (full U8 [2] 0%Z)) (OCons "kid" (VObj (OCons "u" (VArr (full U8 [2] 0%Z)) ONil)) ONil).
Definition U16 := DUInt 16.
(** what each question says after [x.kid.u] has been given another array (dtype and shape) *)
Definition stale (q : query) : list step := [Ask [] q; Assign ["kid"] "u" (VArr (full U16 [3; 3] 0%Z)); Ask [] q].
Theorem C82_stale_refuted : kind cls2 obj2 /\ forall q, kinds_ok cls2 obj2 (stale q) /\
  (exists a, fst (run cls2 (make obj2) (stale q)) = [a; a]) /\ fst (run cls2 (make obj2) (stale q)) <> spec_run cls2 obj2 (stale q).
Proof.
  split; [cbn; tauto|]. intros q. split; [|split].
  - cbn [kinds_ok stale]. split; [exact I|]. split; [|split; exact I]. exists kid. eexists. eexists. split; [reflexivity|]. split; [reflexivity|]. exact I.
  - destruct q; eexists; reflexivity.
  - destruct q; cbn; discriminate.
Qed.
(** a copy made by copy.copy or pickle inherits the caches, and with them the stale answer;
    rebuilding through jax.tree_util cures it *)
Theorem C82_copy_carries_rebuild_cures : forall q,
  fst (run cls2 (make obj2) ([Ask [] q; Copy; Assign ["kid"] "u" (VArr (full U16 [3; 3] 0%Z)); Ask [] q])) = fst (run cls2 (make obj2) (stale q)) /\
  fst (run cls2 (make obj2) ([Ask [] q; Assign ["kid"] "u" (VArr (full U16 [3; 3] 0%Z)); Rebuild; Ask [] q])) = spec_run cls2 obj2 (stale q).
Proof. intros q. destruct q; split; reflexivity. Qed.
(** the length of an instance whose field was reassigned before any question is right; a careful history with all kinds of steps *)
Definition careful_example : list step :=
  [Assign ["kid"] "u" (VArr (full U16 [7] 0%Z)); Ask ["kid"] QLen; Assign [] "x" (VArr (full U8 [7] 0%Z)); Ask [] QShape; Ask [] QDtype;
   Replace "x" (VArr (full U8 [3] 0%Z)); Ask [] QStype; Rebuild; Assign ["kid"] "u" (VArr (full U8 [3] 0%Z)); Copy; Ask [] QBatch; Ask ["kid"] QNdim; Ask ["no"] QLen].
Example C82_example : kind cls2 obj2 /\ kinds_ok cls2 obj2 careful_example /\ careful [] careful_example /\
  spec_run cls2 obj2 careful_example =
   [ANum 7; AShape (SNode (Batch [7]) (SCons "x" (SLeaf []) (SCons "kid" (SNode (Batch []) (SCons "u" (SLeaf []) SNil)) SNil)));
    ADtype (DNode (DCons "x" (DLeaf U8) (DCons "kid" (DNode (DCons "u" (DLeaf U16) DNil)) DNil)));
    AStype UNSTRUCTURED; ABatch (Batch [3]); ANum 1; ARaise].
Proof.
  split; [cbn; tauto|]. split; [|split; [|reflexivity]].
  - unfold careful_example. cbn [kinds_ok]. repeat match goal with |- _ /\ _ => split | |- True => exact I end.
    all: do 3 eexists; (split; [reflexivity|]); (split; [reflexivity|]); exact I.
  - cbn. repeat match goal with |- _ /\ _ => split | |- True => exact I end; intros q HQ; repeat (destruct HQ as [<-|HQ]; [reflexivity|]); destruct HQ.
Qed.
Print Assumptions C82_history.
