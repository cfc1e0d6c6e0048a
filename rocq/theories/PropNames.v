(** C69: which class declarations work.

    Every field of a decorated class can be assigned and read, and every attribute the
    library documents can be used on its instances, for all field names outside an
    explicit list; the theorems say precisely what happens for the names on the list, what
    happens to methods the user defines, and what happens to classes that inherit from a
    decorated class. *)
From Coq Require Import List String Ascii Bool Arith Lia.
From Verif Require Import NameModel.
Import ListNotations.
Open Scope string_scope.

(** ** Specification *)

(** names as they appear in the documentation *)
Definition always_properties : list string :=
  ["shape"; "dtype"; "structured_type"; "batch_shape"; "ndim"; "at"; "bytes"; "uint32ed"].
Definition always_methods : list string :=
  ["from_tuple"; "to_tuple"; "replace"; "default"; "default_shape"; "default_dtype"; "random";
   "str"; "hash"; "hash_with_uint32ed"; "hash_pair"; "hash_pair_with_uint32ed"; "save"; "load";
   "check_invariants"; "is_xtructed"].
Definition batch_methods : list string :=
  ["reshape"; "flatten"; "transpose"; "swapaxes"; "moveaxis"; "squeeze"; "expand_dims";
   "broadcast_to"; "roll"; "flip"; "rot90"; "astype"; "vstack"; "hstack"; "dstack";
   "column_stack"; "block"; "pad"; "equal"; "not_equal"; "isclose"; "allclose"].

(** the fields as declared *)
Definition declared_names (ann : list (string * option fd)) : list string := map fst ann.
Definition some_packed (ann : list (string * option fd)) (f : string) : Prop :=
  exists d, In (f, Some d) ann /\ fd_packed d = true.

(** does the class get aggregate packing? *)
Definition forced (cf : config) : Prop := c_agg cf = true \/ c_mode cf = Maggregate.
Definition bits_everywhere (ann : list (string * option fd)) : Prop :=
  forall f d, In (f, Some d) ann -> fd_bits d = true.
Definition has_aggregate (cf : config) (ann : list (string * option fd)) : Prop :=
  forced cf \/ (c_mode cf = Mauto /\ ann <> [] /\ bits_everywhere ann).
Definition has_accessors (cf : config) (ann : list (string * option fd)) : Prop :=
  c_mode cf <> Moff /\ exists f, some_packed ann f.

(** the names the library claims on a class with these fields *)
Definition property_name (cf : config) (ann : list (string * option fd)) (k : string) : Prop :=
  In k always_properties
  \/ (k = "packed" /\ has_aggregate cf ann)
  \/ (c_mode cf <> Moff /\ k <> "set_unpacked" /\ k <> "from_unpacked"
      /\ exists f, some_packed ann f /\ k = f ++ "_unpacked").
Definition method_name (cf : config) (ann : list (string * option fd)) (k : string) : Prop :=
  In k always_methods
  \/ (In k ["Packed"; "bitpack_schema"] /\ has_aggregate cf ann)
  \/ (In k ["set_unpacked"; "from_unpacked"] /\ has_accessors cf ann).

(** a class written on its own: distinct field names, all annotated with descriptors, no
    class-level values for fields; the user's own attributes [u] are methods, plain values
    or properties with ordinary names *)
Definition plain (k : string) : Prop := starts_under k = false.
Record fresh (ann : list (string * option fd)) (u : ns) : Prop := {
  fr_nodup : NoDup (declared_names ann);
  fr_names : ~ In "" (declared_names ann);
  fr_desc : forall f o, In (f, o) ann -> o <> None;
  fr_user : forall k a, In (k, a) u ->
      plain k /\ ~ In k (declared_names ann)
      /\ exists n, a = AFun (User n) \/ a = AProp (User n) }.

(** ** Lemmas on look-up *)

Lemma mem_In k l : mem k l = true <-> In k l.
Proof.
  unfold mem. rewrite existsb_exists. split.
  - intros (x & Hx & E). apply String.eqb_eq in E. subst. exact Hx.
  - intros H. exists k. split; [exact H|apply String.eqb_refl].
Qed.
Lemma mem_false k l : mem k l = false <-> ~ In k l.
Proof. rewrite <- mem_In. destruct (mem k l); split; intros; try congruence; tauto. Qed.

Lemma assoc_app {A} k (l r : list (string * A)) :
  assoc k (app l r) = match assoc k l with Some a => Some a | None => assoc k r end.
Proof.
  induction l as [|(k', a) l IH]; [reflexivity|]. cbn [app assoc].
  destruct (k =? k'); [reflexivity|apply IH].
Qed.
Lemma assoc_None {A} k (l : list (string * A)) : assoc k l = None <-> ~ In k (map fst l).
Proof.
  induction l as [|(k', a) l IH]; cbn [assoc map fst In]; [tauto|].
  destruct (k =? k') eqn:E.
  - apply String.eqb_eq in E. split; [discriminate|intros H; exfalso; apply H; auto].
  - apply String.eqb_neq in E. rewrite IH. split; intros H; [intros [C|C]; auto|tauto].
Qed.
Lemma assoc_Some_In {A} k (l : list (string * A)) a : assoc k l = Some a -> In (k, a) l.
Proof.
  induction l as [|(k', a') l IH]; [discriminate|]. cbn [assoc].
  destruct (k =? k') eqn:E; [|right; auto].
  apply String.eqb_eq in E. intros H. injection H as ->. subst. left. reflexivity.
Qed.
Lemma assoc_all {A} k (l : list (string * A)) a :
  (forall k' a', In (k', a') l -> a' = a) ->
  assoc k l = if mem k (map fst l) then Some a else None.
Proof.
  intros H. induction l as [|(k', a') l IH]; [reflexivity|].
  cbn [assoc map fst mem existsb]. destruct (k =? k') eqn:E.
  - cbn [orb]. f_equal. apply (H k' a'). left. reflexivity.
  - cbn [orb]. apply IH. intros k2 a2 H2. apply (H k2 a2). right. exact H2.
Qed.

Lemma setall_cons c l : c <> [] -> setall c l <> [].
Proof.
  revert c. unfold setall. induction l as [|a l IH]; intros c H; [exact H|].
  cbn [fold_left]. apply IH. destruct c; [contradiction|discriminate].
Qed.
Lemma look_setattr c k a k' : c <> [] ->
  look (setattr c (k, a)) k' = if k' =? k then Some a else look c k'.
Proof.
  destruct c as [|n r]; [contradiction|]. intros _. cbn [setattr look assoc].
  destruct (k' =? k); reflexivity.
Qed.
Lemma look_setall c l k : c <> [] ->
  look (setall c l) k = match assoc k (rev l) with Some a => Some a | None => look c k end.
Proof.
  revert c. unfold setall. induction l as [|(k', a) l IH]; intros c H; [reflexivity|].
  cbn [fold_left]. rewrite IH by (destruct c; [contradiction|discriminate]).
  rewrite look_setattr by exact H. cbn [rev]. rewrite assoc_app.
  destruct (assoc k (rev l)); [reflexivity|]. cbn [assoc].
  destruct (k =? k'); reflexivity.
Qed.
Lemma look_registry_gen l c k : c <> [] ->
  look (fold_left (fun c k => if has c k then c else setattr c (fn k)) l c) k
  = match look c k with
    | Some a => Some a | None => if mem k l then Some (AFun Lib) else None end.
Proof.
  revert c. induction l as [|k' l IH]; intros c H.
  - cbn. destruct (look c k); reflexivity.
  - cbn [fold_left]. unfold has. cbn [mem existsb]. destruct (look c k') eqn:E.
    + rewrite IH by exact H. destruct (look c k) eqn:E2; [reflexivity|].
      destruct (k =? k') eqn:E3; [|reflexivity].
      apply String.eqb_eq in E3. subst. congruence.
    + rewrite IH by (destruct c; [contradiction|discriminate]).
      unfold fn. rewrite look_setattr by exact H.
      destruct (k =? k') eqn:E3; [|destruct (look c k); reflexivity].
      apply String.eqb_eq in E3. subst. rewrite E. reflexivity.
Qed.
Lemma look_registry c k : c <> [] ->
  look (add_registry c) k
  = match look c k with
    | Some a => Some a | None => if mem k registry then Some (AFun Lib) else None end.
Proof. apply look_registry_gen. Qed.
Lemma registry_cons_gen l c : c <> [] ->
  fold_left (fun c k => if has c k then c else setattr c (fn k)) l c <> [].
Proof.
  revert c. induction l as [|k l IH]; intros c H; [exact H|]. cbn [fold_left].
  apply IH. destruct (has c k); [exact H|]. destruct c; [contradiction|discriminate].
Qed.

(** everything set unconditionally before the registry, latest first *)
Definition pre_sets (m : mode) (d : list (string * fd)) : list (string * attr) :=
  app base_sets (app (fn "default" :: shape_sets)
    (app (if aggregated m d then agg_sets else [])
      (app (if accessors m then acc_sets d else []) late_sets))).

Record decorated_as (cf : config) (ann : list (string * option fd)) (c c' : cls)
    (m : mode) (d : list (string * fd)) : Prop := {
  da_mode : effective cf = OK m;
  da_order : order_ok false (merge_fields c (map fst ann)) = true;
  da_reserved : forall f, In f (map fst (merge_fields c (map fst ann))) -> ~ In f reserved;
  da_tuple : namedtuple_ok ("batch" :: map fst d) = true;
  da_bits : m = Maggregate -> all_bits d = true;
  da_descs : match look c DESCS with
             | Some (ADescs d') => d = d'
             | _ => all_some ann = true /\ d = somes ann end;
  da_fields : look c' FIELDS = Some (AFields (merge_fields c (map fst ann)));
  da_look_descs : look c' DESCS = Some (ADescs d);
  da_init : look c' INIT = Some (ACtor (c_validate cf));
  da_look : forall k, plain k ->
     look c' k = if mem k ["check_invariants"; "is_xtructed"] then Some (AFun Lib)
                 else match assoc k (rev (pre_sets m d)) with
                      | Some a => Some a
                      | None => match look c k with
                                | Some a => Some a
                                | None => if mem k registry then Some (AFun Lib) else None
                                end
                      end }.

Lemma plain_neq k k' : plain k -> starts_under k' = true -> (k =? k') = false.
Proof.
  intros H H'. apply String.eqb_neq. intros ->. unfold plain in H. congruence.
Qed.

Lemma assoc_acc m d k :
  assoc k (rev (if accessors m then acc_sets d else []))
  = if accessors m then
      match packed_names d with
      | [] => None
      | ps => if mem k ["from_unpacked"; "set_unpacked"] then Some (AFun Lib)
              else if mem k (map (fun f => f ++ "_unpacked") ps) then Some (AProp Lib) else None
      end
    else None.
Proof.
  destruct (accessors m); [|reflexivity]. unfold acc_sets.
  destruct (packed_names d) as [|p ps]; [reflexivity|].
  rewrite rev_app_distr. rewrite assoc_app. cbn [rev app assoc fn mem existsb].
  destruct (k =? "from_unpacked"); [reflexivity|]. cbn [orb].
  destruct (k =? "set_unpacked"); [reflexivity|]. cbn [orb].
  rewrite (assoc_all k _ (AProp Lib)).
  - rewrite map_rev, map_map. cbn [pr fst].
    assert (E : mem k (rev (map (fun x => x ++ "_unpacked") (p :: ps)))
                = mem k (map (fun x => x ++ "_unpacked") (p :: ps))).
    { apply Bool.eq_true_iff_eq. rewrite !mem_In. rewrite <- in_rev. reflexivity. }
    rewrite E. reflexivity.
  - intros k' a' H. apply in_rev in H. apply in_map_iff in H.
    destruct H as (f & E & _). injection E as _ <-. reflexivity.
Qed.

Lemma acc_under m d k : In k [FIELDS; DESCS; INIT] -> (forall f, In f (packed_names d) -> plain f) ->
  assoc k (rev (if accessors m then acc_sets d else [])) = None.
Proof.
  intros Hk Hp. rewrite assoc_acc. destruct (accessors m); [|reflexivity].
  destruct (packed_names d) as [|p ps] eqn:E; [reflexivity|].
  assert (H1 : mem k ["from_unpacked"; "set_unpacked"] = false).
  { apply mem_false. intros [<-|[<-|[]]];
      destruct Hk as [H|[H|[H|[]]]]; discriminate H. }
  rewrite H1.
  assert (H2 : mem k (map (fun f => f ++ "_unpacked") (p :: ps)) = false).
  { apply mem_false. rewrite in_map_iff. intros (f & Ef & Hf).
    specialize (Hp f Hf). unfold plain in Hp. destruct f as [|a f].
    - subst k. destruct Hk as [H|[H|[H|[]]]]; discriminate H.
    - cbn in Hp. subst k.
      destruct Hk as [H|[H|[H|[]]]]; cbn in H; injection H as <- _; discriminate Hp. }
  rewrite H2. reflexivity.
Qed.

Lemma packed_names_in d f : In f (packed_names d) -> In f (map fst d).
Proof.
  unfold packed_names. rewrite !in_map_iff. intros (x & Hx & Hi).
  apply filter_In in Hi. exists x. tauto.
Qed.
Lemma namedtuple_plain l f : namedtuple_ok l = true -> In f l -> plain f.
Proof.
  unfold namedtuple_ok. rewrite andb_true_iff, forallb_forall. intros [H _] Hf.
  specialize (H f Hf). unfold plain. destruct (starts_under f); [discriminate|reflexivity].
Qed.

Lemma OK_inj {A} (a b : A) : OK a = OK b -> a = b.
Proof. intros H. injection H. auto. Qed.

Lemma decorate_inv cf ann c c' : c <> [] -> decorate cf ann c = OK c' ->
  exists m d, decorated_as cf ann c c' m d.
Proof.
  intros Hc. unfold decorate. destruct (effective cf) as [m|e] eqn:Em; [|discriminate].
  cbv zeta. destruct (order_ok false (merge_fields c (map fst ann))) eqn:Eo; [|discriminate].
  cbn [negb]. destruct (existsb _ _) eqn:Er; [discriminate|].
  set (fs := merge_fields c (map fst ann)) in *.
  set (c1 := setattr c (FIELDS, AFields fs)) in *.
  set (c2 := setall c1 base_sets).
  assert (H1 : c1 <> []) by (subst c1; destruct c; [contradiction|discriminate]).
  assert (H2 : c2 <> []) by (apply setall_cons; exact H1).
  assert (L2 : forall k, look c2 k = match assoc k (rev base_sets) with Some a => Some a
      | None => if k =? FIELDS then Some (AFields fs) else look c k end).
  { intros k. unfold c2. rewrite look_setall by exact H1. unfold c1.
    rewrite look_setattr by exact Hc. reflexivity. }
  destruct (get_descs ann c2) as [(c3, d)|e] eqn:Ed; [|discriminate].
  assert (D3 : (match look c DESCS with
             | Some (ADescs d') => d = d'
             | _ => all_some ann = true /\ d = somes ann end)
            /\ c3 <> [] /\ look c3 DESCS = Some (ADescs d)
            /\ forall k, k <> DESCS -> look c3 k = look c2 k).
  { unfold get_descs in Ed. rewrite (L2 DESCS) in Ed. cbn in Ed.
    assert (LD : look c2 DESCS = look c DESCS) by (rewrite L2; reflexivity).
    change "__xtructure_field_descriptors__" with DESCS in Ed.
    assert (Hcase : (exists d', look c DESCS = Some (ADescs d')) \/
       (match look c DESCS with Some (ADescs _) => False | _ => True end)).
    { destruct (look c DESCS) as [[]|]; eauto. }
    destruct Hcase as [[d' E']|E'].
    - rewrite E' in *. injection Ed as <- <-. repeat split; auto.
    - assert (Ed' : (if all_some ann then OK (setattr c2 (DESCS, ADescs (somes ann)), somes ann)
                     else @Err (cls * list (string * fd)) "ValueError") = OK (c3, d)).
      { destruct (look c DESCS) as [[]|]; try contradiction; exact Ed. }
      clear Ed. destruct (all_some ann) eqn:Ea; [|discriminate].
      injection Ed' as <- <-.
      split; [destruct (look c DESCS) as [[]|]; try contradiction; auto|].
      split; [destruct c2; [contradiction|discriminate]|].
      split; [rewrite look_setattr by exact H2; rewrite String.eqb_refl; reflexivity|].
      intros k Hk. rewrite look_setattr by exact H2.
      destruct (k =? DESCS) eqn:E; [apply String.eqb_eq in E; contradiction|reflexivity]. }
  destruct D3 as (Dd & H3 & L3d & L3).
  destruct (namedtuple_ok _) eqn:En; [|discriminate]. cbn [negb].
  set (bad := match m with Maggregate => negb (all_bits d) | _ => false end).
  destruct bad eqn:Eb; [discriminate|]. unfold bad in Eb.
  set (c4 := setall c3 (fn "default" :: shape_sets)).
  set (c5 := setall c4 (if aggregated m d then agg_sets else [])).
  set (c6 := setall c5 (if accessors m then acc_sets d else [])).
  set (c7 := setall c6 late_sets).
  set (c8 := add_registry c7).
  assert (H4 : c4 <> []) by (apply setall_cons; exact H3).
  assert (H5 : c5 <> []) by (apply setall_cons; exact H4).
  assert (H6 : c6 <> []) by (apply setall_cons; exact H5).
  assert (H7 : c7 <> []) by (apply setall_cons; exact H6).
  assert (H8 : c8 <> []) by (apply registry_cons_gen; exact H7).
  intros Hfin. apply OK_inj in Hfin. subst c'. exists m, d.
  assert (Hpp : forall f, In f (packed_names d) -> plain f).
  { intros f Hf. apply (namedtuple_plain _ f En). right. apply packed_names_in. exact Hf. }
  assert (LU : forall k, In k [FIELDS; DESCS; INIT] ->
    look (setall c8 (final_sets (c_validate cf))) k
    = if (k =? INIT) && c_validate cf then Some (ACtor true) else look c3 k).
  { intros k Hk. rewrite look_setall by exact H8. unfold c8. rewrite look_registry by exact H7.
    unfold c7. rewrite look_setall by exact H6. unfold c6. rewrite look_setall by exact H5.
    rewrite (acc_under m d k Hk Hpp).
    unfold c5. rewrite look_setall by exact H4. unfold c4. rewrite look_setall by exact H3.
    destruct Hk as [<-|[<-|[<-|[]]]];
      destruct (c_validate cf); destruct (aggregated m d); cbn;
      try reflexivity;
      match goal with |- context [look ?a ?b] => destruct (look a b); reflexivity end. }
  constructor.
  - exact Em.
  - exact Eo.
  - intros f Hf Hr. fold fs in Hf.
    assert (C : existsb (fun f => mem f reserved) (map fst fs) = true).
    { apply existsb_exists. exists f. split; [exact Hf|apply mem_In; exact Hr]. }
    congruence.
  - exact En.
  - intros ->. destruct (all_bits d); [reflexivity|discriminate].
  - exact Dd.
  - rewrite LU by (left; reflexivity). cbn. rewrite L3 by discriminate. rewrite L2. reflexivity.
  - rewrite LU by (right; left; reflexivity). cbn. exact L3d.
  - rewrite LU by (right; right; left; reflexivity). rewrite String.eqb_refl.
    destruct (c_validate cf); [reflexivity|]. cbn. rewrite L3 by discriminate. rewrite L2. reflexivity.
  - intros k Hk. rewrite look_setall by exact H8. unfold c8. rewrite look_registry by exact H7.
    unfold c7. rewrite look_setall by exact H6. unfold c6. rewrite look_setall by exact H5.
    unfold c5. rewrite look_setall by exact H4. unfold c4. rewrite look_setall by exact H3.
    assert (KD : k <> DESCS) by (intros ->; discriminate Hk).
    assert (KF : (k =? FIELDS) = false) by (apply plain_neq; [exact Hk|reflexivity]).
    assert (KI : (k =? INIT) = false) by (apply plain_neq; [exact Hk|reflexivity]).
    rewrite L3 by exact KD. rewrite L2. rewrite KF.
    assert (Ef : assoc k (rev (final_sets (c_validate cf)))
                 = if mem k ["check_invariants"; "is_xtructed"] then Some (AFun Lib) else None).
    { unfold final_sets. destruct (c_validate cf); cbn [app rev assoc fn mem existsb];
        destruct (k =? "check_invariants"); destruct (k =? "is_xtructed"); cbn [orb];
        rewrite ?KI; reflexivity. }
    rewrite Ef. destruct (mem k ["check_invariants"; "is_xtructed"]); [reflexivity|].
    unfold pre_sets. rewrite !rev_app_distr. rewrite !assoc_app.
    repeat match goal with
      |- context [match assoc k ?l with _ => _ end] => destruct (assoc k l); [reflexivity|]
    end.
    reflexivity.
Qed.

(** ** The names set before the registry *)
Fixpoint ends (s : string) : bool :=
  match s with EmptyString => false | String _ r => (s =? "_unpacked") || ends r end.
Lemma ends_app f : ends (f ++ "_unpacked") = true.
Proof.
  induction f as [|a f IH]; [reflexivity|].
  change (String a f ++ "_unpacked") with (String a (f ++ "_unpacked")).
  cbn [ends]. rewrite IH. apply orb_true_r.
Qed.
Lemma ends_mem k ps : ends k = false -> mem k (map (fun f => f ++ "_unpacked") ps) = false.
Proof.
  intros H. apply mem_false. rewrite in_map_iff. intros (f & <- & _).
  rewrite ends_app in H. discriminate.
Qed.

Definition early_methods : list string :=
  ["from_tuple"; "to_tuple"; "replace"; "default"; "default_shape"; "default_dtype"; "random";
   "str"; "hash"; "hash_with_uint32ed"; "hash_pair"; "hash_pair_with_uint32ed"; "save"; "load"].
Definition propb (m : mode) (d : list (string * fd)) (k : string) : bool :=
  mem k always_properties || (aggregated m d && (k =? "packed"))
  || (accessors m && (negb (mem k ["set_unpacked"; "from_unpacked"])
                      && mem k (map (fun f => f ++ "_unpacked") (packed_names d)))).
Definition methb (m : mode) (d : list (string * fd)) (k : string) : bool :=
  mem k early_methods || (aggregated m d && mem k ["Packed"; "bitpack_schema"])
  || (accessors m && (nonempty (packed_names d) && mem k ["set_unpacked"; "from_unpacked"])).

Lemma pre_sets_look m d k : plain k ->
  assoc k (rev (pre_sets m d))
  = if propb m d k then Some (AProp Lib) else if methb m d k then Some (AFun Lib) else None.
Proof.
  intros Hk. unfold pre_sets. rewrite !rev_app_distr. rewrite !assoc_app.
  rewrite assoc_acc. unfold propb, methb.
  assert (HU : ends k = false -> mem k (map (fun f => f ++ "_unpacked") (packed_names d)) = false)
    by (apply ends_mem).
  set (U := mem k (map (fun f => f ++ "_unpacked") (packed_names d))) in *.
  assert (HA : (match packed_names d with
      | [] => None
      | ps => if mem k ["from_unpacked"; "set_unpacked"] then Some (AFun Lib)
              else if mem k (map (fun f => f ++ "_unpacked") ps) then Some (AProp Lib) else None
      end) = if nonempty (packed_names d) && mem k ["set_unpacked"; "from_unpacked"] then Some (AFun Lib)
             else if U && negb (mem k ["set_unpacked"; "from_unpacked"]) then Some (AProp Lib)
             else None).
  { unfold U. cbn [mem existsb]. destruct (packed_names d) as [|p ps]; [reflexivity|].
    fold (mem k (map (fun f => f ++ "_unpacked") (p :: ps))).
    cbn [nonempty]. destruct (k =? "from_unpacked"); destruct (k =? "set_unpacked"); cbn;
      try reflexivity; rewrite ?andb_false_r; try reflexivity.
    fold (mem k (map (fun f => f ++ "_unpacked") ps)).
    destruct (_ || _); reflexivity. }
  rewrite HA.
  assert (HN : nonempty (packed_names d) = false -> U = false).
  { unfold U. destruct (packed_names d); [reflexivity|discriminate]. }
  clear HA. clearbody U. set (P := nonempty (packed_names d)) in *. clearbody P.
  set (ag := aggregated m d) in *. clearbody ag.
  set (ac := accessors m) in *. clearbody ac. clear d m.
  assert (KU : forall n, starts_under n = true -> (k =? n) = false).
  { intros n Hn. apply plain_neq; assumption. }
  cbn [rev app base_sets shape_sets late_sets agg_sets assoc fn pr].
  rewrite (KU "__str__"), (KU "__eq__"), (KU "__ne__"), (KU "__getstate__"), (KU "__setstate__"),
    (KU INIT), (KU "__len__"), (KU "__xtructure_field_names__"),
    (KU "__xtructure_field_getter__"), (KU "__getitem__") by reflexivity.
  unfold always_properties, early_methods. cbn [mem existsb].
  assert (HAG : forall kk, assoc kk (rev (if ag then agg_sets else []))
     = if ag then (if kk =? "bitpack_schema" then Some (AFun Lib)
                   else if kk =? "packed" then Some (AProp Lib)
                   else if kk =? "Packed" then Some (AFun Lib) else None) else None).
  { intros kk. destruct ag; reflexivity. }
  rewrite HAG. clear HAG KU Hk.
  Ltac stepname k n :=
    destruct (k =? n) eqn:?;
    [match goal with E : (k =? n) = true |- _ => apply String.eqb_eq in E; subst k end;
     match goal with H : _ -> _ = false |- _ => rewrite (H eq_refl) in * end;
     repeat match goal with b : bool |- _ => destruct b end; cbn; try reflexivity
    |].
  stepname k "shape". stepname k "dtype". stepname k "structured_type". stepname k "batch_shape".
  stepname k "ndim". stepname k "at". stepname k "bytes". stepname k "uint32ed".
  stepname k "from_tuple". stepname k "to_tuple". stepname k "replace". stepname k "default".
  stepname k "default_shape". stepname k "default_dtype". stepname k "random". stepname k "str".
  stepname k "hash". stepname k "hash_with_uint32ed". stepname k "hash_pair".
  stepname k "hash_pair_with_uint32ed". stepname k "save". stepname k "load".
  cbn [orb].
  stepname k "bitpack_schema". stepname k "packed". stepname k "Packed".
  destruct (k =? "set_unpacked"); destruct (k =? "from_unpacked");
  destruct ag; destruct ac; destruct P; destruct U; cbn; try reflexivity;
  specialize (HN eq_refl); discriminate.
Qed.

(** ** From booleans to the specification *)
Lemma effective_iff cf :
  (exists m, effective cf = OK m) <->
  ~ (c_agg cf = true /\ (c_mode cf = Mfield \/ c_mode cf = Moff)).
Proof.
  unfold effective. destruct (c_agg cf); destruct (c_mode cf); split; intros H;
    try (eexists; reflexivity); try (destruct H; discriminate);
    try (intros [? [?|?]]; discriminate); exfalso; apply H; auto.
Qed.
Lemma in_somes ann f d : In (f, d) (somes ann) <-> In (f, Some d) (ann : list (string * option fd)).
Proof.
  unfold somes. rewrite in_flat_map. split.
  - intros ((f', o) & H & Hi). cbn [fst snd] in Hi. destruct o as [d'|]; [|contradiction].
    destruct Hi as [E|[]]. injection E as -> ->. exact H.
  - intros H. exists (f, Some d). split; [exact H|left; reflexivity].
Qed.
Lemma all_bits_iff ann : all_bits (somes ann) = true <-> bits_everywhere ann.
Proof.
  unfold all_bits, bits_everywhere. rewrite forallb_forall. split.
  - intros H f d Hi. apply (H (f, d)). apply in_somes. exact Hi.
  - intros H (f, d) Hi. apply in_somes in Hi. apply (H f d Hi).
Qed.
Lemma somes_names ann : (forall f o, In (f, o) ann -> o <> None) ->
  map fst (somes ann) = declared_names ann.
Proof.
  induction ann as [|(f, o) ann IH]; intros H; [reflexivity|].
  unfold declared_names in *. cbn [somes flat_map snd map fst].
  destruct o as [d|]; [|exfalso; apply (H f None); [left; reflexivity|reflexivity]].
  cbn [app map fst]. f_equal. apply IH. intros f' o' H'. apply (H f' o'). right. exact H'.
Qed.
Lemma all_some_iff {A} (ann : list (string * option A)) :
  all_some ann = true <-> forall f o, In (f, o) ann -> o <> None.
Proof.
  unfold all_some. rewrite forallb_forall. split.
  - intros H f o Hi. specialize (H (f, o) Hi). cbn in H. destruct o; [discriminate|discriminate].
  - intros H (f, o) Hi. specialize (H f o Hi). cbn. destruct o; [reflexivity|contradiction].
Qed.
Lemma somes_nonempty ann : (forall f o, In (f, o) ann -> o <> None) ->
  nonempty (somes ann) = true <-> (ann : list (string * option fd)) <> [].
Proof.
  intros H. destruct ann as [|(f, o) ann]; [cbn; split; [discriminate|contradiction]|].
  cbn. destruct o; [cbn; split; [discriminate|reflexivity]|].
  exfalso. apply (H f None); [left; reflexivity|reflexivity].
Qed.
Lemma aggregated_iff cf ann m : effective cf = OK m -> (forall f o, In (f, o) ann -> o <> None) ->
  aggregated m (somes ann) = true <-> has_aggregate cf ann.
Proof.
  intros E H. unfold has_aggregate, forced. unfold effective in E.
  destruct (c_agg cf); destruct (c_mode cf); try discriminate; injection E as <-;
    cbn [aggregated]; try (rewrite andb_true_iff, (somes_nonempty ann H), all_bits_iff);
    intuition discriminate.
Qed.
Lemma accessors_iff cf m : effective cf = OK m -> accessors m = true <-> c_mode cf <> Moff.
Proof.
  intros E. unfold effective in E.
  destruct (c_agg cf); destruct (c_mode cf); try discriminate; injection E as <-; cbn;
    intuition discriminate.
Qed.
Lemma in_packed ann f : In f (packed_names (somes ann)) <-> some_packed ann f.
Proof.
  unfold packed_names, some_packed. rewrite in_map_iff. split.
  - intros ((f', d) & <- & Hi). apply filter_In in Hi. destruct Hi as [Hi Hp].
    exists d. split; [apply in_somes; exact Hi|exact Hp].
  - intros (d & Hi & Hp). exists (f, d). split; [reflexivity|]. apply filter_In.
    split; [apply in_somes; exact Hi|exact Hp].
Qed.
Lemma propb_iff cf ann m k : effective cf = OK m -> (forall f o, In (f, o) ann -> o <> None) ->
  propb m (somes ann) k = true <-> property_name cf ann k.
Proof.
  intros E H. unfold propb, property_name. rewrite !orb_true_iff, !andb_true_iff.
  rewrite (aggregated_iff cf ann m E H), (accessors_iff cf m E), negb_true_iff, mem_false, !mem_In.
  rewrite String.eqb_eq, in_map_iff.
  assert (HP : (exists x, x ++ "_unpacked" = k /\ In x (packed_names (somes ann)))
    <-> (exists f, some_packed ann f /\ k = f ++ "_unpacked")).
  { split; intros (f & H1 & H2); exists f; [rewrite in_packed in H2|rewrite in_packed]; auto. }
  rewrite HP. cbn [In]. intuition.
Qed.
Lemma methb_iff cf ann m k : effective cf = OK m -> (forall f o, In (f, o) ann -> o <> None) ->
  methb m (somes ann) k || mem k ["check_invariants"; "is_xtructed"] = true
  <-> method_name cf ann k.
Proof.
  intros E H. unfold methb, method_name, has_accessors. rewrite !orb_true_iff, !andb_true_iff.
  rewrite (aggregated_iff cf ann m E H), (accessors_iff cf m E), !mem_In.
  assert (HN : nonempty (packed_names (somes ann)) = true <-> exists f, some_packed ann f).
  { split.
    - intros Hn. destruct (packed_names (somes ann)) as [|p ps] eqn:Ep; [discriminate|].
      exists p. apply in_packed. rewrite Ep. left. reflexivity.
    - intros (f & Hf). apply in_packed in Hf. destruct (packed_names _); [contradiction|reflexivity]. }
  rewrite HN.
  assert (HM : In k always_methods <-> In k early_methods \/ In k ["check_invariants"; "is_xtructed"]).
  { unfold always_methods, early_methods. cbn [In]. tauto. }
  rewrite HM. tauto.
Qed.

Lemma fields_fresh_gen u l acc :
  (forall k, In k l -> assoc k u = None) -> NoDup (app (map fst acc) l) ->
  fold_left (fun l k => put_field l k (has [u] k)) l acc = app acc (map (fun k => (k, false)) l).
Proof.
  revert acc. induction l as [|k l IH]; intros acc Hu Hn.
  - cbn. rewrite app_nil_r. reflexivity.
  - cbn [fold_left map].
    assert (Hh : has [u] k = false).
    { unfold has. cbn [look]. rewrite (Hu k) by (left; reflexivity). reflexivity. }
    rewrite Hh.
    assert (Hp : forall acc', ~ In k (map fst acc') -> put_field acc' k false = app acc' [(k, false)]).
    { induction acc' as [|(k', d') acc' IHa]; intros Ha; [reflexivity|]. cbn [put_field app].
      cbn [map fst In] in Ha. destruct (k =? k') eqn:Ek.
      - apply String.eqb_eq in Ek. subst. exfalso. auto.
      - rewrite IHa by tauto. reflexivity. }
    rewrite Hp.
    + rewrite IH.
      * rewrite <- app_assoc. reflexivity.
      * intros k' H'. apply Hu. right. exact H'.
      * rewrite map_app. cbn [map fst]. rewrite <- app_assoc. exact Hn.
    + apply NoDup_remove_2 in Hn. intros C. apply Hn. apply in_or_app. left. exact C.
Qed.

Lemma fresh_user_none ann u k : fresh ann u -> (starts_under k = true \/ In k (declared_names ann)) ->
  assoc k u = None.
Proof.
  intros F H. destruct (assoc k u) as [a|] eqn:E; [|reflexivity]. exfalso.
  apply assoc_Some_In in E. destruct (fr_user _ _ F k a E) as (Hp & Hn & _).
  unfold plain in Hp. destruct H as [H|H]; [congruence|contradiction].
Qed.
Lemma merge_fresh ann u : fresh ann u ->
  merge_fields [u] (map fst ann) = map (fun k => (k, false)) (declared_names ann).
Proof.
  intros F. unfold merge_fields, declared_names. cbn [tl]. unfold fields_of. cbn [look].
  rewrite fields_fresh_gen; [reflexivity| |].
  - intros k Hk. apply (fresh_user_none ann u k F). right. exact Hk.
  - exact (fr_nodup _ _ F).
Qed.
Lemma order_all_false l : order_ok false (map (fun k : string => (k, false)) l) = true.
Proof. induction l as [|k l IH]; [reflexivity|]. cbn. exact IH. Qed.

Lemma nodupb_iff l : nodupb l = true <-> NoDup l.
Proof.
  induction l as [|x l IH]; [split; [constructor|reflexivity]|].
  cbn [nodupb]. rewrite andb_true_iff, negb_true_iff, mem_false, IH.
  split; [intros []; constructor; assumption|intros H; inversion H; auto].
Qed.
Lemma namedtuple_iff l : namedtuple_ok l = true <-> (forall f, In f l -> plain f) /\ NoDup l.
Proof.
  unfold namedtuple_ok. rewrite andb_true_iff, forallb_forall, nodupb_iff. unfold plain.
  split; intros [H1 H2]; split; auto; intros f Hf; specialize (H1 f Hf);
    destruct (starts_under f); try discriminate; reflexivity.
Qed.

(** what [decorate] made of a fresh class *)
Lemma fresh_inv cf ann u c : fresh ann u -> decorate cf ann [u] = OK c ->
  exists m, effective cf = OK m
  /\ look c FIELDS = Some (AFields (map (fun k => (k, false)) (declared_names ann)))
  /\ look c DESCS = Some (ADescs (somes ann))
  /\ look c INIT = Some (ACtor (c_validate cf))
  /\ (forall f, In f (declared_names ann) -> plain f)
  /\ forall k, plain k ->
      look c k = if propb m (somes ann) k then Some (AProp Lib)
                 else if methb m (somes ann) k || mem k ["check_invariants"; "is_xtructed"]
                 then Some (AFun Lib)
                 else match assoc k u with
                      | Some a => Some a
                      | None => if mem k registry then Some (AFun Lib) else None
                      end.
Proof.
  intros F H. assert (Hc : [u] <> []) by discriminate.
  destruct (decorate_inv cf ann [u] c Hc H) as (m & d & D). exists m.
  assert (Ed : d = somes ann).
  { pose proof (da_descs _ _ _ _ _ _ D) as Hd. cbn [look] in Hd.
    rewrite (fresh_user_none ann u DESCS F) in Hd by (left; reflexivity). tauto. }
  subst d. split; [exact (da_mode _ _ _ _ _ _ D)|].
  split; [rewrite (da_fields _ _ _ _ _ _ D), (merge_fresh ann u F); reflexivity|].
  split; [exact (da_look_descs _ _ _ _ _ _ D)|]. split; [exact (da_init _ _ _ _ _ _ D)|].
  split.
  { intros f Hf. pose proof (da_tuple _ _ _ _ _ _ D) as Ht. apply (namedtuple_plain _ f Ht).
    right. rewrite (somes_names ann (fr_desc _ _ F)). exact Hf. }
  intros k Hk. rewrite (da_look _ _ _ _ _ _ D k Hk). rewrite (pre_sets_look m _ k Hk).
  destruct (mem k ["check_invariants"; "is_xtructed"]) eqn:Em.
  - rewrite orb_true_r. apply mem_In in Em.
    assert (Hp : propb m (somes ann) k = false).
    { unfold propb. assert (Hen : ends k = false)
        by (destruct Em as [<-|[<-|[]]]; reflexivity).
      rewrite (ends_mem k _ Hen). rewrite !andb_false_r.
      destruct Em as [<-|[<-|[]]]; cbn; rewrite andb_false_r; reflexivity. }
    rewrite Hp. reflexivity.
  - rewrite orb_false_r. destruct (propb m (somes ann) k); [reflexivity|].
    destruct (methb m (somes ann) k); [reflexivity|]. cbn [look].
    destruct (assoc k u); reflexivity.
Qed.

(** ** Theorems: a class on its own *)

(** The decorator accepts a class exactly when no field is called [from_tuple], [replace],
    [to_tuple] or [batch] or starts with an underscore, the packing options are
    compatible, and forced aggregate packing finds [bits] everywhere. *)
Theorem C69_decoration cf ann u : fresh ann u ->
  (exists c, decorate cf ann [u] = OK c) <->
  ~ (c_agg cf = true /\ (c_mode cf = Mfield \/ c_mode cf = Moff))
  /\ (forall f, In f (declared_names ann) ->
        plain f /\ ~ In f ["from_tuple"; "replace"; "to_tuple"; "batch"])
  /\ (forced cf -> bits_everywhere ann).
Proof.
  intros F. assert (Hc : [u] <> []) by discriminate. split.
  - intros (c & H). destruct (decorate_inv cf ann [u] c Hc H) as (m & d & D).
    assert (Ed : d = somes ann).
    { pose proof (da_descs _ _ _ _ _ _ D) as Hd. cbn [look] in Hd.
      rewrite (fresh_user_none ann u DESCS F) in Hd by (left; reflexivity). tauto. }
    subst d. split; [apply effective_iff; exists m; exact (da_mode _ _ _ _ _ _ D)|].
    pose proof (da_tuple _ _ _ _ _ _ D) as Ht.
    rewrite (somes_names ann (fr_desc _ _ F)) in Ht. apply namedtuple_iff in Ht.
    destruct Ht as [Ht1 Ht2]. split.
    + intros f Hf. split; [apply Ht1; right; exact Hf|].
      intros Hr.
      assert (Hm : In f (map fst (merge_fields [u] (map fst ann)))).
      { rewrite (merge_fresh ann u F). rewrite map_map. cbn [fst]. rewrite map_id. exact Hf. }
      pose proof (da_reserved _ _ _ _ _ _ D f Hm) as Hr2. unfold reserved in Hr2. cbn [In] in *.
      inversion Ht2 as [|x l Hx _]. subst. intuition. subst. contradiction.
    + intros Hf. apply all_bits_iff. apply (da_bits _ _ _ _ _ _ D).
      pose proof (da_mode _ _ _ _ _ _ D) as E. unfold effective in E.
      destruct Hf as [Hf|Hf]; rewrite Hf in E.
      * destruct (c_mode cf); try discriminate; congruence.
      * destruct (c_agg cf); congruence.
  - intros (H1 & H2 & H3). apply effective_iff in H1. destruct H1 as (m & Em).
    unfold decorate. rewrite Em. cbv zeta. rewrite (merge_fresh ann u F), order_all_false.
    cbn [negb].
    assert (Hr : existsb (fun f => mem f reserved)
       (map fst (map (fun k => (k, false)) (declared_names ann))) = false).
    { rewrite map_map. cbn [fst]. rewrite map_id. apply not_true_iff_false.
      rewrite existsb_exists. intros (f & Hf & Hm). apply mem_In in Hm.
      destruct (H2 f Hf) as [_ Hn]. apply Hn. unfold reserved in Hm. cbn [In] in *. tauto. }
    rewrite Hr. unfold get_descs.
    assert (HL : look (setall (setattr [u] (FIELDS,
        AFields (map (fun k : string => (k, false)) (declared_names ann)))) base_sets) DESCS = None).
    { rewrite look_setall by discriminate. rewrite look_setattr by discriminate.
      cbn [look]. rewrite (fresh_user_none ann u DESCS F) by (left; reflexivity). reflexivity. }
    rewrite HL. rewrite (proj2 (all_some_iff ann) (fr_desc _ _ F)).
    rewrite (somes_names ann (fr_desc _ _ F)).
    assert (Hn : namedtuple_ok ("batch" :: declared_names ann) = true).
    { apply namedtuple_iff. split.
      - intros f [<-|Hf]; [reflexivity|apply (H2 f Hf)].
      - constructor; [|exact (fr_nodup _ _ F)]. intros C.
        destruct (H2 _ C) as [_ Hb]. apply Hb. cbn. tauto. }
    rewrite Hn. cbn [negb].
    assert (Hb : (match m with Maggregate => negb (all_bits (somes ann)) | _ => false end) = false).
    { destruct m; try reflexivity. apply negb_false_iff. apply all_bits_iff. apply H3.
      unfold forced. unfold effective in Em.
      destruct (c_agg cf); [left; reflexivity|right]. congruence. }
    rewrite Hb. eexists. reflexivity.
Qed.

Section Values.
Context {V : Type}.

(** the keyword arguments of [Cls(f1=.., f2=.., ...)] with every field given *)
Definition all_fields (ann : list (string * option fd)) (values : string -> V) : list (string * V) :=
  map (fun f => (f, values f)) (declared_names ann).

Lemma all_fields_names ann values : map fst (all_fields ann values) = declared_names ann.
Proof. unfold all_fields. rewrite map_map. cbn. apply map_id. Qed.
Lemma assoc_all_fields ann values f : In f (declared_names ann) ->
  assoc f (all_fields ann values) = Some (values f).
Proof.
  unfold all_fields. induction (declared_names ann) as [|k l IH]; [contradiction|].
  intros H. cbn [map assoc]. destruct (f =? k) eqn:E.
  - apply String.eqb_eq in E. subst. reflexivity.
  - apply String.eqb_neq in E. destruct H as [H|H]; [congruence|]. apply IH. exact H.
Qed.

Lemma assign_iff (c : cls) l (kw : list (string * V)) :
  (exists d, assign c (map (fun k => (k, false)) l) kw = OK d)
  <-> (forall f, In f l -> match look c f with Some (AProp _) => False | _ => True end).
Proof.
  induction l as [|k l IH]; cbn [map assign].
  - split; [intros _ f []|intros _; exists []; reflexivity].
  - split.
    + intros (d & H) f Hf.
      destruct (look c k) as [[]|] eqn:Ek; try discriminate;
        (destruct Hf as [<-|Hf]; [rewrite Ek; exact I|]);
        apply IH; auto; destruct (assign c _ kw) eqn:Ea; try discriminate; eauto.
    + intros H. assert (Hl : exists d, assign c (map (fun k => (k, false)) l) kw = OK d).
      { apply IH. intros f Hf. apply H. right. exact Hf. }
      destruct Hl as (d & Hd). rewrite Hd. specialize (H k (or_introl eq_refl)).
      destruct (look c k) as [[]|]; try contradiction; eexists; reflexivity.
Qed.
Lemma assign_dict (c : cls) l (kw : list (string * V)) d :
  assign c (map (fun k => (k, false)) l) kw = OK d -> d = map (fun k => (k, assoc k kw)) l.
Proof.
  revert d. induction l as [|k l IH]; intros d; cbn [map assign].
  - intros H. injection H as <-. reflexivity.
  - destruct (look c k) as [[]|]; try discriminate;
      destruct (assign c _ kw) as [d'|]; try discriminate;
      intros H; injection H as <-; rewrite (IH d' eq_refl); reflexivity.
Qed.

Lemma new_fresh cf ann u c values : fresh ann u -> decorate cf ann [u] = OK c ->
  new c (all_fields ann values)
  = match assign c (map (fun k => (k, false)) (declared_names ann)) (all_fields ann values) with
    | Err e => Err e
    | OK d => if c_validate cf && mem "check_invariants" (declared_names ann) then Err "TypeError"
              else OK (Build_inst c d)
    end.
Proof.
  intros F H. destruct (fresh_inv cf ann u c F H) as (m & _ & Lf & _ & Li & _ & _).
  unfold new, fields_of. rewrite Lf. rewrite all_fields_names. rewrite map_map. cbn [fst].
  rewrite map_id.
  assert (E1 : forallb (fun k => mem k (declared_names ann)) (declared_names ann) = true).
  { apply forallb_forall. intros k Hk. apply mem_In. exact Hk. }
  rewrite E1. cbn [negb].
  assert (E2 : forallb (covers (declared_names ann)) (map (fun k => (k, false)) (declared_names ann)) = true).
  { apply forallb_forall. intros x Hx. apply in_map_iff in Hx. destruct Hx as (k & <- & Hk).
    unfold covers. cbn [fst snd orb]. apply mem_In. exact Hk. }
  rewrite E2. cbn [negb]. rewrite Li.
  destruct (assign c _ _) as [d|e] eqn:Ea; [|reflexivity].
  apply assign_dict in Ea. subst d.
  destruct (c_validate cf); [|reflexivity]. cbn [andb].
  destruct (mem "check_invariants" (declared_names ann)) eqn:Em.
  - destruct (assoc "check_invariants" _) eqn:E; [reflexivity|].
    apply assoc_None in E. exfalso. apply E. rewrite map_map. cbn [fst]. rewrite map_id.
    apply mem_In. exact Em.
  - destruct (assoc "check_invariants" _) eqn:E; [|reflexivity].
    apply assoc_Some_In in E. apply in_map_iff in E. destruct E as (k & E & Hk).
    injection E as -> _. apply mem_In in Hk. congruence.
Qed.

(** Instances can be made exactly when no field carries the name of one of the library's
    properties - and, under validate=True, none is called [check_invariants]. *)
Theorem C69_instances cf ann u c values : fresh ann u -> decorate cf ann [u] = OK c ->
  (exists x, new c (all_fields ann values) = OK x) <->
  (forall f, In f (declared_names ann) -> ~ property_name cf ann f)
  /\ (c_validate cf = true -> ~ In "check_invariants" (declared_names ann)).
Proof.
  intros F H. rewrite (new_fresh cf ann u c values F H).
  destruct (fresh_inv cf ann u c F H) as (m & Em & _ & _ & _ & Hpl & L).
  pose proof (assign_iff c (declared_names ann) (all_fields ann values)) as HA.
  assert (HP : (forall f, In f (declared_names ann) ->
                 match look c f with Some (AProp _) => False | _ => True end)
    <-> (forall f, In f (declared_names ann) -> ~ property_name cf ann f)).
  { split; intros Hx f Hf; specialize (Hx f Hf); rewrite (L f (Hpl f Hf)) in *.
    - rewrite <- (propb_iff cf ann m f Em (fr_desc _ _ F)).
      destruct (propb m (somes ann) f); [contradiction|discriminate].
    - rewrite <- (propb_iff cf ann m f Em (fr_desc _ _ F)) in Hx.
      destruct (propb m (somes ann) f); [exfalso; auto|].
      destruct (_ || _); [exact I|].
      rewrite (fresh_user_none ann u f F) by (right; exact Hf).
      destruct (mem f registry); exact I. }
  rewrite HP in HA. rewrite <- HA. clear HA HP.
  destruct (assign c _ _) as [d|e].
  - destruct (c_validate cf); cbn [andb].
    + destruct (mem "check_invariants" (declared_names ann)) eqn:E.
      * apply mem_In in E. split; [intros (x & Hx); discriminate|].
        intros [_ C]. exfalso. exact (C eq_refl E).
      * apply mem_false in E. split; eauto.
    + split; eauto. intros _. split; [eauto|discriminate].
  - split; [intros (x & Hx); discriminate|intros [(d & Hd) _]; discriminate].
Qed.

Lemma new_inv cf ann u c values x : fresh ann u -> decorate cf ann [u] = OK c ->
  new c (all_fields ann values) = OK x ->
  i_cls x = c /\ i_dict x = map (fun k => (k, Some (values k))) (declared_names ann).
Proof.
  intros F H. rewrite (new_fresh cf ann u c values F H).
  destruct (assign c _ _) as [d|e] eqn:Ea; [|discriminate].
  destruct (_ && _); [discriminate|]. intros E. injection E as <-. cbn [i_cls i_dict].
  split; [reflexivity|]. rewrite (assign_dict _ _ _ _ Ea). apply map_ext_in.
  intros k Hk. rewrite assoc_all_fields by exact Hk. reflexivity.
Qed.
Lemma assoc_inst (values : string -> V) l k :
  assoc k (map (fun k => (k, Some (values k))) l) = if mem k l then Some (Some (values k)) else None.
Proof.
  induction l as [|k' l IH]; [reflexivity|]. cbn [map assoc mem existsb].
  destruct (k =? k') eqn:E; [apply String.eqb_eq in E; subst; reflexivity|exact IH].
Qed.

(** Every field of every instance reads back as what was given for it. *)
Theorem C69_fields_read_back cf ann u c values x : fresh ann u -> decorate cf ann [u] = OK c ->
  new c (all_fields ann values) = OK x ->
  forall f, In f (declared_names ann) -> getattr x f = OK (RField (Some (values f))).
Proof.
  intros F H Hn f Hf.
  destruct (proj1 (C69_instances cf ann u c values F H) (ex_intro _ x Hn)) as [Hp _].
  destruct (new_inv cf ann u c values x F H Hn) as [Ec Ed].
  destruct (fresh_inv cf ann u c F H) as (m & Em & _ & _ & _ & Hpl & L).
  unfold getattr. rewrite Ec, Ed. rewrite (L f (Hpl f Hf)).
  specialize (Hp f Hf). rewrite <- (propb_iff cf ann m f Em (fr_desc _ _ F)) in Hp.
  destruct (propb m (somes ann) f); [exfalso; auto|].
  rewrite assoc_inst. rewrite (proj2 (mem_In f _) Hf).
  destruct (_ || _); [reflexivity|].
  rewrite (fresh_user_none ann u f F) by (right; exact Hf).
  destruct (mem f registry); reflexivity.
Qed.

Lemma property_plain cf ann u k : fresh ann u -> (forall f, In f (declared_names ann) -> plain f) ->
  property_name cf ann k -> plain k.
Proof.
  intros F Hpl [H|[[-> _]|(_ & _ & _ & f & (d & Hf & _) & ->)]].
  - cbn [In always_properties] in H. intuition; subst; reflexivity.
  - reflexivity.
  - assert (Hi : In f (declared_names ann)).
    { unfold declared_names. apply in_map_iff. exists (f, Some d). auto. }
    specialize (Hpl f Hi). destruct f as [|a f]; [exfalso; exact (fr_names _ _ F Hi)|].
    exact Hpl.
Qed.
Lemma method_plain cf ann k : method_name cf ann k -> plain k.
Proof.
  intros [H|[[H _]|[H _]]]; cbn [In always_methods] in H; intuition; subst; reflexivity.
Qed.

(** On an instance, a library property is always the library's; a library method is the
    library's exactly when no field has its name; a batch method is the library's exactly
    when no field has its name and the user did not define it. *)
Theorem C69_library_names cf ann u c values x : fresh ann u -> decorate cf ann [u] = OK c ->
  new c (all_fields ann values) = OK x ->
  (forall k, property_name cf ann k -> getattr x k = OK (RProp Lib))
  /\ (forall k, method_name cf ann k ->
        getattr x k = OK (RFun Lib) <-> ~ In k (declared_names ann))
  /\ (forall k, In k batch_methods ->
        getattr x k = OK (RFun Lib) <-> ~ In k (declared_names ann) /\ ~ In k (map fst u)).
Proof.
  intros F H Hn. destruct (new_inv cf ann u c values x F H Hn) as [Ec Ed].
  destruct (fresh_inv cf ann u c F H) as (m & Em & _ & _ & _ & Hpl & L).
  destruct (proj1 (C69_instances cf ann u c values F H) (ex_intro _ x Hn)) as [Hp _].
  unfold getattr. rewrite Ec, Ed. split; [|split].
  - intros k Hk. rewrite (L k (property_plain cf ann u k F Hpl Hk)).
    rewrite (proj2 (propb_iff cf ann m k Em (fr_desc _ _ F)) Hk). reflexivity.
  - intros k Hk. rewrite (L k (method_plain cf ann k Hk)).
    apply (methb_iff cf ann m k Em (fr_desc _ _ F)) in Hk. rewrite Hk.
    rewrite assoc_inst. destruct (propb m (somes ann) k) eqn:Epp.
    + (* a name is never both *)
      exfalso. unfold propb in Epp. unfold methb in Hk.
      rewrite !orb_true_iff, !andb_true_iff, !mem_In, String.eqb_eq in *.
      assert (Hen : In k always_properties \/ k = "packed" \/
                    (~ In k ["set_unpacked"; "from_unpacked"] /\ ends k = true)).
      { destruct Epp as [[E|[_ E]]|(_ & E1 & E2)]; auto. right. right.
        apply negb_true_iff, mem_false in E1. split; [exact E1|].
        destruct (ends k) eqn:Ek; [reflexivity|]. pose proof (ends_mem k (packed_names (somes ann)) Ek) as Hx.
        apply mem_false in Hx. contradiction. }
      clear Epp. unfold always_properties, early_methods in *. cbn [In] in *.
      destruct Hk as [[[Hk|[_ Hk]]|(_ & _ & Hk)]|Hk];
        intuition; subst; try discriminate; auto.
    + destruct (mem k (declared_names ann)) eqn:E.
      * apply mem_In in E. split; [discriminate|contradiction].
      * apply mem_false in E. tauto.
  - intros k Hk.
    assert (Hpk : plain k).
    { unfold batch_methods in Hk. cbn [In] in Hk. intuition; subst; reflexivity. }
    assert (Hr : mem k registry = true) by (apply mem_In; exact Hk).
    rewrite (L k Hpk).
    assert (E0 : propb m (somes ann) k = false /\
                 methb m (somes ann) k || mem k ["check_invariants"; "is_xtructed"] = false).
    { assert (Hen : ends k = false)
        by (unfold batch_methods in Hk; cbn [In] in Hk; intuition; subst; reflexivity).
      unfold propb, methb. rewrite (ends_mem k _ Hen).
      unfold batch_methods in Hk. cbn [In] in Hk.
      decompose [or] Hk; try contradiction; subst k; cbn; rewrite ?andb_false_r; split; reflexivity. }
    destruct E0 as [-> ->]. rewrite Hr. rewrite assoc_inst.
    destruct (assoc k u) as [a|] eqn:Eu.
    + assert (Hin : In k (map fst u)).
      { apply assoc_Some_In in Eu. apply in_map_iff. exists (k, a). auto. }
      apply assoc_Some_In in Eu. destruct (fr_user _ _ F k a Eu) as (_ & _ & n & [-> | ->]);
        destruct (mem k (declared_names ann)); split; try discriminate; intros [_ C]; contradiction.
    + assert (Hin : ~ In k (map fst u)) by (apply assoc_None; exact Eu).
      destruct (mem k (declared_names ann)) eqn:E.
      * apply mem_In in E. split; [discriminate|intros [C _]; contradiction].
      * apply mem_false in E. tauto.
Qed.

(** What the user defined in the class body stays exactly when its name is none of the
    library's properties and methods; the names of batch methods are the user's to
    override. *)
Theorem C69_user_definitions cf ann u c k a : fresh ann u -> decorate cf ann [u] = OK c ->
  assoc k u = Some a ->
  (look c k = Some a <-> ~ property_name cf ann k /\ ~ method_name cf ann k).
Proof.
  intros F H Ha. destruct (fresh_inv cf ann u c F H) as (m & Em & _ & _ & _ & _ & L).
  destruct (fr_user _ _ F k a (assoc_Some_In _ _ _ Ha)) as (Hp & _ & n & Hn).
  rewrite (L k Hp), Ha.
  rewrite <- (propb_iff cf ann m k Em (fr_desc _ _ F)).
  rewrite <- (methb_iff cf ann m k Em (fr_desc _ _ F)).
  destruct (propb m (somes ann) k).
  - split; [destruct Hn as [-> | ->]; discriminate|intros [C _]; exfalso; auto].
  - destruct (_ || _); [|split; [split; discriminate|reflexivity]].
    split; [destruct Hn as [-> | ->]; discriminate|intros [_ C]; exfalso; auto].
Qed.

(** The rule for users: a class whose fields avoid the library's names, [batch] and a
    leading underscore can be decorated and instantiated, all its fields read back, and
    every property, method and batch method works on its instances. *)
Theorem C69_safe_names cf ann u values : fresh ann u -> c_agg cf = false ->
  c_mode cf <> Maggregate ->
  (forall f, In f (declared_names ann) ->
     plain f /\ f <> "batch" /\ ~ property_name cf ann f /\ ~ method_name cf ann f
     /\ ~ In f batch_methods) ->
  (forall k, In k batch_methods -> ~ In k (map fst u)) ->
  exists c x, decorate cf ann [u] = OK c /\ new c (all_fields ann values) = OK x
  /\ (forall f, In f (declared_names ann) -> getattr x f = OK (RField (Some (values f))))
  /\ (forall k, property_name cf ann k -> getattr x k = OK (RProp Lib))
  /\ (forall k, method_name cf ann k \/ In k batch_methods -> getattr x k = OK (RFun Lib)).
Proof.
  intros F Ha Hm Hs Hu.
  assert (Hd : exists c, decorate cf ann [u] = OK c).
  { apply (C69_decoration cf ann u F). split; [intros [C _]; congruence|]. split.
    - intros f Hf. destruct (Hs f Hf) as (H1 & H2 & _ & H4 & _). split; [exact H1|].
      intros C. cbn [In] in C. destruct C as [<-|[<-|[<-|[<-|[]]]]]; try (apply H2; reflexivity);
        apply H4; left; cbn; tauto.
    - intros [C|C]; congruence. }
  destruct Hd as (c & Hd).
  assert (Hx : exists x, new c (all_fields ann values) = OK x).
  { apply (C69_instances cf ann u c values F Hd). split.
    - intros f Hf. apply (Hs f Hf).
    - intros _ C. destruct (Hs _ C) as (_ & _ & _ & H4 & _). apply H4. left. cbn. tauto. }
  destruct Hx as (x & Hx). exists c, x. split; [exact Hd|]. split; [exact Hx|].
  split; [exact (C69_fields_read_back cf ann u c values x F Hd Hx)|].
  destruct (C69_library_names cf ann u c values x F Hd Hx) as (P1 & P2 & P3).
  split; [exact P1|]. intros k [Hk|Hk].
  - apply (P2 k Hk). intros C. destruct (Hs k C) as (_ & _ & _ & H4 & _). contradiction.
  - apply (P3 k Hk). split; [|exact (Hu k Hk)]. intros C.
    destruct (Hs k C) as (_ & _ & _ & _ & H5). contradiction.
Qed.

(** [default()] works on exactly the classes whose instances can be made. *)
Theorem C69_default cf ann u c values : fresh ann u -> decorate cf ann [u] = OK c ->
  default_call c values = new c (all_fields ann values)
  /\ shape_fields c = declared_names ann /\ indexed_fields c = declared_names ann.
Proof.
  intros F H. destruct (fresh_inv cf ann u c F H) as (m & _ & Lf & Ld & _ & _ & _).
  unfold default_call, shape_fields, indexed_fields, descs_of, fields_of. rewrite Ld, Lf.
  pose proof (somes_names ann (fr_desc _ _ F)) as E. split; [|split].
  - unfold all_fields. rewrite <- E, map_map. reflexivity.
  - exact E.
  - rewrite map_map. cbn [fst]. apply map_id.
Qed.

End Values.

(** ** Theorems: inheriting from a decorated class *)
Lemma put_keeps c k k' acc : In (k, has c k) acc -> In (k, has c k) (put_field acc k' (has c k')).
Proof.
  induction acc as [|(k2, d2) acc IH]; [contradiction|]. cbn [put_field]. intros [E|H].
  - injection E as -> E. destruct (k' =? k) eqn:Ek.
    + apply String.eqb_eq in Ek. subst k'. left. reflexivity.
    + left. rewrite E. reflexivity.
  - destruct (k' =? k2); [right; exact H|right; apply IH; exact H].
Qed.
Lemma put_in acc k b : In (k, b) (put_field acc k b).
Proof.
  induction acc as [|(k2, d2) acc IH]; cbn [put_field]; [left; reflexivity|].
  destruct (k =? k2); [left; reflexivity|right; exact IH].
Qed.
Lemma merge_in c l acc k : In k l \/ In (k, has c k) acc ->
  In (k, has c k) (fold_left (fun l k => put_field l k (has c k)) l acc).
Proof.
  revert acc. induction l as [|k' l IH]; intros acc [H|H]; cbn [fold_left]; try contradiction; try exact H.
  - apply IH. destruct H as [->|H]; [right; apply put_in|left; exact H].
  - apply IH. right. apply put_keeps. exact H.
Qed.

(** Decorating a subclass of a decorated class keeps the descriptors of the base class:
    [shape], [default], [random] and the hash know only the base's fields, whatever the
    subclass declares.  If it declares a new field, [default()] always raises. *)
Theorem C69_subclass cf0 ann0 u0 c0 cf1 ann1 u1 c1 :
  fresh ann0 u0 -> decorate cf0 ann0 [u0] = OK c0 ->
  (forall k a, In (k, a) u1 -> plain k) -> decorate cf1 ann1 (u1 :: c0) = OK c1 ->
  shape_fields c1 = declared_names ann0
  /\ (ann1 = [] -> indexed_fields c1 = declared_names ann0)
  /\ forall f, In f (declared_names ann1) -> ~ In f (declared_names ann0) ->
     has (u1 :: c0) f = false ->
     In f (indexed_fields c1)
     /\ forall (V : Type) (values : string -> V), default_call c1 values = Err "TypeError".
Proof.
  intros F H0 Hu H1.
  destruct (fresh_inv cf0 ann0 u0 c0 F H0) as (m0 & _ & Lf0 & Ld0 & _ & _ & _).
  assert (Hc : u1 :: c0 <> []) by discriminate.
  destruct (decorate_inv cf1 ann1 (u1 :: c0) c1 Hc H1) as (m & d & D).
  assert (Hun : forall k, starts_under k = true -> assoc k u1 = None).
  { intros k Hk. destruct (assoc k u1) as [a|] eqn:E; [|reflexivity].
    apply assoc_Some_In in E. apply Hu in E. unfold plain in E. congruence. }
  assert (Ed : d = somes ann0).
  { pose proof (da_descs _ _ _ _ _ _ D) as Hd. cbn [look] in Hd.
    rewrite (Hun DESCS eq_refl), Ld0 in Hd. exact Hd. }
  subst d.
  assert (Es : shape_fields c1 = declared_names ann0).
  { unfold shape_fields, descs_of. rewrite (da_look_descs _ _ _ _ _ _ D).
    apply somes_names. exact (fr_desc _ _ F). }
  split; [exact Es|]. split.
  { intros ->. unfold indexed_fields, fields_of. rewrite (da_fields _ _ _ _ _ _ D).
    unfold merge_fields. cbn [map fold_left tl]. unfold fields_of. rewrite Lf0, map_map.
    cbn [fst]. apply map_id. }
  intros f Hf Hn Hh.
  assert (Hm : In (f, false) (fields_of c1)).
  { unfold fields_of at 1. rewrite (da_fields _ _ _ _ _ _ D). rewrite <- Hh.
    apply merge_in. left. exact Hf. }
  split.
  { unfold indexed_fields. apply in_map_iff. exists (f, false). auto. }
  intros V values. unfold default_call, new.
  assert (En : map fst (map (fun x : string * fd => (fst x, values (fst x))) (descs_of c1))
               = declared_names ann0).
  { rewrite map_map. cbn [fst]. exact Es. }
  rewrite En.
  destruct (forallb (fun k => mem k (map fst (fields_of c1))) (declared_names ann0)); [|reflexivity].
  cbn [negb].
  assert (Hcov : forallb (covers (declared_names ann0)) (fields_of c1) = false).
  { apply not_true_iff_false. rewrite forallb_forall. intros C. specialize (C _ Hm).
    unfold covers in C. cbn [fst snd orb] in C. apply mem_In in C. contradiction. }
  rewrite Hcov. reflexivity.
Qed.

(** ** Concrete classes *)
Definition plain_fd := Build_fd false false.
Definition packed_fd := Build_fd true false.
Definition dflt := Build_config Mauto false false.
Definition strict := Build_config Mauto false true.

Lemma fresh_simple l : NoDup (map fst l) -> ~ In "" (map fst l) ->
  fresh (map (fun x : string * fd => (fst x, Some (snd x))) l) [].
Proof.
  intros H H0.
  assert (E : declared_names (map (fun x : string * fd => (fst x, Some (snd x))) l) = map fst l).
  { unfold declared_names. rewrite map_map. reflexivity. }
  constructor.
  - rewrite E. exact H.
  - rewrite E. exact H0.
  - intros f o Hi. apply in_map_iff in Hi. destruct Hi as (x & Ex & _). injection Ex as _ <-. discriminate.
  - intros k a [].
Qed.

Ltac names_simple :=
  apply fresh_simple;
  [repeat (constructor; [cbn; intuition discriminate|]); constructor|cbn; intuition discriminate].

(** an ordinary class meets the hypotheses of all the theorems above *)
Definition ordinary := map (fun x : string * fd => (fst x, Some (snd x)))
  [("position", plain_fd); ("cost", plain_fd); ("faces", packed_fd)].
Example C69_ordinary_ok :
  fresh ordinary [] /\
  exists c x, decorate strict ordinary [[]] = OK c
  /\ new c (all_fields ordinary (fun k => k)) = OK x
  /\ getattr x "cost" = OK (RField (Some "cost"))
  /\ getattr x "faces_unpacked" = OK (RProp Lib)
  /\ getattr x "set_unpacked" = OK (RFun Lib)
  /\ getattr x "roll" = OK (RFun Lib)
  /\ getattr x "nothing" = Err "AttributeError".
Proof.
  split; [names_simple|].
  eexists. eexists. split; [vm_compute; reflexivity|]. split; [vm_compute; reflexivity|].
  repeat split; vm_compute; reflexivity.
Qed.

(** a field called like a property: the class is accepted, its instances cannot be made *)
Definition with_field (f : string) := map (fun x : string * fd => (fst x, Some (snd x)))
  [(f, plain_fd); ("cost", plain_fd)].
Theorem C69_property_field_refuted :
  forall f, In f always_properties -> fresh (with_field f) [] ->
  exists c, decorate dflt (with_field f) [[]] = OK c
  /\ forall V (values : string -> V), ~ exists x, new c (all_fields (with_field f) values) = OK x.
Proof.
  intros f Hf F.
  assert (Hd : exists c, decorate dflt (with_field f) [[]] = OK c).
  { apply (C69_decoration dflt (with_field f) [] F). split; [intros [C _]; discriminate|]. split.
    - intros g Hg. cbn [with_field map declared_names fst snd In] in Hg.
      destruct Hg as [<-|[<-|[]]].
      + unfold always_properties in Hf. cbn [In] in Hf.
        decompose [or] Hf; try contradiction; subst; (split; [reflexivity|cbn; intuition discriminate]).
      + split; [reflexivity|cbn; intuition discriminate].
    - intros [C|C]; discriminate. }
  destruct Hd as (c & Hc). exists c. split; [exact Hc|]. intros V values Hx.
  apply (C69_instances dflt (with_field f) [] c values F Hc) in Hx. destruct Hx as [Hx _].
  apply (Hx f); [left; reflexivity|]. left. exact Hf.
Qed.
Example C69_property_field_met : In "shape" always_properties /\ fresh (with_field "shape") [].
Proof. split; [cbn; tauto|unfold with_field; names_simple]. Qed.

(** a packed field [faces] and a field [faces_unpacked]: no instances;
    a field [batch]: not accepted; a field [hash]: the method is gone, the field reads back;
    a packed field [set]: its accessor is replaced by the method [set_unpacked];
    validate=True and a field [check_invariants]: no instances. *)
Definition clash (l : list (string * fd)) := map (fun x : string * fd => (fst x, Some (snd x))) l.
Theorem C69_clashes_refuted :
  (exists c, decorate dflt (clash [("faces", packed_fd); ("faces_unpacked", plain_fd)]) [[]] = OK c
     /\ new c [("faces", 1); ("faces_unpacked", 2)] = Err "AttributeError")
  /\ decorate dflt (clash [("batch", plain_fd)]) [[]] = Err "ValueError"
  /\ (exists c x, decorate dflt (clash [("hash", plain_fd)]) [[]] = OK c
       /\ new c [("hash", 7)] = OK x /\ getattr x "hash" = OK (RField (Some 7)))
  /\ (exists c x, decorate dflt (clash [("set", packed_fd)]) [[]] = OK c
       /\ new c [("set", 7)] = OK x /\ getattr x "set_unpacked" = OK (RFun Lib))
  /\ (exists c, decorate strict (clash [("check_invariants", plain_fd)]) [[]] = OK c
       /\ new c [("check_invariants", 7)] = Err "TypeError").
Proof.
  split; [eexists; split; vm_compute; reflexivity|].
  split; [vm_compute; reflexivity|].
  split; [eexists; eexists; split; [vm_compute; reflexivity|split; vm_compute; reflexivity]|].
  split; [eexists; eexists; split; [vm_compute; reflexivity|split; vm_compute; reflexivity]|].
  eexists; split; vm_compute; reflexivity.
Qed.

(** the user's [roll] stays, the user's [hash] is silently replaced *)
Definition own_methods : ns := [("roll", AFun (User 1)); ("hash", AFun (User 2)); ("solve", AFun (User 3))].
Theorem C69_own_hash_refuted :
  exists c x, decorate dflt (clash [("cost", plain_fd)]) [own_methods] = OK c
  /\ new c [("cost", 7)] = OK x
  /\ getattr x "roll" = OK (RFun (User 1)) /\ getattr x "solve" = OK (RFun (User 3))
  /\ getattr x "hash" = OK (RFun Lib).
Proof.
  eexists; eexists; split; [vm_compute; reflexivity|].
  split; [vm_compute; reflexivity|]. repeat split; vm_compute; reflexivity.
Qed.
Example C69_own_methods_fresh : fresh (clash [("cost", plain_fd)]) own_methods.
Proof.
  constructor.
  - repeat (constructor; [cbn; intuition discriminate|]); constructor.
  - cbn; intuition discriminate.
  - intros f o [E|[]]; injection E as <- <-; discriminate.
  - intros k a H. cbn in H.
    decompose [or] H; try contradiction;
      match goal with E : (_, _) = (k, a) |- _ => injection E as <- <- end;
      (split; [reflexivity|split; [cbn; intuition discriminate|eexists; left; reflexivity]]).
Qed.

(** a subclass with a new field is accepted - even if the annotation is no descriptor -
    and its default cannot be built *)
Theorem C69_subclass_refuted :
  exists c0 c1, decorate dflt (clash [("cost", plain_fd)]) [[]] = OK c0
  /\ decorate dflt [("extra", Some plain_fd); ("label", None)] ([] :: c0) = OK c1
  /\ indexed_fields c1 = ["cost"; "extra"; "label"] /\ shape_fields c1 = ["cost"]
  /\ default_call c1 (fun k => k) = Err "TypeError"
  /\ exists x, new c1 [("cost", 1); ("extra", 2); ("label", 3)] = OK x
               /\ getattr x "extra" = OK (RField (Some 2)).
Proof.
  eexists; eexists; split; [vm_compute; reflexivity|].
  split; [vm_compute; reflexivity|].
  split; [vm_compute; reflexivity|]. split; [vm_compute; reflexivity|].
  split; [vm_compute; reflexivity|].
  eexists; split; vm_compute; reflexivity.
Qed.
