(** * PropTree.v — property C39: dataclass instances as trees. *)
From Coq Require Import String.
From Verif Require Import Jax TreeModel.

Lemma mem_In k l : mem k l = true <-> In k l.
Proof.
  unfold mem. rewrite existsb_exists. split; [intros [x [H E]]; apply String.eqb_eq in E; now subst|].
  intros H. exists k. split; [exact H|apply String.eqb_refl].
Qed.
Lemma mem_false k l : mem k l = false <-> ~ In k l.
Proof. rewrite <- mem_In. destruct (mem k l); split; congruence. Qed.
Lemma find_key_none {X} (l : list (string * X)) k : find_key l k = None <-> ~ In k (map fst l).
Proof.
  induction l as [|[n x] r IH]; cbn; [tauto|]. destruct (String.eqb_spec n k) as [->|Hn]; [split; [discriminate|tauto]|]. rewrite IH. tauto.
Qed.
Lemma find_key_in {X} (l : list (string * X)) k x : NoDup (map fst l) -> (find_key l k = Some x <-> In (k, x) l).
Proof.
  induction l as [|[n y] r IH]; intros ND; cbn [find_key map fst In] in *; [split; [discriminate|tauto]|]. inversion ND as [|? ? Hni ND']; subst.
  destruct (String.eqb_spec n k) as [->|Hn].
  - split; [intros E; injection E as ->; now left|]. intros [E|Hin]; [now injection E as ->|]. exfalso. apply Hni. apply (in_map fst) in Hin. exact Hin.
  - rewrite IH by exact ND'. split; [tauto|]. intros [E|Hin]; [injection E as E _; contradiction|exact Hin].
Qed.
Lemma find_key_rev {X} (l : list (string * X)) k : NoDup (map fst l) -> find_key (rev l) k = find_key l k.
Proof.
  intros ND. assert (ND2 : NoDup (map fst (rev l))) by (rewrite map_rev; apply NoDup_rev; exact ND).
  destruct (find_key l k) as [x|] eqn:E.
  - apply find_key_in; [exact ND2|]. apply -> in_rev. apply find_key_in; assumption.
  - apply find_key_none in E. apply find_key_none. rewrite map_rev. rewrite <- in_rev. exact E.
Qed.

Section Prop39.
Context {A : Type}.
Variables (fields_of static_of : string -> list string).
Notation pval := (pval A). Notation pattrs := (pattrs A). Notation tdef := (tdef A).
Notation flat := (@tree_flatten A fields_of static_of).
Notation unflat := (@tree_unflatten A fields_of).

Implicit Types (d : pattrs) (v : pval).

(** ** Specification *)
(** Python dictionaries have distinct keys; classes have distinct field names *)
Fixpoint wf (v : pval) : Prop := match v with PLeaf _ => True | PNode _ d => NoDup (keys_of d) /\ wf_attrs d end
with wf_attrs (d : pattrs) : Prop := match d with PNil => True | PCons _ v r => wf v /\ wf_attrs r end.
Definition good_classes : Prop := forall cls, NoDup (fields_of cls).
(** the instance as its constructor builds it: exactly declared attributes, in declared
    order (static values are arbitrary) *)
Fixpoint clean (v : pval) : Prop :=
  match v with PLeaf _ => True | PNode cls d => keys_of d = filter (fun n => mem n (keys_of d)) (fields_of cls) /\ clean_attrs (static_of cls) d end
with clean_attrs (st : list string) (d : pattrs) : Prop :=
  match d with PNil => True | PCons n v r => (mem n st = false -> clean v) /\ clean_attrs st r end.
(** apply [f] to every leaf outside static fields; drop undeclared attributes *)
Fixpoint rebuilt (f : A -> A) (v : pval) : pval :=
  match v with
  | PLeaf a => PLeaf (f a)
  | PNode cls d => let m := rebuilt_attrs f d in
      PNode cls (build (fields_of cls) (fun n => if mem n (static_of cls) then lookup d n else lookup m n))
  end
with rebuilt_attrs (f : A -> A) (d : pattrs) : pattrs :=
  match d with PNil => PNil | PCons n v r => PCons n (rebuilt f v) (rebuilt_attrs f r) end.

(** ** Dictionaries *)
Lemma lookup_none (d : pattrs) k : lookup d k = None <-> ~ In k (keys_of d).
Proof.
  induction d as [|n v r IH]; cbn; [tauto|]. destruct (String.eqb_spec n k) as [->|Hn]; [split; [discriminate|tauto]|]. rewrite IH. tauto.
Qed.
Lemma lookup_in (d : pattrs) k : In k (keys_of d) -> exists v, lookup d k = Some v.
Proof. intros H. destruct (lookup d k) as [v|] eqn:E; [eauto|]. apply lookup_none in E. contradiction. Qed.
Lemma build_keys names (get : string -> option pval) : keys_of (build names get) = filter (fun n => match get n with Some _ => true | None => false end) names.
Proof. induction names as [|n r IH]; cbn; [reflexivity|]. destruct (get n); cbn; [now f_equal|exact IH]. Qed.
Lemma build_lookup names (get : string -> option pval) k : NoDup names -> lookup (build names get) k = if mem k names then get k else None.
Proof.
  induction names as [|n r IH]; intros ND; [reflexivity|]. inversion ND as [|? ? Hn ND']; subst. cbn [build mem existsb].
  destruct (String.eqb_spec k n) as [->|Hne].
  - cbn [orb]. destruct (get n) as [v|] eqn:E; cbn [lookup]; [now rewrite String.eqb_refl|]. rewrite IH by exact ND'.
    try rewrite E. now destruct (mem n r).
  - cbn [orb]. fold (mem k r). destruct (get n) as [v|]; cbn [lookup]; [|apply IH, ND'].
    destruct (String.eqb_spec n k); [congruence|]. apply IH, ND'.
Qed.
Lemma build_ext names (g h : string -> option pval) : (forall n, In n names -> g n = h n) -> build names g = build names h.
Proof. induction names as [|n r IH]; intros H; cbn; [reflexivity|]. rewrite H by now left. rewrite IH; [reflexivity|]. intros m Hm. apply H. now right. Qed.
Lemma rebuilt_lookup f (d : pattrs) k : lookup (rebuilt_attrs f d) k = option_map (rebuilt f) (lookup d k).
Proof. induction d as [|n v r IH]; cbn; [reflexivity|]. destruct (String.eqb n k); [reflexivity|exact IH]. Qed.
Lemma flatten_find (d : pattrs) k : find_key (flatten_attrs fields_of static_of d) k = option_map flat (lookup d k).
Proof. induction d as [|n v r IH]; cbn; [reflexivity|]. destruct (String.eqb n k); [reflexivity|exact IH]. Qed.

(** ** Key order *)
Lemma sinsert_perm x l : Permutation (sinsert x l) (x :: l).
Proof. induction l as [|y t IH]; cbn; [apply Permutation_refl|]. destruct (String.leb x y); [apply Permutation_refl|]. rewrite IH. constructor. Qed.
Lemma ssort_perm l : Permutation (ssort l) l.
Proof. induction l as [|x l IH]; cbn; [constructor|]. rewrite sinsert_perm. now constructor. Qed.
Definition declared cls (d : pattrs) := filter (fun n => mem n (keys_of d)) (fields_of cls).
Definition extras cls (d : pattrs) := ssort (filter (fun k => negb (mem k (declared cls d)) && negb (mem k internal_caches)) (keys_of d)).
Lemma ordered_eq cls d : ordered_keys fields_of cls d = declared cls d ++ extras cls d.
Proof. reflexivity. Qed.
Lemma extras_in cls d k : In k (extras cls d) -> In k (keys_of d) /\ ~ In k (declared cls d).
Proof.
  intros H. unfold extras in H. apply (Permutation_in _ (ssort_perm _)) in H. apply filter_In in H. destruct H as [H1 H2].
  apply andb_true_iff in H2. destruct H2 as [H2 _]. apply negb_true_iff, mem_false in H2. tauto.
Qed.
Lemma declared_in cls d k : In k (declared cls d) <-> In k (fields_of cls) /\ In k (keys_of d).
Proof. unfold declared. rewrite filter_In, mem_In. reflexivity. Qed.
Lemma ordered_in cls d k : In k (ordered_keys fields_of cls d) -> In k (keys_of d).
Proof. rewrite ordered_eq, in_app_iff, declared_in. intros [H|H]; [tauto|]. now apply extras_in in H. Qed.
Lemma nodup_filter {X} (f : X -> bool) l : NoDup l -> NoDup (filter f l).
Proof. apply NoDup_filter. Qed.
Lemma ordered_nodup cls d : good_classes -> NoDup (keys_of d) -> NoDup (ordered_keys fields_of cls d).
Proof.
  intros HG ND. rewrite ordered_eq.
  assert (N1 : NoDup (declared cls d)) by (apply NoDup_filter, HG).
  assert (N2 : NoDup (extras cls d)) by (eapply Permutation_NoDup; [apply Permutation_sym, ssort_perm|apply NoDup_filter, ND]).
  revert N1. generalize (extras_in cls d). generalize (declared cls d). intros l Hx N1. induction l as [|x l IH]; cbn; [exact N2|].
  inversion N1; subst. constructor.
  - rewrite in_app_iff. intros [H|H]; [contradiction|]. apply Hx in H. destruct H as [_ H]. apply H. now left.
  - apply IH; [|assumption]. intros k Hk. destruct (Hx k Hk) as [P1 P2]. split; [exact P1|]. intros H. apply P2. now right.
Qed.
(** ** Unflattening *)
Definition unflat_list := fix go (ch : list tdef) (ls : list A) : option (list pval * list A) :=
  match ch with
  | [] => Some ([], ls)
  | t :: r => match unflat t ls with
              | Some (v, ls1) => match go r ls1 with Some (vs, ls2) => Some (v :: vs, ls2) | None => None end
              | None => None
              end
  end.
Lemma unflat_node cls ks st ch ls : unflat (TNode cls ks st ch) ls =
  match unflat_list ch ls with Some (vs, rest) => Some (PNode cls (build (fields_of cls) (attr_dict ks vs st)), rest) | None => None end.
Proof. reflexivity. Qed.
Lemma sel_map {X Y} (l : list (string * X)) (g : X -> Y) (h : string -> Y) ks :
  (forall k, In k ks -> exists x, find_key l k = Some x /\ g x = h k) -> map g (sel l ks) = map h ks.
Proof.
  induction ks as [|k ks IH]; intros H; [reflexivity|]. cbn [sel flat_map map]. fold (sel l ks). destruct (H k (or_introl eq_refl)) as [x [E1 E2]].
  rewrite E1. cbn [app map]. f_equal; [exact E2|]. apply IH. intros k' Hk. apply H. now right.
Qed.
Definition val_of (d : pattrs) (k : string) : pval := match lookup d k with Some v => v | None => PNode k PNil end.
Lemma lookup_val d k : In k (keys_of d) -> lookup d k = Some (val_of d k).
Proof. intros H. unfold val_of. destruct (lookup_in d k H) as [v E]. now rewrite E. Qed.
Lemma unflat_children f d ks rest :
  (forall k v, lookup d k = Some v -> forall rest, unflat (snd (flat v)) (map f (fst (flat v)) ++ rest) = Some (rebuilt f v, rest)) ->
  (forall k, In k ks -> In k (keys_of d)) ->
  unflat_list (map snd (sel (flatten_attrs fields_of static_of d) ks)) (map f (concat (map fst (sel (flatten_attrs fields_of static_of d) ks))) ++ rest)
  = Some (map (fun k => rebuilt f (val_of d k)) ks, rest).
Proof.
  intros HP HK.
  rewrite (sel_map _ snd (fun k => snd (flat (val_of d k)))) by (intros k Hk; exists (flat (val_of d k)); rewrite flatten_find, lookup_val by auto; auto).
  rewrite (sel_map _ fst (fun k => fst (flat (val_of d k)))) by (intros k Hk; exists (flat (val_of d k)); rewrite flatten_find, lookup_val by auto; auto).
  revert rest. induction ks as [|k ks IH]; intros rest; [reflexivity|]. cbn [map concat unflat_list].
  rewrite map_app, <- app_assoc. rewrite (HP k (val_of d k)) by (apply lookup_val, HK; now left).
  rewrite IH; [reflexivity|]. intros k' Hk. apply HK. now right.
Qed.
Lemma combine_map_r {X Y} (l : list X) (g : X -> Y) : combine l (map g l) = map (fun x => (x, g x)) l.
Proof. induction l; cbn; congruence. Qed.
Lemma attr_dict_spec f cls d n : good_classes -> NoDup (keys_of d) -> In n (fields_of cls) ->
  let ks := child_keys fields_of static_of cls d in
  attr_dict ks (map (fun k => rebuilt f (val_of d k)) ks) (static_items fields_of static_of cls d) n =
  if mem n (static_of cls) then lookup d n else lookup (rebuilt_attrs f d) n.
Proof.
  intros HG ND Hn ks. pose proof (ordered_nodup cls d HG ND) as NO.
  assert (NK : NoDup ks) by (apply NoDup_filter; exact NO).
  unfold attr_dict. rewrite combine_map_r.
  assert (F1 : map fst (map (fun k => (k, rebuilt f (val_of d k))) ks) = ks) by (rewrite map_map; cbn; apply map_id).
  assert (F2 : map fst (static_items fields_of static_of cls d) = filter (fun k => mem k (static_of cls)) (ordered_keys fields_of cls d)).
  { unfold static_items. rewrite map_map. cbn. apply map_id. }
  rewrite !find_key_rev by (rewrite ?F1, ?F2; try assumption; apply NoDup_filter; exact NO).
  assert (HO : In n (ordered_keys fields_of cls d) <-> In n (keys_of d)).
  { split; [apply ordered_in|]. intros H. rewrite ordered_eq, in_app_iff, declared_in. tauto. }
  destruct (mem n (static_of cls)) eqn:ES.
  - destruct (lookup d n) as [v|] eqn:EL.
    + assert (In n (keys_of d)) as HI by (destruct (in_dec string_dec n (keys_of d)) as [H|H]; [exact H|apply lookup_none in H; congruence]).
      assert (E : find_key (static_items fields_of static_of cls d) n = Some (Some v)); [|now rewrite E].
      apply find_key_in; [rewrite F2; apply NoDup_filter; exact NO|]. unfold static_items. apply in_map_iff. exists n. rewrite EL. split; [reflexivity|].
      apply filter_In. split; [now apply HO|exact ES].
    + assert (HI : ~ In n (keys_of d)) by (apply lookup_none; exact EL).
      assert (E : find_key (static_items fields_of static_of cls d) n = None) by (apply find_key_none; rewrite F2, filter_In, HO; tauto).
      rewrite E. apply find_key_none. rewrite F1. unfold ks, child_keys. rewrite filter_In, HO. tauto.
  - assert (E : find_key (static_items fields_of static_of cls d) n = None) by (apply find_key_none; rewrite F2, filter_In, ES; intros [_ ?]; discriminate).
    rewrite E, rebuilt_lookup. destruct (lookup d n) as [v|] eqn:EL; cbn [option_map].
    + assert (HI : In n (keys_of d)) by (destruct (in_dec string_dec n (keys_of d)) as [H|H]; [exact H|apply lookup_none in H; congruence]).
      apply find_key_in; [now rewrite F1|]. apply in_map_iff. exists n. unfold val_of. rewrite EL. split; [reflexivity|].
      unfold ks, child_keys. apply filter_In. split; [now apply HO|now rewrite ES].
    + apply find_key_none. rewrite F1. unfold ks, child_keys. rewrite filter_In, HO. apply lookup_none in EL. tauto.
Qed.
Lemma flat_node cls d : flat (PNode cls d) =
  (concat (map fst (sel (flatten_attrs fields_of static_of d) (child_keys fields_of static_of cls d))),
   TNode cls (child_keys fields_of static_of cls d) (static_items fields_of static_of cls d) (map snd (sel (flatten_attrs fields_of static_of d) (child_keys fields_of static_of cls d)))).
Proof. reflexivity. Qed.
Lemma unflat_flat_both f : good_classes ->
  (forall v, wf v -> forall rest, unflat (snd (flat v)) (map f (fst (flat v)) ++ rest) = Some (rebuilt f v, rest)) /\
  (forall d, wf_attrs d -> forall k v, lookup d k = Some v -> forall rest, unflat (snd (flat v)) (map f (fst (flat v)) ++ rest) = Some (rebuilt f v, rest)).
Proof.
  intros HG. apply pval_pattrs_ind.
  - intros a _ rest. reflexivity.
  - intros cls d IH [ND WA] rest. specialize (IH WA). rewrite flat_node. cbn [fst snd]. rewrite unflat_node.
    rewrite (unflat_children f d (child_keys fields_of static_of cls d) rest IH).
    + cbn [rebuilt]. do 3 f_equal. apply build_ext. intros n Hn. now apply attr_dict_spec.
    + intros k Hk. apply filter_In in Hk. destruct Hk as [Hk _]. now apply ordered_in in Hk.
  - intros _ k v E. discriminate.
  - intros n v IHv r IHr [W1 W2] k w E. cbn [lookup] in E. destruct (String.eqb n k); [injection E as <-; now apply IHv|]. eapply IHr; eassumption.
Qed.

(** ** C39 *)
(** flattening and rebuilding, and mapping over leaves, for every instance *)
Theorem C39_roundtrip : forall v, good_classes -> wf v ->
  unflat (snd (flat v)) (fst (flat v)) = Some (rebuilt (fun a => a) v, []).
Proof.
  intros v HG W. pose proof (proj1 (unflat_flat_both (fun a => a) HG) v W []) as E. now rewrite map_id, app_nil_r in E.
Qed.
Theorem C39_tree_map : forall f v, good_classes -> wf v -> tree_map fields_of static_of f v = Some (rebuilt f v).
Proof.
  intros f v HG W. unfold tree_map. destruct (flat v) as [ls t] eqn:E.
  pose proof (proj1 (unflat_flat_both f HG) v W []) as H. rewrite E in H. cbn [fst snd] in H. rewrite app_nil_r in H. now rewrite H.
Qed.
(** what the result contains: the declared attributes, in declaration order; static ones
    unchanged, the others mapped; nothing else *)
Theorem C39_fields : forall f cls d, good_classes -> NoDup (keys_of d) ->
  exists d', rebuilt f (PNode cls d) = PNode cls d' /\
    keys_of d' = filter (fun n => mem n (keys_of d)) (fields_of cls) /\
    forall n, lookup d' n = if mem n (fields_of cls)
                            then (if mem n (static_of cls) then lookup d n else option_map (rebuilt f) (lookup d n)) else None.
Proof.
  intros f cls d HG ND. eexists. split; [reflexivity|]. split.
  - rewrite build_keys. apply filter_ext_in. intros n Hn. destruct (mem n (static_of cls)).
    + destruct (lookup d n) as [v|] eqn:E; symmetry; [apply mem_In|apply mem_false].
      * destruct (in_dec string_dec n (keys_of d)) as [H|H]; [exact H|apply lookup_none in H; congruence].
      * now apply lookup_none.
    + rewrite rebuilt_lookup. destruct (lookup d n) as [v|] eqn:E; cbn [option_map]; symmetry; [apply mem_In|apply mem_false].
      * destruct (in_dec string_dec n (keys_of d)) as [H|H]; [exact H|apply lookup_none in H; congruence].
      * now apply lookup_none.
  - intros n. rewrite build_lookup by apply HG. destruct (mem n (fields_of cls)); [|reflexivity]. destruct (mem n (static_of cls)); [reflexivity|apply rebuilt_lookup].
Qed.
(** an instance as built by its constructor comes back identical *)
Lemma build_self (d : pattrs) names : NoDup names -> NoDup (keys_of d) -> keys_of d = filter (fun n => mem n (keys_of d)) names -> build names (lookup d) = d.
Proof.
  intros NN. revert d. 
  assert (G : forall names d (g : string -> option pval), NoDup (keys_of d) -> NoDup names -> (forall n, In n names -> g n = lookup d n) -> keys_of d = filter (fun n => mem n (keys_of d)) names -> build names g = d).
  { clear names NN. induction names as [|n r IH]; intros d g ND NN Hg E.
    - destruct d; [reflexivity|discriminate].
    - cbn [build]. inversion NN as [|? ? Hn NR]; subst. rewrite Hg by now left. cbn [filter] in E. destruct (mem n (keys_of d)) eqn:EM.
      + destruct d as [|m v q]; [discriminate|]. cbn [keys_of] in E. injection E as <- E. cbn [lookup]. rewrite String.eqb_refl. f_equal.
        cbn [keys_of] in ND. inversion ND as [|? ? Hm ND']; subst.
        apply IH; auto.
        * intros k Hk. rewrite Hg by now right. cbn [lookup]. destruct (String.eqb_spec m k); [subst; contradiction|reflexivity].
        * etransitivity; [exact E|]. apply filter_ext_in. intros k Hk. cbn [mem existsb]. destruct (String.eqb_spec k m); [subst; contradiction|]. reflexivity.
      + apply mem_false in EM. rewrite (proj2 (lookup_none d n) EM). apply IH; auto. intros k Hk. apply Hg. now right. }
  intros d ND E. apply G; auto.
Qed.
Lemma rebuilt_clean_both : good_classes ->
  (forall v, wf v -> clean v -> rebuilt (fun a => a) v = v) /\
  (forall d st, wf_attrs d -> clean_attrs st d -> forall k, mem k st = false -> lookup (rebuilt_attrs (fun a => a) d) k = lookup d k).
Proof.
  intros HG. apply pval_pattrs_ind.
  - reflexivity.
  - intros cls d IH [ND WA] [CK CA]. cbn [rebuilt]. f_equal. transitivity (build (fields_of cls) (lookup d)); [|apply build_self; auto].
    apply build_ext. intros n _. destruct (mem n (static_of cls)) eqn:E; [reflexivity|]. now apply (IH (static_of cls) WA CA).
  - reflexivity.
  - intros n v IHv r IHr st [W1 W2] [C1 C2] k Hk. cbn [rebuilt_attrs lookup]. destruct (String.eqb_spec n k) as [->|Hn].
    + f_equal. apply IHv; auto.
    + now apply (IHr st).
Qed.
Theorem C39_identity : forall v, good_classes -> wf v -> clean v ->
  unflat (snd (flat v)) (fst (flat v)) = Some (v, []).
Proof. intros v HG W C. rewrite C39_roundtrip by assumption. now rewrite (proj1 (rebuilt_clean_both HG) v W C). Qed.
(** mapping composes *)
Lemma rebuilt_rebuilt_both f g : good_classes ->
  (forall v, rebuilt g (rebuilt f v) = rebuilt (fun a => g (f a)) v) /\
  (forall d k, option_map (rebuilt g) (lookup (rebuilt_attrs f d) k) = lookup (rebuilt_attrs (fun a => g (f a)) d) k).
Proof.
  intros HG. apply pval_pattrs_ind.
  - reflexivity.
  - intros cls d IH. cbn [rebuilt]. f_equal. apply build_ext. intros n Hn.
    rewrite rebuilt_lookup, !build_lookup by apply HG. assert (EM : mem n (fields_of cls) = true) by (now apply mem_In). rewrite EM.
    destruct (mem n (static_of cls)) eqn:ES; [reflexivity|]. apply IH.
  - reflexivity.
  - intros n v IHv r IHr k. cbn [rebuilt_attrs lookup]. destruct (String.eqb n k); [cbn; now rewrite IHv|apply IHr].
Qed.
Theorem C39_map_map : forall f g v, good_classes -> rebuilt g (rebuilt f v) = rebuilt (fun a => g (f a)) v.
Proof. intros f g v HG. now apply rebuilt_rebuilt_both. Qed.
(** for an instance as its constructor builds it, mapping keeps the tree definition (classes,
    field names and order, static values) and maps exactly the leaves, in order *)
Lemma structure_both f : good_classes ->
  (forall v, wf v -> clean v -> flat (rebuilt f v) = (map f (fst (flat v)), snd (flat v))) /\
  (forall d st, wf_attrs d -> clean_attrs st d -> forall k v, mem k st = false -> lookup d k = Some v ->
     flat (rebuilt f v) = (map f (fst (flat v)), snd (flat v))).
Proof.
  intros HG. apply pval_pattrs_ind.
  - reflexivity.
  - intros cls d IH [ND WA] [CK CA]. destruct (C39_fields f cls d HG ND) as [d' [E [EK EL]]]. rewrite E, !flat_node. cbn [fst snd].
    assert (KK : keys_of d' = keys_of d) by (now rewrite EK, <- CK).
    assert (EO : ordered_keys fields_of cls d' = ordered_keys fields_of cls d) by (unfold ordered_keys; now rewrite KK).
    assert (EC : child_keys fields_of static_of cls d' = child_keys fields_of static_of cls d) by (unfold child_keys; now rewrite EO).
    assert (HF : forall k, In k (ordered_keys fields_of cls d) -> In k (keys_of d) /\ mem k (fields_of cls) = true).
    { intros k Hk. apply ordered_in in Hk. split; [exact Hk|]. rewrite CK in Hk. apply filter_In in Hk. apply mem_In. tauto. }
    assert (ES : static_items fields_of static_of cls d' = static_items fields_of static_of cls d).
    { unfold static_items. rewrite EO. apply map_ext_in. intros k Hk. apply filter_In in Hk. destruct Hk as [H1 H2].
      rewrite EL, (proj2 (HF k H1)), H2. reflexivity. }
    rewrite EC, ES.
    assert (HC : forall k, In k (child_keys fields_of static_of cls d) -> exists v, lookup d k = Some v /\ lookup d' k = Some (rebuilt f v) /\
              flat (rebuilt f v) = (map f (fst (flat v)), snd (flat v)) /\ val_of d k = v).
    { intros k Hk. apply filter_In in Hk. destruct Hk as [H1 H2]. apply negb_true_iff in H2. destruct (HF k H1) as [H3 H4]. exists (val_of d k).
      pose proof (lookup_val d k H3) as HV. split; [exact HV|]. split; [rewrite EL, H4, H2, HV; reflexivity|]. split; [|reflexivity]. now apply (IH (static_of cls) WA CA k). }
    rewrite (sel_map (flatten_attrs fields_of static_of d') fst (fun k => map f (fst (flat (val_of d k))))) by
      (intros k Hk; destruct (HC k Hk) as [v [V1 [V2 [V3 V4]]]]; exists (flat (rebuilt f v)); rewrite flatten_find, V2; split; [reflexivity|now rewrite V3, V4]).
    rewrite (sel_map (flatten_attrs fields_of static_of d') snd (fun k => snd (flat (val_of d k)))) by
      (intros k Hk; destruct (HC k Hk) as [v [V1 [V2 [V3 V4]]]]; exists (flat (rebuilt f v)); rewrite flatten_find, V2; split; [reflexivity|now rewrite V3, V4]).
    rewrite (sel_map (flatten_attrs fields_of static_of d) fst (fun k => fst (flat (val_of d k)))) by
      (intros k Hk; destruct (HC k Hk) as [v [V1 [V2 [V3 V4]]]]; exists (flat v); rewrite flatten_find, V1; split; [reflexivity|now rewrite V4]).
    rewrite (sel_map (flatten_attrs fields_of static_of d) snd (fun k => snd (flat (val_of d k)))) by
      (intros k Hk; destruct (HC k Hk) as [v [V1 [V2 [V3 V4]]]]; exists (flat v); rewrite flatten_find, V1; split; [reflexivity|now rewrite V4]).
    f_equal. rewrite concat_map, map_map. reflexivity.
  - intros st _ _ k v _ E. discriminate.
  - intros n v IHv r IHr st [W1 W2] [C1 C2] k w Hk E. cbn [lookup] in E. destruct (String.eqb_spec n k) as [->|Hn]; [injection E as <-; apply IHv; auto|].
    now apply (IHr st W2 C2 k).
Qed.
Theorem C39_structure : forall f v, good_classes -> wf v -> clean v ->
  exists w, tree_map fields_of static_of f v = Some w /\ fst (flat w) = map f (fst (flat v)) /\ snd (flat w) = snd (flat v).
Proof.
  intros f v HG W C. exists (rebuilt f v). split; [now apply C39_tree_map|]. now rewrite (proj1 (structure_both f HG) v W C).
Qed.

(** the shape/dtype caches the library attaches to an instance change neither leaves nor definition *)
Theorem C39_cache_invisible : forall cls d c w, In c internal_caches -> ~ In c (fields_of cls) -> ~ In c (keys_of d) ->
  flat (PNode cls (PCons c w d)) = flat (PNode cls d).
Proof.
  intros cls d c w Hc Hf Hd.
  assert (ED : filter (fun n => mem n (c :: keys_of d)) (fields_of cls) = filter (fun n => mem n (keys_of d)) (fields_of cls)).
  { apply filter_ext_in. intros n Hn. unfold mem at 1. cbn [existsb]. destruct (String.eqb_spec n c); [subst; contradiction|reflexivity]. }
  assert (EO : ordered_keys fields_of cls (PCons c w d) = ordered_keys fields_of cls d).
  { unfold ordered_keys. cbn [keys_of]. rewrite ED. f_equal. f_equal. cbn [filter].
    rewrite (proj2 (mem_In c internal_caches) Hc). cbn [negb]. now rewrite andb_false_r. }
  assert (HK : forall k, In k (ordered_keys fields_of cls d) -> c <> k) by (intros k Hk ->; apply Hd; now apply ordered_in in Hk).
  rewrite !flat_node.
  assert (EC : child_keys fields_of static_of cls (PCons c w d) = child_keys fields_of static_of cls d) by (unfold child_keys; now rewrite EO).
  rewrite EC.
  assert (ES : static_items fields_of static_of cls (PCons c w d) = static_items fields_of static_of cls d).
  { unfold static_items. rewrite EO. apply map_ext_in. intros k Hk. apply filter_In in Hk. f_equal. cbn [lookup].
    destruct (String.eqb_spec c k); [exfalso; now apply (HK k (proj1 Hk))|reflexivity]. }
  rewrite ES.
  assert (EF : sel (flatten_attrs fields_of static_of (PCons c w d)) (child_keys fields_of static_of cls d) = sel (flatten_attrs fields_of static_of d) (child_keys fields_of static_of cls d)).
  { unfold sel. rewrite !flat_map_concat_map. f_equal. apply map_ext_in. intros k Hk. apply filter_In in Hk. rewrite !flatten_find. cbn [lookup].
    destruct (String.eqb_spec c k); [exfalso; now apply (HK k (proj1 Hk))|reflexivity]. }
  now rewrite EF.
Qed.

(** ** [replace] *)
Lemma all_some_map {X Y} (g : X -> option Y) l : (forall x, In x l -> g x <> None) -> exists ys, all_some (map g l) = Some ys /\ map g l = map Some ys.
Proof.
  induction l as [|x l IH]; intros H; [exists []; auto|]. destruct IH as [ys [E1 E2]]; [intros y Hy; apply H; now right|].
  destruct (g x) as [y|] eqn:E; [|exfalso; apply (H x); [now left|exact E]]. exists (y :: ys). cbn [map all_some]. rewrite E, E1, E2. auto.
Qed.
Lemma find_combine_some (g : string -> option pval) ns ys : map g ns = map Some ys -> forall n, In n ns -> find_key (combine ns ys) n = g n.
Proof.
  revert ys. induction ns as [|m ns IH]; intros ys E n Hn; [destruct Hn|]. destruct ys as [|y ys]; [discriminate|]. cbn [map] in E. injection E as E1 E2.
  cbn [combine find_key]. destruct (String.eqb_spec m n) as [->|Hm]; [now rewrite E1|]. destruct Hn as [->|Hn]; [contradiction|]. now apply IH.
Qed.
(** replacing declared fields of an instance that has them all gives an instance with
    exactly the declared fields, the given ones new and every other one as before *)
Theorem C39_replace : forall cls d changes, good_classes ->
  (forall n, In n (fields_of cls) -> In n (keys_of d)) -> (forall c, In c changes -> In (fst c) (fields_of cls)) ->
  exists d', replace fields_of cls d changes = Some (PNode cls d') /\ keys_of d' = fields_of cls /\
    forall n, In n (fields_of cls) -> lookup d' n = match find_key changes n with Some v => Some v | None => lookup d n end.
Proof.
  intros cls d changes HG HD HC. unfold replace.
  assert (F : forallb (fun c => mem (fst c) (fields_of cls)) changes = true) by (apply forallb_forall; intros c Hc; apply mem_In, HC, Hc).
  rewrite F. set (g := fun n => match find_key changes n with Some v => Some v | None => lookup d n end).
  destruct (all_some_map g (fields_of cls)) as [ys [E1 E2]].
  { intros n Hn. unfold g. destruct (find_key changes n); [discriminate|]. destruct (lookup_in d n (HD n Hn)) as [v Ev]. now rewrite Ev. }
  rewrite E1. unfold construct.
  assert (EL : length ys = length (fields_of cls)) by (apply (f_equal (@length _)) in E2; rewrite !map_length in E2; lia).
  rewrite EL, Nat.eqb_refl. pose proof (find_combine_some g _ _ E2) as FC. eexists. split; [reflexivity|]. split.
  - rewrite build_keys. transitivity (filter (fun _ => true) (fields_of cls)).
    + apply filter_ext_in. intros n Hn. rewrite FC by exact Hn. unfold g. destruct (find_key changes n); [reflexivity|]. destruct (lookup_in d n (HD n Hn)) as [v Ev]. now rewrite Ev.
    + clear. induction (fields_of cls) as [|x l IH]; cbn; congruence.
  - intros n Hn. rewrite build_lookup by apply HG. rewrite (proj2 (mem_In n _) Hn). now apply FC.
Qed.
(** an undeclared name is rejected *)
Theorem C39_replace_unknown : forall cls d changes n v, In (n, v) changes -> ~ In n (fields_of cls) -> replace fields_of cls d changes = None.
Proof.
  intros cls d changes n v Hin Hn. unfold replace.
  destruct (forallb (fun c => mem (fst c) (fields_of cls)) changes) eqn:F; [|reflexivity]. rewrite forallb_forall in F. specialize (F _ Hin).
  cbn in F. apply mem_In in F. contradiction.
Qed.
(** [to_tuple] lists the fields in declaration order, and the constructor rebuilds the instance from it *)
Theorem C39_to_tuple : forall cls d, good_classes -> NoDup (keys_of d) -> keys_of d = fields_of cls ->
  exists args, to_tuple fields_of cls d = Some args /\ map Some args = map (lookup d) (fields_of cls) /\ construct fields_of cls args = Some (PNode cls d).
Proof.
  intros cls d HG ND EK. unfold to_tuple. destruct (all_some_map (lookup d) (fields_of cls)) as [ys [E1 E2]].
  { intros n Hn. rewrite <- EK in Hn. destruct (lookup_in d n Hn) as [v Ev]. now rewrite Ev. }
  exists ys. split; [exact E1|]. split; [congruence|]. unfold construct.
  assert (EL : length ys = length (fields_of cls)) by (apply (f_equal (@length _)) in E2; rewrite !map_length in E2; lia).
  rewrite EL, Nat.eqb_refl. do 2 f_equal. transitivity (build (fields_of cls) (lookup d)).
  - apply build_ext. intros n Hn. now apply find_combine_some.
  - apply build_self; auto. rewrite EK at 1. symmetry. transitivity (filter (fun _ => true) (fields_of cls)).
    + apply filter_ext_in. intros n Hn. apply mem_In. now rewrite EK.
    + clear. induction (fields_of cls) as [|x l IH]; cbn; congruence.
Qed.
(** refutation: [from_tuple(to_tuple(x))] raises for every class that does not have exactly
    one field, because the zip object is passed as a single positional argument *)
Theorem C39_from_tuple_refuted : forall cls zo (args : list pval), length (fields_of cls) <> 1 -> from_tuple fields_of cls zo args = None.
Proof. intros cls zo args H. unfold from_tuple, construct. cbn [length]. destruct (Nat.eqb_spec 1 (length (fields_of cls))); [lia|reflexivity]. Qed.
End Prop39.

(** ** A concrete class table: [P] has [x] and a nested [q : Q]; [Q] has [u], [w] and the static [k] *)
Section Example39.
Open Scope string_scope.
Let fo (c : string) : list string := if String.eqb c "P" then ["x"; "q"] else if String.eqb c "Q" then ["u"; "k"; "w"] else [].
Let so (c : string) : list string := if String.eqb c "Q" then ["k"] else [].
Let q0 : pval nat := PNode "Q" (PCons "u" (PLeaf 1) (PCons "k" (PLeaf 77) (PCons "w" (PLeaf 2) PNil))).
Let p0 : pval nat := PNode "P" (PCons "x" (PLeaf 5) (PCons "q" q0 PNil)).
Lemma good_fo : good_classes fo.
Proof. intros cls. unfold fo. destruct (String.eqb cls "P"); [|destruct (String.eqb cls "Q")]; repeat constructor; cbn; intuition congruence. Qed.
Example C39_example_hyps : good_classes fo /\ wf p0 /\ clean fo so p0.
Proof. split; [apply good_fo|]. split; [|cbn; tauto]. cbn. repeat split; repeat constructor; cbn; intuition congruence. Qed.
Example C39_example_leaves : fst (tree_flatten fo so p0) = [5; 1; 2].
Proof. reflexivity. Qed.
Example C39_example_map : tree_map fo so (fun n => 10 * n) p0 =
  Some (PNode "P" (PCons "x" (PLeaf 50) (PCons "q" (PNode "Q" (PCons "u" (PLeaf 10) (PCons "k" (PLeaf 77) (PCons "w" (PLeaf 20) PNil)))) PNil))).
Proof. reflexivity. Qed.
Example C39_example_tuple : to_tuple fo "P" (PCons "x" (PLeaf 5) (PCons "q" q0 PNil)) = Some [PLeaf 5; q0] /\
  from_tuple fo "P" (fun _ => q0) [PLeaf 5; q0] = None.
Proof. split; reflexivity. Qed.
(** refutation: an attribute attached after construction is a leaf when flattening and is
    lost when rebuilding, so the tree definition changes and the leaf is dropped *)
Theorem C39_extra_dropped_refuted : exists v : pval nat, wf v /\
  exists w, tree_unflatten fo (snd (tree_flatten fo so v)) (fst (tree_flatten fo so v)) = Some (w, []) /\
    length (fst (tree_flatten fo so w)) < length (fst (tree_flatten fo so v)) /\ snd (tree_flatten fo so w) <> snd (tree_flatten fo so v).
Proof.
  exists (PNode "P" (PCons "x" (PLeaf 5) (PCons "note" (PLeaf 9) (PCons "q" q0 PNil)))).
  split; [cbn; repeat split; repeat constructor; cbn; intuition congruence|].
  eexists. split; [reflexivity|]. split; [cbn; lia|]. cbn. discriminate.
Qed.
(** the library's own caches are not leaves *)
Example C39_caches_ignored : fst (tree_flatten fo so (PNode "P" (PCons "x" (PLeaf 5) (PCons "_shape_cache" (PLeaf 9) (PCons "q" q0 PNil))))) = [5; 1; 2].
Proof. reflexivity. Qed.
End Example39.
Print Assumptions C39_structure.
Print Assumptions C39_replace.
