(** * PropTree2.v — property C85: instances and containers combined leaf by leaf, and the
      paths of leaves. *)
From Coq Require Import String OrderedTypeEx.
From Verif Require Import Jax TreeModel PropTree TreeModel2.

(** ** Sorting names has one result *)
Lemma sleb_trans a b c : String.leb a b = true -> String.leb b c = true -> String.leb a c = true.
Proof.
  assert (L : forall x y, String.leb x y = true <-> String_as_OT.cmp x y = Lt \/ x = y).
  { intros x y. unfold String.leb, String_as_OT.cmp. destruct (String.compare x y) eqn:E; [|tauto|].
    - apply String.compare_eq_iff in E. tauto.
    - split; [discriminate|]. intros [H|H]; [discriminate|]. subst y. pose proof (String.compare_antisym x x) as K. rewrite E in K. discriminate. }
  rewrite !L. intros [H1|<-] [H2|<-]; auto. left. apply String_as_OT.cmp_lt in H1, H2. apply String_as_OT.cmp_lt. eapply String_as_OT.lt_trans; eassumption.
Qed.

Lemma sleb_total a b : String.leb a b = true \/ String.leb b a = true.
Proof. destruct (String.leb_total a b); auto. Qed.
Lemma sinsert_comm x y l : sinsert x (sinsert y l) = sinsert y (sinsert x l).
Proof.
  induction l as [|z l IH]; cbn [sinsert].
  - destruct (String.leb x y) eqn:E1, (String.leb y x) eqn:E2; try reflexivity.
    + now rewrite (String.leb_antisym _ _ E1 E2).
    + destruct (sleb_total x y); congruence.
  - destruct (String.leb y z) eqn:Ey, (String.leb x z) eqn:Ex; cbn [sinsert]; rewrite ?Ey, ?Ex.
    + destruct (String.leb x y) eqn:E1, (String.leb y x) eqn:E2; rewrite ?Ey, ?Ex; try reflexivity.
      * now rewrite (String.leb_antisym _ _ E1 E2).
      * destruct (sleb_total x y); congruence.
    + assert (E1 : String.leb x y = false) by (destruct (String.leb x y) eqn:E; [|reflexivity]; rewrite (sleb_trans _ _ _ E Ey) in Ex; discriminate). now rewrite E1.
    + assert (E1 : String.leb y x = false) by (destruct (String.leb y x) eqn:E; [|reflexivity]; rewrite (sleb_trans _ _ _ E Ex) in Ey; discriminate). now rewrite E1.
    + now rewrite IH.
Qed.
Lemma ssort_canon l m : Permutation l m -> ssort l = ssort m.
Proof. unfold ssort. induction 1; cbn [fold_right] in *; [reflexivity|now rewrite IHPermutation|apply sinsert_comm|congruence]. Qed.

Lemma filter_id {X} (g : X -> bool) l : (forall x, In x l -> g x = true) -> filter g l = l.
Proof. induction l as [|x l IH]; intros H; [reflexivity|]. cbn [filter]. rewrite (H x) by (now left). f_equal. apply IH. intros y Hy. apply H. now right. Qed.
Lemma nodup_both {X} (a b : list X) : NoDup a -> NoDup b -> (forall x, In x a -> ~ In x b) -> NoDup (a ++ b).
Proof. induction a as [|x a IH]; cbn [app]; intros HA HB H; [exact HB|]. inversion HA; subst. constructor; [rewrite in_app_iff; intros [K|K]; [contradiction|exact (H x (or_introl eq_refl) K)]|]. apply IH; auto. intros y Hy. apply H. now right. Qed.
Lemma flat_map_ext_in {X Y} (f g : X -> list Y) l : (forall x, In x l -> f x = g x) -> flat_map f l = flat_map g l.
Proof. induction l as [|x l IH]; intros H; [reflexivity|]. cbn [flat_map]. rewrite (H x) by (now left). f_equal. apply IH. intros y Hy. apply H. now right. Qed.

Section Prop85.
Context {A : Type} (eqA : A -> A -> bool) (eqA_spec : forall a b, eqA a b = true <-> a = b).
Variables (fields_of static_of : string -> list string).
Notation pval := (pval A). Notation pattrs := (pattrs A). Notation tdef := (tdef A).
Notation flat := (@tree_flatten A fields_of static_of).
Notation unflat := (@tree_unflatten A fields_of).
Notation good := (good_classes fields_of).
Notation rebuilt := (rebuilt fields_of static_of).
Implicit Types (d e : pattrs) (v w : pval).
Lemma lookup_none d k : lookup d k = None <-> ~ In k (keys_of d).
Proof. exact (PropTree.lookup_none fields_of static_of d k). Qed.
Lemma lookup_val d k : In k (keys_of d) -> lookup d k = Some (val_of d k).
Proof. exact (PropTree.lookup_val fields_of static_of d k). Qed.
Lemma ordered_in cls d k : In k (ordered_keys fields_of cls d) -> In k (keys_of d).
Proof. exact (PropTree.ordered_in fields_of static_of cls d k). Qed.

(** ** Specification *)
(** no declared field has the name of one of the library's caches *)
Definition no_cache_fields : Prop := forall cls n, In n (fields_of cls) -> ~ In n internal_caches.
(** alike: the same class; the same attributes, in any order, apart from caches; equal static
    values; and the other attributes alike *)
Fixpoint alike v w : Prop :=
  match v with
  | PLeaf _ => exists b, w = PLeaf b
  | PNode cls d => exists e, w = PNode cls e /\
      (forall k, ~ In k internal_caches -> (In k (keys_of d) <-> In k (keys_of e))) /\
      (forall k, ~ In k internal_caches -> In k (static_of cls) -> lookup d k = lookup e k) /\
      alike_attrs (static_of cls) d e
  end
with alike_attrs (st : list string) d e : Prop :=
  match d with
  | PNil => True
  | PCons n v r => (In n st \/ In n internal_caches \/ exists w, lookup e n = Some w /\ alike v w) /\ alike_attrs st r e
  end.
(** the combination: declared attributes in declared order, static ones from the first *)
Fixpoint zipped (f : A -> A -> A) v w : pval :=
  match v, w with
  | PLeaf a, PLeaf b => PLeaf (f a b)
  | PNode cls d, PNode _ e => let m := zipped_attrs f d e in
      PNode cls (build (fields_of cls) (fun n => if mem n (static_of cls) then lookup d n else lookup m n))
  | _, _ => v
  end
with zipped_attrs (f : A -> A -> A) d e : pattrs :=
  match d with
  | PNil => PNil
  | PCons n v r => PCons n (match lookup e n with Some w => zipped f v w | None => v end) (zipped_attrs f r e)
  end.

(** ** Equality of auxiliary data *)
Lemma pval_eqb_both : (forall v w, pval_eqb eqA v w = true <-> v = w) /\ (forall d e, pattrs_eqb eqA d e = true <-> d = e).
Proof.
  apply pval_pattrs_ind.
  - intros a [b|c e]; cbn [pval_eqb]; [rewrite eqA_spec; split; [now intros ->|now intros [= ->]]|split; discriminate].
  - intros c d IH [b|c' e]; cbn [pval_eqb]; [split; discriminate|]. rewrite andb_true_iff, String.eqb_eq, IH. split; [now intros [-> ->]|now intros [= -> ->]].
  - intros [|n v r]; cbn [pattrs_eqb]; split; (reflexivity || discriminate).
  - intros n v IHv r IHr [|n' v' r']; cbn [pattrs_eqb]; [split; discriminate|]. rewrite !andb_true_iff, String.eqb_eq, IHv, IHr. split; [now intros [[-> ->] ->]|now intros [= -> -> ->]].
Qed.
Lemma list_eqb_spec {X} (eqb : X -> X -> bool) : (forall x y, eqb x y = true <-> x = y) -> forall l m, list_eqb eqb l m = true <-> l = m.
Proof.
  intros H. induction l as [|x l IH]; intros [|y m]; cbn [list_eqb]; try (split; (reflexivity || discriminate)). rewrite andb_true_iff, H, IH. split; [now intros [-> ->]|now intros [= -> ->]].
Qed.
Lemma static_eqb_spec x y : static_eqb eqA x y = true <-> x = y.
Proof.
  destruct x as [n [v|]], y as [n' [v'|]]; unfold static_eqb; cbn [fst snd]; rewrite andb_true_iff, String.eqb_eq, ?(proj1 pval_eqb_both); split; try (intros [? ?]; discriminate); try discriminate.
  - now intros [-> ->]. - now intros [= -> ->]. - now intros [-> _]. - now intros [= ->].
Qed.

(** ** Key order depends on the set of attributes only *)
Lemma ordered_mem cls d k : no_cache_fields -> (In k (ordered_keys fields_of cls d) <-> In k (keys_of d) /\ ~ In k internal_caches).
Proof.
  intros NC. rewrite ordered_eq, in_app_iff, declared_in. unfold extras. split.
  - intros [[H1 H2]|H]; [split; [exact H2|now apply (NC cls)]|]. apply (Permutation_in _ (ssort_perm _)) in H. apply filter_In in H as [H1 H2]. apply andb_true_iff in H2 as [_ H2]. apply negb_true_iff, mem_false in H2. auto.
  - intros [H1 H2]. destruct (in_dec string_dec k (fields_of cls)) as [Hf|Hf]; [left; auto|right]. apply (Permutation_in _ (Permutation_sym (ssort_perm _))). apply filter_In. split; [exact H1|].
    apply andb_true_iff. split; apply negb_true_iff, mem_false; [|exact H2]. rewrite declared_in. tauto.
Qed.
Lemma ordered_same cls d e : NoDup (keys_of d) -> NoDup (keys_of e) -> no_cache_fields ->
  (forall k, ~ In k internal_caches -> (In k (keys_of d) <-> In k (keys_of e))) -> ordered_keys fields_of cls d = ordered_keys fields_of cls e.
Proof.
  intros ND NE NC HK. rewrite !ordered_eq.
  assert (ED : declared fields_of cls d = declared fields_of cls e).
  { unfold declared. apply filter_ext_in. intros n Hn. specialize (HK n (NC cls n Hn)). destruct (mem n (keys_of d)) eqn:E1, (mem n (keys_of e)) eqn:E2; try reflexivity; rewrite ?mem_In, ?mem_false in *; tauto. }
  f_equal; [exact ED|]. unfold extras. rewrite ED. apply ssort_canon. apply NoDup_Permutation; try now apply NoDup_filter. intros k. rewrite !filter_In, !andb_true_iff, !negb_true_iff, !mem_false.
  split; (intros (H1 & H2 & H3); split; [|auto]); now apply HK.
Qed.

(** ** Alike means: the same tree definition *)
Lemma alike_attrs_in st d e : NoDup (keys_of d) -> (alike_attrs st d e <-> forall k v, lookup d k = Some v -> In k st \/ In k internal_caches \/ exists w, lookup e k = Some w /\ alike v w).
Proof.
  induction d as [|n v r IH]; cbn [keys_of alike_attrs lookup]; intros ND; [split; [intros _ k v H; discriminate|intros _; exact I]|]. inversion ND as [|? ? Hn ND']; subst. rewrite IH by exact ND'. split.
  - intros [H1 H2] k u. destruct (String.eqb_spec n k) as [->|]; [intros [= <-]; exact H1|apply H2].
  - intros H. split; [apply (H n v); now rewrite String.eqb_refl|]. intros k u Hk. apply (H k u). destruct (String.eqb_spec n k) as [->|]; [|exact Hk].
    exfalso. apply Hn. destruct (in_dec string_dec k (keys_of r)) as [K|K]; [exact K|]. apply lookup_none in K. congruence.
Qed.
Lemma wf_lookup d k v : wf_attrs d -> lookup d k = Some v -> wf v.
Proof. induction d as [|n u r IH]; cbn [lookup wf_attrs]; [discriminate|]. intros [H1 H2]. destruct (String.eqb n k); [intros [= <-]; exact H1|now apply IH]. Qed.
Lemma sel_children {X} (g : pval -> X) d ks : (forall k, In k ks -> In k (keys_of d)) -> forall fl : list (string * X), (forall k, find_key fl k = option_map g (lookup d k)) -> sel fl ks = map (fun k => g (val_of d k)) ks.
Proof.
  intros HK fl HF. transitivity (map (fun x => x) (sel fl ks)); [now rewrite map_id|]. apply sel_map. intros k Hk. exists (g (val_of d k)). rewrite HF, lookup_val by auto. auto.
Qed.
Lemma child_mem cls d k : no_cache_fields -> (In k (child_keys fields_of static_of cls d) <-> In k (keys_of d) /\ ~ In k internal_caches /\ ~ In k (static_of cls)).
Proof. intros NC. unfold child_keys. rewrite filter_In, ordered_mem, negb_true_iff, mem_false by exact NC. tauto. Qed.
Lemma child_in cls d k : In k (child_keys fields_of static_of cls d) -> In k (keys_of d).
Proof. intros H. apply filter_In in H as [H _]. now apply ordered_in in H. Qed.
Lemma sdef_node cls d : snd (flat (PNode cls d)) = TNode cls (child_keys fields_of static_of cls d) (static_items fields_of static_of cls d) (map (fun k => snd (flat (val_of d k))) (child_keys fields_of static_of cls d)).
Proof. rewrite flat_node. cbn [snd]. f_equal. rewrite (sel_children flat d) by (exact (child_in cls d) || apply flatten_find). now rewrite map_map. Qed.
Lemma sleaves_node cls d : fst (flat (PNode cls d)) = concat (map (fun k => fst (flat (val_of d k))) (child_keys fields_of static_of cls d)).
Proof. rewrite flat_node. cbn [fst]. f_equal. rewrite (sel_children flat d) by (exact (child_in cls d) || apply flatten_find). now rewrite map_map. Qed.
Lemma alike_def_both : good -> no_cache_fields ->
  (forall v w, wf v -> wf w -> (alike v w <-> snd (flat v) = snd (flat w))) /\
  (forall d, wf_attrs d -> forall k v, lookup d k = Some v -> forall w, wf w -> (alike v w <-> snd (flat v) = snd (flat w))).
Proof.
  intros HG NC. apply pval_pattrs_ind.
  - intros a [b|c e] _ _; cbn [alike]; [split; [reflexivity|eauto]|]. split; [intros [b H]; discriminate|]. rewrite sdef_node. discriminate.
  - intros cls d IH [b|c e] [ND WD] WW; [cbn [alike]; rewrite sdef_node; split; [intros (e & H & _); discriminate|discriminate]|]. destruct WW as [NE WE]. specialize (IH WD). rewrite !sdef_node. cbn [alike]. split.
    + intros (e' & [= -> <-] & HK & HS & HA). pose proof (ordered_same cls d e ND NE NC HK) as EO.
      assert (EC : child_keys fields_of static_of cls d = child_keys fields_of static_of cls e) by (unfold child_keys; now rewrite EO). rewrite EC. f_equal.
      * unfold static_items. rewrite EO. apply map_ext_in. intros k Hk. apply filter_In in Hk as [H1 H2]. apply ordered_mem in H1; [|exact NC]. f_equal. apply HS; [tauto|now apply mem_In].
      * apply map_ext_in. intros k Hk. rewrite <- EC in Hk. pose proof Hk as Hk2. rewrite EC in Hk2. apply child_mem in Hk as (H1 & H2 & H3); [|exact NC]. apply child_in in Hk2.
        pose proof (lookup_val d k H1) as V1. pose proof (lookup_val e k Hk2) as V2. rewrite alike_attrs_in in HA by exact ND. destruct (HA k _ V1) as [K|[K|(w & E & K)]]; [contradiction|contradiction|].
        rewrite V2 in E. injection E as <-. apply (IH k _ V1); [eapply wf_lookup; [exact WE|exact V2]|exact K].
    + intros [= -> EC ES EM]. exists e. split; [reflexivity|].
      assert (EST : filter (fun k => mem k (static_of c)) (ordered_keys fields_of c d) = filter (fun k => mem k (static_of c)) (ordered_keys fields_of c e)).
      { apply (f_equal (map fst)) in ES. unfold static_items in ES. rewrite !map_map in ES. cbn [fst] in ES. now rewrite !map_id in ES. }
      assert (SM : forall (q : pattrs) k, In k (static_of c) -> (In k (filter (fun k => mem k (static_of c)) (ordered_keys fields_of c q)) <-> In k (keys_of q) /\ ~ In k internal_caches)).
      { intros q k Hk. rewrite filter_In, ordered_mem, mem_In by exact NC. tauto. }
      split; [|split].
      * intros k Hk. destruct (in_dec string_dec k (static_of c)) as [Hs|Hs].
        -- pose proof (SM d k Hs) as S1. pose proof (SM e k Hs) as S2. rewrite EST in S1. tauto.
        -- pose proof (child_mem c d k NC) as S1. pose proof (child_mem c e k NC) as S2. rewrite EC in S1. tauto.
      * intros k Hk Hs. destruct (in_dec string_dec k (keys_of d)) as [Hd|Hd].
        -- assert (H : In (k, lookup d k) (static_items fields_of static_of c d)).
           { unfold static_items. apply in_map_iff. exists k. split; [reflexivity|]. apply SM; auto. }
           rewrite ES in H. unfold static_items in H. apply in_map_iff in H as (k' & [= -> E] & _). congruence.
        -- assert (He : ~ In k (keys_of e)). { intros He. apply Hd. pose proof (SM d k Hs) as S1. pose proof (SM e k Hs) as S2. rewrite EST in S1. tauto. }
           now rewrite (proj2 (lookup_none d k) Hd), (proj2 (lookup_none e k) He).
      * apply alike_attrs_in; [exact ND|]. intros k v Hv. destruct (in_dec string_dec k (static_of c)) as [Hs|Hs]; [now left|right]. destruct (in_dec string_dec k internal_caches) as [Hc|Hc]; [now left|right].
        assert (Hd : In k (keys_of d)) by (destruct (in_dec string_dec k (keys_of d)) as [K|K]; [exact K|apply lookup_none in K; congruence]).
        assert (KC : In k (child_keys fields_of static_of c d)) by (apply child_mem; auto). pose proof KC as KE. rewrite EC in KE. apply child_in in KE.
        exists (val_of e k). split; [now apply lookup_val|]. assert (VV : val_of d k = v) by (unfold val_of; now rewrite Hv). rewrite <- VV in Hv. rewrite <- VV. apply (IH k _ Hv); [eapply wf_lookup; [exact WE|now apply lookup_val]|].
        rewrite <- EC in EM. clear -EM KC. revert KC. generalize dependent (child_keys fields_of static_of c d). intros ks. induction ks as [|x ks IHk]; [intros _ []|]. cbn [map]. intros [= E1 E2] [->|H]; [exact E1|now apply IHk].
  - intros _ k v H. discriminate.
  - intros n v IHv r IHr [W1 W2] k u E. cbn [lookup] in E. destruct (String.eqb n k); [injection E as <-; intros w; now apply IHv|exact (IHr W2 k u E)].
Qed.

(** ** Flattening up to a definition *)
Definition up_children (d : pattrs) := fix go (ch : list tdef) (ks : list string) : option (list pval) :=
  match ch, ks with
  | [], [] => Some []
  | t' :: ch', k :: ks' => match lookup d k with
      | Some w' => match up_to eqA fields_of static_of t' w', go ch' ks' with Some l, Some m => Some (l ++ m) | _, _ => None end
      | None => None end
  | _, _ => None
  end.
Lemma up_node cls ks st ch cls' d : up_to eqA fields_of static_of (TNode cls ks st ch) (PNode cls' d) =
  if String.eqb cls' cls && list_eqb String.eqb (child_keys fields_of static_of cls' d) ks && list_eqb (static_eqb eqA) (static_items fields_of static_of cls' d) st then up_children d ch ks else None.
Proof. reflexivity. Qed.
Lemma up_self_both : (forall w, up_to eqA fields_of static_of (snd (flat w)) w = Some (map PLeaf (fst (flat w)))) /\
  (forall d, forall k w, lookup d k = Some w -> up_to eqA fields_of static_of (snd (flat w)) w = Some (map PLeaf (fst (flat w)))).
Proof.
  apply pval_pattrs_ind.
  - reflexivity.
  - intros cls d IH. rewrite sdef_node, sleaves_node, up_node. rewrite String.eqb_refl, (proj2 (list_eqb_spec String.eqb String.eqb_eq _ _) eq_refl), (proj2 (list_eqb_spec (static_eqb eqA) static_eqb_spec _ _) eq_refl). cbn [andb].
    pose proof (child_in cls d) as HC. revert HC. generalize (child_keys fields_of static_of cls d) as ks. induction ks as [|k ks IHk]; intros HC; [reflexivity|]. cbn [map concat up_children].
    assert (V : lookup d k = Some (val_of d k)) by (apply lookup_val, HC; now left). rewrite V, (IH k _ V), IHk by (intros x Hx; apply HC; now right). now rewrite map_app.
  - discriminate.
  - intros n v IHv r IHr k w E. cbn [lookup] in E. destruct (String.eqb n k); [injection E as <-; exact IHv|now apply (IHr k)].
Qed.
Fixpoint tdef_size (t : tdef) : nat := match t with TLeaf => 1 | TNode _ _ _ ch => S (list_sum (map tdef_size ch)) end.
Lemma up_leaves : forall n t w ls, tdef_size t <= n -> up_to eqA fields_of static_of t w = Some (map PLeaf ls) -> snd (flat w) = t.
Proof.
  induction n as [|n IH]; intros t w ls HN H; [destruct t; cbn [tdef_size] in HN; lia|]. destruct t as [|cls ks st ch].
  - cbn [up_to] in H. injection H as H. destruct ls as [|a [|? ?]]; try discriminate. injection H as ->. reflexivity.
  - destruct w as [b|cls' d]; [discriminate|]. rewrite up_node in H. destruct (String.eqb_spec cls' cls) as [->|]; [|discriminate]. cbn [andb] in H.
    destruct (list_eqb String.eqb _ _) eqn:E1; [|discriminate]. destruct (list_eqb (static_eqb eqA) _ _) eqn:E2; [|discriminate]. cbn [andb] in H. apply (list_eqb_spec _ String.eqb_eq) in E1. apply (list_eqb_spec _ static_eqb_spec) in E2.
    rewrite sdef_node, E1, E2. f_equal. cbn [tdef_size] in HN. clear E1 E2. revert ks ls H HN. induction ch as [|t ch IHc]; intros [|k ks] ls H HN; cbn [up_children] in H; try discriminate; [reflexivity|].
    destruct (lookup d k) as [w|] eqn:EL; [|discriminate]. destruct (up_to eqA fields_of static_of t w) as [l|] eqn:EU; [|discriminate]. destruct (up_children d ch ks) as [m|] eqn:EM; [|discriminate]. injection H as H.
    symmetry in H; apply map_eq_app in H as (l1 & l2 & -> & <- & <-). change (list_sum (map tdef_size (t :: ch))) with (tdef_size t + list_sum (map tdef_size ch)) in HN. cbn [map]. f_equal.
    + unfold val_of. rewrite EL. apply (IH t w l1); [lia|exact EU].
    + apply (IHc ks l2); [exact EM|lia].
Qed.

(** ** Rebuilding from combined leaves *)
Lemma flat_lengths_both : good -> no_cache_fields -> forall v w, wf v -> wf w -> snd (flat v) = snd (flat w) -> length (fst (flat v)) = length (fst (flat w)).
Proof.
  intros HG NC v w WV WW E.
  assert (U : forall t ls1 ls2 v1 v2 rest, unflat t ls1 = Some (v1, rest) -> unflat t ls2 = Some (v2, rest) -> length ls1 = length ls2).
  { clear. assert (G : forall n t, tdef_size t <= n -> forall ls1 ls2 v1 v2 r1 r2, unflat t ls1 = Some (v1, r1) -> unflat t ls2 = Some (v2, r2) -> length r1 = length r2 -> length ls1 = length ls2).
    { induction n as [|n IH]; intros t HN ls1 ls2 v1 v2 r1 r2 H1 H2 HR; [destruct t; cbn [tdef_size] in HN; lia|]. destruct t as [|cls ks st ch].
      - destruct ls1 as [|a ls1]; [discriminate|]. destruct ls2 as [|b ls2]; [discriminate|]. cbn in H1, H2. injection H1 as _ ->. injection H2 as _ ->. cbn. lia.
      - rewrite unflat_node in H1, H2. destruct (unflat_list fields_of ch ls1) as [[vs1 q1]|] eqn:E1; [|discriminate]. destruct (unflat_list fields_of ch ls2) as [[vs2 q2]|] eqn:E2; [|discriminate]. injection H1 as _ ->. injection H2 as _ ->.
        cbn [tdef_size] in HN. clear -IH HN E1 E2 HR. revert ls1 ls2 vs1 vs2 E1 E2 HN. induction ch as [|t ch IHc]; intros ls1 ls2 vs1 vs2 E1 E2 HN; cbn [unflat_list] in E1, E2.
        + injection E1 as _ ->. injection E2 as _ ->. exact HR.
        + change (list_sum (map tdef_size (t :: ch))) with (tdef_size t + list_sum (map tdef_size ch)) in HN.
          destruct (unflat t ls1) as [[x1 m1]|] eqn:F1; [|discriminate]. destruct (unflat t ls2) as [[x2 m2]|] eqn:F2; [|discriminate].
          fold (@unflat_list A fields_of) in E1, E2.
          destruct (unflat_list fields_of ch m1) as [[y1 s1]|] eqn:G1; [|discriminate]. destruct (unflat_list fields_of ch m2) as [[y2 s2]|] eqn:G2; [|discriminate]. injection E1 as _ ->. injection E2 as _ ->.
          apply (IH t ltac:(lia) ls1 ls2 x1 x2 m1 m2 F1 F2). apply (IHc m1 m2 y1 y2 G1 G2). lia. }
    intros t ls1 ls2 v1 v2 rest H1 H2. exact (G (tdef_size t) t (Nat.le_refl _) ls1 ls2 v1 v2 rest rest H1 H2 eq_refl). }
  pose proof (C39_roundtrip fields_of static_of v HG WV) as R1. pose proof (C39_roundtrip fields_of static_of w HG WW) as R2. rewrite E in R1. eapply U; eassumption.
Qed.
Definition zip (f : A -> A -> A) (l m : list A) : list A := map (fun p => f (fst p) (snd p)) (combine l m).
Lemma zip_app f l1 l2 m1 m2 : length l1 = length m1 -> zip f (l1 ++ l2) (m1 ++ m2) = zip f l1 m1 ++ zip f l2 m2.
Proof. revert m1. induction l1 as [|x l1 IH]; intros [|y m1] H; try discriminate; [reflexivity|]. cbn [app]. unfold zip in *. cbn [combine map app]. f_equal. apply IH. now injection H. Qed.
Lemma zipped_lookup f d e k : lookup (zipped_attrs f d e) k = match lookup d k with Some v => Some (match lookup e k with Some w => zipped f v w | None => v end) | None => None end.
Proof. induction d as [|n v r IH]; cbn [zipped_attrs lookup]; [reflexivity|]. destruct (String.eqb_spec n k) as [->|]; [reflexivity|exact IH]. Qed.
Lemma unflat_zip_both f : good -> no_cache_fields ->
  (forall v w, wf v -> wf w -> alike v w -> forall rest, unflat (snd (flat v)) (zip f (fst (flat v)) (fst (flat w)) ++ rest) = Some (zipped f v w, rest)) /\
  (forall d, wf_attrs d -> forall k v, lookup d k = Some v -> forall w, wf w -> alike v w -> forall rest, unflat (snd (flat v)) (zip f (fst (flat v)) (fst (flat w)) ++ rest) = Some (zipped f v w, rest)).
Proof.
  intros HG NC. apply pval_pattrs_ind.
  - intros a w _ _ [b ->] rest. reflexivity.
  - intros cls d IH w [ND WD] WW HA rest. specialize (IH WD). pose proof (proj1 (proj1 (alike_def_both HG NC) (PNode cls d) w (conj ND WD) WW) HA) as ED. destruct HA as (e & -> & HK & HS & HA). destruct WW as [NE WE].
    rewrite !sdef_node in ED. injection ED as EC ES EM.
    rewrite sdef_node, !sleaves_node, <- EC, unflat_node.
    rewrite alike_attrs_in in HA by exact ND.
    assert (HC : forall k, In k (child_keys fields_of static_of cls d) -> exists v w, lookup d k = Some v /\ lookup e k = Some w /\ wf w /\ alike v w /\ val_of d k = v /\ val_of e k = w /\ length (fst (flat v)) = length (fst (flat w))).
    { intros k Hk. apply child_mem in Hk as (H1 & H2 & H3); [|exact NC]. pose proof (lookup_val d k H1) as V1. destruct (HA k _ V1) as [K|[K|(w & E & K)]]; [contradiction|contradiction|].
      assert (WV : wf (val_of d k)) by (eapply wf_lookup; [exact WD|exact V1]). assert (WW : wf w) by (eapply wf_lookup; [exact WE|exact E]).
      exists (val_of d k), w. repeat split; try assumption; [unfold val_of; now rewrite E|]. apply flat_lengths_both; try assumption. now apply (alike_def_both HG NC). }
    assert (UL : forall ks, (forall k, In k ks -> In k (child_keys fields_of static_of cls d)) ->
              unflat_list fields_of (map (fun k => snd (flat (val_of d k))) ks) (zip f (concat (map (fun k => fst (flat (val_of d k))) ks)) (concat (map (fun k => fst (flat (val_of e k))) ks)) ++ rest)
              = Some (map (fun k => zipped f (val_of d k) (val_of e k)) ks, rest)).
    { induction ks as [|k ks IHk]; intros HI; [reflexivity|]. cbn [map concat unflat_list]. destruct (HC k (HI k (or_introl eq_refl))) as (v & w & L1 & L2 & W2 & AK & -> & -> & LE).
      rewrite zip_app by exact LE. rewrite <- app_assoc. rewrite (IH k v L1 w W2 AK). fold (@unflat_list A fields_of). rewrite IHk by (intros x Hx; apply HI; now right). reflexivity. }
    rewrite UL by auto. cbn [zipped]. do 3 f_equal. apply build_ext. intros n Hn.
    pose proof (ordered_nodup fields_of static_of cls d HG ND) as NO.
    assert (NK : NoDup (child_keys fields_of static_of cls d)) by (apply NoDup_filter; exact NO).
    unfold attr_dict. rewrite combine_map_r.
    assert (F1 : map fst (map (fun k => (k, zipped f (val_of d k) (val_of e k))) (child_keys fields_of static_of cls d)) = child_keys fields_of static_of cls d) by (rewrite map_map; cbn; apply map_id).
    assert (F2 : map fst (static_items fields_of static_of cls d) = filter (fun k => mem k (static_of cls)) (ordered_keys fields_of cls d)) by (unfold static_items; rewrite map_map; cbn; apply map_id).
    rewrite !find_key_rev by (rewrite ?F1, ?F2; try assumption; apply NoDup_filter; exact NO).
    assert (HO : In n (ordered_keys fields_of cls d) <-> In n (keys_of d)) by (rewrite ordered_mem by exact NC; pose proof (NC cls n Hn); tauto).
    destruct (mem n (static_of cls)) eqn:EX.
    + destruct (lookup d n) as [v|] eqn:EL.
      * assert (In n (keys_of d)) as HI by (destruct (in_dec string_dec n (keys_of d)) as [H|H]; [exact H|apply lookup_none in H; congruence]).
        assert (E : find_key (static_items fields_of static_of cls d) n = Some (Some v)); [|now rewrite E].
        apply find_key_in; [rewrite F2; apply NoDup_filter; exact NO|]. unfold static_items. apply in_map_iff. exists n. rewrite EL. split; [reflexivity|]. apply filter_In. split; [now apply HO|exact EX].
      * assert (HI : ~ In n (keys_of d)) by (apply lookup_none; exact EL).
        assert (E : find_key (static_items fields_of static_of cls d) n = None) by (apply find_key_none; rewrite F2, filter_In, HO; tauto).
        rewrite E. apply find_key_none. rewrite F1. intros K. apply child_in in K. contradiction.
    + assert (E : find_key (static_items fields_of static_of cls d) n = None) by (apply find_key_none; rewrite F2, filter_In, EX; intros [_ ?]; discriminate).
      rewrite E, zipped_lookup. destruct (lookup d n) as [v|] eqn:EL.
      * assert (HI : In n (keys_of d)) by (destruct (in_dec string_dec n (keys_of d)) as [H|H]; [exact H|apply lookup_none in H; congruence]).
        assert (KC : In n (child_keys fields_of static_of cls d)) by (apply child_mem; [exact NC|]; apply mem_false in EX; pose proof (NC cls n Hn); auto).
        destruct (HC n KC) as (v' & w & L1 & L2 & _ & _ & V1 & V2 & _). rewrite EL in L1. injection L1 as <-.
        apply find_key_in; [now rewrite F1|]. apply in_map_iff. exists n. rewrite L2, V1, V2. split; [reflexivity|exact KC].
      * apply find_key_none. rewrite F1. intros K. apply child_in in K. apply lookup_none in EL. contradiction.
  - intros _ k v H. discriminate.
  - intros n v IHv r IHr [W1 W2] k u E. cbn [lookup] in E. destruct (String.eqb n k); [injection E as <-; intros w; now apply IHv|exact (IHr W2 k u E)].
Qed.

(** ** Theorems *)
Notation combine2 g := (tree_map2 eqA fields_of static_of g).
Lemma all_some_leaves f ls ws : all_some (map (fun p => on_arrays f (fst p) (snd p)) (combine ls (map PLeaf ws))) = Some (zip f ls ws).
Proof. revert ws. induction ls as [|a ls IH]; intros [|b ws]; try reflexivity. cbn [map combine fst snd on_arrays all_some]. rewrite IH. reflexivity. Qed.
Lemma all_some_inv (f : A -> A -> A) (ls : list A) : forall (ws : list pval) (rs : list A), length ls = length ws -> all_some (map (fun p => on_arrays f (fst p) (snd p)) (combine ls ws)) = Some rs -> exists bs, ws = map PLeaf bs.
Proof.
  induction ls as [|a ls IH]; intros [|w ws] rs L H; try discriminate; [exists []; reflexivity|]. cbn [map combine fst snd all_some] in H. destruct w as [b|c e]; cbn [on_arrays all_some] in H; [|discriminate].
  destruct (all_some _) as [rs'|] eqn:E; [|discriminate]. destruct (IH ws rs') as [bs ->]; [now injection L|exact E|]. exists (b :: bs). reflexivity.
Qed.
Fixpoint tleaves (t : tdef) : nat := match t with TLeaf => 1 | TNode _ _ _ ch => list_sum (map tleaves ch) end.
Lemma tleaves_flat_both : (forall v, tleaves (snd (flat v)) = length (fst (flat v))) /\ (forall d k v, lookup d k = Some v -> tleaves (snd (flat v)) = length (fst (flat v))).
Proof.
  apply pval_pattrs_ind.
  - reflexivity.
  - intros cls d IH. rewrite sdef_node, sleaves_node. cbn [tleaves]. pose proof (child_in cls d) as HC. revert HC. generalize (child_keys fields_of static_of cls d) as ks. induction ks as [|k ks IHk]; intros HC; [reflexivity|].
    cbn [map concat]. rewrite app_length. change (list_sum (?x :: ?l)) with (x + list_sum l). rewrite IHk by (intros x Hx; apply HC; now right). rewrite (IH k (val_of d k)); [reflexivity|]. apply lookup_val, HC. now left.
  - discriminate.
  - intros n v IHv r IHr k w E. cbn [lookup] in E. destruct (String.eqb n k); [injection E as <-; exact IHv|exact (IHr k w E)].
Qed.
Lemma up_length : forall n t w ws, tdef_size t <= n -> up_to eqA fields_of static_of t w = Some ws -> length ws = tleaves t.
Proof.
  induction n as [|n IH]; intros t w ws HN H; [destruct t; cbn [tdef_size] in HN; lia|]. destruct t as [|cls ks st ch]; [injection H as <-; reflexivity|].
  destruct w as [b|cls' d]; [discriminate|]. rewrite up_node in H. destruct (String.eqb cls' cls && _ && _); [|discriminate]. cbn [tdef_size] in HN. cbn [tleaves]. revert ks ws H HN. induction ch as [|t ch IHc]; intros [|k ks] ws H HN; cbn [up_children] in H; try discriminate; [injection H as <-; reflexivity|].
  destruct (lookup d k) as [w|] eqn:EL; [|discriminate]. destruct (up_to eqA fields_of static_of t w) as [l|] eqn:EU; [|discriminate]. destruct (up_children d ch ks) as [m|] eqn:EM; [|discriminate]. injection H as <-.
  change (list_sum (map tdef_size (t :: ch))) with (tdef_size t + list_sum (map tdef_size ch)) in HN. change (list_sum (map tleaves (t :: ch))) with (tleaves t + list_sum (map tleaves ch)).
  rewrite app_length, (IH t w l ltac:(lia) EU), (IHc ks m EM ltac:(lia)). reflexivity.
Qed.

(** two instances have equal tree definitions exactly when they are alike *)
Theorem C85_same_definition : forall v w, good -> no_cache_fields -> wf v -> wf w -> (alike v w <-> snd (flat v) = snd (flat w)).
Proof. intros v w HG NC. exact (proj1 (alike_def_both HG NC) v w). Qed.
(** hence being alike is an equivalence *)
Theorem C85_alike_equivalence : good -> no_cache_fields ->
  (forall v, wf v -> alike v v) /\ (forall v w, wf v -> wf w -> alike v w -> alike w v) /\ (forall u v w, wf u -> wf v -> wf w -> alike u v -> alike v w -> alike u w).
Proof.
  intros HG NC. pose proof (fun v w => C85_same_definition v w HG NC) as H. split; [|split].
  - intros v W. now apply H.
  - intros v w W1 W2 K. apply H; auto. symmetry. now apply H.
  - intros u v w W1 W2 W3 K1 K2. apply H in K1, K2; auto. apply H; auto. congruence.
Qed.
(** alike instances are combined leaf by leaf *)
Theorem C85_combine : forall f v w, good -> no_cache_fields -> wf v -> wf w -> alike v w -> combine2 (on_arrays f) v w = Some (zipped f v w).
Proof.
  intros f v w HG NC WV WW HA. pose proof (proj1 (C85_same_definition v w HG NC WV WW) HA) as E. unfold tree_map2. rewrite (surjective_pairing (flat v)), E, (proj1 up_self_both w), all_some_leaves, <- E.
  pose proof (proj1 (unflat_zip_both f HG NC) v w WV WW HA []) as U. rewrite app_nil_r in U. now rewrite U.
Qed.
(** field by field: static fields are kept, an array field becomes [f] of the two arrays, a
    nested instance becomes the combination of the two; nothing else is in the result *)
Theorem C85_fields : forall f cls d e, good -> no_cache_fields -> wf (PNode cls d) -> wf (PNode cls e) -> alike (PNode cls d) (PNode cls e) ->
  exists r, combine2 (on_arrays f) (PNode cls d) (PNode cls e) = Some (PNode cls r) /\
    (forall n, ~ In n (fields_of cls) -> lookup r n = None) /\
    (forall n, In n (fields_of cls) -> In n (static_of cls) -> lookup r n = lookup d n /\ lookup r n = lookup e n) /\
    (forall n, In n (fields_of cls) -> ~ In n (static_of cls) ->
       match lookup d n, lookup e n with
       | Some (PLeaf a), Some (PLeaf b) => lookup r n = Some (PLeaf (f a b))
       | Some v, Some w => lookup r n = combine2 (on_arrays f) v w /\ lookup r n <> None
       | None, None => lookup r n = None
       | _, _ => False
       end).
Proof.
  intros f cls d e HG NC WV WW HA. pose proof (C85_combine f _ _ HG NC WV WW HA) as E. cbn [zipped] in E. rewrite E. eexists. split; [reflexivity|].
  destruct HA as (e' & [= <-] & HK & HS & HA). destruct WV as [ND WD], WW as [NE WE]. rewrite alike_attrs_in in HA by exact ND.
  split; [|split]; intros n Hn.
  - rewrite build_lookup by apply HG. now rewrite (proj2 (mem_false _ _) Hn).
  - intros Hs. rewrite build_lookup by apply HG. rewrite (proj2 (mem_In _ _) Hn), (proj2 (mem_In _ _) Hs). split; [reflexivity|]. apply HS; [now apply (NC cls)|exact Hs].
  - intros Hs. rewrite build_lookup by apply HG. rewrite (proj2 (mem_In _ _) Hn), (proj2 (mem_false _ _) Hs), zipped_lookup.
    assert (HI : In n (keys_of d) <-> In n (keys_of e)) by (apply HK; now apply (NC cls)).
    destruct (lookup d n) as [v|] eqn:EL.
    + destruct (HA n v EL) as [K|[K|(w & Ew & K)]]; [contradiction|exfalso; exact (NC cls n Hn K)|]. rewrite Ew.
      assert (WV : wf v) by (eapply wf_lookup; [exact WD|exact EL]). assert (WW : wf w) by (eapply wf_lookup; [exact WE|exact Ew]).
      pose proof (C85_combine f v w HG NC WV WW K) as C. destruct v as [a|c1 d1]; [destruct K as [b ->]; reflexivity|]. rewrite C. destruct w; split; (reflexivity || discriminate).
    + apply lookup_none in EL. rewrite HI in EL. apply lookup_none in EL. now rewrite EL.
Qed.
(** and nothing else can be combined: a different class, a missing or additional attribute,
    another static value or an array against an instance raises *)
Theorem C85_refused : forall f v w, good -> no_cache_fields -> wf v -> wf w -> ~ alike v w -> combine2 (on_arrays f) v w = None.
Proof.
  intros f v w HG NC WV WW HA. unfold tree_map2. rewrite (surjective_pairing (flat v)). destruct (up_to eqA fields_of static_of (snd (flat v)) w) as [ws|] eqn:EU; [|reflexivity].
  destruct (all_some _) as [rs|] eqn:EA; [|reflexivity]. exfalso. apply HA. apply C85_same_definition; auto.
  pose proof (up_length _ _ _ _ (Nat.le_refl _) EU) as EL. rewrite (proj1 tleaves_flat_both v) in EL. destruct (all_some_inv f _ ws rs (eq_sym EL) EA) as [bs ->]. symmetry. eapply up_leaves; [apply Nat.le_refl|exact EU].
Qed.
(** whatever function is mapped: an undeclared attribute on one of the two makes the call raise *)
Theorem C85_extra_blocks : forall g k cls d e, good -> no_cache_fields -> wf (PNode cls d) -> wf (PNode cls e) -> ~ In k internal_caches -> In k (keys_of d) -> ~ In k (keys_of e) ->
  combine2 g (PNode cls d) (PNode cls e) = None /\ combine2 g (PNode cls e) (PNode cls d) = None.
Proof.
  intros g k cls d e HG NC [ND WD] [NE WE] Hc Hd He.
  assert (G : forall p q, (In k (keys_of p) -> ~ In k (keys_of q)) -> (In k (keys_of q) -> ~ In k (keys_of p)) -> In k (keys_of p) \/ In k (keys_of q) -> combine2 g (PNode cls p) (PNode cls q) = None).
  { intros p q H1 H2 H3. unfold tree_map2. rewrite (surjective_pairing (flat (PNode cls p))), sdef_node, up_node.
    destruct (list_eqb String.eqb _ _) eqn:E1; [|rewrite andb_false_r; reflexivity]. destruct (list_eqb (static_eqb eqA) _ _) eqn:E2; [|rewrite andb_false_r; reflexivity]. exfalso.
    apply (list_eqb_spec _ String.eqb_eq) in E1. apply (list_eqb_spec _ static_eqb_spec) in E2.
    assert (EO : In k (keys_of p) <-> In k (keys_of q)); [|tauto].
    destruct (in_dec string_dec k (static_of cls)) as [Hs|Hs].
    - apply (f_equal (map fst)) in E2. unfold static_items in E2. rewrite !map_map in E2. cbn [fst] in E2. rewrite !map_id in E2.
      assert (S : forall q : pattrs, In k (filter (fun k => mem k (static_of cls)) (ordered_keys fields_of cls q)) <-> In k (keys_of q)) by (intros z; rewrite filter_In, ordered_mem, mem_In by exact NC; tauto).
      rewrite <- S, <- E2, S. tauto.
    - pose proof (child_mem cls p k NC) as S1. pose proof (child_mem cls q k NC) as S2. rewrite E1 in S2. tauto. }
  split; apply G; tauto.
Qed.
Lemma rebuilt_extra f k x cls d : ~ In k (fields_of cls) -> rebuilt f (PNode cls (PCons k x d)) = rebuilt f (PNode cls d).
Proof.
  intros Hk. cbn [PropTree.rebuilt]. f_equal. apply build_ext. intros n Hn. cbn [PropTree.rebuilt_attrs lookup]. destruct (String.eqb_spec k n) as [->|]; [contradiction|reflexivity].
Qed.
Lemma rebuilt_alike_both f g : good -> (forall v, alike (rebuilt f v) (rebuilt g v)) /\ (forall d k v, lookup d k = Some v -> alike (rebuilt f v) (rebuilt g v)).
Proof.
  intros HG. apply pval_pattrs_ind.
  - intros a. cbn. eauto.
  - intros cls d IH. cbn [PropTree.rebuilt alike].
    set (D := build (fields_of cls) (fun n => if mem n (static_of cls) then lookup d n else lookup (rebuilt_attrs fields_of static_of f d) n)).
    set (E := build (fields_of cls) (fun n => if mem n (static_of cls) then lookup d n else lookup (rebuilt_attrs fields_of static_of g d) n)).
    assert (LD : forall n, lookup D n = if mem n (fields_of cls) then if mem n (static_of cls) then lookup d n else option_map (rebuilt f) (lookup d n) else None).
    { intros n. unfold D. rewrite build_lookup by apply HG. now rewrite rebuilt_lookup. }
    assert (LE : forall n, lookup E n = if mem n (fields_of cls) then if mem n (static_of cls) then lookup d n else option_map (rebuilt g) (lookup d n) else None).
    { intros n. unfold E. rewrite build_lookup by apply HG. now rewrite rebuilt_lookup. }
    exists E. split; [reflexivity|]. split; [|split].
    + intros k _. assert (HN : lookup D k = None <-> lookup E k = None).
      { rewrite LD, LE. destruct (mem k (fields_of cls)), (mem k (static_of cls)), (lookup d k); cbn; split; (reflexivity || discriminate). }
      rewrite !lookup_none in HN. destruct (in_dec string_dec k (keys_of D)), (in_dec string_dec k (keys_of E)); tauto.
    + intros k _ Hs. rewrite LD, LE. apply mem_In in Hs. now rewrite Hs.
    + assert (NDD : NoDup (keys_of D)) by (unfold D; rewrite build_keys; apply NoDup_filter, HG).
      apply alike_attrs_in; [exact NDD|]. intros k v Hv. destruct (in_dec string_dec k (static_of cls)) as [Hs|Hs]; [now left|right; right]. apply mem_false in Hs. rewrite LD, Hs in Hv. rewrite LE, Hs.
      destruct (mem k (fields_of cls)); [|discriminate]. destruct (lookup d k) as [u|] eqn:EL; [|discriminate]. injection Hv as <-. eexists. split; [reflexivity|]. exact (IH k u EL).
  - discriminate.
  - intros n v IHv r IHr k w E. cbn [lookup] in E. destruct (String.eqb n k); [injection E as <-; exact IHv|exact (IHr k w E)].
Qed.
(** after one [tree_map] on each side the undeclared attribute is gone and they combine again *)
Theorem C85_rebuilt_combine : forall f g k x cls d, good -> ~ In k (fields_of cls) ->
  alike (rebuilt f (PNode cls (PCons k x d))) (rebuilt g (PNode cls d)) /\ alike (rebuilt f (PNode cls d)) (rebuilt g (PNode cls (PCons k x d))).
Proof. intros f g k x cls d HG Hk. rewrite !rebuilt_extra by exact Hk. split; apply rebuilt_alike_both, HG. Qed.
(** the caches never matter *)
Theorem C85_cache_harmless : forall f c x cls d e, good -> no_cache_fields -> wf (PNode cls (PCons c x d)) -> wf (PNode cls e) -> In c internal_caches ->
  combine2 (on_arrays f) (PNode cls (PCons c x d)) (PNode cls e) = combine2 (on_arrays f) (PNode cls d) (PNode cls e).
Proof.
  intros f c x cls d e HG NC WV WW Hc. assert (Hf : ~ In c (fields_of cls)) by (intros H; exact (NC cls c H Hc)).
  assert (WV' : wf (PNode cls d)) by (destruct WV as [W1 [_ W2]]; split; [now inversion W1|exact W2]).
  assert (EF : flat (PNode cls (PCons c x d)) = flat (PNode cls d)).
  { apply C39_cache_invisible; auto. destruct WV as [W1 _]. now inversion W1. }
  unfold tree_map2. now rewrite EF.
Qed.

(** ** Paths *)
(** reading an attribute chain with getattr, without entering static fields or caches *)
Fixpoint read v (p : list string) : option A :=
  match p with
  | [] => match v with PLeaf a => Some a | PNode _ _ => None end
  | k :: p' => match v with
      | PNode cls d => if mem k (static_of cls) || mem k internal_caches then None else match lookup d k with Some w => read w p' | None => None end
      | PLeaf _ => None end
  end.
Notation paths := (flatten_paths fields_of static_of).
Lemma paths_find d k : find_key (path_attrs fields_of static_of d) k = option_map paths (lookup d k).
Proof. induction d as [|n v r IH]; cbn [path_attrs find_key lookup]; [reflexivity|]. destruct (String.eqb n k); [reflexivity|exact IH]. Qed.
Lemma paths_node cls d : paths (PNode cls d) = flat_map (fun k => map (fun z => (k :: fst z, snd z)) (paths (val_of d k))) (child_keys fields_of static_of cls d).
Proof.
  cbn [flatten_paths]. pose proof (child_in cls d) as HC. revert HC. generalize (child_keys fields_of static_of cls d) as ks. induction ks as [|k ks IH]; intros HC; [reflexivity|]. cbn [flat_map].
  rewrite IH by (intros x Hx; apply HC; now right). f_equal. rewrite paths_find, lookup_val by (apply HC; now left). reflexivity.
Qed.
Lemma paths_both : good -> no_cache_fields ->
  (forall v, wf v -> map snd (paths v) = fst (flat v) /\ NoDup (map fst (paths v)) /\ forall p a, In (p, a) (paths v) <-> read v p = Some a) /\
  (forall d, wf_attrs d -> forall k v, lookup d k = Some v -> map snd (paths v) = fst (flat v) /\ NoDup (map fst (paths v)) /\ forall p a, In (p, a) (paths v) <-> read v p = Some a).
Proof.
  intros HG NC. apply pval_pattrs_ind.
  - intros a _. split; [reflexivity|]. split; [repeat constructor; intros []|]. intros p b. cbn [flatten_paths In]. split.
    + intros [[= <- <-]|[]]. reflexivity.
    + destruct p as [|k p]; [intros [= ->]; now left|discriminate].
  - intros cls d IH [ND WD]. specialize (IH WD). rewrite paths_node, sleaves_node.
    pose proof (child_in cls d) as HC. assert (NK : NoDup (child_keys fields_of static_of cls d)) by (apply NoDup_filter, (ordered_nodup fields_of static_of); assumption).
    split; [|split].
    + clear NK. revert HC. generalize (child_keys fields_of static_of cls d) as ks. induction ks as [|k ks IHk]; intros HC; [reflexivity|]. cbn [flat_map map concat]. rewrite map_app, map_map. cbn [snd].
      rewrite IHk by (intros x Hx; apply HC; now right). f_equal. apply (IH k). apply lookup_val, HC. now left.
    + revert HC NK. generalize (child_keys fields_of static_of cls d) as ks. induction ks as [|k ks IHk]; intros HC NK; [constructor|]. cbn [flat_map]. rewrite map_app, map_map. cbn [fst]. inversion NK as [|? ? Hk NK']; subst.
      assert (V : lookup d k = Some (val_of d k)) by (apply lookup_val, HC; now left). destruct (IH k _ V) as (_ & N2 & _).
      apply nodup_both.
      * rewrite <- (map_map fst (cons k)). apply FinFun.Injective_map_NoDup; [intros x y [= ->]; reflexivity|exact N2].
      * apply IHk; [intros x Hx; apply HC; now right|exact NK'].
      * intros p H1 H2. apply in_map_iff in H1 as (e1 & <- & _). apply in_map_iff in H2 as ([p2 a2] & E2 & H2). apply in_flat_map in H2 as (k2 & Hk2 & H2). apply in_map_iff in H2 as (e2 & [= <- <-] & _). cbn [fst] in E2. injection E2 as -> _. contradiction.
    + intros p a. rewrite in_flat_map. split.
      * intros (k & Hk & H). apply in_map_iff in H as ([q b] & [= <- <-] & H). cbn [fst snd]. pose proof (HC k Hk) as Hi. apply child_mem in Hk as (H1 & H2 & H3); [|exact NC]. cbn [read].
        rewrite (proj2 (mem_false _ _) H2), (proj2 (mem_false _ _) H3), (lookup_val d k Hi). cbn [orb]. apply (IH k _ (lookup_val d k Hi)). exact H.
      * destruct p as [|k q]; [discriminate|]. cbn [read]. destruct (mem k (static_of cls)) eqn:E1; [discriminate|]. destruct (mem k internal_caches) eqn:E2; [discriminate|]. cbn [orb]. destruct (lookup d k) as [w|] eqn:EL; [|discriminate]. intros H.
        apply mem_false in E1, E2. assert (Hd : In k (keys_of d)) by (destruct (in_dec string_dec k (keys_of d)) as [K|K]; [exact K|apply lookup_none in K; congruence]).
        exists k. split; [now apply child_mem|]. apply in_map_iff. exists (q, a). split; [reflexivity|]. assert (VV : val_of d k = w) by (unfold val_of; now rewrite EL). rewrite VV. apply (IH k w EL). exact H.
  - intros _ k v H. discriminate.
  - intros n v IHv r IHr [W1 W2] k u E. cbn [lookup] in E. destruct (String.eqb n k); [injection E as <-; now apply IHv|exact (IHr W2 k u E)].
Qed.
(** [tree_flatten_with_path]: the leaves in the order of [tree_flatten], under distinct paths;
    a path is listed with a leaf exactly when getattr along it reads that leaf *)
Theorem C85_paths : forall v, good -> no_cache_fields -> wf v ->
  map snd (paths v) = fst (flat v) /\ NoDup (map fst (paths v)) /\ forall p a, In (p, a) (paths v) <-> read v p = Some a.
Proof. intros v HG NC. exact (proj1 (paths_both HG NC) v). Qed.
(** on an instance as its constructor makes it, the paths of one field follow those of the
    fields declared before it *)
Theorem C85_paths_in_field_order : forall cls d, good -> NoDup (keys_of d) -> keys_of d = fields_of cls ->
  paths (PNode cls d) = flat_map (fun k => match lookup d k with Some v => map (fun z => (k :: fst z, snd z)) (paths v) | None => [] end) (filter (fun k => negb (mem k (static_of cls))) (fields_of cls)).
Proof.
  intros cls d HG ND EK. rewrite paths_node. unfold child_keys. rewrite ordered_eq.
  assert (ED : declared fields_of cls d = fields_of cls).
  { unfold declared. rewrite EK. apply filter_id. intros n Hn. now apply mem_In. }
  assert (EX : extras fields_of cls d = []).
  { destruct (extras fields_of cls d) as [|k l] eqn:E; [reflexivity|]. exfalso. destruct (extras_in fields_of static_of cls d k) as [H1 H2]; [rewrite E; now left|]. apply H2. rewrite ED, <- EK. exact H1. }
  rewrite ED, EX, app_nil_r. apply flat_map_ext_in. intros k Hk. apply filter_In in Hk as [Hk _]. rewrite lookup_val by (now rewrite EK). reflexivity.
Qed.
End Prop85.

Section Example85.
Open Scope string_scope.
Let fo (c : string) : list string := if String.eqb c "P" then ["x"; "q"] else if String.eqb c "Q" then ["u"; "k"; "w"] else [].
Let so (c : string) : list string := if String.eqb c "Q" then ["k"] else [].
Let q (k a b : nat) : pval nat := PNode "Q" (PCons "u" (PLeaf a) (PCons "k" (PLeaf k) (PCons "w" (PLeaf b) PNil))).
Let q' (k a b : nat) : pval nat := PNode "Q" (PCons "w" (PLeaf b) (PCons "u" (PLeaf a) (PCons "k" (PLeaf k) PNil))).
Let p (x : nat) (z : pval nat) : pval nat := PNode "P" (PCons "x" (PLeaf x) (PCons "q" z PNil)).
Example C85_example_hyps : good_classes fo /\ no_cache_fields fo /\ wf (p 5 (q 7 1 2)) /\ wf (p 50 (q' 7 10 20)) /\ alike so (p 5 (q 7 1 2)) (p 50 (q' 7 10 20)) /\ ~ alike so (p 5 (q 7 1 2)) (p 50 (q 8 10 20)).
Proof.
  assert (G : good_classes fo) by (intros cls; unfold fo; destruct (String.eqb cls "P"); [|destruct (String.eqb cls "Q")]; repeat constructor; cbn; intuition congruence).
  assert (NC : no_cache_fields fo) by (intros cls n; unfold fo; destruct (String.eqb cls "P"); [|destruct (String.eqb cls "Q")]; cbn; intuition congruence).
  assert (W : forall x z, wf z -> wf (p x z)) by (intros x z Hz; cbn; repeat split; repeat constructor; cbn; intuition congruence).
  assert (WQ : forall k a b, wf (q k a b) /\ wf (q' k a b)) by (intros; cbn; repeat split; repeat constructor; cbn; intuition congruence).
  split; [exact G|]. split; [exact NC|]. split; [apply W, WQ|]. split; [apply W, WQ|]. split.
  - apply (C85_same_definition fo so); auto; try apply W; apply WQ.
  - intros H. apply (C85_same_definition fo so) in H; auto; try (apply W, WQ). vm_compute in H. discriminate.
Qed.
Example C85_example_combine : tree_map2 Nat.eqb fo so (on_arrays Nat.add) (p 5 (q 7 1 2)) (p 50 (q' 7 10 20)) = Some (p 55 (q 7 11 22)).
Proof. reflexivity. Qed.
(** e.g. two containers with different static sizes, and an array against an instance *)
Example C85_example_refused : tree_map2 Nat.eqb fo so (on_arrays Nat.add) (p 5 (q 7 1 2)) (p 50 (q 8 10 20)) = None /\
  tree_map2 Nat.eqb fo so (on_arrays Nat.add) (p 5 (PLeaf 3)) (p 50 (q 8 10 20)) = None /\
  tree_map2 Nat.eqb fo so (on_arrays Nat.add) (p 5 (q 7 1 2)) (p 50 (PLeaf 3)) = None.
Proof. repeat split; reflexivity. Qed.
(** JAX gives the whole instance to the function where the first tree has an array *)
Example C85_example_prefix : tree_map2 Nat.eqb fo so (fun a w => match w with PLeaf b => Some (a + b) | PNode _ _ => Some (100 + a) end) (p 5 (PLeaf 3)) (p 50 (q 8 10 20)) = Some (p 55 (PLeaf 103)).
Proof. reflexivity. Qed.
Example C85_example_paths : flatten_paths fo so (p 5 (q' 7 1 2)) = [(["x"], 5); (["q"; "u"], 1); (["q"; "w"], 2)].
Proof. reflexivity. Qed.
End Example85.
Print Assumptions C85_combine.
Print Assumptions C85_refused.
Print Assumptions C85_paths.
