(** * PropCost.v — C63: a cost table kept beside a hash table.

    The search loop the two data structures are made for: [parallel_insert] gives every
    input its slot index; an array with one entry per slot holds the best cost (and the
    data that came with it) known for the item stored there, and is updated through
    [xnp.update_on_condition] where the new cost is smaller. *)
From Verif Require Import Jax KeyModel HashModel HashProofs StableSort TableModel ProbeProofs TableLookup TableInv TableInsert ResolveProofs TableRounds TableCommit TableBound DedupeModel DedupeSpec DedupeProofs DedupeExact ParInsertModel ParInsert ParEffect Claims TritonModel TritonProofs PallasModel PallasProofs TableSpec TableHistory PropTable UpdateModel PropUpdate PropSplit.

(** [a < b] on floats *)
Definition clt (a b : costval) : bool := match a, b with Cost x, Cost y => negb (kle y x) | _, _ => false end.
Lemma clt_false a b : b <> CNaN -> a <> CNaN -> clt a b = false -> cle b a = true.
Proof. destruct a as [|a], b as [|b]; cbn; intros HB HA E; try contradiction. destruct (kle b a); [reflexivity|discriminate]. Qed.
Lemma clt_le a b : clt a b = true -> cle a b = true.
Proof. destruct a as [|a], b as [|b]; cbn; intros E; try discriminate. apply kle_total. destruct (kle b a); [discriminate|reflexivity]. Qed.

Section Cost.
Context {item : Type} (T : dataclass item) (C : settings) {A : Type} (a0 : A).
Notation table := (@table item).
Notation d := (dc_default T).
Notation entry := (costval * A)%type.
Definition nothing : entry := (Cost PInf, a0).
(** one call: a batch of items with a cost and a payload each *)
Record offer := MkOffer { o_be : backend; o_items : list item; o_fill : fillarg; o_costs : list costval; o_data : list A }.
(** [better = unique & (costs < dist.cost[index])];
    [dist = xnp.update_on_condition(dist, index, better, (costs, data))] *)
Definition relax (dist : list entry) (uniq : list bool) (idx : list nat) (costs : list costval) (data : list A) : list entry :=
  update_array dist (map Z.of_nat idx)
    (map (fun q => nth q uniq false && clt (nth q costs (Cost PInf)) (fst (nth (nth q idx 0) dist nothing))) (seq 0 (length uniq)))
    (combine costs data).
Inductive offers_step : table * list entry -> offer -> table * list entry -> Prop :=
  | step t dist o t' ins uniq idx : mask_ok (o_items o) (o_fill o) ->
      length (o_costs o) = length (o_items o) -> length (o_data o) = length (o_items o) ->
      ParallelInsert T C (o_be o) t (o_items o) (o_fill o) (Some (o_costs o)) (t', ins, uniq, idx) ->
      offers_step (t, dist) o (t', relax dist uniq idx (o_costs o) (o_data o)).
Inductive offers_run : table * list entry -> list offer -> table * list entry -> Prop :=
  | run_none s : offers_run s [] s
  | run_more s o s1 os s2 : offers_step s o s1 -> offers_run s1 os s2 -> offers_run s (o :: os) s2.
(** what was offered for [x] *)
Definition offered (os : list offer) (x : item) (e : entry) : Prop :=
  exists o q, In o os /\ is_filled (o_items o) (o_fill o) q /\ nth q (o_items o) d = x /\ e = (nth q (o_costs o) (Cost PInf), nth q (o_data o) a0).
(** [e] is the best of the offers for [x]; an infinite cost may also be the initial entry *)
Definition best (os : list offer) (x : item) (e : entry) : Prop :=
  (offered os x e \/ e = nothing) /\ forall e', offered os x e' -> cle (fst e) (fst e') = true.
(** nothing was lost; sizes as in C62 *)
Definition call_of (o : offer) : call := CBatch (o_be o) (o_items o) (o_fill o) (Some (o_costs o)).

Record cinv (es : list event) (os : list offer) (t : table) (dist : list entry) : Prop := {
  ci_hist : history T C es t;
  ci_len : length dist = slots t;
  ci_best : forall x i, Lookup T t x = Some (i, true) -> best os x (nth i dist nothing);
  ci_rest : forall i, i < slots t -> (forall x, Lookup T t x <> Some (i, true)) -> nth i dist nothing = nothing;
  ci_off : forall x e, offered os x e -> present T t x /\ fst e <> CNaN }.

Lemma offered_snoc os o x e : offered (os ++ [o]) x e <-> offered os x e \/ offered [o] x e.
Proof.
  unfold offered. split.
  - intros (o' & q & HI & H). apply in_app_or in HI. destruct HI as [HI|HI]; [left|right]; exists o', q; auto.
  - intros [(o' & q & HI & H)|(o' & q & HI & H)]; exists o', q; split; auto; apply in_or_app; auto.
Qed.
Lemma lookup_range es t x i : history T C es t -> Lookup T t x = Some (i, true) -> i < slots t.
Proof.
  intros H HF. destruct (history_facts T C es t H) as (k & G & _). apply (found_iff T k) in HF; [|exact G].
  destruct HF as (b & s & Hb & Hs & -> & _). pose proof (wf_fill _ _ (i_wf _ _ _ _ (proj1 G)) b Hb) as HB. unfold slots. nia.
Qed.
Lemma relax_nth dist uniq idx costs data p : length idx = length uniq -> length costs = length uniq -> length data = length uniq ->
  p < length dist ->
  length (relax dist uniq idx costs data) = length dist /\
  ((exists q, q < length uniq /\ nth q uniq false = true /\ nth q idx 0 = p /\ clt (nth q costs (Cost PInf)) (fst (nth p dist nothing)) = true /\
      nth p (relax dist uniq idx costs data) nothing = (nth q costs (Cost PInf), nth q data a0)) \/
   ((forall q, q < length uniq -> nth q uniq false = true -> nth q idx 0 = p -> clt (nth q costs (Cost PInf)) (fst (nth p dist nothing)) = false) /\
      nth p (relax dist uniq idx costs data) nothing = nth p dist nothing)).
Proof.
  intros HI HC HD Hp. unfold relax. set (cond := map _ (seq 0 (length uniq))).
  assert (LC : length cond = length uniq) by (unfold cond; rewrite map_length, seq_length; reflexivity).
  assert (NC : forall q, q < length uniq -> nth q cond false = nth q uniq false && clt (nth q costs (Cost PInf)) (fst (nth (nth q idx 0) dist nothing))).
  { intros q Hq. unfold cond. rewrite (map_nth_lt _ _ q 0) by (rewrite seq_length; exact Hq). rewrite seq_nth by exact Hq. reflexivity. }
  destruct (C37_first_true_wins (costval * A)%type dist (map Z.of_nat idx) cond (combine costs data)) as [L N]; [rewrite map_length; lia|rewrite combine_length; lia|].
  split; [exact L|]. rewrite (N p nothing Hp). unfold winner. destruct (find _ _) as [q|] eqn:EF.
  - apply find_some in EF. destruct EF as [HQ EB]. apply in_seq in HQ. apply andb_prop in EB. destruct EB as [E1 E2].
    assert (Hq : q < length uniq) by lia. rewrite (NC q Hq) in E1. apply andb_prop in E1. destruct E1 as [E1 E3].
    rewrite (nth_indep _ (-1)%Z (Z.of_nat 0)) in E2 by (rewrite map_length; lia). rewrite map_nth in E2.
    assert (EI : nth q idx 0 = p) by lia. left. exists q. rewrite EI in E3. repeat (split; [assumption|]).
    unfold nothing. rewrite combine_nth by lia. reflexivity.
  - right. split; [|reflexivity]. intros q Hq HU HX.
    assert (K : nth q cond false && (nth q (map Z.of_nat idx) (-1) =? Z.of_nat p)%Z = false).
    { apply (find_none _ _ EF q). apply in_seq. lia. }
    rewrite (NC q Hq), HU, HX in K. rewrite (nth_indep _ (-1)%Z (Z.of_nat 0)) in K by (rewrite map_length; lia). rewrite map_nth, HX, Z.eqb_refl, andb_true_r in K. exact K.
Qed.
Lemma step_inv es os t dist o t' dist' R : cinv es os t dist -> offers_step (t, dist) o (t', dist') ->
  lossless T C t R (call_of o) -> R <= slots t -> at_most R (fun x => present T t x \/ asks T (call_of o) x) ->
  exists e, cinv (es ++ [e]) (os ++ [o]) t' dist' /\ cap t' = cap t /\ bsz t' = bsz t /\ maxp t' = maxp t /\
    forall x, present T t' x <-> present T t x \/ asks T (call_of o) x.
Proof.
  intros [HH HL HB HR HO] HS LL RS AM. inversion HS as [t1 d1 o1 t2 ins uniq idx MK LC LD HP E1 E2 E3]; subst t1 d1 o1 t2 dist'. clear HS.
  set (xs := o_items o) in *. set (f := o_fill o) in *. set (uk := Some (o_costs o)) in *.
  destruct (step_ok T C es t (call_of o) t' R HH (does_batch T C t (o_be o) xs f uk t' ins uniq idx MK HP) LL RS AM) as (e & H1 & K1 & K2 & K3 & KX).
  exists e. split; [|auto]. pose proof (proj1 LL) as DR. fold xs f uk in DR.
  destruct (C26_union T C (o_be o) es t xs f uk t' ins uniq idx HH MK HP) as (LI & LU & LX & _ & _ & UN & _).
  destruct (C28_sound T C (o_be o) es t xs f uk t' ins uniq idx HH MK HP) as (_ & UF & _).
  (* every filled input is found at its index *)
  assert (FD : forall q, is_filled xs f q -> Lookup T t' (nth q xs d) = Some (nth q idx 0, true)).
  { intros q HQ. destruct (proj2 (KX (nth q xs d)) (or_intror (ex_intro _ q (conj HQ eq_refl)))) as (i & Hi).
    destruct (C27_indices T C (o_be o) es t xs f uk t' ins uniq idx HH MK DR HP q i HQ Hi) as [-> _]. exact Hi. }
  (* two items at one index are equal *)
  assert (ONE : forall x y i, Lookup T t' x = Some (i, true) -> Lookup T t' y = Some (i, true) -> x = y).
  { intros x y i Hx Hy. destruct (C23_no_false_positives T C _ t' x H1) as (i1 & f1 & E1 & _ & G1). rewrite Hx in E1. injection E1 as <- <-.
    destruct (C23_no_false_positives T C _ t' y H1) as (i2 & f2 & E2 & _ & G2). rewrite Hy in E2. injection E2 as <- <-.
    rewrite <- (proj1 (G1 eq_refl)). exact (proj1 (G2 eq_refl)). }
  assert (KEEP : forall x i, Lookup T t x = Some (i, true) -> Lookup T t' x = Some (i, true)) by (intros x i Hi; apply UN; now left).
  assert (SL : slots t' = slots t) by (unfold slots; rewrite K1, K2; reflexivity).
  (* a chosen occurrence is the cheapest of its item, and every item has one *)
  assert (REP : forall q, is_filled xs f q -> exists r, is_filled xs f r /\ nth r uniq false = true /\ nth r xs d = nth q xs d /\
            cle (nth r (o_costs o) (Cost PInf)) (nth q (o_costs o) (Cost PInf)) = true).
  { intros q HQ. assert (f <> FScalar false) as HN by (intros E; destruct HQ as [_ HF]; rewrite E in HF; cbn [mask_list] in HF; rewrite nth_repeat in HF; discriminate).
    destruct (C28_unique_mask T C (o_be o) es t xs f uk t' ins uniq idx HH MK HN DR HP) as (reps & DE & _).
    unfold mask_ok in MK. destruct HQ as [Hq HF].
    destruct (de_rep _ _ _ _ _ DE q ltac:(lia) HF) as (R1 & R2 & R3 & R4). cbn [snd] in *. set (r := nth q reps 0) in *. exists r.
    split; [split; [lia|exact R2]|]. split; [|split; [exact R3|exact (proj1 (R4 q ltac:(lia) HF eq_refl))]].
    apply (de_mask _ _ _ _ _ DE r R1). split; [exact R2|]. cbn [snd].
    destruct (de_rep _ _ _ _ _ DE r R1 R2) as (Q1 & Q2 & Q3 & Q4). cbn [snd] in *. set (r' := nth r reps 0) in *.
    destruct (R4 r' Q1 Q2 ltac:(congruence)) as [C1 C2]. destruct (Q4 r R1 R2 eq_refl) as [C3 C4].
    assert (costof uk r' = costof uk r) as EC by (apply cle_antisym; assumption). specialize (C2 EC). specialize (C4 (eq_sym EC)). lia. }
  assert (LEAST : forall q q', q < length uniq -> nth q uniq false = true -> is_filled xs f q' -> nth q' xs d = nth q xs d ->
            cle (nth q (o_costs o) (Cost PInf)) (nth q' (o_costs o) (Cost PInf)) = true).
  { intros q q' Hq HU HQ' EX. destruct (REP q' HQ') as (r & FR & UR & XR & CR).
    destruct (C28_sound T C (o_be o) es t xs f uk t' ins uniq idx HH MK HP) as (_ & _ & UQ).
    assert (r = q) as -> by (apply UQ; [apply FR|lia|exact UR|exact HU|congruence]). exact CR. }
  assert (COK : forall q, is_filled xs f q -> nth q (o_costs o) (Cost PInf) <> CNaN) by (intros q [Hq HF]; apply (proj1 DR q Hq HF)).
  assert (NEW : forall x e, offered [o] x e -> exists q, is_filled xs f q /\ nth q xs d = x /\ e = (nth q (o_costs o) (Cost PInf), nth q (o_data o) a0)).
  { intros x e' (o' & q & [<-|[]] & H). exists q. exact H. }
  assert (OFF : forall q, is_filled xs f q -> offered [o] (nth q xs d) (nth q (o_costs o) (Cost PInf), nth q (o_data o) a0)).
  { intros q HQ. exists o, q. split; [now left|]. auto. }
  (* no entry is NaN *)
  assert (NN : forall p, p < slots t -> fst (nth p dist nothing) <> CNaN).
  { intros p Hp. destruct (in_dec Nat.eq_dec p (map snd (contents T t))) as [IN|NI].
    - apply in_map_iff in IN. destruct IN as ([x j] & EJ & IN). cbn [snd] in EJ. subst j.
      destruct (history_facts T C es t HH) as (k & G & _). destruct (contents_spec T k t G) as (_ & _ & DD & _).
      apply DD in IN. apply (found_iff T k) in IN; [|exact G]. destruct (HB x p IN) as [[OX|EN] _]; [apply (HO _ _ OX)|rewrite EN; discriminate].
    - rewrite (HR p Hp); [discriminate|]. intros x Hx. apply NI. apply in_map_iff. exists (x, p). split; [reflexivity|].
      destruct (history_facts T C es t HH) as (k & G & _). destruct (contents_spec T k t G) as (_ & _ & DD & _). apply DD. apply (found_iff T k); [exact G|exact Hx]. }
  assert (LEN : length (relax dist uniq idx (o_costs o) (o_data o)) = length dist).
  { apply (C37_first_true_wins (costval * A)%type); rewrite ?map_length, ?seq_length, ?combine_length; lia. }
  split.
  - exact H1.
  - rewrite LEN, SL. exact HL.
  - intros x i HF. pose proof (lookup_range _ t' x i H1 HF) as RI. rewrite SL in RI.
    destruct (relax_nth dist uniq idx (o_costs o) (o_data o) i ltac:(lia) ltac:(lia) ltac:(lia) ltac:(lia)) as (_ & [(q & Hq & HU & HX & HC & EN)|(NO & EN)]); rewrite EN; clear EN.
    + assert (FQ : is_filled xs f q) by (apply UF; [lia|exact HU]). pose proof (FD q FQ) as FX. rewrite HX in FX. pose proof (ONE _ _ _ FX HF) as EX.
      split.
      * left. apply offered_snoc. right. rewrite <- EX. apply OFF. exact FQ.
      * intros e' HE. cbn [fst]. apply offered_snoc in HE. destruct HE as [HE|HE].
        -- destruct (HO _ _ HE) as [(j & Hj) _]. pose proof (KEEP _ _ Hj) as Hj'. rewrite HF in Hj'. injection Hj' as <-.
           apply cle_trans with (fst (nth i dist nothing)); [apply clt_le; exact HC|]. apply (HB _ _ Hj). exact HE.
        -- destruct (NEW _ _ HE) as (q' & FQ' & EQ' & ->). cbn [fst]. apply LEAST; [exact Hq|exact HU|exact FQ'|congruence].
    + assert (SMALL : forall q', is_filled xs f q' -> nth q' xs d = x -> cle (fst (nth i dist nothing)) (nth q' (o_costs o) (Cost PInf)) = true).
      { intros q' FQ' EQ'. destruct (REP q' FQ') as (r & FR & UR & XR & CR). apply cle_trans with (nth r (o_costs o) (Cost PInf)); [|exact CR].
        apply clt_false; [apply NN; lia|apply COK; exact FR|]. apply NO; [rewrite LU; apply FR|exact UR|].
        pose proof (FD r FR) as FX. rewrite XR, EQ', HF in FX. injection FX as <-. reflexivity. }
      assert (XT : Lookup T t x = Some (i, true) \/ (forall y, Lookup T t y <> Some (i, true)) /\ forall e', ~ offered os x e').
      { destruct (C23_no_false_positives T C es t x HH) as (j & fl & EL & _). destruct fl.
        - left. pose proof (KEEP _ _ EL) as EL'. rewrite HF in EL'. injection EL' as ->. exact EL.
        - right. split.
          + intros y Hy. rewrite (ONE _ _ _ (KEEP _ _ Hy) HF) in Hy. rewrite EL in Hy. discriminate.
          + intros e' HE. destruct (HO _ _ HE) as [(j' & Hj') _]. rewrite EL in Hj'. discriminate. }
      split.
      * destruct XT as [XT|[XT _]]; [|right; apply HR; [lia|exact XT]]. destruct (HB _ _ XT) as [[OX|EX] _]; [left; apply offered_snoc; now left|now right].
      * intros e' HE. apply offered_snoc in HE. destruct HE as [HE|HE].
        -- destruct XT as [XT|[_ XT]]; [|destruct (XT _ HE)]. apply (HB _ _ XT). exact HE.
        -- destruct (NEW _ _ HE) as (q' & FQ' & EQ' & ->). cbn [fst]. apply SMALL; assumption.
  - intros i Hi NI. rewrite SL in Hi.
    destruct (relax_nth dist uniq idx (o_costs o) (o_data o) i ltac:(lia) ltac:(lia) ltac:(lia) ltac:(lia)) as (_ & [(q & Hq & HU & HX & HC & EN)|(NO & EN)]); rewrite EN.
    + exfalso. assert (FQ : is_filled xs f q) by (apply UF; [lia|exact HU]). apply (NI (nth q xs d)). rewrite <- HX. apply FD. exact FQ.
    + apply HR; [exact Hi|]. intros x Hx. apply (NI x). apply KEEP. exact Hx.
  - intros x e' HE. apply offered_snoc in HE. destruct HE as [HE|HE].
    + destruct (HO _ _ HE) as [HE1 HE2]. split; [apply KX; now left|exact HE2].
    + destruct (NEW _ _ HE) as (q & FQ & <- & ->). split; [exists (nth q idx 0); apply FD; exact FQ|apply COK; exact FQ].
Qed.
Lemma run_inv os : forall es os0 t dist t' dist' R, cinv es os0 t dist -> offers_run (t, dist) os (t', dist') ->
  Forall (fun o => lossless T C t R (call_of o)) os -> R <= slots t ->
  at_most R (fun x => present T t x \/ asked T (map call_of os) x) ->
  exists es', cinv es' (os0 ++ os) t' dist' /\ slots t' = slots t /\ forall x, present T t' x <-> present T t x \/ asked T (map call_of os) x.
Proof.
  induction os as [|o os IH]; intros es os0 t dist t' dist' R HI HP HL HR HM; inversion HP as [|? ? s1 ? ? HD HP' E1 E2]; subst.
  - exists es. rewrite app_nil_r. split; [exact HI|]. split; [reflexivity|]. intros x. split; [auto|]. intros [Hx|(c & [] & _)]. exact Hx.
  - inversion HL as [|? ? HL1 HL2]; subst. destruct s1 as [t1 dist1].
    assert (AS : forall x, asked T (map call_of (o :: os)) x <-> asks T (call_of o) x \/ asked T (map call_of os) x).
    { intros x. cbn [map]. split.
      - intros (c' & [<-|HIn] & HA); [now left|right; exists c'; auto].
      - intros [HA|(c' & HIn & HA)]; [exists (call_of o); split; [now left|exact HA]|exists c'; split; [now right|exact HA]]. }
    destruct (step_inv es os0 t dist o t1 dist1 R HI HD HL1 HR) as (e & H1 & E1 & E2 & E3 & EX).
    { destruct HM as (U & HU & HIn). exists U. split; [exact HU|]. intros x [Hx|Hx]; apply HIn; [now left|right; apply AS; now left]. }
    destruct (IH _ (os0 ++ [o]) t1 dist1 t' dist' R H1 HP') as (es' & H2 & SE & EY).
    + eapply Forall_impl; [|exact HL2]. intros c' HC. unfold call_of, lossless, slots in *. rewrite E1, E2, E3. exact HC.
    + unfold slots in *. rewrite E1, E2. exact HR.
    + destruct HM as (U & HU & HIn). exists U. split; [exact HU|]. intros x [Hx|Hx]; apply HIn; [apply EX in Hx; destruct Hx; [now left|right; apply AS; now left]|right; apply AS; now right].
    + exists es'. rewrite <- app_assoc in H2. split; [exact H2|]. split; [rewrite SE; unfold slots; rewrite E1, E2; reflexivity|]. intros x. rewrite EY, EX, AS. tauto.
Qed.
(** the cost table of a fresh hash table, after any sequence of lossless batches *)
Theorem C63_best_costs : forall capacity bs mult mp os t dist R, config_ok T capacity bs mult mp ->
  let t0 := Build T capacity bs mult mp in
  offers_run (t0, repeat nothing (slots t0)) os (t, dist) ->
  Forall (fun o => lossless T C t0 R (call_of o)) os -> R <= slots t0 -> at_most R (asked T (map call_of os)) ->
  length dist = slots t0 /\
  (* every offered item is stored, and its entry is the best offer made for it *)
  (forall x e, offered os x e -> exists i, Lookup T t x = Some (i, true)) /\
  (forall x i, Lookup T t x = Some (i, true) ->
     i < slots t0 /\ best os x (nth i dist nothing) /\
     ((exists e, offered os x e /\ fst e <> Cost PInf) -> offered os x (nth i dist nothing))) /\
  (* all other entries are as initialised *)
  (forall i, i < slots t0 -> (forall x, Lookup T t x <> Some (i, true)) -> nth i dist nothing = nothing).
Proof.
  intros capacity bs mult mp os t dist R HC t0 HP HL HR HM.
  assert (H0 : history T C [] t0) by (exists capacity, bs, mult, mp; split; [exact HC|constructor]).
  assert (N0 : forall x, ~ present T t0 x).
  { intros x (i & Hi). destruct (C23_no_false_positives T C [] t0 x H0) as (i0 & f & E & B & _). rewrite Hi in E. injection E as <- <-. destruct (proj1 B eq_refl) as (j & e & [] & _). }
  assert (I0 : cinv [] [] t0 (repeat nothing (slots t0))).
  { split; [exact H0|apply repeat_length| | |].
    - intros x i Hi. destruct (N0 x (ex_intro _ i Hi)).
    - intros i _ _. destruct (nth_in_or_default i (repeat nothing (slots t0)) nothing) as [HI|E]; [apply repeat_spec in HI; exact HI|exact E].
    - intros x e (o & q & [] & _). }
  destruct (run_inv os [] [] t0 _ t dist R I0 HP HL HR) as (es & HI & SL & EX).
  { destruct HM as (U & HU & HIn). exists U. split; [exact HU|]. intros x [Hx|Hx]; [destruct (N0 x Hx)|auto]. }
  cbn [app] in HI. destruct HI as [HH HLn HB HRs HO]. rewrite SL in *. split; [exact HLn|]. split; [intros x e HE; apply (HO x e HE)|]. split; [|exact HRs].
  intros x i HF. split; [rewrite <- SL; apply (lookup_range es t x i HH HF)|]. pose proof (HB x i HF) as HBx. split; [exact HBx|].
  intros (e & HE & NE). destruct HBx as [[OX|EN] LE]; [exact OX|exfalso]. specialize (LE e HE). rewrite EN in LE. cbn [fst nothing] in LE.
  apply NE. apply cle_antisym; [apply cle_PInf|exact LE].
Qed.
End Cost.
Print Assumptions C63_best_costs.
