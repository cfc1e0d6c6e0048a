(** * PropTrace.v — property C91, continued: following the stored parents reconstructs the path.

    The cost table keeps data beside the costs (PropCost.v); here each entry says where it came from:
    [par e = None] for a start state, [Some (j, w)] for a move of weight [w] out of the handed out
    slot [j].  The parents of a batch are offered together with its costs. *)
From Verif Require Import Jax KeyModel SortProofs HashModel HashProofs StableSort TableModel ProbeProofs TableLookup TableInv TableInsert ResolveProofs TableRounds TableCommit TableBound DedupeModel DedupeSpec DedupeProofs DedupeExact ParInsertModel ParInsert ParEffect Claims TritonModel TritonProofs PallasModel PallasProofs TableSpec TableHistory PropTable UpdateModel PropUpdate PropSplit PropCost PropFrontier PropDijkstra.
From Verif Require HeapModel HeapSpec HeapProofs HeapInsert HeapDelete PropHeap.

Lemma filter_less {X} (f g : X -> bool) l j : (forall m, f m = true -> g m = true) -> In j l -> f j = false -> g j = true -> length (filter f l) < length (filter g l).
Proof.
  intros HI HJ HF HG. assert (LE : forall r, length (filter f r) <= length (filter g r)).
  { induction r as [|x r IH]; [auto|]. cbn [filter]. destruct (f x) eqn:E; [rewrite (HI _ E); cbn [length]; lia|destruct (g x); cbn [length]; lia]. }
  induction l as [|x l IH]; [destruct HJ|]. cbn [filter]. destruct HJ as [->|HJ].
  - rewrite HF, HG. cbn [length]. specialize (LE l). lia.
  - specialize (IH HJ). destruct (f x) eqn:E; [rewrite (HI _ E); cbn [length]; lia|destruct (g x); cbn [length]; lia].
Qed.

Section Trace.
Context {item : Type} (T : dataclass item) (C : settings) {A : Type} (a0 : A).
Notation table := (@table item).
Notation d := (dc_default T).
Notation entry := (costval * A)%type.
Notation nothing := (nothing a0).
Notation row := (list (key * nat)).
Notation fstate := (@fstate item A).
Context {W : Type} (start : item -> key -> Prop) (edge : item -> item -> W -> Prop) (add : key -> W -> key) (par : A -> option (nat * W)).
Notation path := (path start edge add).

(** the finite costs of a batch come with their parents *)
Definition licit_par (s : fstate) (o : @offer item A) : Prop :=
  forall q c, is_filled (o_items o) (o_fill o) q -> nth q (o_costs o) (Cost PInf) = Cost c -> finite c = true ->
    (start (nth q (o_items o) d) c /\ par (nth q (o_data o) a0) = None) \/
    exists k i w, In (k, i) (f_popped s) /\ edge (GetItem T (f_table s) i) (nth q (o_items o) d) w /\ c = add k w /\ par (nth q (o_data o) a0) = Some (i, w).
Inductive search_par (roomy : bool) (B : nat) : fstate -> list (option (@offer item A)) -> fstate -> Prop :=
  | sp_nil s : search_par roomy B s [] s
  | sp_cons s o s1 os s2 : fstep T C a0 roomy B s o s1 -> (forall b, o = Some b -> licit_par s b) -> search_par roomy B s1 os s2 -> search_par roomy B s (o :: os) s2.
(** following the parents from slot [i] one arrives at a start state, and going back from there over
    the recorded moves costs [k] *)
Inductive traced (s : fstate) : nat -> key -> Prop :=
  | tr_start i k : par (snd (nth i (f_dist s) nothing)) = None -> start (GetItem T (f_table s) i) k -> traced s i k
  | tr_move i j w k : par (snd (nth i (f_dist s) nothing)) = Some (j, w) -> traced s j k ->
      edge (GetItem T (f_table s) j) (GetItem T (f_table s) i) w -> traced s i (add k w).

Lemma par_search roomy B s ops s' : search_par roomy B s ops s' -> search T C a0 start edge add roomy B s ops s'.
Proof.
  induction 1 as [s|s o s1 os s2 HS HL _ IH]; [constructor|]. econstructor; [exact HS| |exact IH]. intros b E q c HQ HC HF.
  destruct (HL b E q c HQ HC HF) as [[H _]|(k & i & w & H1 & H2 & H3 & _)]; [now left|right; exists k, i, w; auto].
Qed.
Lemma traced_path s i k : traced s i k -> path (GetItem T (f_table s) i) k.
Proof. induction 1 as [i k _ HS|i j w k _ _ IH HE]; [now apply path_start|eapply path_edge; eassumption]. Qed.

(** slots carry the time of their last improvement *)
Record pinv (s : fstate) (st : nat -> nat) (now : nat) : Prop := {
  pi_now : forall i, st i < now;
  pi_par : forall x i k, Lookup T (f_table s) x = Some (i, true) -> fst (nth i (f_dist s) nothing) = Cost k -> finite k = true ->
    match par (snd (nth i (f_dist s) nothing)) with
    | None => start x k
    | Some (j, w) => exists x' kj kp, Lookup T (f_table s) x' = Some (j, true) /\ edge x' x w /\ fst (nth j (f_dist s) nothing) = Cost kj /\ finite kj = true /\
        kle kj kp = true /\ k = add kp w /\ (kle k kj = true -> st j < st i)
    end }.

Lemma getitem_of es t x i : history T C es t -> Lookup T t x = Some (i, true) -> GetItem T t i = x.
Proof. intros HH HX. destruct (C23_no_false_positives T C _ _ x HH) as (i1 & f1 & E1 & _ & G1). rewrite HX in E1. injection E1 as <- <-. apply (G1 eq_refl). Qed.
Lemma one_slot es t x y i : history T C es t -> Lookup T t x = Some (i, true) -> Lookup T t y = Some (i, true) -> x = y.
Proof. intros HH HX HY. rewrite <- (getitem_of es t x i HH HX). symmetry. symmetry. now apply (getitem_of es t y i HH). Qed.
(** the known cost of a pair's slot *)
Lemma known_cost roomy total B es os s k i : finv T C a0 roomy total B es os s -> In (k, i) (known s) ->
  exists x k0, Lookup T (f_table s) x = Some (i, true) /\ fst (nth i (f_dist s) nothing) = Cost k0 /\ finite k0 = true /\ kle k0 k = true /\ finite k = true.
Proof.
  intros [FC FH FN FA FB FO FI] HK. destruct (FO k i HK) as (x & e & HX & HO & HE). destruct (FB k i HK) as (Hi & FK & LE). pose proof (ci_best _ _ _ _ _ _ _ FC x i HX) as HB. pose proof (FI i Hi) as NI.
  destruct (fst (nth i (f_dist s) nothing)) as [|k0] eqn:ED.
  - exfalso. destruct (proj1 HB) as [OX|EN]; [exact (proj2 (ci_off _ _ _ _ _ _ _ FC _ _ OX) ED)|rewrite EN in ED; discriminate].
  - exists x, k0. split; [exact HX|]. split; [reflexivity|]. cbn [cle] in LE. split; [|auto]. destruct k0; [congruence|reflexivity|]. destruct k; discriminate.
Qed.

Lemma clt_keys a b : clt (Cost a) (Cost b) = true -> kle b a = false.
Proof. unfold clt. now destruct (kle b a). Qed.
Lemma par_step roomy total B es os s o s' R st now : PropHeap.params_ok total B -> growing add -> finv T C a0 roomy total B es os s -> pinv s st now ->
  fstep T C a0 roomy B s (Some o) s' -> licit_par s o ->
  lossless T C (f_table s) R (call_of o) -> R <= slots (f_table s) -> at_most R (fun x => present T (f_table s) x \/ asks T (call_of o) x) ->
  exists st', pinv s' st' (S now).
Proof.
  intros HP [GR1 GR2] HI [PN PP] HS LP LL RS AM.
  destruct (push_inv T C a0 roomy total B es os s o s' R HP HI HS LL RS AM) as (e & HI' & KC & KB & _ & KX).
  pose proof HI as [FC FH FN FA FB FO FI]. pose proof HI' as [FC' FH' FN' FA' FB' FO' FI'].
  assert (KN : forall k i, In (k, i) (known s) -> exists x k0, Lookup T (f_table s) x = Some (i, true) /\ fst (nth i (f_dist s) nothing) = Cost k0 /\ finite k0 = true /\ kle k0 k = true /\ finite k = true) by (intros k i; apply (known_cost _ _ _ _ _ _ _ _ HI)).
  inversion HS as [t dist h done o' t' ins uniq idx MK LC LD HPI LB NI HF E1 E2 E3|]; subst s o' s'. clear HS. cbn [f_table f_dist f_queue f_popped] in *.
  pose proof (proj1 LL) as DR. pose proof (ci_hist _ _ _ _ _ _ _ FC) as HH. pose proof (ci_len _ _ _ _ _ _ _ FC) as HL. pose proof (ci_hist _ _ _ _ _ _ _ FC') as HH'.
  set (xs := o_items o) in *. set (f := o_fill o) in *. set (cs := o_costs o) in *.
  destruct (C26_union T C (o_be o) es t xs f (Some cs) t' ins uniq idx HH MK HPI) as (LI & LU & LX & _ & _ & LUN & _).
  destruct (C28_sound T C (o_be o) es t xs f (Some cs) t' ins uniq idx HH MK HPI) as (_ & UF & UQ).
  assert (SL : slots t' = slots t) by (unfold slots; rewrite KC, KB; reflexivity).
  assert (FD : forall q, is_filled xs f q -> Lookup T t' (nth q xs d) = Some (nth q idx 0, true)).
  { intros q HQ. destruct (proj2 (KX (nth q xs d)) (or_intror (ex_intro _ q (conj HQ eq_refl)))) as (i & Hi).
    destruct (C27_indices T C (o_be o) es t xs f (Some cs) t' ins uniq idx HH MK DR HPI q i HQ Hi) as [-> _]. exact Hi. }
  assert (KEEP : forall x i, Lookup T t x = Some (i, true) -> Lookup T t' x = Some (i, true)) by (intros x i Hi; apply LUN; now left).
  assert (LN1 : length idx = length uniq) by congruence. assert (LN2 : length cs = length uniq) by congruence. assert (LN3 : length (o_data o) = length uniq) by congruence.
  pose proof (fun p => relax_nth a0 dist uniq idx cs (o_data o) p LN1 LN2 LN3) as RN.
  set (dist' := relax a0 dist uniq idx cs (o_data o)) in *.
  (* the slots that were improved *)
  set (upd := fun i => existsb (fun q => better a0 dist uniq idx cs q && (nth q idx 0 =? i)) (seq 0 (length uniq))).
  assert (UPD : forall i, i < slots t ->
            (upd i = true /\ exists q, q < length uniq /\ nth q uniq false = true /\ nth q idx 0 = i /\ clt (nth q cs (Cost PInf)) (fst (nth i dist nothing)) = true /\
               nth i dist' nothing = (nth q cs (Cost PInf), nth q (o_data o) a0)) \/
            (upd i = false /\ nth i dist' nothing = nth i dist nothing)).
  { intros i Hi. destruct (RN i ltac:(lia)) as (_ & [(q & Hq & HU & HX & HC & EN)|(NO & EN)]).
    - left. split; [|exists q; auto]. apply existsb_exists. exists q. split; [apply in_seq; lia|]. unfold better. rewrite HU, HX, HC, Nat.eqb_refl. reflexivity.
    - right. split; [|exact EN]. destruct (upd i) eqn:EU; [exfalso|reflexivity]. apply existsb_exists in EU. destruct EU as (q & HQ & EU). apply in_seq in HQ. apply andb_prop in EU. destruct EU as [EB EI]. apply Nat.eqb_eq in EI.
      unfold better in EB. apply andb_prop in EB. destruct EB as [EB1 EB2]. rewrite EI in EB2. rewrite (NO q ltac:(lia) EB1 EI) in EB2. discriminate. }
  set (st' := fun i => if upd i then now else st i).
  exists st'. split; [intros i; unfold st'; destruct (upd i); [lia|specialize (PN i); lia]|]. cbn [f_table f_dist].
  (* what becomes of the cost of a parent *)
  assert (PAR : forall x' j kj, Lookup T t x' = Some (j, true) -> fst (nth j dist nothing) = Cost kj -> finite kj = true ->
            exists kj', fst (nth j dist' nothing) = Cost kj' /\ finite kj' = true /\ kle kj' kj = true /\ ((kle kj kj' = true /\ st' j = st j) \/ kle kj kj' = false)).
  { intros x' j kj HX HK FK. pose proof (lookup_range T C es t x' j HH HX) as Hj. destruct (UPD j Hj) as [(EU & q & Hq & HU & HQ & HC & EN)|(EU & EN)].
    - rewrite EN. cbn [fst]. rewrite HK in HC. pose proof (FI' j ltac:(rewrite SL; exact Hj)) as NN. rewrite EN in NN. cbn [fst] in NN. unfold clt in HC. destruct (nth q cs (Cost PInf)) as [|kj']; [discriminate|]. exists kj'. split; [reflexivity|].
      destruct (kle kj kj') eqn:EK; [discriminate|]. split; [|split; [|now right]]; destruct kj as [|z|], kj' as [|z'|]; try discriminate; try congruence; try reflexivity.
      cbn [kle] in EK |- *. apply Z.leb_gt in EK. apply Z.leb_le. lia.
    - rewrite EN. exists kj. split; [exact HK|]. split; [exact FK|]. split; [apply kle_refl|]. left. split; [apply kle_refl|]. unfold st'. now rewrite EU. }
  intros x i k HX HK FK. pose proof (lookup_range T C _ t' x i HH' HX) as Hi. rewrite SL in Hi. destruct (UPD i Hi) as [(EU & q & Hq & HU & HQ & HC & EN)|(EU & EN)].
  - rewrite EN in HK |- *. cbn [fst snd] in *. assert (HFq : is_filled xs f q) by (apply UF; [lia|exact HU]). pose proof (FD q HFq) as HXq. rewrite HQ in HXq. pose proof (one_slot _ t' x (nth q xs d) i HH' HX HXq) as EX.
    destruct (LP q k HFq HK FK) as [[HSt EP]|(kp & j & w & HJ & HEd & EA & EP)].
    + fold xs in HSt. rewrite EP, EX. exact HSt.
    + rewrite EP. cbn [f_table f_popped] in HJ, HEd. fold xs in HEd. destruct (KN kp j (in_or_app (HeapSpec.contents h) done (kp, j) (or_intror HJ))) as (x' & kj & HX' & HKj & FKj & LE & FKp). cbn [f_table f_dist] in HX', HKj.
      rewrite (getitem_of es t x' j HH HX') in HEd. destruct (PAR x' j kj HX' HKj FKj) as (kj' & HK' & FK' & LE' & OR).
      exists x', kj', kp. split; [apply KEEP; exact HX'|]. split; [rewrite EX; exact HEd|]. split; [exact HK'|]. split; [exact FK'|]. split; [eapply kle_trans; eassumption|]. split; [exact EA|].
      intros LK. destruct OR as [[_ ES]|NL].
      * rewrite ES. unfold st'. rewrite EU. apply PN.
      * exfalso. rewrite EA in LK. rewrite (kle_trans kj kp kj' LE (kle_trans _ _ _ (GR1 kp w) LK)) in NL. discriminate.
  - rewrite EN in HK |- *. assert (HXt : Lookup T t x = Some (i, true)).
    { destruct (proj1 (LUN x i) HX) as [HXt|(q & Hq & HIn & HQx & HQi)]; [exact HXt|].
      destruct (Lookup T t x) as [[i0 [|]]|] eqn:EL.
      - pose proof (KEEP x i0 EL) as H0. rewrite HX in H0. injection H0 as ->. reflexivity.
      - exfalso. assert (NO : forall y, Lookup T t y <> Some (i, true)). { intros y HY. pose proof (one_slot _ t' x y i HH' HX (KEEP y i HY)) as <-. rewrite EL in HY. discriminate. }
        rewrite (ci_rest _ _ _ _ _ _ _ FC i Hi NO) in HK. injection HK as <-. discriminate.
      - exfalso. assert (NO : forall y, Lookup T t y <> Some (i, true)). { intros y HY. pose proof (one_slot _ t' x y i HH' HX (KEEP y i HY)) as <-. rewrite EL in HY. discriminate. }
        rewrite (ci_rest _ _ _ _ _ _ _ FC i Hi NO) in HK. injection HK as <-. discriminate. }
    specialize (PP x i k HXt HK FK). destruct (par (snd (nth i dist nothing))) as [[j w]|]; [|exact PP].
    destruct PP as (x' & kj & kp & HX' & HEd & HKj & FKj & LE & EA & OR). destruct (PAR x' j kj HX' HKj FKj) as (kj' & HK' & FK' & LE' & OR').
    exists x', kj', kp. split; [apply KEEP; exact HX'|]. split; [exact HEd|]. split; [exact HK'|]. split; [exact FK'|]. split; [eapply kle_trans; eassumption|]. split; [exact EA|].
    intros LK. destruct OR' as [[L0 ES]|NL].
    + rewrite ES. unfold st'. rewrite EU. apply OR. eapply kle_trans; eassumption.
    + exfalso. rewrite EA in LK. rewrite (kle_trans kj kp kj' LE (kle_trans _ _ _ (GR1 kp w) LK)) in NL. discriminate.
Qed.
Lemma par_inv roomy total B ops : PropHeap.params_ok total B -> growing add -> forall es os0 s s' R st now, finv T C a0 roomy total B es os0 s -> pinv s st now -> search_par roomy B s ops s' ->
  Forall (fun o => lossless T C (f_table s) R (call_of o)) (offers ops) -> R <= slots (f_table s) ->
  at_most R (fun x => present T (f_table s) x \/ asked T (map call_of (offers ops)) x) ->
  exists st' now', pinv s' st' now'.
Proof.
  intros HP HG. induction ops as [|[o|] ops IH]; intros es os0 s s' R st now HI HO HRN HL HR HM; inversion HRN as [|? ? s1 ? ? HD HLI HP' E1 E2]; subst; cbn [offers] in *.
  - exists st, now. exact HO.
  - inversion HL as [|? ? HL1 HL2]; subst.
    assert (AS : forall x, asked T (map call_of (o :: offers ops)) x <-> asks T (call_of o) x \/ asked T (map call_of (offers ops)) x).
    { intros x. cbn [map]. split.
      - intros (c' & [<-|HIn] & HA); [now left|right; exists c'; auto].
      - intros [HA|(c' & HIn & HA)]; [exists (call_of o); split; [now left|exact HA]|exists c'; split; [now right|exact HA]]. }
    assert (AM : at_most R (fun x => present T (f_table s) x \/ asks T (call_of o) x)).
    { destruct HM as (U & HU & HIn). exists U. split; [exact HU|]. intros x [Hx|Hx]; apply HIn; [now left|right; apply AS; now left]. }
    destruct (push_inv T C a0 roomy total B es os0 s o s1 R HP HI HD HL1 HR AM) as (e & H1 & E1 & E2 & E3 & EX).
    destruct (par_step roomy total B es os0 s o s1 R st now HP HG HI HO HD (HLI o eq_refl) HL1 HR AM) as (st1 & HO1).
    apply (IH _ (os0 ++ [o]) s1 s' R st1 (S now) H1 HO1 HP').
    + eapply Forall_impl; [|exact HL2]. intros c' HC. unfold call_of, lossless, slots in *. rewrite E1, E2, E3. exact HC.
    + unfold slots in *. rewrite E1, E2. exact HR.
    + destruct HM as (U & HU & HIn). exists U. split; [exact HU|]. intros x [Hx|Hx]; apply HIn; [apply EX in Hx; destruct Hx; [now left|right; apply AS; now left]|right; apply AS; now right].
  - destruct (pop_inv T C a0 roomy total B es os0 s s1 HP HI HD) as (H1 & E1 & E2 & _).
    apply (IH es os0 s1 s' R st now H1); try assumption; rewrite ?E1; try assumption.
    destruct HO as [PN PP]. split; [exact PN|]. rewrite E1, E2. exact PP.
Qed.
(** the order in which parents come before their children *)
Lemma pinv_traced roomy total B es os s st now : growing add -> finv T C a0 roomy total B es os s -> pinv s st now ->
  forall x i k, Lookup T (f_table s) x = Some (i, true) -> fst (nth i (f_dist s) nothing) = Cost k -> finite k = true -> exists k', traced s i k' /\ kle k' k = true.
Proof.
  intros [GR1 GR2] [FC FH FN FA FB FO FI] [PN PP]. pose proof (ci_hist _ _ _ _ _ _ _ FC) as HH.
  set (kc := fun i => match fst (nth i (f_dist s) nothing) with Cost k => k | CNaN => PInf end).
  set (ord := fun i j => negb (kle (kc i) (kc j)) || (kle (kc j) (kc i) && (st j <? st i))).
  set (rank := fun i => length (filter (ord i) (seq 0 (slots (f_table s))))).
  assert (TR : forall i j m, ord i j = true -> ord j m = true -> ord i m = true).
  { intros i j m H1 H2. unfold ord in *. destruct (kle (kc i) (kc m)) eqn:EIM; [cbn [negb orb]|reflexivity].
    destruct (kle (kc i) (kc j)) eqn:EIJ; cbn [negb orb] in H1.
    - apply andb_prop in H1. destruct H1 as [H1 H3]. apply Nat.ltb_lt in H3. destruct (kle (kc j) (kc m)) eqn:EJM; cbn [negb orb] in H2.
      + apply andb_prop in H2. destruct H2 as [H2 H4]. apply Nat.ltb_lt in H4. rewrite (kle_trans _ _ _ H2 H1). cbn [andb]. apply Nat.ltb_lt. lia.
      + rewrite (kle_trans _ _ _ H1 EIM) in EJM. discriminate.
    - destruct (kle (kc j) (kc m)) eqn:EJM; cbn [negb orb] in H2.
      + apply andb_prop in H2. destruct H2 as [H2 _]. rewrite (kle_trans _ _ _ EIM H2) in EIJ. discriminate.
      + assert (L : kle (kc m) (kc j) = true) by (destruct (kc j) as [|a|], (kc m) as [|b|]; try reflexivity; try discriminate; cbn [kle] in *; apply Z.leb_gt in EJM; apply Z.leb_le; lia).
        rewrite (kle_trans _ _ _ EIM L) in EIJ. discriminate. }
  assert (IR : forall i, ord i i = false) by (intros i; unfold ord; rewrite kle_refl, Nat.ltb_irrefl; reflexivity).
  assert (G : forall n x i k, rank i <= n -> Lookup T (f_table s) x = Some (i, true) -> fst (nth i (f_dist s) nothing) = Cost k -> finite k = true -> exists k', traced s i k' /\ kle k' k = true).
  { induction n as [n IH] using lt_wf_ind. intros x i k HN HX HK FK. pose proof (PP x i k HX HK FK) as HPP. destruct (par (snd (nth i (f_dist s) nothing))) as [[j w]|] eqn:EP.
    - destruct HPP as (x' & kj & kp & HX' & HEd & HKj & FKj & LE & EA & OR).
      assert (OJ : ord i j = true).
      { unfold ord, kc. rewrite HK, HKj. destruct (kle k kj) eqn:EK; [cbn [negb orb]|reflexivity]. apply andb_true_intro. split; [rewrite EA; eapply kle_trans; [exact LE|apply GR1]|apply Nat.ltb_lt; auto]. }
      assert (RJ : rank j < rank i).
      { unfold rank. apply (filter_less _ _ _ j); [intros m Hm; eapply TR; eassumption|apply in_seq; pose proof (lookup_range T C es _ x' j HH HX'); lia|apply IR|exact OJ]. }
      destruct (IH (rank j) ltac:(lia) x' j kj (le_n _) HX' HKj FKj) as (k' & TJ & LK). exists (add k' w). split.
      + apply (tr_move s i j w k' EP TJ). rewrite (getitem_of es _ x' j HH HX'), (getitem_of es _ x i HH HX). exact HEd.
      + rewrite EA. apply GR2. eapply kle_trans; eassumption.
    - exists k. split; [|apply kle_refl]. apply tr_start; [exact EP|]. rewrite (getitem_of es _ x i HH HX). exact HPP. }
  intros x i k HX HK FK. exact (G (rank i) x i k (le_n _) HX HK FK).
Qed.

(** following the parents from any stored state of finite cost leads to a start state, by a path that
    costs at most what is recorded, even if the queue overflows; where the recorded cost is that of a
    cheapest path, so is this one's *)
Theorem C91_reconstruct : forall roomy total B capacity bs mult mp ops s R, config_ok T capacity bs mult mp -> PropHeap.params_ok total B ->
  let t0 := Build T capacity bs mult mp in
  search_par roomy B (FS t0 (repeat nothing (slots t0)) (HeapModel.build 0 total B) []) ops s ->
  Forall (fun o => lossless T C t0 R (call_of o)) (offers ops) -> R <= slots t0 -> at_most R (asked T (map call_of (offers ops))) ->
  growing add ->
  forall y i k, Lookup T (f_table s) y = Some (i, true) -> fst (nth i (f_dist s) nothing) = Cost k -> finite k = true ->
    exists k', traced s i k' /\ path y k' /\ kle k' k = true /\ ((forall c, path y c -> kle k c = true) -> k' = k).
Proof.
  intros roomy total B capacity bs mult mp ops s R HC HP t0 HRN HL HR HM HG y i k HX HK FK.
  destruct (frun_init T C a0 roomy total B capacity bs mult mp ops s R HC HP (search_run _ _ _ _ _ _ _ _ _ _ _ (par_search _ _ _ _ _ HRN)) HL HR HM) as (I0 & es & HI & SE). fold t0 in I0.
  assert (N0 : forall x, ~ present T t0 x).
  { intros x (i0 & Hi). destruct (C23_no_false_positives T C [] t0 x (ci_hist _ _ _ _ _ _ _ (fi_cost _ _ _ _ _ _ _ _ _ I0))) as (i1 & f & E & B0 & _). rewrite Hi in E. injection E as <- <-. destruct (proj1 B0 eq_refl) as (j & e & [] & _). }
  destruct (par_inv roomy total B ops HP HG [] [] _ s R (fun _ => 0) 1 I0) as (st & now & PI).
  - split; [intros _; lia|]. cbn [f_table]. intros x i0 k0 HX0. destruct (N0 x (ex_intro _ i0 HX0)).
  - exact HRN.
  - exact HL.
  - exact HR.
  - destruct HM as (U & HU & HIn). exists U. split; [exact HU|]. intros x [Hx|Hx]; [destruct (N0 x Hx)|auto].
  - destruct (pinv_traced roomy total B es (offers ops) s st now HG HI PI y i k HX HK FK) as (k' & TR & LE). exists k'. split; [exact TR|].
    assert (HPy : path y k').
    { rewrite <- (getitem_of es _ y i (ci_hist _ _ _ _ _ _ _ (fi_cost _ _ _ _ _ _ _ _ _ HI)) HX). apply traced_path. exact TR. }
    split; [exact HPy|]. split; [exact LE|]. intros MN. apply kle_antisym; [exact LE|apply MN; exact HPy].
Qed.
End Trace.
Print Assumptions C91_reconstruct.
