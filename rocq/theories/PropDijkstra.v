(** * PropDijkstra.v — property C91: shortest paths with a hash table, a cost table and a priority
      queue.

    The loop of PropFrontier.v, run on a graph: [start x k] are the states the search starts from,
    [edge x y w] the moves, and [add k w] is the cost of a path of cost [k] that is continued by a
    move of weight [w] (rounded addition of floats: all that is used is that costs grow, [growing]).
    The costs that are offered are those of the start states and of the moves out of states that
    were handed out; a handed out state is looked up by its slot, [table[slot]]. *)
From Verif Require Import Jax KeyModel SortProofs HashModel HashProofs StableSort TableModel ProbeProofs TableLookup TableInv TableInsert ResolveProofs TableRounds TableCommit TableBound DedupeModel DedupeSpec DedupeProofs DedupeExact ParInsertModel ParInsert ParEffect Claims TritonModel TritonProofs PallasModel PallasProofs TableSpec TableHistory PropTable UpdateModel PropUpdate PropSplit PropCost PropFrontier.
From Verif Require HeapModel HeapSpec HeapProofs HeapInsert HeapDelete PropHeap.

(** ** Specification *)
Section Graph.
Context {item W : Type} (start : item -> key -> Prop) (edge : item -> item -> W -> Prop) (add : key -> W -> key).
(** [path x k]: a path from a start state to [x] has cost [k] *)
Inductive path : item -> key -> Prop :=
  | path_start x k : start x k -> path x k
  | path_edge x k y w : path x k -> edge x y w -> path y (add k w).
(** a longer path does not cost less, and a cheaper prefix does not make a path dearer *)
Definition growing : Prop := (forall k w, kle k (add k w) = true) /\ (forall k k' w, kle k k' = true -> kle (add k w) (add k' w) = true).
End Graph.

Section Dijkstra.
Context {item : Type} (T : dataclass item) (C : settings) {A : Type} (a0 : A).
Notation table := (@table item).
Notation d := (dc_default T).
Notation entry := (costval * A)%type.
Notation nothing := (nothing a0).
Notation row := (list (key * nat)).
Notation fstate := (@fstate item A).
Context {W : Type} (start : item -> key -> Prop) (edge : item -> item -> W -> Prop) (add : key -> W -> key).
Notation path := (path start edge add).

(** the finite costs of a batch are those of start states or of moves out of what was handed out *)
Definition licit (s : fstate) (o : @offer item A) : Prop :=
  forall q c, is_filled (o_items o) (o_fill o) q -> nth q (o_costs o) (Cost PInf) = Cost c -> finite c = true ->
    start (nth q (o_items o) d) c \/
    exists k i w, In (k, i) (f_popped s) /\ edge (GetItem T (f_table s) i) (nth q (o_items o) d) w /\ c = add k w.
Inductive search (roomy : bool) (B : nat) : fstate -> list (option (@offer item A)) -> fstate -> Prop :=
  | se_nil s : search roomy B s [] s
  | se_cons s o s1 os s2 : fstep T C a0 roomy B s o s1 -> (forall b, o = Some b -> licit s b) -> search roomy B s1 os s2 -> search roomy B s (o :: os) s2.
(** everything that was handed out with the cost that is still the best known one was expanded: its
    moves were offered (or something cheaper for the same state).  Stale pairs may be skipped *)
Definition expanded (os : list (@offer item A)) (s : fstate) : Prop :=
  forall k i y w, In (k, i) (f_popped s) -> fst (nth i (f_dist s) nothing) = Cost k ->
    edge (GetItem T (f_table s) i) y w -> finite (add k w) = true ->
    exists e, offered T a0 os y e /\ cle (fst e) (Cost (add k w)) = true.
Definition started (os : list (@offer item A)) : Prop :=
  forall x k, start x k -> finite k = true -> exists e, offered T a0 os x e /\ cle (fst e) (Cost k) = true.

Lemma search_run roomy B s ops s' : search roomy B s ops s' -> frun T C a0 roomy B s ops s'.
Proof. induction 1; econstructor; eassumption. Qed.
Definition paths_only (os : list (@offer item A)) : Prop := forall x e c, offered T a0 os x e -> fst e = Cost c -> finite c = true -> path x c.
Lemma licit_paths roomy total B es os s o : finv T C a0 roomy total B es os s -> paths_only os -> licit s o -> paths_only (os ++ [o]).
Proof.
  intros [FC FH FN FA FB FO FI] HP HL x e c HO HE HF. apply offered_snoc in HO. destruct HO as [HO|(o' & q & [<-|[]] & HQ & <- & ->)]; [eapply HP; eassumption|].
  cbn [fst] in HE. destruct (HL q c HQ HE HF) as [HS|(k & i & w & HI & HEd & ->)]; [now apply path_start|].
  assert (HK : In (k, i) (known s)) by (unfold known; apply in_or_app; now right).
  destruct (FO k i HK) as (x0 & e0 & HX & HO0 & HE0). destruct (FB k i HK) as (_ & FK & _).
  destruct (C23_no_false_positives T C _ _ x0 (ci_hist _ _ _ _ _ _ _ FC)) as (i1 & f1 & E1 & _ & G1). rewrite HX in E1. injection E1 as <- <-. rewrite (proj1 (G1 eq_refl)) in HEd.
  apply path_edge with x0; [|exact HEd]. eapply HP; eassumption.
Qed.
Lemma search_inv roomy total B ops : PropHeap.params_ok total B -> forall es os0 s s' R, finv T C a0 roomy total B es os0 s -> paths_only os0 -> search roomy B s ops s' ->
  Forall (fun o => lossless T C (f_table s) R (call_of o)) (offers ops) -> R <= slots (f_table s) ->
  at_most R (fun x => present T (f_table s) x \/ asked T (map call_of (offers ops)) x) ->
  paths_only (os0 ++ offers ops).
Proof.
  intros HP. induction ops as [|[o|] ops IH]; intros es os0 s s' R HI HO HRN HL HR HM; inversion HRN as [|? ? s1 ? ? HD HLI HP' E1 E2]; subst; cbn [offers] in *.
  - rewrite app_nil_r. exact HO.
  - inversion HL as [|? ? HL1 HL2]; subst.
    assert (AS : forall x, asked T (map call_of (o :: offers ops)) x <-> asks T (call_of o) x \/ asked T (map call_of (offers ops)) x).
    { intros x. cbn [map]. split.
      - intros (c' & [<-|HIn] & HA); [now left|right; exists c'; auto].
      - intros [HA|(c' & HIn & HA)]; [exists (call_of o); split; [now left|exact HA]|exists c'; split; [now right|exact HA]]. }
    destruct (push_inv T C a0 roomy total B es os0 s o s1 R HP HI HD HL1 HR) as (e & H1 & E1 & E2 & E3 & EX).
    { destruct HM as (U & HU & HIn). exists U. split; [exact HU|]. intros x [Hx|Hx]; apply HIn; [now left|right; apply AS; now left]. }
    change (o :: offers ops) with ([o] ++ offers ops). rewrite app_assoc. apply (IH _ (os0 ++ [o]) s1 s' R H1).
    + eapply licit_paths; [exact HI|exact HO|now apply HLI].
    + exact HP'.
    + eapply Forall_impl; [|exact HL2]. intros c' HC. unfold call_of, lossless, slots in *. rewrite E1, E2, E3. exact HC.
    + unfold slots in *. rewrite E1, E2. exact HR.
    + destruct HM as (U & HU & HIn). exists U. split; [exact HU|]. intros x [Hx|Hx]; apply HIn; [apply EX in Hx; destruct Hx; [now left|right; apply AS; now left]|right; apply AS; now right].
  - destruct (pop_inv T C a0 roomy total B es os0 s s1 HP HI HD) as (H1 & E1 & E2 & _).
    apply (IH es os0 s1 s' R H1 HO HP'); rewrite ?E1; assumption.
Qed.

Lemma path_ninf : growing add -> (forall x, ~ start x NInf) -> forall x k, path x k -> k <> NInf.
Proof.
  intros [G1 _] NS x k HPa. induction HPa as [x k HSt|x k y w _ IH _]; [intros ->; exact (NS x HSt)|]. intros E. pose proof (G1 k w) as L. rewrite E in L. destruct k; [now apply IH|discriminate|discriminate].
Qed.

(** every cost the search knows is that of a path, even if the queue overflows *)
Theorem C91_sound : forall roomy total B capacity bs mult mp ops s R, config_ok T capacity bs mult mp -> PropHeap.params_ok total B ->
  let t0 := Build T capacity bs mult mp in
  search roomy B (FS t0 (repeat nothing (slots t0)) (HeapModel.build 0 total B) []) ops s ->
  Forall (fun o => lossless T C t0 R (call_of o)) (offers ops) -> R <= slots t0 -> at_most R (asked T (map call_of (offers ops))) ->
  (forall k i, In (k, i) (HeapSpec.contents (f_queue s) ++ f_popped s) -> path (GetItem T (f_table s) i) k) /\
  (forall x i k, Lookup T (f_table s) x = Some (i, true) -> fst (nth i (f_dist s) nothing) = Cost k -> finite k = true -> path x k).
Proof.
  intros roomy total B capacity bs mult mp ops s R HC HP t0 HRN HL HR HM.
  destruct (frun_init T C a0 roomy total B capacity bs mult mp ops s R HC HP (search_run _ _ _ _ _ HRN) HL HR HM) as (I0 & es & [FC FH FN FA FB FO FI] & SE). fold t0 in I0.
  assert (N0 : forall x, ~ present T t0 x).
  { intros x (i & Hi). destruct (C23_no_false_positives T C [] t0 x (ci_hist _ _ _ _ _ _ _ (fi_cost _ _ _ _ _ _ _ _ _ I0))) as (i0 & f & E & B0 & _). rewrite Hi in E. injection E as <- <-. destruct (proj1 B0 eq_refl) as (j & e & [] & _). }
  assert (PO : paths_only (offers ops)).
  { apply (search_inv roomy total B ops HP [] [] _ s R I0); [|exact HRN|exact HL|exact HR|].
    - intros x e c (o & q & [] & _).
    - destruct HM as (U & HU & HIn). exists U. split; [exact HU|]. intros x [Hx|Hx]; [destruct (N0 x Hx)|auto]. }
  split.
  - intros k i HK. destruct (FO k i HK) as (x & e & HX & HO & HE). destruct (FB k i HK) as (_ & FK & _).
    destruct (C23_no_false_positives T C _ _ x (ci_hist _ _ _ _ _ _ _ FC)) as (i1 & f1 & E1 & _ & G1). rewrite HX in E1. injection E1 as <- <-. rewrite (proj1 (G1 eq_refl)). eapply PO; eassumption.
  - intros x i k HX HK FK. destruct (proj1 (ci_best _ _ _ _ _ _ _ FC x i HX)) as [HO|HO].
    + eapply PO; eassumption.
    + rewrite HO in HK. injection HK as <-. discriminate.
Qed.

(** once everything handed out was expanded, whatever the search has not found is at least as dear
    as some pair in the queue *)
Theorem C91_bound : forall total B capacity bs mult mp ops s R, config_ok T capacity bs mult mp -> PropHeap.params_ok total B ->
  let t0 := Build T capacity bs mult mp in
  frun T C a0 true B (FS t0 (repeat nothing (slots t0)) (HeapModel.build 0 total B) []) ops s ->
  Forall (fun o => lossless T C t0 R (call_of o)) (offers ops) -> R <= slots t0 -> at_most R (asked T (map call_of (offers ops))) ->
  growing add -> (forall x, ~ start x NInf) -> started (offers ops) -> expanded (offers ops) s ->
  forall y c, path y c -> finite c = true ->
    (exists i k, Lookup T (f_table s) y = Some (i, true) /\ fst (nth i (f_dist s) nothing) = Cost k /\ kle k c = true /\ In (k, i) (HeapSpec.contents (f_queue s) ++ f_popped s)) \/
    (exists k j, In (k, j) (HeapSpec.contents (f_queue s)) /\ kle k c = true).
Proof.
  intros total B capacity bs mult mp ops s R HC HP t0 HRN HL HR HM [G1 G2] NS HS HE.
  destruct (C90_frontier T C a0 total B capacity bs mult mp ops s R HC HP HRN HL HR HM) as (P1 & _ & P3 & _).
  assert (K : forall y e c, offered T a0 (offers ops) y e -> cle (fst e) (Cost c) = true -> finite c = true ->
            exists i k, Lookup T (f_table s) y = Some (i, true) /\ fst (nth i (f_dist s) nothing) = Cost k /\ kle k c = true /\ In (k, i) (HeapSpec.contents (f_queue s) ++ f_popped s)).
  { intros y e c HO LE FC. destruct (P1 y e HO) as (i & k & HX & HK & FK & HB & HI).
    - intros EQ. rewrite EQ in LE. destruct c; discriminate.
    - exists i, k. split; [exact HX|]. split; [exact HK|]. split; [|exact HI]. pose proof (proj2 HB e HO) as LB. rewrite HK in LB. pose proof (cle_trans _ _ _ LB LE) as L. exact L. }
  intros y c HPa. induction HPa as [x k HSt|x k y w HPa IH HEd]; intros FC.
  - left. destruct (HS x k HSt FC) as (e & HO & LE). exact (K x e k HO LE FC).
  - assert (LE : kle k (add k w) = true) by apply G1.
    destruct (finite k) eqn:FK.
    + destruct (IH eq_refl) as [(i & kb & HX & HD & LB & HI)|(k' & j & HI & LB)].
      * apply in_app_or in HI. destruct HI as [HI|HI]; [right; exists kb, i; split; [exact HI|eapply kle_trans; eassumption]|].
        left. destruct (P3 kb i) as (x0 & e0 & HX0 & HG & HO0 & HE0 & FB & _); [apply in_or_app; now right|].
        assert (LW : kle (add kb w) (add k w) = true) by (apply G2; exact LB).
        assert (FW : finite (add kb w) = true).
        { pose proof (G1 kb w) as L1. destruct kb as [|zb|]; try discriminate. destruct (add (Fin zb) w); [discriminate|reflexivity|]. destruct (add k w); discriminate. }
        assert (EX : GetItem T (f_table s) i = x).
        { (* two stored items in one slot are the same *)
          destruct (frun_init T C a0 true total B capacity bs mult mp ops s R HC HP HRN HL HR HM) as (_ & es & [FCI _ _ _ _ _ _] & _).
          destruct (C23_no_false_positives T C _ _ x (ci_hist _ _ _ _ _ _ _ FCI)) as (i1 & f1 & E1 & _ & GG). rewrite HX in E1. injection E1 as <- <-. apply (GG eq_refl). }
        destruct (HE kb i y w HI HD) as (e & HO & LO); [rewrite EX; exact HEd|exact FW|].
        apply (K y e (add k w) HO); [|exact FC]. eapply cle_trans; [exact LO|exact LW].
      * right. exists k', j. split; [exact HI|]. eapply kle_trans; eassumption.
    + destruct k as [|z|]; [exfalso|discriminate|destruct (add PInf w); discriminate].
      exact (path_ninf (conj G1 G2) NS x NInf HPa eq_refl).
Qed.

(** so the best cost of a state is the cost of a cheapest path as soon as no pair in the queue is
    smaller (the search for a goal may stop there), and of every state once the queue is empty *)
Theorem C91_shortest : forall total B capacity bs mult mp ops s R, config_ok T capacity bs mult mp -> PropHeap.params_ok total B ->
  let t0 := Build T capacity bs mult mp in
  search true B (FS t0 (repeat nothing (slots t0)) (HeapModel.build 0 total B) []) ops s ->
  Forall (fun o => lossless T C t0 R (call_of o)) (offers ops) -> R <= slots t0 -> at_most R (asked T (map call_of (offers ops))) ->
  growing add -> (forall x, ~ start x NInf) -> started (offers ops) -> expanded (offers ops) s ->
  (forall y i k, Lookup T (f_table s) y = Some (i, true) -> fst (nth i (f_dist s) nothing) = Cost k -> finite k = true ->
     (forall p, In p (HeapSpec.contents (f_queue s)) -> kle k (fst p) = true) ->
     path y k /\ forall c, path y c -> kle k c = true) /\
  (HeapModel.size (f_queue s) = 0%Z -> forall y,
     (forall c, path y c -> finite c = true -> exists i k, Lookup T (f_table s) y = Some (i, true) /\ In (k, i) (f_popped s) /\
        fst (nth i (f_dist s) nothing) = Cost k /\ path y k /\ forall c', path y c' -> kle k c' = true) /\
     (forall i, Lookup T (f_table s) y = Some (i, true) -> (forall c, path y c -> finite c = false) -> fst (nth i (f_dist s) nothing) = Cost PInf)).
Proof.
  intros total B capacity bs mult mp ops s R HC HP t0 HRN HL HR HM HG NS HS HE.
  pose proof (C91_sound true total B capacity bs mult mp ops s R HC HP HRN HL HR HM) as (_ & SD).
  pose proof (C91_bound total B capacity bs mult mp ops s R HC HP (search_run _ _ _ _ _ HRN) HL HR HM HG NS HS HE) as BD.
  destruct (frun_init T C a0 true total B capacity bs mult mp ops s R HC HP (search_run _ _ _ _ _ HRN) HL HR HM) as (_ & es & [FC FH FN FA FB FO FI] & SE).
  assert (G : forall y i k, Lookup T (f_table s) y = Some (i, true) -> fst (nth i (f_dist s) nothing) = Cost k -> finite k = true ->
     (forall p, In p (HeapSpec.contents (f_queue s)) -> kle k (fst p) = true) -> path y k /\ forall c, path y c -> kle k c = true).
  { intros y i k HX HK FK HQ. split; [eapply SD; eassumption|]. intros c HPc. destruct (finite c) eqn:FC'.
    - destruct (BD y c HPc FC') as [(i' & k' & HX' & HK' & LE & _)|(k' & j & HI & LE)].
      + rewrite HX in HX'. injection HX' as <-. rewrite HK in HK'. injection HK' as <-. exact LE.
      + eapply kle_trans; [apply (HQ _ HI)|exact LE].
    - destruct c as [|z|]; [|discriminate|apply kle_PInf]. destruct (path_ninf HG NS y NInf HPc eq_refl). }
  split; [exact G|]. intros SZ y. rewrite (PropHeap.C12_size_counts_stored_items nat total B 0 _ HP FH) in SZ.
  destruct (HeapSpec.contents (f_queue s)) as [|p0 l0] eqn:EC; [|cbn [length] in SZ; lia]. split.
  - intros c HPc FCc. destruct (BD y c HPc FCc) as [(i & k & HX & HK & LE & HI)|(k' & j & [] & _)]. cbn [app] in HI. exists i, k. split; [exact HX|]. split; [exact HI|]. split; [exact HK|].
    destruct (FB k i) as (_ & FK & _); [unfold known; rewrite EC; exact HI|]. apply (G y i k HX HK FK). intros p [].
  - intros i HX HNO. pose proof (lookup_range T C es _ y i (ci_hist _ _ _ _ _ _ _ FC) HX) as RI. pose proof (FI i RI) as NI.
    destruct (fst (nth i (f_dist s) nothing)) as [|[|z|]] eqn:ED; [|congruence| |reflexivity].
    + exfalso. destruct (proj1 (ci_best _ _ _ _ _ _ _ FC y i HX)) as [HO|HO]; [exact (proj2 (ci_off _ _ _ _ _ _ _ FC _ _ HO) ED)|rewrite HO in ED; discriminate].
    + pose proof (HNO (Fin z) (SD y i (Fin z) HX ED eq_refl)). discriminate.
Qed.
End Dijkstra.
Print Assumptions C91_sound.
Print Assumptions C91_bound.
Print Assumptions C91_shortest.
