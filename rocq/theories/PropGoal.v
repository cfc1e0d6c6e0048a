(** * PropGoal.v — property C91, continued: searching for a goal. *)
From Verif Require Import Jax KeyModel SortProofs HashModel HashProofs StableSort TableModel ProbeProofs TableInv DedupeModel DedupeProofs ParInsertModel ParInsert ParEffect TableSpec TableHistory PropTable UpdateModel PropSplit PropCost PropFrontier PropDijkstra PropAstar.
From Verif Require HeapModel HeapSpec PropHeap.

Section Goal.
Context {item W A : Type} (T : dataclass item) (C : settings) (a0 : A).
Context (start : item -> key -> Prop) (edge : item -> item -> W -> Prop) (add : key -> W -> key).
Notation nothing := (nothing a0).
Lemma path_not_ninf : growing add -> (forall x, ~ start x NInf) -> forall x k, path start edge add x k -> k <> NInf.
Proof.
  intros [G1 _] NS x k HP. induction HP as [x k HS|x k y w HP IH HE]; intros E; [subst k; exact (NS x HS)|].
  specialize (G1 k w). rewrite E in G1. destruct k; [congruence|discriminate|discriminate].
Qed.
(** the search may stop with a goal [y] as soon as its best known cost [k] is not above any key in the
    queue and not above the key of any goal that was handed out: no path to any goal is cheaper.  And
    if the queue becomes empty and no goal was handed out, no goal can be reached at a finite cost *)
Theorem C91_goal : forall (goal : item -> Prop) total B capacity bs mult mp ops s R, config_ok T capacity bs mult mp -> PropHeap.params_ok total B ->
  let t0 := Build T capacity bs mult mp in
  search T C a0 start edge add true B (FS t0 (repeat nothing (slots t0)) (HeapModel.build 0 total B) []) ops s ->
  Forall (fun o => lossless T C t0 R (call_of o)) (offers ops) -> R <= slots t0 -> at_most R (asked T (map call_of (offers ops))) ->
  growing add -> (forall x, ~ start x NInf) -> started T a0 start (offers ops) -> expanded T a0 edge add (offers ops) s ->
  (forall y i k, goal y -> Lookup T (f_table s) y = Some (i, true) -> fst (nth i (f_dist s) nothing) = Cost k -> finite k = true ->
     (forall p, In p (HeapSpec.contents (f_queue s)) -> kle k (fst p) = true) ->
     (forall p, In p (f_popped s) -> goal (GetItem T (f_table s) (snd p)) -> kle k (fst p) = true) ->
     path start edge add y k /\ forall y' c, goal y' -> path start edge add y' c -> kle k c = true) /\
  (HeapModel.size (f_queue s) = 0%Z -> (forall p, In p (f_popped s) -> ~ goal (GetItem T (f_table s) (snd p))) ->
     forall y' c, goal y' -> path start edge add y' c -> c = PInf).
Proof.
  intros goal total B capacity bs mult mp ops s R HC HP t0 HRN HL HR HM HG NS HS HE.
  pose proof (C91_sound T C a0 start edge add true total B capacity bs mult mp ops s R HC HP HRN HL HR HM) as (_ & SO).
  pose proof (C91_bound T C a0 start edge add total B capacity bs mult mp ops s R HC HP (search_run _ _ _ _ _ _ _ _ _ _ _ HRN) HL HR HM HG NS HS HE) as BD.
  pose proof (C91_shortest T C a0 start edge add total B capacity bs mult mp ops s R HC HP HRN HL HR HM HG NS HS HE) as (_ & SH).
  destruct (C90_frontier T C a0 total B capacity bs mult mp ops s R HC HP (search_run _ _ _ _ _ _ _ _ _ _ _ HRN) HL HR HM) as (_ & _ & FR & _).
  assert (ITEM : forall x i k, Lookup T (f_table s) x = Some (i, true) -> In (k, i) (HeapSpec.contents (f_queue s) ++ f_popped s) -> GetItem T (f_table s) i = x).
  { intros x i k HX HI. destruct (FR k i HI) as (x1 & e & HX1 & HG1 & _).
    destruct (frun_init T C a0 true total B capacity bs mult mp ops s R HC HP (search_run _ _ _ _ _ _ _ _ _ _ _ HRN) HL HR HM) as (_ & es & [FC _ _ _ _ _ _] & _).
    destruct (C23_no_false_positives T C _ _ x (ci_hist _ _ _ _ _ _ _ FC)) as (i1 & f1 & E1 & _ & G1). rewrite HX in E1. injection E1 as <- <-. exact (proj1 (G1 eq_refl)). }
  split.
  - intros y i k GY HX HK FK HQ HP2. split; [eapply SO; eassumption|]. intros y' c GY' HPc.
    destruct (finite c) eqn:FC; [|destruct c; [destruct (path_not_ninf HG NS _ _ HPc eq_refl)|discriminate|destruct k; reflexivity]].
    destruct (BD y' c HPc FC) as [(i' & k' & HX' & HK' & LE & HI)|(k' & j & HI & LE)].
    + apply kle_trans with k'; [|exact LE]. apply in_app_or in HI. destruct HI as [HI|HI]; [apply (HQ _ HI)|]. apply (HP2 _ HI). cbn [snd]. rewrite (ITEM y' i' k' HX'); [exact GY'|]. apply in_or_app. now right.
    + apply kle_trans with k'; [exact (HQ _ HI)|exact LE].
  - intros H0 NG y' c GY' HPc. destruct (finite c) eqn:FC; [|destruct c; [destruct (path_not_ninf HG NS _ _ HPc eq_refl)|discriminate|reflexivity]]. exfalso.
    destruct (SH H0 y') as (SH1 & _). destruct (SH1 c HPc FC) as (i & k & HX & HI & _). apply (NG _ HI). cbn [snd]. rewrite (ITEM y' i k HX); [exact GY'|]. apply in_or_app. now right.
Qed.
End Goal.
(** the same for A*: the estimate of the goals is 0, keys hold length plus estimate *)
Theorem C91_goal_astar : forall {item A : Type} (T : dataclass item) (C : settings) (a0 : A) (start : item -> Z -> Prop) (edge : item -> item -> nat -> Prop) (h : item -> Z)
    (goal : item -> Prop) total B capacity bs mult mp ops s R, config_ok T capacity bs mult mp -> PropHeap.params_ok total B ->
  let t0 := Build T capacity bs mult mp in
  search T C a0 (fstart start h) (fedge edge h) fadd true B (FS t0 (repeat (nothing a0) (slots t0)) (HeapModel.build 0 total B) []) ops s ->
  Forall (fun o => lossless T C t0 R (call_of o)) (offers ops) -> R <= slots t0 -> at_most R (asked T (map call_of (offers ops))) ->
  consistent edge h -> (forall x, goal x -> h x = 0%Z) -> started T a0 (fstart start h) (offers ops) -> expanded T a0 (fedge edge h) fadd (offers ops) s ->
  (forall y i g, goal y -> Lookup T (f_table s) y = Some (i, true) -> fst (nth i (f_dist s) (nothing a0)) = Cost (Fin g) ->
     (forall p, In p (HeapSpec.contents (f_queue s)) -> kle (Fin g) (fst p) = true) ->
     (forall p, In p (f_popped s) -> goal (GetItem T (f_table s) (snd p)) -> kle (Fin g) (fst p) = true) ->
     walk start edge y g /\ forall y' g', goal y' -> walk start edge y' g' -> (g <= g')%Z) /\
  (HeapModel.size (f_queue s) = 0%Z -> (forall p, In p (f_popped s) -> ~ goal (GetItem T (f_table s) (snd p))) ->
     forall y' g', goal y' -> ~ walk start edge y' g').
Proof.
  intros item A T C a0 start edge h goal total B capacity bs mult mp ops s R HC HP t0 HRN HL HR HM HCo HZ HS HE.
  destruct (C91_goal T C a0 (fstart start h) (fedge edge h) fadd goal total B capacity bs mult mp ops s R HC HP HRN HL HR HM fadd_growing) as (P1 & P2); [intros x (g0 & _ & E); discriminate E|exact HS|exact HE|]. split.
  - intros y i g GY HX HK HQ HD. destruct (P1 y i (Fin g) GY HX HK eq_refl HQ HD) as (HPa & HB). split.
    + pose proof (fpath_walk start edge h HCo _ _ HPa _ eq_refl) as HW. rewrite (HZ y GY) in HW. replace (g - 0)%Z with g in HW by lia. exact HW.
    + intros y' g' GY' HW'. pose proof (HB y' _ GY' (walk_fpath start edge h HCo _ _ HW')) as L. rewrite (HZ y' GY') in L. cbn [kle] in L. apply Z.leb_le in L. lia.
  - intros H0 NG y' g' GY' HW'. pose proof (P2 H0 NG y' _ GY' (walk_fpath start edge h HCo _ _ HW')) as E. discriminate E.
Qed.
Print Assumptions C91_goal.
Print Assumptions C91_goal_astar.
