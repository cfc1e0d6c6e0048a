(** * PropAstar.v — property C91, continued: A* with a consistent heuristic.

    Costs are exact (integers).  The queue and the cost table hold [f = g + h x]: the cost of a path
    to [x] plus the estimate [h x] of what is left.  A move [x -> y] of weight [w] out of a pair that
    was handed out with key [f] is offered with [f - h x + w + h y]. *)
From Verif Require Import Jax KeyModel SortProofs HashModel HashProofs StableSort TableModel ProbeProofs TableInv DedupeModel DedupeProofs ParInsertModel ParInsert ParEffect TableSpec TableHistory PropTable UpdateModel PropSplit PropCost PropFrontier PropDijkstra.
From Verif Require HeapModel HeapSpec PropHeap.

(** ** Specification *)
Section Graph.
Context {item : Type} (start : item -> Z -> Prop) (edge : item -> item -> nat -> Prop) (h : item -> Z).
(** [walk x g]: a path from a start state to [x] has length [g] *)
Inductive walk : item -> Z -> Prop :=
  | walk_start x g : start x g -> walk x g
  | walk_edge x g y w : walk x g -> edge x y w -> walk y (g + Z.of_nat w).
Definition consistent : Prop := forall x y w, edge x y w -> (h x <= Z.of_nat w + h y)%Z.
(** what is offered: start states with [g + h x], moves with [f + (w + h y - h x)] *)
Definition fstart (x : item) (k : key) : Prop := exists g, start x g /\ k = Fin (g + h x).
Definition fedge (x y : item) (r : Z) : Prop := exists w, edge x y w /\ r = (Z.of_nat w + h y - h x)%Z.
(** the addition need not be defined for negative numbers: none occurs *)
Definition fadd (k : key) (r : Z) : key := match k with Fin f => Fin (f + Z.max 0 r) | _ => k end.
End Graph.

Lemma fadd_growing : growing fadd.
Proof.
  split.
  - intros [|f|] r; cbn [fadd kle]; [reflexivity| |reflexivity]. apply Z.leb_le. lia.
  - intros [|f|] [|f'|] r; cbn [fadd kle]; try (intros; congruence). intros E. apply Z.leb_le in E. apply Z.leb_le. lia.
Qed.
Section Astar.
Context {item : Type} (start : item -> Z -> Prop) (edge : item -> item -> nat -> Prop) (h : item -> Z).
Notation walk := (walk start edge).
Notation fpath := (path (fstart start h) (fedge edge h) fadd).
Lemma fpath_fin x k : fpath x k -> exists f, k = Fin f.
Proof.
  induction 1 as [x k (g & _ & ->)|x k y r _ IH _]; [eexists; reflexivity|]. destruct IH as [f ->]. cbn [fadd]. eexists. reflexivity.
Qed.
Lemma fpath_walk : consistent edge h -> forall x k, fpath x k -> forall f, k = Fin f -> walk x (f - h x).
Proof.
  intros HC x k HP. induction HP as [x k (g & HS & ->)|x k y r HP IH (w & HE & ->)]; intros f E.
  - injection E as <-. replace (g + h x - h x)%Z with g by lia. now apply walk_start.
  - destruct (fpath_fin _ _ HP) as [f0 ->]. cbn [fadd] in E. injection E as <-. pose proof (HC _ _ _ HE) as L. specialize (IH f0 eq_refl).
    replace (f0 + Z.max 0 (Z.of_nat w + h y - h x) - h y)%Z with (f0 - h x + Z.of_nat w)%Z by lia. eapply walk_edge; eassumption.
Qed.
Lemma walk_fpath : consistent edge h -> forall x g, walk x g -> fpath x (Fin (g + h x)).
Proof.
  intros HC x g HW. induction HW as [x g HS|x g y w HW IH HE].
  - apply path_start. exists g. auto.
  - pose proof (HC _ _ _ HE) as L. replace (Fin (g + Z.of_nat w + h y)) with (fadd (Fin (g + h x)) (Z.of_nat w + h y - h x)%Z) by (cbn [fadd]; f_equal; lia).
    eapply path_edge; [exact IH|]. exists w. auto.
Qed.

Context (T : dataclass item) (C : settings) {A : Type} (a0 : A).
Notation d := (dc_default T).
Notation nothing := (nothing a0).
Theorem C91_astar : forall total B capacity bs mult mp ops s R, config_ok T capacity bs mult mp -> PropHeap.params_ok total B ->
  let t0 := Build T capacity bs mult mp in
  search T C a0 (fstart start h) (fedge edge h) fadd true B (FS t0 (repeat nothing (slots t0)) (HeapModel.build 0 total B) []) ops s ->
  Forall (fun o => lossless T C t0 R (call_of o)) (offers ops) -> R <= slots t0 -> at_most R (asked T (map call_of (offers ops))) ->
  consistent edge h -> started T a0 (fstart start h) (offers ops) -> expanded T a0 (fedge edge h) fadd (offers ops) s ->
  (* the cost table, minus the estimate, holds lengths of walks, and so does the queue *)
  (forall k i, In (k, i) (HeapSpec.contents (f_queue s) ++ f_popped s) -> exists f, k = Fin f /\ walk (GetItem T (f_table s) i) (f - h (GetItem T (f_table s) i))) /\
  (* as soon as no key in the queue is below the one of a stored state, it was reached by a shortest walk *)
  (forall y i f, Lookup T (f_table s) y = Some (i, true) -> fst (nth i (f_dist s) nothing) = Cost (Fin f) ->
     (forall p, In p (HeapSpec.contents (f_queue s)) -> kle (Fin f) (fst p) = true) ->
     walk y (f - h y) /\ forall g, walk y g -> (f - h y <= g)%Z) /\
  (* and once the queue is empty, every state that can be reached *)
  (HeapModel.size (f_queue s) = 0%Z -> forall y g, walk y g -> exists i f, Lookup T (f_table s) y = Some (i, true) /\ In (Fin f, i) (f_popped s) /\
     fst (nth i (f_dist s) nothing) = Cost (Fin f) /\ walk y (f - h y) /\ forall g', walk y g' -> (f - h y <= g')%Z).
Proof.
  intros total B capacity bs mult mp ops s R HC HP t0 HRN HL HR HM HCO HS HE.
  assert (NS : forall x, ~ fstart start h x NInf) by (intros x (g & _ & E); discriminate).
  pose proof (C91_sound T C a0 _ _ _ true total B capacity bs mult mp ops s R HC HP HRN HL HR HM) as (SO & _).
  destruct (C91_shortest T C a0 _ _ _ total B capacity bs mult mp ops s R HC HP HRN HL HR HM fadd_growing NS HS HE) as (S1 & S2).
  assert (MIN : forall y f, (forall c, fpath y c -> kle (Fin f) c = true) -> forall g, walk y g -> (f - h y <= g)%Z).
  { intros y f HMn g HW. specialize (HMn _ (walk_fpath HCO y g HW)). cbn [kle] in HMn. apply Z.leb_le in HMn. lia. }
  split; [|split].
  - intros k i HK. pose proof (SO k i HK) as HPa. destruct (fpath_fin _ _ HPa) as [f ->]. exists f. split; [reflexivity|]. eapply fpath_walk; [exact HCO|exact HPa|reflexivity].
  - intros y i f HX HD HQ. destruct (S1 y i (Fin f) HX HD eq_refl HQ) as [P1 P2]. split; [eapply fpath_walk; [exact HCO|exact P1|reflexivity]|]. apply MIN. exact P2.
  - intros HZ y g HW. destruct (proj1 (S2 HZ y) _ (walk_fpath HCO y g HW) eq_refl) as (i & k & HX & HI & HD & P1 & P2). destruct (fpath_fin _ _ P1) as [f ->].
    exists i, f. split; [exact HX|]. split; [exact HI|]. split; [exact HD|]. split; [eapply fpath_walk; [exact HCO|exact P1|reflexivity]|]. apply MIN. exact P2.
Qed.
End Astar.
Print Assumptions C91_astar.
