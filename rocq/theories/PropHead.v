(** * PropHead.v — property C91, continued: which pairs of a block are settled. *)
From Verif Require Import Jax KeyModel SortProofs HashModel HashProofs StableSort TableModel ProbeProofs TableInv DedupeModel DedupeProofs ParInsertModel ParInsert ParEffect TableSpec TableHistory PropTable UpdateModel PropSplit PropCost PropFrontier PropDijkstra.
From Verif Require HeapModel HeapSpec PropHeap.

Section Head.
Context {item W A : Type} (T : dataclass item) (C : settings) (a0 : A).
Context (start : item -> key -> Prop) (edge : item -> item -> W -> Prop) (add : key -> W -> key).
Notation nothing := (nothing a0).
(** everything that was handed out is expanded; now the next block is taken.  The pairs in it whose
    key is the least one (the first pair, and those with the same key) come with the shortest distance
    of their state, if the state was not handed out before.  For the others in the block this may be
    false (C91_first_handed_out_refuted) *)
Theorem C91_head : forall total B capacity bs mult mp ops s R, config_ok T capacity bs mult mp -> PropHeap.params_ok total B ->
  let t0 := Build T capacity bs mult mp in
  search T C a0 start edge add true B (FS t0 (repeat nothing (slots t0)) (HeapModel.build 0 total B) []) ops s ->
  Forall (fun o => lossless T C t0 R (call_of o)) (offers ops) -> R <= slots t0 -> at_most R (asked T (map call_of (offers ops))) ->
  growing add -> (forall x, ~ start x NInf) -> started T a0 start (offers ops) -> expanded T a0 edge add (offers ops) s ->
  forall h' out, HeapModel.delete_mins (f_queue s) = Some (h', out) ->
  forall k i, In (k, i) (HeapSpec.fin out) -> (forall p, In p out -> kle k (fst p) = true) -> ~ In i (map snd (f_popped s)) ->
    path start edge add (GetItem T (f_table s) i) k /\ (forall c, path start edge add (GetItem T (f_table s) i) c -> kle k c = true) /\
    fst (nth i (f_dist s) nothing) = Cost k.
Proof.
  intros total B capacity bs mult mp ops s R HC HP t0 HRN HL HR HM HG NS HS HE h' out HD k i HI HK NP.
  pose proof (search_run _ _ _ _ _ _ _ _ _ _ _ HRN) as FR.
  destruct (frun_init T C a0 true total B capacity bs mult mp ops s R HC HP FR HL HR HM) as (_ & es & [FC FH FN FA FB FO FI] & _).
  destruct (PropHeap.C10_delete_mins_returns_the_smallest nat total B 0 (f_queue s) HP FH) as (h2 & out2 & ED & _ & _ & _ & PE & BL). rewrite HD in ED. injection ED as <- <-.
  assert (HC0 : In (k, i) (HeapSpec.contents (f_queue s))) by (apply (Permutation_in _ (Permutation_sym PE)); apply in_or_app; now left).
  assert (LEAST : forall p, In p (HeapSpec.contents (f_queue s)) -> kle k (fst p) = true).
  { intros p Hp. apply (Permutation_in _ PE) in Hp. apply in_app_or in Hp. destruct Hp as [Hp|Hp]; [apply HK; unfold HeapSpec.fin in Hp; apply filter_In in Hp; tauto|].
    pose proof (BL (k, i) p HI Hp) as L. exact L. }
  destruct (C90_frontier T C a0 total B capacity bs mult mp ops s R HC HP FR HL HR HM) as (P1 & _ & P3 & _).
  destruct (P3 k i) as (x & e & HX & HGet & HO & He & FK & LE); [apply in_or_app; now left|].
  destruct (P1 x e HO) as (i' & k0 & HX' & HK0 & FK0 & _ & HI0); [intros E; rewrite He in E; injection E as ->; discriminate|].
  rewrite HX in HX'. injection HX' as <-. rewrite HK0 in LE.
  assert (k0 = k) as ->.
  { apply kle_antisym; [exact LE|]. apply in_app_or in HI0. destruct HI0 as [HI0|HI0]; [exact (LEAST _ HI0)|]. destruct NP. apply (in_map snd) in HI0. exact HI0. }
  destruct (C91_shortest T C a0 start edge add total B capacity bs mult mp ops s R HC HP HRN HL HR HM HG NS HS HE) as (SH & _).
  rewrite HGet. destruct (SH x i k HX HK0 FK LEAST) as (S1 & S2). split; [exact S1|]. split; [exact S2|exact HK0].
Qed.
(** with a block size of 1 this is Dijkstra's algorithm: a state that is handed out for the first time
    has its shortest distance *)
Theorem C91_dijkstra : forall total capacity bs mult mp ops s R, config_ok T capacity bs mult mp -> PropHeap.params_ok total 1 ->
  let t0 := Build T capacity bs mult mp in
  search T C a0 start edge add true 1 (FS t0 (repeat nothing (slots t0)) (HeapModel.build 0 total 1) []) ops s ->
  Forall (fun o => lossless T C t0 R (call_of o)) (offers ops) -> R <= slots t0 -> at_most R (asked T (map call_of (offers ops))) ->
  growing add -> (forall x, ~ start x NInf) -> started T a0 start (offers ops) -> expanded T a0 edge add (offers ops) s ->
  forall s', fstep T C a0 true 1 s None s' ->
    f_popped s' = f_popped s \/
    exists k i, f_popped s' = f_popped s ++ [(k, i)] /\
      (~ In i (map snd (f_popped s)) -> path start edge add (GetItem T (f_table s) i) k /\ forall c, path start edge add (GetItem T (f_table s) i) c -> kle k c = true).
Proof.
  intros total capacity bs mult mp ops s R HC HP t0 HRN HL HR HM HG NS HS HE s' ST.
  pose proof (search_run _ _ _ _ _ _ _ _ _ _ _ HRN) as FR.
  destruct (frun_init T C a0 true total 1 capacity bs mult mp ops s R HC HP FR HL HR HM) as (_ & es & [FC FH FN FA FB FO FI] & _).
  inversion ST as [|t dist h done h' out HD E1 E2 E3]; subst s s'. cbn [f_queue f_table f_dist f_popped] in *.
  destruct (PropHeap.C10_delete_mins_returns_the_smallest nat total 1 0 h HP FH) as (h2 & out2 & ED & LO & _). rewrite HD in ED. injection ED as <- <-.
  destruct out as [|[k i] [|? ?]]; try discriminate. unfold HeapSpec.fin. cbn [filter fst]. destruct (finite k) eqn:FK; [|left; apply app_nil_r].
  right. exists k, i. split; [reflexivity|]. intros NP.
  destruct (C91_head total 1 capacity bs mult mp ops _ R HC HP HRN HL HR HM HG NS HS HE h' [(k, i)] HD k i) as (P1 & P2 & _).
  - unfold HeapSpec.fin. cbn [filter fst]. rewrite FK. now left.
  - intros p [<-|[]]. apply kle_refl.
  - exact NP.
  - split; [exact P1|exact P2].
Qed.
End Head.
Print Assumptions C91_head.
Print Assumptions C91_dijkstra.
