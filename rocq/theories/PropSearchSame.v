(** * PropSearchSame.v — property C91, continued: what a finished search answers depends on the graph
      alone — not on batch sizes, table and queue sizes, hash settings, the order in which states are
      expanded, the data kept beside the costs, nor on the estimate of A*. *)
From Verif Require Import Jax KeyModel SortProofs HashModel HashProofs StableSort TableModel ProbeProofs TableInv DedupeModel DedupeProofs ParInsertModel ParInsert ParEffect TableSpec TableHistory PropTable UpdateModel PropSplit PropCost PropFrontier PropDijkstra PropAstar.
From Verif Require HeapModel HeapSpec PropHeap.

(** a search of C91 that was run until the queue reported size 0 *)
Definition finished {item W A : Type} (T : dataclass item) (C : settings) (a0 : A)
    (start : item -> key -> Prop) (edge : item -> item -> W -> Prop) (add : key -> W -> key) (s : @fstate item A) : Prop :=
  exists total B capacity bs mult mp ops R,
    config_ok T capacity bs mult mp /\ PropHeap.params_ok total B /\
    search T C a0 start edge add true B (FS (Build T capacity bs mult mp) (repeat (nothing a0) (slots (Build T capacity bs mult mp))) (HeapModel.build 0 total B) []) ops s /\
    Forall (fun o => lossless T C (Build T capacity bs mult mp) R (call_of o)) (offers ops) /\ R <= slots (Build T capacity bs mult mp) /\
    at_most R (asked T (map call_of (offers ops))) /\
    started T a0 start (offers ops) /\ expanded T a0 edge add (offers ops) s /\ HeapModel.size (f_queue s) = 0%Z.
(** the best cost the search has for [y], if it is finite *)
Definition answer {item A : Type} (T : dataclass item) (a0 : A) (s : @fstate item A) (y : item) (k : key) : Prop :=
  exists i, Lookup T (f_table s) y = Some (i, true) /\ fst (nth i (f_dist s) (nothing a0)) = Cost k /\ finite k = true.

Section Same.
Context {item W A A' : Type} (T : dataclass item) (C C' : settings) (a0 : A) (a0' : A').
Context (start : item -> key -> Prop) (edge : item -> item -> W -> Prop) (add : key -> W -> key).
(** the answer is the least finite cost of a path *)
Lemma finished_answer (s : @fstate item A) : growing add -> (forall x, ~ start x NInf) -> finished T C a0 start edge add s ->
  forall y k, answer T a0 s y k <-> (path start edge add y k /\ finite k = true /\ forall c, path start edge add y c -> kle k c = true).
Proof.
  intros HG NS (total & B & capacity & bs & mult & mp & ops & R & HC & HP & HRN & HL & HR & HM & HS & HE & H0) y k.
  pose proof (C91_shortest T C a0 start edge add total B capacity bs mult mp ops s R HC HP HRN HL HR HM HG NS HS HE) as (_ & P). specialize (P H0 y). destruct P as (P1 & P2).
  assert (M : forall c, path start edge add y c -> finite c = true -> exists i k0, Lookup T (f_table s) y = Some (i, true) /\ fst (nth i (f_dist s) (nothing a0)) = Cost k0 /\ path start edge add y k0 /\ forall c', path start edge add y c' -> kle k0 c' = true).
  { intros c HPc FC. destruct (P1 c HPc FC) as (i & k0 & HX & _ & HK & HP0 & HB). exists i, k0. auto. }
  split.
  - intros (i & HX & HK & FK).
    pose proof (C91_sound T C a0 start edge add true total B capacity bs mult mp ops s R HC HP HRN HL HR HM) as (_ & SO).
    assert (HPk : path start edge add y k) by (eapply SO; eassumption).
    destruct (M k HPk FK) as (i' & k0 & HX' & HK' & _ & HB). rewrite HX in HX'. injection HX' as <-. rewrite HK in HK'. injection HK' as <-. auto.
  - intros (HPk & FK & HB). destruct (M k HPk FK) as (i & k0 & HX & HK & HP0 & HB0). assert (k0 = k) as -> by (apply kle_antisym; auto). exists i. auto.
Qed.
End Same.

(** the answers are the least costs of paths, so two searches of the same graph have the same ones:
    they store the same states at a finite cost, and with the same cost *)
Theorem C91_independent : forall {item W A A' : Type} (T : dataclass item) (C C' : settings) (a0 : A) (a0' : A')
    (start : item -> key -> Prop) (edge : item -> item -> W -> Prop) (add : key -> W -> key) s s',
  growing add -> (forall x, ~ start x NInf) -> finished T C a0 start edge add s -> finished T C' a0' start edge add s' ->
  forall y k, (answer T a0 s y k <-> (path start edge add y k /\ finite k = true /\ forall c, path start edge add y c -> kle k c = true)) /\
    (answer T a0 s y k <-> answer T a0' s' y k).
Proof.
  intros item W A A' T C C' a0 a0' start edge add s s' HG NS F1 F2 y k.
  pose proof (finished_answer T C a0 start edge add s HG NS F1 y k) as E1. pose proof (finished_answer T C' a0' start edge add s' HG NS F2 y k) as E2.
  split; [exact E1|]. rewrite E1, E2. reflexivity.
Qed.
(** A*: two searches with consistent estimates [h] and [h'] give every state the same length *)
Theorem C91_estimates : forall {item A A' : Type} (T : dataclass item) (C C' : settings) (a0 : A) (a0' : A')
    (start : item -> Z -> Prop) (edge : item -> item -> nat -> Prop) (h h' : item -> Z) s s',
  consistent edge h -> consistent edge h' -> finished T C a0 (fstart start h) (fedge edge h) fadd s -> finished T C' a0' (fstart start h') (fedge edge h') fadd s' ->
  forall y g, (answer T a0 s y (Fin (g + h y)) <-> (walk start edge y g /\ forall g', walk start edge y g' -> (g <= g')%Z)) /\
    (answer T a0 s y (Fin (g + h y)) <-> answer T a0' s' y (Fin (g + h' y))).
Proof.
  intros item A A' T C C' a0 a0' start edge h h' s s' HC HC' F1 F2 y g.
  assert (K : forall (B : Type) (b0 : B) C1 hh s1, consistent edge hh -> finished T C1 b0 (fstart start hh) (fedge edge hh) fadd s1 ->
            (answer T b0 s1 y (Fin (g + hh y)) <-> (walk start edge y g /\ forall g', walk start edge y g' -> (g <= g')%Z))).
  { intros B b0 C1 hh s1 Hh F. rewrite (finished_answer T C1 b0 (fstart start hh) (fedge edge hh) fadd s1 fadd_growing); [|intros x (g0 & _ & E); discriminate E|exact F]. split.
    - intros (HP & _ & HB). pose proof (fpath_walk start edge hh Hh _ _ HP _ eq_refl) as HW. replace (g + hh y - hh y)%Z with g in HW by lia. split; [exact HW|].
      intros g' HW'. pose proof (HB _ (walk_fpath start edge hh Hh _ _ HW')) as L. cbn [kle] in L. apply Z.leb_le in L. lia.
    - intros (HW & HB). split; [now apply walk_fpath|]. split; [reflexivity|]. intros c HP. destruct (fpath_fin start edge hh _ _ HP) as [f ->].
      pose proof (HB _ (fpath_walk start edge hh Hh _ _ HP _ eq_refl)) as L. cbn [kle]. apply Z.leb_le. lia. }
  split; [apply (K A a0 C h s HC F1)|]. rewrite (K A a0 C h s HC F1), (K A' a0' C' h' s' HC' F2). reflexivity.
Qed.
Print Assumptions C91_independent.
Print Assumptions C91_estimates.
