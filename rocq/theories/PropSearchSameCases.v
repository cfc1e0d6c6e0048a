(** * PropSearchSameCases.v — C91: the graph of PropDijkstraCases.v searched with the estimate of
      PropAstarCases.v and without one. *)
From Verif Require Import Jax KeyModel HashModel HashProofs StableSort TableModel ProbeProofs TableInv DedupeModel DedupeSpec DedupeProofs DedupeExact ParInsertModel ParInsert ParEffect TritonModel PallasModel TableSpec TableHistory PropTable UpdateModel PropTableCases PropSplit PropCost PropCostCases PropFrontier PropFrontierCases PropDijkstra PropDijkstraCases PropAstar PropAstarCases PropSearchSame.
From Verif Require HeapModel HeapSpec PropHeap.

Definition none (x : N) : Z := 0.
Lemma none_consistent : consistent edge none.
Proof. intros x y w _. unfold none. lia. Qed.
Definition NEDGES : list (N * N * Z) := [(7%N, 5%N, 5%Z); (5%N, 7%N, 70%Z); (7%N, 3%N, 8%Z); (2%N, 5%N, 6%Z); (2%N, 1%N, 0%Z)].
Lemma ns1 x k : In (x, k) STARTS <-> fstart gstart none x k.
Proof.
  unfold fstart, gstart, STARTS. cbn [In]. split.
  - intros H. repeat (destruct H as [H|H]; [injection H as <- <-|]); [exists 30%Z|exists 10%Z|exists 20%Z|exists 40%Z|exists 10%Z|exists 10%Z|destruct H]; (split; [tauto|reflexivity]).
  - intros (g & H & ->). repeat (destruct H as [H|H]; [injection H as <- <-; cbn; tauto|]). destruct H.
Qed.
Lemma ns2 x y r : In (x, y, r) NEDGES <-> fedge edge none x y r.
Proof.
  unfold fedge, edge, EDGES, NEDGES. cbn [In]. split.
  - intros H. repeat (destruct H as [H|H]; [injection H as <- <- <-|]); [exists 5|exists 70|exists 8|exists 6|exists 0|destruct H]; (split; [tauto|reflexivity]).
  - intros (w & H & ->). repeat (destruct H as [H|H]; [injection H as <- <- <-; cbn; tauto|]). destruct H.
Qed.
Lemma with_estimate : exists s, finished U32 DEF 0 (fstart gstart est) (fedge edge est) fadd s.
Proof.
  destruct C91_case_astar as (s & H1 & H2 & H3 & H4 & H5 & H6 & _ & H8 & H9 & H10 & _). exists s, 14, 7, 16, 8, 2, None, OPSA, 6. auto 12.
Qed.
Lemma without : exists s, finished U32 DEF 0 (fstart gstart none) (fedge edge none) fadd s.
Proof.
  assert (K : match search_fn STARTS NEDGES fadd true 7 S0 OPSD with Some s => (HeapModel.size (f_queue s) =? 0)%Z && expanded_b NEDGES fadd (offers OPSD) s | None => false end = true) by (vm_compute; reflexivity).
  destruct (search_fn STARTS NEDGES fadd true 7 S0 OPSD) as [s|] eqn:ER; [|discriminate]. exists s, 14, 7, 16, 8, 2, None, OPSD, 6. apply andb_prop in K. destruct K as [K1 K3].
  split; [exact T0_ok|]. split; [unfold PropHeap.params_ok; lia|].
  split; [apply (search_fn_ok STARTS NEDGES (fstart gstart none) (fedge edge none) fadd); [intros x k H; apply ns1; exact H|intros x y w H; apply ns2; exact H|exact ER]|].
  change (offers OPSD) with [O1; OD] in *. split; [apply D_calls|]. split; [apply D_calls|]. split; [apply D_calls|].
  split; [apply (started_ok STARTS (fstart gstart none)); [intros x k H; apply ns1; exact H|]; vm_compute; reflexivity|].
  split; [apply (expanded_ok NEDGES (fedge edge none) fadd); [intros x y w H; apply ns2; exact H|exact K3]|]. apply Z.eqb_eq. exact K1.
Qed.
(** both searches answer 10 for 7 and 15 for 5: with the estimate the table holds 15 for both *)
Example C91_case_same : exists s s', finished U32 DEF 0 (fstart gstart est) (fedge edge est) fadd s /\ finished U32 DEF 0 (fstart gstart none) (fedge edge none) fadd s' /\
  consistent edge est /\ consistent edge none /\ answer U32 0 s 7%N (Fin 15) /\ answer U32 0 s' 7%N (Fin 10) /\ answer U32 0 s 5%N (Fin 15) /\ answer U32 0 s' 5%N (Fin 15).
Proof.
  destruct with_estimate as (s & F). destruct without as (s' & F'). exists s, s'. split; [exact F|]. split; [exact F'|]. split; [exact est_consistent|]. split; [exact none_consistent|].
  assert (L : forall x g, walk gstart edge x g -> (10 <= g)%Z /\ (x = 5%N -> (15 <= g)%Z)).
  { induction 1 as [x g HS|x g y w HW [I1 I2] HE].
    - unfold gstart in HS. cbn [In] in HS. repeat (destruct HS as [HS|HS]; [injection HS as <- <-; split; [lia|intros E; first [discriminate E|lia]]|]). destruct HS.
    - unfold edge, EDGES in HE. cbn [In] in HE. repeat (destruct HE as [HE|HE]; [injection HE as <- <- <-; split; [lia|intros E; first [discriminate E|lia]]|]). destruct HE. }
  assert (W7 : walk gstart edge 7%N 10) by (apply walk_start; unfold gstart; cbn [In]; tauto).
  assert (W5 : walk gstart edge 5%N 15).
  { change 15%Z with (10 + Z.of_nat 5)%Z. apply walk_edge with 7%N; [exact W7|]. unfold edge, EDGES; cbn [In]; tauto. }
  pose proof (C91_estimates U32 DEF DEF 0 0 gstart edge est none s s' est_consistent none_consistent F F') as G.
  assert (G7 : answer U32 0 s 7%N (Fin (10 + est 7%N))) by (apply (proj1 (G 7%N 10%Z)); split; [exact W7|intros g' H; exact (proj1 (L _ _ H))]).
  assert (G5 : answer U32 0 s 5%N (Fin (15 + est 5%N))) by (apply (proj1 (G 5%N 15%Z)); split; [exact W5|intros g' H; exact (proj2 (L _ _ H) eq_refl)]).
  split; [exact G7|]. split; [apply (proj2 (G 7%N 10%Z)); exact G7|]. split; [exact G5|]. apply (proj2 (G 5%N 15%Z)). exact G5.
Qed.
