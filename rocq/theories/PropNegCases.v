(** * PropNegCases.v — C91: why costs have to grow.  The graph of PropDijkstraCases.v with one more
      move, of negative weight. *)
From Verif Require Import Jax KeyModel HashModel HashProofs StableSort TableModel ProbeProofs TableInv DedupeModel DedupeSpec DedupeProofs DedupeExact ParInsertModel ParInsert ParEffect TritonModel PallasModel TableSpec TableHistory PropTable UpdateModel PropTableCases PropSplit PropCost PropCostCases PropFrontier PropFrontierCases PropDijkstra PropDijkstraCases.
From Verif Require HeapModel HeapSpec PropHeap.

Definition zadd (k : key) (w : Z) : key := match k with Fin z => Fin (z + w) | _ => k end.
Definition ZEDGES : list (N * N * Z) := [(2%N, 7%N, (-5)%Z); (7%N, 5%N, 5%Z)].
Definition zedge (x y : N) (w : Z) : Prop := In (x, y, w) ZEDGES.
Definition check7 (s : @fstate N nat) : bool :=
  match Lookup U32 (f_table s) 7%N with Some (i, true) => match fst (nth i (f_dist s) (nothing 0)) with Cost (Fin z) => (z =? 10)%Z | _ => false end | _ => false end.
Lemma check7_ok s : check7 s = true -> exists i, Lookup U32 (f_table s) 7%N = Some (i, true) /\ fst (nth i (f_dist s) (nothing 0)) = Cost (Fin 10).
Proof.
  unfold check7. generalize (Lookup U32 (f_table s) 7%N). intros [[i [|]]|] K; try discriminate. exists i. split; [reflexivity|].
  destruct (fst (nth i (f_dist s) (nothing 0))) as [|[|z|]]; try discriminate. apply Z.eqb_eq in K. subst. reflexivity.
Qed.
(** refuted: with a negative weight the search may still stop when no key in the queue is below the
    best known cost.  7 has cost 10, the queue holds nothing cheaper, all that was handed out (nothing
    yet) is expanded; but there is a path of cost 5 *)
Theorem C91_negative_refuted : exists s i, search U32 DEF 0 start zedge zadd true 7 S0 [Some O1] s /\
  config_ok U32 16 8 2 None /\ PropHeap.params_ok 14 7 /\ (forall x, ~ start x NInf) /\ started U32 0 start [O1] /\ expanded U32 0 zedge zadd [O1] s /\
  (forall k k' w, kle k k' = true -> kle (zadd k w) (zadd k' w) = true) /\
  Lookup U32 (f_table s) 7%N = Some (i, true) /\ fst (nth i (f_dist s) (nothing 0)) = Cost (Fin 10) /\
  (forall p, In p (HeapSpec.contents (f_queue s)) -> kle (Fin 10) (fst p) = true) /\
  PropDijkstra.path start zedge zadd 7%N (Fin 5).
Proof.
  assert (K : match search_fn STARTS ZEDGES zadd true 7 S0 [Some O1] with Some s => check7 s && expanded_b ZEDGES zadd [O1] s && forallb (fun p => kle (Fin 10) (fst p)) (HeapSpec.contents (f_queue s)) | None => false end = true) by (vm_compute; reflexivity).
  destruct (search_fn STARTS ZEDGES zadd true 7 S0 [Some O1]) as [s|] eqn:ER; [|discriminate]. exists s. apply andb_prop in K. destruct K as [K K3]. apply andb_prop in K. destruct K as [K1 K2].
  apply check7_ok in K1. destruct K1 as (i & K1 & K4). exists i.
  split; [apply (search_fn_ok STARTS ZEDGES start zedge zadd); [intros x k H; exact H|intros x y w H; exact H|exact ER]|]. split; [exact T0_ok|]. split; [unfold PropHeap.params_ok; lia|].
  split; [exact start_finite|]. split; [apply (started_ok STARTS start); [intros x k H; exact H|]; vm_compute; reflexivity|]. split; [apply (expanded_ok ZEDGES zedge zadd); [intros x y w H; exact H|exact K2]|].
  split; [intros [|z|] [|z'|] w; cbn [zadd kle]; try (intros; congruence); intros E; apply Z.leb_le in E; apply Z.leb_le; lia|].
  split; [exact K1|]. split; [exact K4|]. rewrite forallb_forall in K3. split; [exact K3|].
  change (Fin 5) with (zadd (Fin 10) (-5)). apply path_edge with 2%N; [apply path_start|]; unfold start, zedge, ZEDGES; cbn [In]; tauto.
Qed.
Print Assumptions C91_negative_refuted.
