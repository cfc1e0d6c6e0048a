(** * PropAstarCases.v — C91: A* on the graph of PropDijkstraCases.v with the exact estimate of what
      is left to state 5. *)
From Verif Require Import Jax KeyModel HashModel HashProofs StableSort TableModel ProbeProofs TableInv DedupeModel DedupeSpec DedupeProofs DedupeExact ParInsertModel ParInsert ParEffect TritonModel PallasModel TableSpec TableHistory PropTable UpdateModel PropTableCases PropSplit PropCost PropCostCases PropFrontier PropFrontierCases PropDijkstra PropDijkstraCases PropAstar.
From Verif Require HeapModel HeapSpec PropHeap.

Definition gstart (x : N) (g : Z) : Prop := In (x, g) [(5%N, 30%Z); (7%N, 10%Z); (5%N, 20%Z); (7%N, 40%Z); (1%N, 10%Z); (2%N, 10%Z)].
Definition est (x : N) : Z := if (x =? 7)%N then 5 else if (x =? 2)%N then 6 else if (x =? 1)%N then 6 else 0.
Lemma est_consistent : consistent edge est.
Proof. intros x y w H. unfold edge, EDGES in H. cbn [In] in H. repeat (destruct H as [H|H]; [injection H as <- <- <-; vm_compute; discriminate|]). destruct H. Qed.
Definition FSTARTS : list (N * key) := [(5, Fin 30); (7, Fin 15); (5, Fin 20); (7, Fin 45); (1, Fin 16); (2, Fin 16)]%N.
Definition FEDGES : list (N * N * Z) := [(7%N, 5%N, 0%Z); (5%N, 7%N, 75%Z); (7%N, 3%N, 3%Z); (2%N, 5%N, 0%Z); (2%N, 1%N, 0%Z)].
Lemma fs1 x k : In (x, k) FSTARTS <-> fstart gstart est x k.
Proof.
  unfold fstart, gstart, FSTARTS. cbn [In]. split.
  - intros H. repeat (destruct H as [H|H]; [injection H as <- <-|]); [exists 30%Z|exists 10%Z|exists 20%Z|exists 40%Z|exists 10%Z|exists 10%Z|destruct H]; (split; [tauto|reflexivity]).
  - intros (g & H & ->). repeat (destruct H as [H|H]; [injection H as <- <-; cbn; tauto|]). destruct H.
Qed.
Lemma fs2 x y r : In (x, y, r) FEDGES <-> fedge edge est x y r.
Proof.
  unfold fedge, edge, EDGES, FEDGES. cbn [In]. split.
  - intros H. repeat (destruct H as [H|H]; [injection H as <- <- <-|]); [exists 5|exists 70|exists 8|exists 6|exists 0|destruct H]; (split; [tauto|reflexivity]).
  - intros (w & H & ->). repeat (destruct H as [H|H]; [injection H as <- <- <-; cbn; tauto|]). destruct H.
Qed.
Definition OA : @offer N nat := MkOffer XLA B1 F1 (fin [30; 15; 20; 0; 45; 16; 16]%Z) [1; 2; 3; 4; 5; 6; 7].
Definition OB : @offer N nat := MkOffer XLA [5; 7; 3; 5; 1]%N (FScalar true) (fin [15; 95; 18; 16; 16]%Z) [11; 12; 13; 14; 15].
Definition OPSA : list (option (@offer N nat)) := [Some OA; None; Some OB; None].
Definition OUTA : list (key * N) := [(Fin 15, 7%N); (Fin 16, 1%N); (Fin 16, 2%N); (Fin 20, 5%N); (Fin 15, 5%N); (Fin 18, 3%N)].
Lemma OA_reliable : dedupe_reliable U32 DEF (o_items OA) (mask_list (length (o_items OA)) (o_fill OA)) (Some (o_costs OA)).
Proof.
  cbn [o_items o_fill o_costs OA]. change (length B1) with 7. split; [intros q Hq _; change (length B1) with 7 in Hq; do 7 (destruct q as [|q]; [discriminate|]); lia|].
  split; [|split; [left; cbn; lia|right; right]]; right; intros q Hq HF; change (length B1) with 7 in Hq; cbn [dc_words dc_nwords U32];
  do 7 (destruct q as [|q]; [vm_compute; discriminate|]); lia.
Qed.
Lemma OB_reliable : dedupe_reliable U32 DEF (o_items OB) (mask_list (length (o_items OB)) (o_fill OB)) (Some (o_costs OB)).
Proof.
  cbn [o_items o_fill o_costs OB]. split; [intros q Hq _; cbn [length] in Hq; do 5 (destruct q as [|q]; [discriminate|]); lia|].
  split; [|split; [left; cbn; lia|right; right]]; left; intros q Hq; cbn [length] in *; do 5 (destruct q as [|q]; [reflexivity|]); lia.
Qed.
Lemma OAB_asked x : asked U32 (map call_of [OA; OB]) x -> In x [5; 7; 9; 1; 2; 3]%N.
Proof.
  intros (c & HI & HA). cbn [map In] in HI. destruct HI as [<-|[<-|[]]].
  - apply O_asked. exists (call_of O1). split; [now left|exact HA].
  - cbn [call_of asks OB o_items o_fill] in HA. destruct HA as (q & [HQ _] & <-). cbn in HQ. do 5 (destruct q as [|q]; [cbn; tauto|]). lia.
Qed.
(** 5 is found with length 15 and 3 with 18; the queue is empty *)
Example C91_case_astar : exists s, search U32 DEF 0 (fstart gstart est) (fedge edge est) fadd true 7 S0 OPSA s /\
  config_ok U32 16 8 2 None /\ PropHeap.params_ok 14 7 /\
  Forall (fun o => lossless U32 DEF T0 6 (call_of o)) (offers OPSA) /\ 6 <= slots T0 /\ at_most 6 (asked U32 (map call_of (offers OPSA))) /\
  consistent edge est /\ started U32 0 (fstart gstart est) (offers OPSA) /\ expanded U32 0 (fedge edge est) fadd (offers OPSA) s /\
  HeapModel.size (f_queue s) = 0%Z /\ out_of s = OUTA /\ walk gstart edge 5%N 15 /\ est 7%N = 5%Z.
Proof.
  assert (K : match search_fn FSTARTS FEDGES fadd true 7 S0 OPSA with Some s => (HeapModel.size (f_queue s) =? 0)%Z && same_out (out_of s) OUTA && expanded_b FEDGES fadd (offers OPSA) s | None => false end = true) by (vm_compute; reflexivity).
  destruct (search_fn FSTARTS FEDGES fadd true 7 S0 OPSA) as [s|] eqn:ER; [|discriminate]. exists s. apply andb_prop in K. destruct K as [K K3]. apply andb_prop in K. destruct K as [K1 K2].
  split; [apply (search_fn_ok FSTARTS FEDGES (fstart gstart est) (fedge edge est) fadd); [intros x k H; apply fs1; exact H|intros x y w H; apply fs2; exact H|exact ER]|].
  split; [exact T0_ok|]. split; [unfold PropHeap.params_ok; lia|]. change (offers OPSA) with [OA; OB] in *. split.
  { constructor; [|constructor; [|constructor]]; (split; [first [apply OA_reliable|apply OB_reliable]|]); cbn [call_of o_be OA OB o_items o_fill o_costs]; cbv zeta;
    (split; [apply Nat.leb_le; vm_compute; reflexivity|vm_compute; discriminate]). }
  split; [apply Nat.leb_le; vm_compute; reflexivity|]. split; [exists [5; 7; 9; 1; 2; 3]%N; split; [cbn; lia|exact OAB_asked]|].
  split; [exact est_consistent|]. split; [apply (started_ok FSTARTS (fstart gstart est)); [intros x k H; apply fs1; exact H|]; vm_compute; reflexivity|].
  split; [apply (expanded_ok FEDGES (fedge edge est) fadd); [intros x y w H; apply fs2; exact H|exact K3]|].
  split; [apply Z.eqb_eq; exact K1|]. split; [apply same_out_eq; exact K2|]. split; [|reflexivity].
  change 15%Z with (10 + Z.of_nat 5)%Z. apply walk_edge with 7%N; [apply walk_start|]; unfold gstart, edge, EDGES; cbn [In]; tauto.
Qed.
