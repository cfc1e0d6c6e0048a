(** * PropHeadCases.v — C91: Dijkstra's algorithm with a block size of 1, up to the second block. *)
From Verif Require Import Jax KeyModel HashModel HashProofs StableSort TableModel ProbeProofs TableInv DedupeModel DedupeSpec DedupeProofs DedupeExact ParInsertModel ParInsert ParEffect TritonModel PallasModel TableSpec TableHistory PropTable UpdateModel PropTableCases PropSplit PropCost PropCostCases PropFrontier PropFrontierCases PropDijkstra PropDijkstraCases PropHead.
From Verif Require HeapModel HeapSpec PropHeap.

(** 5 costs 20 at the start, but 15 by way of 7 *)
Definition STARTS1 : list (N * key) := [(5%N, Fin 20); (7%N, Fin 10)].
Definition EDGES1 : list (N * N * nat) := [(7%N, 5%N, 5); (7%N, 3%N, 8)].
Definition one (x : N) (z : Z) (a : nat) : @offer N nat := MkOffer XLA [x] (FScalar true) (fin [z]) [a].
Definition OPS1 : list (option (@offer N nat)) := [Some (one 5 20 1); Some (one 7 10 2); None; Some (one 5 15 3); Some (one 3 18 4)].
Definition S1 : @fstate N nat := FS T0 (repeat (nothing 0) (slots T0)) (HeapModel.build 0 14 1) [].
Lemma one_reliable x z a : dedupe_reliable U32 DEF (o_items (one x z a)) (mask_list (length (o_items (one x z a))) (o_fill (one x z a))) (Some (o_costs (one x z a))).
Proof.
  cbn [o_items o_fill o_costs one]. split; [intros q Hq _; cbn [length] in Hq; destruct q as [|q]; [discriminate|lia]|].
  split; [|split; [left; cbn; lia|right; right]]; left; intros q Hq; cbn [length] in *; (destruct q as [|q]; [reflexivity|lia]).
Qed.
Lemma one_calls : Forall (fun o => lossless U32 DEF T0 3 (call_of o)) (offers OPS1) /\ 3 <= slots T0 /\ at_most 3 (asked U32 (map call_of (offers OPS1))).
Proof.
  split.
  { cbn [offers OPS1]. repeat (apply Forall_cons; [|]); [..|apply Forall_nil]; (split; [apply one_reliable|]); cbn [call_of o_be one o_items o_fill o_costs]; cbv zeta;
    (split; [apply Nat.leb_le; vm_compute; reflexivity|vm_compute; discriminate]). }
  split; [apply Nat.leb_le; vm_compute; reflexivity|]. exists [5; 7; 3]%N. split; [cbn; lia|]. intros x (c & HI & HA). cbn [offers OPS1 map In] in HI.
  repeat (destruct HI as [<-|HI]; [cbn [call_of asks one o_items o_fill] in HA; destruct HA as (q & [HQ _] & <-); cbn in HQ; (destruct q as [|q]; [cbn; tauto|lia])|]). destruct HI.
Qed.
Definition head_ok (s s' : @fstate N nat) : bool :=
  match f_popped s, f_popped s' with [(_, i)], [_; (Fin z, j)] => negb (i =? j) && (z =? 15)%Z && (GetItem U32 (f_table s) j =? 5)%N | _, _ => false end.
Lemma head_ok_eq s s' : head_ok s s' = true -> exists i k0 p j, f_popped s = [(k0, i)] /\ f_popped s' = [p; (Fin 15, j)] /\ i <> j /\ GetItem U32 (f_table s) j = 5%N.
Proof.
  unfold head_ok. destruct (f_popped s) as [|[k0 i] [|? ?]]; try discriminate. destruct (f_popped s') as [|p [|[[|z|] j] [|? ?]]]; try discriminate. intros K.
  apply andb_prop in K. destruct K as [K K3]. apply andb_prop in K. destruct K as [K1 K2]. apply Z.eqb_eq in K2. subst z. apply N.eqb_eq in K3. exists i, k0, p, j. repeat split; [|exact K3].
  apply Bool.negb_true_iff in K1. apply Nat.eqb_neq in K1. exact K1.
Qed.
(** the second pair that is handed out is (15, 5), the shortest distance *)
Example C91_case_head : exists s s' p j, search U32 DEF 0 (fun x k => In (x, k) STARTS1) (fun x y w => In (x, y, w) EDGES1) add true 1 S1 OPS1 s /\
  config_ok U32 16 8 2 None /\ PropHeap.params_ok 14 1 /\
  Forall (fun o => lossless U32 DEF T0 3 (call_of o)) (offers OPS1) /\ 3 <= slots T0 /\ at_most 3 (asked U32 (map call_of (offers OPS1))) /\
  growing add /\ (forall x, ~ In (x, NInf) STARTS1) /\ started U32 0 (fun x k => In (x, k) STARTS1) (offers OPS1) /\ expanded U32 0 (fun x y w => In (x, y, w) EDGES1) add (offers OPS1) s /\
  fstep U32 DEF 0 true 1 s None s' /\ f_popped s' = [p; (Fin 15, j)] /\ GetItem U32 (f_table s) j = 5%N /\ ~ In j (map snd (f_popped s)).
Proof.
  assert (K : match search_fn STARTS1 EDGES1 add true 1 S1 OPS1 with Some s => expanded_b EDGES1 add (offers OPS1) s && match fstep_fn true 1 s None with Some s' => head_ok s s' | None => false end | None => false end = true) by (vm_compute; reflexivity).
  destruct (search_fn STARTS1 EDGES1 add true 1 S1 OPS1) as [s|] eqn:ER; [|discriminate]. apply andb_prop in K. destruct K as [K1 K].
  destruct (fstep_fn true 1 s None) as [s'|] eqn:E1; [|discriminate]. apply head_ok_eq in K. destruct K as (i & k0 & p & j & K2 & K3 & K4 & K5). exists s, s', p, j.
  split; [apply (search_fn_ok STARTS1 EDGES1 (fun x k => In (x, k) STARTS1) (fun x y w => In (x, y, w) EDGES1) add); [intros x k H; exact H|intros x y w H; exact H|exact ER]|].
  split; [exact T0_ok|]. split; [unfold PropHeap.params_ok; lia|]. split; [apply one_calls|]. split; [apply one_calls|]. split; [apply one_calls|]. split; [exact add_growing|].
  split; [intros x H; cbn [In STARTS1] in H; repeat (destruct H as [H|H]; [discriminate|]); exact H|].
  split; [apply (started_ok STARTS1 (fun x k => In (x, k) STARTS1)); [intros x k H; exact H|]; vm_compute; reflexivity|].
  split; [apply (expanded_ok EDGES1 (fun x y w => In (x, y, w) EDGES1) add); [intros x y w H; exact H|exact K1]|].
  split; [assert (F : frun U32 DEF 0 true 1 s [None] s') by (apply frun_fn_ok; cbn [frun_fn]; rewrite E1; reflexivity); inversion F as [|? ? s2 ? ? ST F2]; subst; inversion F2; subst; exact ST|].
  split; [exact K3|]. split; [exact K5|]. rewrite K2. cbn [map snd In]. intros [E|[]]. exact (K4 E).
Qed.
