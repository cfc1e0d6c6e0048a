(** * PropRoomCases.v — C90, C91: the search of PropDijkstraCases.v in a queue that may overflow but
      is as large as what is offered. *)
From Verif Require Import Jax KeyModel HashModel HashProofs StableSort TableModel ProbeProofs TableInv DedupeModel DedupeSpec DedupeProofs DedupeExact ParInsertModel ParInsert ParEffect TritonModel PallasModel TableSpec TableHistory PropTable UpdateModel PropTableCases PropSplit PropCost PropCostCases PropFrontier PropFrontierCases PropDijkstra PropDijkstraCases PropRoom.
From Verif Require HeapModel HeapSpec PropHeap.

Lemma roomy_any {item A W} (T : dataclass item) C (a0 : A) start edge (add : key -> W -> key) B s ops s' : search T C a0 start edge add true B s ops s' -> search T C a0 start edge add false B s ops s'.
Proof. induction 1 as [s|s o s1 os s2 HS HL HR IH]; [constructor|]. apply se_cons with s1; [|exact HL|exact IH]. inversion HS; subst; econstructor; try eassumption. discriminate. Qed.
(** eleven finite costs are offered, the queue has room for 14, six pairs are handed out *)
Example C91_case_room : exists s, search U32 DEF 0 start edge add false 7 S0 OPSD s /\ config_ok U32 16 8 2 None /\ PropHeap.params_ok 14 7 /\
  Forall (fun o => lossless U32 DEF T0 6 (call_of o)) (offers OPSD) /\ 6 <= slots T0 /\ at_most 6 (asked U32 (map call_of (offers OPSD))) /\
  made (offers OPSD) = 11 /\ search U32 DEF 0 start edge add true 7 S0 OPSD s /\ length (f_popped s) = 6.
Proof.
  destruct C91_case as (s & H1 & H2 & H3 & H4 & H5 & H6 & _ & _ & _ & _ & _ & HO & _). exists s.
  assert (F : search U32 DEF 0 start edge add false 7 S0 OPSD s) by (apply roomy_any; exact H1).
  assert (M : made (offers OPSD) = 11) by (vm_compute; reflexivity).
  split; [exact F|]. split; [exact H2|]. split; [exact H3|]. split; [exact H4|]. split; [exact H5|]. split; [exact H6|]. split; [exact M|]. split.
  - apply (C91_room U32 DEF 0 start edge add 14 7 16 8 2 None OPSD s 6 H2 H3 H4 H5 H6); [rewrite M; lia|exact F].
  - apply (f_equal (@length _)) in HO. unfold out_of in HO. rewrite map_length in HO. exact HO.
Qed.
