(** * PropGoalCases.v — C91: the search of PropDijkstraCases.v with the goals 3 and 5. *)
From Verif Require Import Jax KeyModel HashModel HashProofs StableSort TableModel ProbeProofs TableInv DedupeModel DedupeSpec DedupeProofs DedupeExact ParInsertModel ParInsert ParEffect TritonModel PallasModel TableSpec TableHistory PropTable UpdateModel PropTableCases PropSplit PropCost PropCostCases PropFrontier PropFrontierCases PropDijkstra PropDijkstraCases PropGoal.
From Verif Require HeapModel HeapSpec PropHeap.

Definition goal (x : N) : Prop := x = 5%N \/ x = 3%N.
Definition goal_b (x : N) : bool := (x =? 5)%N || (x =? 3)%N.
Definition check5 (s : @fstate N nat) : bool :=
  match Lookup U32 (f_table s) 5%N with Some (i, true) => match fst (nth i (f_dist s) (nothing 0)) with Cost (Fin z) => (z =? 15)%Z | _ => false end | _ => false end.
Lemma check5_ok s : check5 s = true -> exists i, Lookup U32 (f_table s) 5%N = Some (i, true) /\ fst (nth i (f_dist s) (nothing 0)) = Cost (Fin 15).
Proof.
  unfold check5. generalize (Lookup U32 (f_table s) 5%N). intros [[i [|]]|] K; try discriminate. exists i. split; [reflexivity|].
  destruct (fst (nth i (f_dist s) (nothing 0))) as [|[|z|]]; try discriminate. apply Z.eqb_eq in K. subst. reflexivity.
Qed.
Lemma goals_ok (s : @fstate N nat) : forallb (fun p => negb (goal_b (GetItem U32 (f_table s) (snd p))) || kle (Fin 15) (fst p)) (f_popped s) = true ->
  forall p, In p (f_popped s) -> goal (GetItem U32 (f_table s) (snd p)) -> kle (Fin 15) (fst p) = true.
Proof.
  intros K p HI HG. rewrite forallb_forall in K. specialize (K p HI). assert (E : goal_b (GetItem U32 (f_table s) (snd p)) = true); [|rewrite E in K; exact K].
  unfold goal_b. revert HG. generalize (GetItem U32 (f_table s) (snd p)). intros x [->|HG]; [reflexivity|]. rewrite HG. reflexivity.
Qed.
(** the goals 5 (20, then 15) and 3 (18) were handed out; 15 is the least cost of a path to a goal *)
Example C91_case_goal : exists s i, search U32 DEF 0 start edge add true 7 S0 OPSD s /\
  config_ok U32 16 8 2 None /\ PropHeap.params_ok 14 7 /\
  Forall (fun o => lossless U32 DEF T0 6 (call_of o)) (offers OPSD) /\ 6 <= slots T0 /\ at_most 6 (asked U32 (map call_of (offers OPSD))) /\
  growing add /\ (forall x, ~ start x NInf) /\ started U32 0 start (offers OPSD) /\ expanded U32 0 edge add (offers OPSD) s /\
  Lookup U32 (f_table s) 5%N = Some (i, true) /\ fst (nth i (f_dist s) (nothing 0)) = Cost (Fin 15) /\
  (forall p, In p (HeapSpec.contents (f_queue s)) -> kle (Fin 15) (fst p) = true) /\
  (forall p, In p (f_popped s) -> goal (GetItem U32 (f_table s) (snd p)) -> kle (Fin 15) (fst p) = true) /\
  (forall y' c, goal y' -> path start edge add y' c -> kle (Fin 15) c = true).
Proof.
  assert (K : match search_fn STARTS EDGES add true 7 S0 OPSD with Some s => check5 s && expanded_b EDGES add (offers OPSD) s && forallb (fun p => kle (Fin 15) (fst p)) (HeapSpec.contents (f_queue s)) &&
      forallb (fun p => negb (goal_b (GetItem U32 (f_table s) (snd p))) || kle (Fin 15) (fst p)) (f_popped s) | None => false end = true) by (vm_compute; reflexivity).
  destruct (search_fn STARTS EDGES add true 7 S0 OPSD) as [s|] eqn:ER; [|discriminate]. apply andb_prop in K. destruct K as [K K4]. apply andb_prop in K. destruct K as [K K3]. apply andb_prop in K. destruct K as [K1 K2].
  apply check5_ok in K1. destruct K1 as (i & K1 & K5). exists s, i. pose proof (goals_ok s K4) as K6. rewrite forallb_forall in K3.
  assert (HS : search U32 DEF 0 start edge add true 7 S0 OPSD s) by (apply (search_fn_ok STARTS EDGES start edge add); [intros x k H; exact H|intros x y w H; exact H|exact ER]).
  assert (HP : PropHeap.params_ok 14 7) by (unfold PropHeap.params_ok; lia). change (offers OPSD) with [O1; OD] in *. destruct D_calls as (D1 & D2 & D3).
  assert (ST : started U32 0 start [O1; OD]) by (apply (started_ok STARTS start); [intros x k H; exact H|]; vm_compute; reflexivity).
  assert (EX : expanded U32 0 edge add [O1; OD] s) by (apply (expanded_ok EDGES edge add); [intros x y w H; exact H|exact K2]).
  split; [exact HS|]. split; [exact T0_ok|]. split; [exact HP|]. split; [exact D1|]. split; [exact D2|]. split; [exact D3|]. split; [exact add_growing|]. split; [exact start_finite|].
  split; [exact ST|]. split; [exact EX|]. split; [exact K1|]. split; [exact K5|]. split; [exact K3|]. split; [exact K6|].
  destruct (C91_goal U32 DEF 0 start edge add goal 14 7 16 8 2 None OPSD s 6 T0_ok HP HS D1 D2 D3 add_growing start_finite ST EX) as (P1 & _).
  exact (proj2 (P1 5%N i (Fin 15) (or_introl eq_refl) K1 K5 eq_refl K3 K6)).
Qed.
