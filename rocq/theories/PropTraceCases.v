(** * PropTraceCases.v — C91: the parents of the run of PropDijkstraCases.v lead back from 5 to 7. *)
From Verif Require Import Jax KeyModel HashModel HashProofs StableSort TableModel ProbeProofs TableInv DedupeModel DedupeSpec DedupeProofs DedupeExact ParInsertModel ParInsert ParEffect TritonModel PallasModel TableSpec TableHistory PropTable UpdateModel PropTableCases PropSplit PropCost PropCostCases PropFrontier PropFrontierCases PropDijkstra PropDijkstraCases PropTrace.
From Verif Require HeapModel HeapSpec PropHeap.

(** what the numbers stored beside the costs of the second batch mean: slot 0 holds 7, slot 16 holds
    2 and slot 24 holds 5.  Those of the first batch (below 11) mark start states *)
Definition parent (n : nat) : option (nat * nat) :=
  if n =? 11 then Some (0, 5) else if n =? 12 then Some (24, 70) else if n =? 13 then Some (0, 8) else if n =? 14 then Some (16, 6) else if n =? 15 then Some (16, 0) else None.
Definition licit_par_b (s : @fstate N nat) (o : @offer N nat) : bool :=
  forallb (fun q => match nth q (o_costs o) (Cost PInf) with
    | Cost c => negb (finite c) || negb (nth q (mask_list (length (o_items o)) (o_fill o)) false) ||
        match parent (nth q (o_data o) 0) with
        | None => existsb (fun p => (fst p =? nth q (o_items o) (dc_default U32))%N && keyeqb (snd p) c) STARTS
        | Some (i, w) => existsb (fun p => (snd p =? i) && keyeqb c (add (fst p) w)) (f_popped s) &&
            existsb (fun e => match e with (x, y, w') => (x =? GetItem U32 (f_table s) i)%N && (y =? nth q (o_items o) (dc_default U32))%N && (w' =? w) end) EDGES
        end
    | CNaN => true end) (seq 0 (length (o_items o))).
Lemma licit_par_ok s o : licit_par_b s o = true -> licit_par U32 0 start edge add parent s o.
Proof.
  intros E q c [HQ1 HQ2] HC HF. unfold licit_par_b in E. rewrite forallb_forall in E. specialize (E q (proj2 (in_seq _ _ _) (conj (Nat.le_0_l q) HQ1))). cbv beta in E. rewrite HC, HF, HQ2 in E. cbn [negb orb] in E.
  destruct (parent (nth q (o_data o) 0)) as [[i w]|] eqn:EP.
  - right. apply andb_prop in E. destruct E as [E1 E2]. apply existsb_exists in E1. destruct E1 as ([k i'] & HI & E1). cbn [fst snd] in E1. apply andb_prop in E1. destruct E1 as [E1 E3]. apply Nat.eqb_eq in E1. apply keyeqb_eq in E3. subst i'.
    apply existsb_exists in E2. destruct E2 as ([[x y] w'] & HE & E2). apply andb_prop in E2. destruct E2 as [E2 E6]. apply andb_prop in E2. destruct E2 as [E2 E5]. apply N.eqb_eq in E2, E5. apply Nat.eqb_eq in E6. subst w'.
    exists k, i, w. split; [exact HI|]. split; [rewrite <- E2, <- E5; exact HE|]. split; [exact E3|reflexivity].
  - left. split; [|reflexivity]. apply existsb_exists in E. destruct E as ([x k] & HI & E). cbn [fst snd] in E. apply andb_prop in E. destruct E as [E1 E2]. apply N.eqb_eq in E1. apply keyeqb_eq in E2. subst k. rewrite <- E1. exact HI.
Qed.
Fixpoint par_fn (roomy : bool) (B : nat) (s : @fstate N nat) (ops : list (option (@offer N nat))) : option (@fstate N nat) :=
  match ops with [] => Some s | o :: r => if match o with None => true | Some b => licit_par_b s b end then match fstep_fn roomy B s o with Some s1 => par_fn roomy B s1 r | None => None end else None end.
Lemma par_fn_ok roomy B ops : forall s s', par_fn roomy B s ops = Some s' -> search_par U32 DEF 0 start edge add parent roomy B s ops s'.
Proof.
  induction ops as [|o ops IH]; intros s s' E; cbn [par_fn] in E; [injection E as <-; constructor|].
  destruct (match o with None => true | Some b => licit_par_b s b end) eqn:EL; [|discriminate]. destruct (fstep_fn roomy B s o) as [s1|] eqn:E1; [|discriminate].
  assert (F : frun U32 DEF 0 roomy B s [o] s1) by (apply frun_fn_ok; cbn [frun_fn]; rewrite E1; reflexivity). inversion F as [|? ? s2 ? ? ST F2]; subst. inversion F2; subst.
  apply (sp_cons U32 DEF 0 start edge add parent roomy B s o s1 ops s'); [exact ST| |apply IH; exact E]. intros b ->. apply licit_par_ok. exact EL.
Qed.
Definition check (s : @fstate N nat) : bool :=
  match Lookup U32 (f_table s) 5%N with Some (i, true) => (i =? 24) && is_entry (nth 24 (f_dist s) (nothing 0)) 15 11 && is_entry (nth 0 (f_dist s) (nothing 0)) 10 2 &&
     (GetItem U32 (f_table s) 0 =? 7)%N && (GetItem U32 (f_table s) 24 =? 5)%N | _ => false end.
Lemma check_ok s : check s = true -> Lookup U32 (f_table s) 5%N = Some (24, true) /\ nth 24 (f_dist s) (nothing 0) = (Cost (Fin 15), 11) /\ nth 0 (f_dist s) (nothing 0) = (Cost (Fin 10), 2) /\
  GetItem U32 (f_table s) 0 = 7%N /\ GetItem U32 (f_table s) 24 = 5%N.
Proof.
  unfold check. generalize (Lookup U32 (f_table s) 5%N) (GetItem U32 (f_table s) 0) (GetItem U32 (f_table s) 24). intros [[i [|]]|] g h K; try discriminate.
  apply andb_prop in K. destruct K as [K K5]. apply andb_prop in K. destruct K as [K K4]. apply andb_prop in K. destruct K as [K K3]. apply andb_prop in K. destruct K as [K1 K2].
  apply Nat.eqb_eq in K1. subst i. apply is_entry_eq in K2, K3. apply N.eqb_eq in K4, K5. auto.
Qed.
(** 5 is in slot 24 with cost 15; its parent is slot 0, where 7 is, a start state *)
Example C91_case_trace : exists s i j, search_par U32 DEF 0 start edge add parent true 7 S0 OPSD s /\
  config_ok U32 16 8 2 None /\ PropHeap.params_ok 14 7 /\
  Forall (fun o => lossless U32 DEF T0 6 (call_of o)) (offers OPSD) /\ 6 <= slots T0 /\ at_most 6 (asked U32 (map call_of (offers OPSD))) /\ growing add /\
  Lookup U32 (f_table s) 5%N = Some (i, true) /\ fst (nth i (f_dist s) (nothing 0)) = Cost (Fin 15) /\
  parent (snd (nth i (f_dist s) (nothing 0))) = Some (j, 5) /\ GetItem U32 (f_table s) j = 7%N /\ parent (snd (nth j (f_dist s) (nothing 0))) = None /\
  traced U32 0 start edge add parent s i (Fin 15).
Proof.
  assert (PO : PropHeap.params_ok 14 7) by (unfold PropHeap.params_ok; lia).
  assert (K : match par_fn true 7 S0 OPSD with Some s => check s | None => false end = true) by (vm_compute; reflexivity).
  destruct (par_fn true 7 S0 OPSD) as [s|] eqn:ER; [|discriminate]. exists s, 24, 0. apply check_ok in K. destruct K as (K1 & K2 & K3 & K4 & K5).
  split; [apply par_fn_ok; exact ER|]. split; [exact T0_ok|]. split; [exact PO|].
  change (offers OPSD) with [O1; OD] in *. split; [apply D_calls|]. split; [apply D_calls|]. split; [apply D_calls|]. split; [exact add_growing|]. split; [exact K1|].
  rewrite K2, K3. cbn [fst snd]. split; [reflexivity|]. split; [reflexivity|]. split; [exact K4|]. split; [reflexivity|].
  change (Fin 15) with (add (Fin 10) 5). apply (tr_move _ _ _ _ _ _ s 24 0 5 (Fin 10)); [rewrite K2; reflexivity| |rewrite K4, K5; unfold edge, EDGES; cbn [In]; tauto].
  apply tr_start; [rewrite K3; reflexivity|]. rewrite K4. unfold start. cbn [In]. tauto.
Qed.
