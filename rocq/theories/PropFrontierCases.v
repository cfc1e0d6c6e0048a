(** * PropFrontierCases.v — C90: a concrete search loop: two batches are pushed, three blocks are
      popped, and an item whose cost improved after it was popped is handed out a second time. *)
From Verif Require Import Jax KeyModel HashModel HashProofs StableSort TableModel ProbeProofs TableInv DedupeModel DedupeSpec DedupeProofs DedupeExact ParInsertModel ParInsert ParEffect TritonModel PallasModel TableSpec TableHistory PropTable UpdateModel PropTableCases PropSplit PropCost PropCostCases PropFrontier.
From Verif Require HeapModel HeapSpec PropHeap.

Definition no_ninf (l : list costval) : bool := forallb (fun c => match c with Cost NInf => false | _ => true end) l.
Definition room (B : nat) (h : HeapModel.heap nat) (block : list (key * nat)) : bool :=
  (length (HeapSpec.contents h) + length (HeapSpec.fin block) <? HeapModel.max_size h + B).
Definition fstep_fn (roomy : bool) (B : nat) (s : @fstate N nat) (o : option (@offer N nat)) : option (@fstate N nat) :=
  match o with
  | None => match HeapModel.delete_mins (f_queue s) with Some (h', out) => Some (FS (f_table s) (f_dist s) h' (f_popped s ++ HeapSpec.fin out)) | None => None end
  | Some o => match pinsert (f_table s) (o_items o) (o_fill o) (Some (o_costs o)) with
      | Some (t', ins, uniq, idx) => let block := to_queue 0 B (f_dist s) uniq idx (o_costs o) in
          if shaped o && (length (o_items o) <=? B) && no_ninf (o_costs o) && (negb roomy || room B (f_queue s) block)
          then Some (FS t' (relax 0 (f_dist s) uniq idx (o_costs o) (o_data o)) (HeapModel.insert (f_queue s) block) (f_popped s)) else None
      | None => None end
  end.
Fixpoint frun_fn (roomy : bool) (B : nat) (s : @fstate N nat) (ops : list (option (@offer N nat))) : option (@fstate N nat) :=
  match ops with [] => Some s | o :: r => match fstep_fn roomy B s o with Some s1 => frun_fn roomy B s1 r | None => None end end.
Lemma no_ninf_ok l : no_ninf l = true -> ~ In (Cost NInf) l.
Proof. intros E HI. unfold no_ninf in E. rewrite forallb_forall in E. specialize (E _ HI). discriminate. Qed.
Lemma frun_fn_ok roomy B ops : forall s s', frun_fn roomy B s ops = Some s' -> frun U32 DEF 0 roomy B s ops s'.
Proof.
  induction ops as [|o ops IH]; intros s s' E; cbn [frun_fn] in E; [injection E as <-; constructor|].
  destruct (fstep_fn roomy B s o) as [s1|] eqn:E1; [|discriminate]. econstructor; [|apply IH; exact E]. clear IH E. destruct s as [t dist h done]. destruct o as [o|]; cbn [fstep_fn f_table f_dist f_queue f_popped] in E1.
  - destruct (pinsert t (o_items o) (o_fill o) (Some (o_costs o))) as [[[[t' ins] uniq] idx]|] eqn:EP; [|discriminate]. cbv zeta in E1.
    destruct (shaped o && _ && _ && _) eqn:EG; [|discriminate]. injection E1 as <-. apply andb_prop in EG. destruct EG as [EG G4]. apply andb_prop in EG. destruct EG as [EG G3]. apply andb_prop in EG. destruct EG as [HS G2].
    unfold shaped in HS. apply andb_prop in HS. destruct HS as [HS HB]. apply andb_prop in HS. destruct HS as [HS H3]. apply andb_prop in HS. destruct HS as [H1 H2].
    apply Nat.eqb_eq in H1, H2, H3. apply Nat.leb_le in G2. apply no_ninf_ok in G3. assert (G5 : roomy = true -> room B h (to_queue 0 B dist uniq idx (o_costs o)) = true) by (intros ->; exact G4). clear G4. unfold room in G5. setoid_rewrite Nat.ltb_lt in G5. destruct o as [be xs f cs ds]. cbn [o_be o_items o_fill o_costs o_data] in *. destruct be; try discriminate.
    apply (f_push U32 DEF 0 roomy B t dist h done (MkOffer XLA xs f cs ds) t' ins uniq idx); cbn [o_be o_items o_fill o_costs o_data]; try assumption. apply xla_function. exact EP.
  - destruct (HeapModel.delete_mins h) as [[h' out]|] eqn:ED; [|discriminate]. injection E1 as <-. apply f_pop. exact ED.
Qed.

Definition OPS : list (option (@offer N nat)) := [Some O1; None; Some O2; None; None].
Definition S0 : @fstate N nat := FS T0 (repeat (nothing 0) (slots T0)) (HeapModel.build 0 14 7) [].
(** the items and keys in the order in which they were handed out *)
Definition out_of (s : @fstate N nat) : list (key * N) := map (fun p => (fst p, GetItem U32 (f_table s) (snd p))) (f_popped s).
Definition same_out (a b : list (key * N)) : bool :=
  (length a =? length b) && forallb (fun pq => match fst (fst pq), fst (snd pq) with Fin x, Fin y => (x =? y)%Z | _, _ => false end && (snd (fst pq) =? snd (snd pq))%N) (combine a b).
Definition OUT : list (key * N) := [(Fin 10, 7%N); (Fin 10, 1%N); (Fin 10, 2%N); (Fin 20, 5%N); (Fin 8, 3%N); (Fin 15, 5%N)].
Lemma same_out_eq a : forall b, same_out a b = true -> a = b.
Proof.
  unfold same_out. induction a as [|[k x] a IH]; intros [|[k' y] b] E; cbn [length] in E; try discriminate; [reflexivity|]. apply andb_prop in E. destruct E as [E1 E2].
  cbn [combine forallb fst snd] in E2. apply andb_prop in E2. destruct E2 as [E2 E3]. apply andb_prop in E2. destruct E2 as [E2 E4]. apply N.eqb_eq in E4. subst y.
  rewrite (IH b); [|cbn [Nat.eqb] in E1; rewrite E1; exact E3]. destruct k as [|z|], k' as [|z'|]; try discriminate. apply Z.eqb_eq in E2. now subst.
Qed.
(** 5 was handed out with cost 20 and again with 15; 7, 1 and 2 only once although they were offered again *)
Example C90_case : exists s, frun U32 DEF 0 true 7 S0 OPS s /\
  config_ok U32 16 8 2 None /\ PropHeap.params_ok 14 7 /\
  Forall (fun o => lossless U32 DEF T0 6 (call_of o)) (offers OPS) /\ 6 <= slots T0 /\ at_most 6 (asked U32 (map call_of (offers OPS))) /\
  HeapModel.size (f_queue s) = 0%Z /\ out_of s = OUT.
Proof.
  assert (K : match frun_fn true 7 S0 OPS with Some s => (HeapModel.size (f_queue s) =? 0)%Z && same_out (out_of s) OUT | None => false end = true) by (vm_compute; reflexivity).
  destruct (frun_fn true 7 S0 OPS) as [s|] eqn:ER; [|discriminate]. exists s. apply andb_prop in K. destruct K as [K1 K2].
  split; [apply frun_fn_ok; exact ER|]. split; [exact T0_ok|]. split; [unfold PropHeap.params_ok; lia|].
  change (offers OPS) with [O1; O2]. split.
  { constructor; [|constructor; [|constructor]]; (split; [apply O_reliable; auto|]); cbn [call_of o_be O1 O2 o_items o_fill o_costs]; cbv zeta;
    (split; [apply Nat.leb_le; vm_compute; reflexivity|vm_compute; discriminate]). }
  split; [apply Nat.leb_le; vm_compute; reflexivity|]. split; [exists [5; 7; 9; 1; 2; 3]%N; split; [cbn; lia|exact O_asked]|].
  split; [apply Z.eqb_eq; exact K1|apply same_out_eq; exact K2].
Qed.

(** the same with costs that do not fall below what was handed out: 5 is handed out with its best
    cost first, and its stale pair behind *)
Definition O6 : @offer N nat := MkOffer XLA [1; 8]%N (FScalar true) (fin [20; 30]%Z) [1; 2].
Definition OPS2 : list (option (@offer N nat)) := [Some O1; Some O2; None; Some O6; None].
Definition up_ok (s : @fstate N nat) (o : option (@offer N nat)) : bool :=
  match o with None => true | Some b => forallb (fun p => forallb (cle (Cost (fst p))) (o_costs b)) (f_popped s) end.
Fixpoint fup_fn (roomy : bool) (B : nat) (s : @fstate N nat) (ops : list (option (@offer N nat))) : option (@fstate N nat) :=
  match ops with [] => Some s | o :: r => if up_ok s o then match fstep_fn roomy B s o with Some s1 => fup_fn roomy B s1 r | None => None end else None end.
Lemma fup_fn_ok roomy B ops : forall s s', fup_fn roomy B s ops = Some s' -> frun_up U32 DEF 0 roomy B s ops s'.
Proof.
  induction ops as [|o ops IH]; intros s s' E; cbn [fup_fn] in E; [injection E as <-; constructor|].
  destruct (up_ok s o) eqn:EU; [|discriminate]. destruct (fstep_fn roomy B s o) as [s1|] eqn:E1; [|discriminate].
  assert (F : frun U32 DEF 0 roomy B s [o] s1) by (apply frun_fn_ok; cbn [frun_fn]; rewrite E1; reflexivity). inversion F as [|? ? s2 ? ? ST F2]; subst. inversion F2; subst.
  apply (fup_cons U32 DEF 0 roomy B s o s1 ops s'); [exact ST| |apply IH; exact E]. intros b q p -> _ HP. cbn [up_ok] in EU. rewrite forallb_forall in EU. specialize (EU p HP). rewrite forallb_forall in EU.
  destruct (nth_in_or_default q (o_costs b) (Cost PInf)) as [HI|EQ]; [apply EU; exact HI|rewrite EQ; apply cle_PInf].
Qed.
Lemma O6_reliable : dedupe_reliable U32 DEF (o_items O6) (mask_list (length (o_items O6)) (o_fill O6)) (Some (o_costs O6)).
Proof.
  split; [intros q Hq _; cbn [length O6 o_items] in Hq; do 2 (destruct q as [|q]; [discriminate|]); lia|].
  split; [|split; [left; cbn; lia|right; right]]; left; intros q Hq; cbn [length O6 o_items] in *; do 2 (destruct q as [|q]; [reflexivity|]); lia.
Qed.
Definition OUT2 : list (key * N) := [(Fin 8, 3%N); (Fin 10, 7%N); (Fin 10, 1%N); (Fin 10, 2%N); (Fin 15, 5%N); (Fin 20, 5%N); (Fin 30, 8%N)].
Example C90_case_up : exists s, frun_up U32 DEF 0 true 7 S0 OPS2 s /\
  Forall (fun o => lossless U32 DEF T0 7 (call_of o)) (offers OPS2) /\ 7 <= slots T0 /\ at_most 7 (asked U32 (map call_of (offers OPS2))) /\ out_of s = OUT2.
Proof.
  assert (K : match fup_fn true 7 S0 OPS2 with Some s => same_out (out_of s) OUT2 | None => false end = true) by (vm_compute; reflexivity).
  destruct (fup_fn true 7 S0 OPS2) as [s|] eqn:ER; [|discriminate]. exists s.
  split; [apply fup_fn_ok; exact ER|]. change (offers OPS2) with [O1; O2; O6]. split.
  { constructor; [|constructor; [|constructor; [|constructor]]]; (split; [first [solve [apply O_reliable; auto]|apply O6_reliable]|]); cbn [call_of o_be O1 O2 O6 o_items o_fill o_costs]; cbv zeta;
    (split; [apply Nat.leb_le; vm_compute; reflexivity|vm_compute; discriminate]). }
  split; [apply Nat.leb_le; vm_compute; reflexivity|]. split; [|apply same_out_eq; exact K].
  exists [5; 7; 9; 1; 2; 3; 8]%N. split; [cbn; lia|]. intros x (c & [<-|[<-|[<-|[]]]] & HA).
  - assert (H : In x [5; 7; 9; 1; 2; 3]%N) by (apply O_asked; exists (call_of O1); split; [now left|exact HA]). cbn in H |- *. tauto.
  - assert (H : In x [5; 7; 9; 1; 2; 3]%N) by (apply O_asked; exists (call_of O2); split; [right; now left|exact HA]). cbn in H |- *. tauto.
  - cbn [call_of asks O6 o_items o_fill] in HA. destruct HA as (q & [HQ _] & <-). cbn in HQ. do 2 (destruct q as [|q]; [cbn; tauto|]). lia.
Qed.

Definition OV (a : N) : @offer N nat := MkOffer XLA [a; a + 1; a + 2]%N (FScalar true) (fin [30; 10; 20]%Z) [1; 2; 3].
Definition S1 : @fstate N nat := FS T0 (repeat (nothing 0) (slots T0)) (HeapModel.build 0 1 3) [].
Definition OPS3 : list (option (@offer N nat)) := [Some (OV 10); Some (OV 20); None; None].
Definition OUT3 : list (key * N) := [(Fin 10, 11%N); (Fin 10, 21%N); (Fin 20, 12%N)].
Lemma OV_reliable a : In a [10; 20]%N -> dedupe_reliable U32 DEF (o_items (OV a)) (mask_list (length (o_items (OV a))) (o_fill (OV a))) (Some (o_costs (OV a))).
Proof.
  intros HI. cbn [In] in HI. destruct HI as [<-|[<-|[]]];
  (split; [intros q Hq _; cbn [length OV o_items] in Hq; do 3 (destruct q as [|q]; [discriminate|]); lia|];
   split; [|split; [left; cbn; lia|right; right]]; left; intros q Hq; cbn [length OV o_items] in *; do 3 (destruct q as [|q]; [reflexivity|]); lia).
Qed.
(** two batches of three into a queue for three: the rest is lost, what comes out is right *)
Example C90_case_overflow : exists s, frun U32 DEF 0 false 3 S1 OPS3 s /\ frun_up U32 DEF 0 false 3 S1 OPS3 s /\ PropHeap.params_ok 1 3 /\
  Forall (fun o => lossless U32 DEF T0 6 (call_of o)) (offers OPS3) /\ 6 <= slots T0 /\ at_most 6 (asked U32 (map call_of (offers OPS3))) /\
  HeapModel.size (f_queue s) = 0%Z /\ out_of s = OUT3.
Proof.
  assert (K : match fup_fn false 3 S1 OPS3 with Some s => (HeapModel.size (f_queue s) =? 0)%Z && same_out (out_of s) OUT3 | None => false end = true) by (vm_compute; reflexivity).
  destruct (fup_fn false 3 S1 OPS3) as [s|] eqn:ER; [|discriminate]. exists s. apply andb_prop in K. destruct K as [K1 K2]. apply fup_fn_ok in ER.
  split; [apply up_run; exact ER|]. split; [exact ER|]. split; [unfold PropHeap.params_ok; lia|]. change (offers OPS3) with [OV 10; OV 20]. split.
  { constructor; [|constructor; [|constructor]]; (split; [apply OV_reliable; cbn; tauto|]); cbn [call_of o_be OV o_items o_fill o_costs]; cbv zeta;
    (split; [apply Nat.leb_le; vm_compute; reflexivity|vm_compute; discriminate]). }
  split; [apply Nat.leb_le; vm_compute; reflexivity|]. split; [|split; [apply Z.eqb_eq; exact K1|apply same_out_eq; exact K2]].
  exists (o_items (OV 10) ++ o_items (OV 20)). split; [cbn; lia|].
  assert (G : forall a x, asks U32 (call_of (OV a)) x -> In x (o_items (OV a))).
  { intros a x HA. cbn [call_of asks OV o_items o_fill] in HA. destruct HA as (q & [HQ _] & <-). apply nth_In. exact HQ. }
  intros x (c & HI & HA). cbn [map In] in HI. destruct HI as [<-|[<-|[]]]; apply G in HA; apply in_or_app; [now left|now right].
Qed.
