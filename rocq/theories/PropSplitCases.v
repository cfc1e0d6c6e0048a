(** * PropSplitCases.v — C62: concrete programs meeting the hypotheses. *)
From Verif Require Import Jax KeyModel HashModel HashProofs StableSort TableModel ProbeProofs TableInv DedupeModel DedupeSpec DedupeProofs DedupeExact ParInsertModel ParInsert ParEffect TritonModel PallasModel TableSpec TableHistory PropTable PropTableCases PropSplit.
From Verif Require PropSplit2 HeapModel HeapSpec.

(** the same dataclass hashed with another seed *)
Definition U32b : dataclass N.
Proof.
  refine {| dc_eqb := N.eqb; dc_default := 0xFFFFFFFF%N; dc_words := fun x => [x]; dc_nwords := 1;
            dc_hash := fun ws => hash_fast_pair ws 7 |}.
  - intros x y. apply N.eqb_eq.
  - intros x y E. injection E as ->. reflexivity.
  - reflexivity.
Defined.
(** four single inserts into a small table *)
Definition P1 : list (@call N) := [CInsert 2%N; CInsert 5%N; CInsert 1%N; CInsert 7%N; CInsert 5%N].
(** one batch (duplicates, an unfilled entry, costs) and one insert into a bigger table with other buckets and
    another hash seed *)
Definition P2 : list (@call N) := [CBatch XLA B1 F1 K1; CInsert 1%N].
Definition T2 := Build U32b 64 4 2 None.
Lemma T2_ok : config_ok U32b 64 4 2 None.
Proof. unfold config_ok. change (cap (Build U32b 64 4 2 None)) with 32. cbv zeta. split; [lia|]. split; [vm_compute; reflexivity|exact Logic.I]. Qed.
Lemma inserts_program xs : forall t es t', inserts t xs = Some (es, t') -> program U32 DEF t (map CInsert xs) t'.
Proof.
  induction xs as [|x xs IH]; cbn [inserts map]; intros t es t' E.
  - injection E as <- <-. constructor.
  - destruct (Insert U32 t x) as [[[t1 ok] i]|] eqn:E1; [|discriminate].
    destruct (inserts t1 xs) as [[es1 t2]|] eqn:E2; [|discriminate]. injection E as <- <-.
    econstructor; [eapply does_insert; exact E1|eapply IH; exact E2].
Qed.
Lemma asked_1 x : asked U32 P1 x <-> In x [1; 2; 5; 7]%N.
Proof.
  unfold asked, P1. split.
  - intros (c & HI & HA). cbn [In] in *. repeat (destruct HI as [<-|HI]; [cbn [asks] in HA; subst x; tauto|]). destruct HI.
  - cbn [In]. intros H. exists (CInsert x). split; [|reflexivity]. cbn [In]. intuition (subst; auto).
Qed.
Lemma asked_2 x : asked U32b P2 x <-> In x [1; 2; 5; 7]%N.
Proof.
  unfold asked, P2. split.
  - intros (c & HI & HA). cbn [In] in HI. destruct HI as [<-|[<-|[]]]; cbn [asks] in HA; [|subst x; cbn; tauto].
    destruct HA as (q & [HQ HF] & <-). change (length B1) with 7 in *. do 7 (destruct q as [|q]; [try discriminate HF; cbn; tauto|]). lia.
  - intros H. exists (CBatch XLA B1 F1 K1). split; [now left|]. cbn [asks].
    cbn [In] in H. destruct H as [<-|[<-|[<-|[<-|[]]]]]; [exists 5|exists 6|exists 0|exists 1]; (split; [split; [cbn; lia|reflexivity]|reflexivity]).
Qed.
Lemma case_reliable_b : dedupe_reliable U32b DEF B1 (mask_list (length B1) F1) K1.
Proof.
  split; [intros q Hq _; change (length B1) with 7 in Hq; do 7 (destruct q as [|q]; [discriminate|]); lia|].
  split; [|split; [left; cbn; lia|right; right]]; right; intros q Hq HF; change (length B1) with 7 in Hq; cbn [dc_words dc_nwords U32b];
  do 7 (destruct q as [|q]; [vm_compute; discriminate|]); lia.
Qed.
Example C62_table_case : exists t1 t2, program U32 DEF T0 P1 t1 /\ program U32b DEF T2 P2 t2 /\
  Forall (lossless U32 DEF T0 4) P1 /\ Forall (lossless U32b DEF T2 4) P2 /\ 4 <= slots T0 /\ 4 <= slots T2 /\
  (forall x, asked U32 P1 x <-> asked U32b P2 x) /\ at_most 4 (asked U32 P1) /\ cap t1 <> cap t2 /\ size t1 = 4%N /\ size t2 = 4%N.
Proof.
  assert (exists es t1, inserts T0 [2; 5; 1; 7; 5]%N = Some (es, t1) /\ cap t1 = 4) as (es & t1 & E1 & EC1) by (do 2 eexists; split; vm_compute; reflexivity).
  destruct (C26_total U32b DEF XLA [] T2 B1 F1 K1) as ([[[t2 ins] uniq] idx] & E2); [exists 64, 4, 2, None; split; [exact T2_ok|constructor]|reflexivity|exact Logic.I|].
  assert (H0 : history U32b DEF [] T2) by (exists 64, 4, 2, None; split; [exact T2_ok|constructor]).
  pose proof (history_run U32b DEF [] T2 [EBatch B1 ins idx] t2 H0 ltac:(econstructor; [exact (op_batch U32b DEF T2 XLA B1 F1 K1 t2 ins uniq idx eq_refl E2)|constructor])) as H2. cbn [app] in H2.
  destruct (C25_insert U32b DEF _ t2 1%N H2) as (t3 & ok & i & E3 & _).
  assert (PR1 : program U32 DEF T0 P1 t1) by (apply (inserts_program [2; 5; 1; 7; 5]%N T0 es t1 E1)).
  assert (PR2 : program U32b DEF T2 P2 t3) by (econstructor; [exact (does_batch U32b DEF T2 XLA B1 F1 K1 t2 ins uniq idx eq_refl E2)|econstructor; [eapply does_insert; exact E3|constructor]]).
  assert (LL1 : Forall (lossless U32 DEF T0 4) P1) by (unfold P1; repeat (constructor; [exact Logic.I|]); constructor).
  assert (LL2 : Forall (lossless U32b DEF T2 4) P2).
  { constructor; [|constructor; [exact Logic.I|constructor]]. split; [exact case_reliable_b|]. cbv zeta. split; [vm_compute; lia|vm_compute; discriminate]. }
  assert (AE : forall x, asked U32 P1 x <-> asked U32b P2 x) by (intros x; rewrite asked_1, asked_2; reflexivity).
  assert (AM : at_most 4 (asked U32 P1)) by (exists [1; 2; 5; 7]%N; split; [cbn; lia|intros x Hx; apply asked_1, Hx]).
  assert (S1 : 4 <= slots T0) by (vm_compute; lia). assert (S2 : 4 <= slots T2) by (vm_compute; lia).
  destruct (C62_table_contents U32 DEF 16 8 2 None P1 t1 4 T0_ok PR1 LL1 S1 AM) as (_ & (l & ND & HI & ES) & _).
  assert (ES' : size t1 = 4%N).
  { rewrite ES. change 4%N with (N.of_nat (length [1; 2; 5; 7]%N)). f_equal. apply Permutation_length, NoDup_Permutation; [exact ND| |intros x; rewrite HI; apply asked_1].
    repeat constructor; cbn; intuition discriminate. }
  destruct (C62_table_same N U32 U32b DEF DEF 16 8 2 None 64 4 2 None P1 P2 t1 t3 4 T0_ok T2_ok PR1 PR2 LL1 LL2 S1 S2 AE AM) as (SE & _ & _).
  exists t1, t3. split; [exact PR1|]. split; [exact PR2|]. split; [exact LL1|]. split; [exact LL2|]. split; [exact S1|]. split; [exact S2|]. split; [exact AE|]. split; [exact AM|].
  split; [|split; [exact ES'|congruence]]. rewrite EC1.
  destruct (history_facts U32b DEF _ t2 H2) as (k & G & _). pose proof (op_fact U32b DEF k t2 _ t3 G (op_insert U32b DEF t2 1%N t3 ok i E3)) as SF.
  destruct (history_facts U32b DEF _ T2 H0) as (k0 & G0 & _). pose proof (op_fact U32b DEF k0 T2 _ t2 G0 ltac:(exact (op_batch U32b DEF T2 XLA B1 F1 K1 t2 ins uniq idx eq_refl E2))) as SF0.
  assert (X1 : cap t3 = cap t2) by apply SF. assert (X2 : cap t2 = cap T2) by apply SF0. rewrite X1, X2. vm_compute. discriminate.
Qed.

(** without a no-loss bound the batch boundaries do matter on the default backend: one
    batch loses an item that single inserts of the same items store *)
Definition L1 : list N := [2; 168; 40; 22; 55; 156; 289]%N.
Theorem C62_table_unconditional_refuted : exists cs1 cs2 t1 t2 x,
  program U32 DEF (Build U32 8 1 2 None) cs1 t1 /\ program U32 DEF (Build U32 8 1 2 None) cs2 t2 /\
  (forall y, asked U32 cs1 y <-> asked U32 cs2 y) /\ at_most 8 (asked U32 cs1) /\ asked U32 cs1 x /\
  present U32 t1 x /\ absent U32 t2 x.
Proof.
  assert (K1 : match inserts (Build U32 8 1 2 None) (193%N :: L1) with None => false | Some (es, t1) =>
      match Lookup U32 t1 289%N with Some (i, true) => true | _ => false end end = true) by (vm_compute; reflexivity).
  assert (K2 : match Insert U32 (Build U32 8 1 2 None) 193%N with None => false | Some (t0, ok, i0) =>
      match pinsert t0 L1 (FScalar true) None with None => false | Some (t2, ins, uniq, idx) =>
      match Lookup U32 t2 289%N with Some (i, false) => true | _ => false end end end = true) by (vm_compute; reflexivity).
  destruct (inserts (Build U32 8 1 2 None) (193%N :: L1)) as [[es t1]|] eqn:E1; [|discriminate K1].
  destruct (Lookup U32 t1 289%N) as [[i [|]]|] eqn:F1; try discriminate K1.
  destruct (Insert U32 (Build U32 8 1 2 None) 193%N) as [[[t0 ok] i0]|] eqn:E2; [|discriminate K2].
  destruct (pinsert t0 L1 (FScalar true) None) as [[[[t2 ins] uniq] idx]|] eqn:E3; [|discriminate K2].
  destruct (Lookup U32 t2 289%N) as [[j [|]]|] eqn:F2; try discriminate K2. clear K1 K2.
  assert (A1 : forall y, asked U32 (map CInsert (193%N :: L1)) y <-> In y (193%N :: L1)).
  { intros y. unfold asked. split.
    - intros (c & HI & HA). apply in_map_iff in HI as (z & <- & HI). cbn [asks] in HA. now subst.
    - intros H. exists (CInsert y). split; [apply in_map; exact H|reflexivity]. }
  assert (A2 : forall y, asked U32 [CInsert 193%N; CBatch XLA L1 (FScalar true) None] y <-> In y (193%N :: L1)).
  { intros y. unfold asked. split.
    - intros (c & [<-|[<-|[]]] & HA); cbn [asks] in HA; [now left|right]. destruct HA as (q & [HQ _] & <-). apply nth_In. exact HQ.
    - intros [<-|H]; [exists (CInsert 193%N); split; [now left|reflexivity]|]. exists (CBatch XLA L1 (FScalar true) None). split; [right; now left|]. cbn [asks].
      destruct (In_nth L1 y 0xFFFFFFFF%N H) as (q & HQ & EQ). exists q. split; [|exact EQ]. split; [exact HQ|]. unfold mask_list. clear -HQ. revert q HQ. change (length L1) with 7. intros q HQ. do 7 (destruct q as [|q]; [reflexivity|]). lia. }
  exists (map CInsert (193%N :: L1)), [CInsert 193%N; CBatch XLA L1 (FScalar true) None], t1, t2, 289%N.
  split; [apply (inserts_program _ _ es _ E1)|]. split.
  { econstructor; [eapply does_insert; exact E2|]. econstructor; [|constructor]. apply (does_batch U32 DEF t0 XLA L1 (FScalar true) None t2 ins uniq idx eq_refl). apply xla_function. exact E3. }
  split; [intros y; rewrite A1, A2; reflexivity|]. split; [exists (193%N :: L1); split; [cbn; lia|intros y Hy; apply A1, Hy]|].
  split; [apply A1; cbn; tauto|]. split; [now exists i|now exists j].
Qed.
Print Assumptions C62_table_unconditional_refuted.

(** ** priority queue: three full blocks against five padded blocks in another order, in
    queues of different capacities *)
Import PropSplit2 HeapSpec HeapModel.
Definition kz (z : Z) : KeyModel.key * Z := (Fin z, z).
Definition pad : KeyModel.key * Z := (PInf, 0%Z).
Definition H1 : list (phase Z) := [Put [[kz 5; kz 1]; [kz 9; kz 3]]; Take; Put [[kz 2; kz 8]]; Take; Take].
Definition H2 : list (phase Z) := [Put [[kz 3; pad]; [pad; kz 9]; [kz 1; kz 5]]; Take; Put [[pad; kz 8]; [kz 2; pad]]; Take; Take].
Example C62_heap_case : Forall (legal_phase 2) H1 /\ Forall (legal_phase 2) H2 /\ Forall2 same_pairs H1 H2 /\ NoDup (map fst (puts H1)) /\
  fits (max_size (build 0%Z 6 2)) 2 0 H1 /\ fits (max_size (build 7%Z 20 2)) 2 0 H2 /\
  exists h o, serve (build 0%Z 6 2) H1 = Some (h, o) /\ map pairs_seen o =
    [([], 4); ([kz 1; kz 3], 2); ([], 4); ([kz 2; kz 5], 2); ([kz 8; kz 9], 0)]%Z.
Proof.
  assert (L : forall b : list (KeyModel.key * Z), length b = 2 -> forallb (fun x => match fst x with NInf => false | _ => true end) b = true -> legal 2 (Ins b)).
  { intros b HL HF. split; [exact HL|]. intros x Hx E. rewrite forallb_forall in HF. specialize (HF x Hx). rewrite E in HF. discriminate. }
  assert (LP : forall ps : list (phase Z), forallb (fun p => match p with Put bs => forallb (fun b => (length b =? 2) && forallb (fun x : KeyModel.key * Z => match fst x with NInf => false | _ => true end) b) bs | Take => true end) ps = true -> Forall (legal_phase 2) ps).
  { intros ps HF. apply Forall_forall. intros p Hp. rewrite forallb_forall in HF. specialize (HF p Hp). destruct p as [bs|]; [|exact Logic.I]. apply Forall_forall. intros b Hb.
    rewrite forallb_forall in HF. specialize (HF b Hb). apply andb_prop in HF as [A B]. apply L; [apply Nat.eqb_eq; exact A|exact B]. }
  split; [apply LP; vm_compute; reflexivity|]. split; [apply LP; vm_compute; reflexivity|]. split.
  - constructor; [constructor|constructor; [constructor|constructor; [constructor|constructor; [constructor|constructor; [constructor|constructor]]]]].
    + change (Permutation [kz 5; kz 1; kz 9; kz 3] [kz 3; kz 9; kz 1; kz 5]). apply (Permutation_rev [kz 5; kz 1; kz 9; kz 3]).
    + change (Permutation [kz 2; kz 8] [kz 8; kz 2]). apply perm_swap.
  - split; [vm_compute; repeat constructor; cbn; intuition discriminate|]. split; [vm_compute; repeat split; lia|]. split; [vm_compute; repeat split; lia|].
    do 2 eexists. split; vm_compute; reflexivity.
Qed.
