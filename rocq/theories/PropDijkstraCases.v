(** * PropDijkstraCases.v — C91: a search on a concrete graph, to the end and stopped early. *)
From Verif Require Import Jax KeyModel HashModel HashProofs StableSort TableModel ProbeProofs TableInv DedupeModel DedupeSpec DedupeProofs DedupeExact ParInsertModel ParInsert ParEffect TritonModel PallasModel TableSpec TableHistory PropTable UpdateModel PropTableCases PropSplit PropCost PropCostCases PropFrontier PropFrontierCases PropDijkstra.
From Verif Require HeapModel HeapSpec PropHeap.

(** offered (in any batch) for [y] at most at [k] *)
Definition offer_le (o : @offer N nat) (y : N) (k : key) : bool :=
  existsb (fun q => nth q (mask_list (length (o_items o)) (o_fill o)) false && (nth q (o_items o) (dc_default U32) =? y)%N && cle (nth q (o_costs o) (Cost PInf)) (Cost k)) (seq 0 (length (o_items o))).
Definition offers_le (os : list (@offer N nat)) (y : N) (k : key) : bool := existsb (fun o => offer_le o y k) os.
Lemma offers_le_ok os y k : offers_le os y k = true -> exists e, offered U32 0 os y e /\ cle (fst e) (Cost k) = true.
Proof.
  intros E. apply existsb_exists in E. destruct E as (o & HO & E). apply existsb_exists in E. destruct E as (q & HQ & E). apply andb_prop in E. destruct E as [E E3]. apply andb_prop in E. destruct E as [E1 E2].
  apply in_seq in HQ. apply N.eqb_eq in E2. exists (nth q (o_costs o) (Cost PInf), nth q (o_data o) 0). split; [|exact E3]. exists o, q. split; [exact HO|]. split; [split; [lia|exact E1]|]. split; [exact E2|reflexivity].
Qed.
Definition keyeqb (a b : key) : bool := kle a b && kle b a.
Lemma keyeqb_eq a b : keyeqb a b = true <-> a = b.
Proof.
  unfold keyeqb. split.
  - intros E. apply andb_prop in E. destruct E as [E1 E2]. destruct a as [|x|], b as [|y|]; cbn in E1, E2; try discriminate; try reflexivity. apply Z.leb_le in E1, E2. f_equal. lia.
  - intros ->. destruct b; cbn; try reflexivity. rewrite Z.leb_refl. reflexivity.
Qed.
(** decision procedures for a finite graph *)
Section Checker.
Context {W : Type} (STARTS : list (N * key)) (EDGES : list (N * N * W)) (start : N -> key -> Prop) (edge : N -> N -> W -> Prop) (add : key -> W -> key).
Context (S1 : forall x k, In (x, k) STARTS -> start x k) (S4 : forall x k, start x k -> In (x, k) STARTS) (S2 : forall x y w, In (x, y, w) EDGES -> edge x y w) (S3 : forall x y w, edge x y w -> In (x, y, w) EDGES).
Definition licit_b (s : @fstate N nat) (o : @offer N nat) : bool :=
  forallb (fun q => match nth q (o_costs o) (Cost PInf) with
    | Cost c => negb (finite c) || negb (nth q (mask_list (length (o_items o)) (o_fill o)) false) ||
        existsb (fun p => (fst p =? nth q (o_items o) (dc_default U32))%N && keyeqb (snd p) c) STARTS ||
        existsb (fun p => existsb (fun e => match e with (x, y, w) => (x =? GetItem U32 (f_table s) (snd p))%N && (y =? nth q (o_items o) (dc_default U32))%N && keyeqb c (add (fst p) w) end) EDGES) (f_popped s)
    | CNaN => true end) (seq 0 (length (o_items o))).
Lemma licit_ok s o : licit_b s o = true -> licit U32 start edge add s o.
Proof.
  intros E q c [HQ1 HQ2] HC HF. unfold licit_b in E. rewrite forallb_forall in E. specialize (E q (proj2 (in_seq _ _ _) (conj (Nat.le_0_l q) HQ1))). cbv beta in E. rewrite HC, HF, HQ2 in E. cbn [negb orb] in E.
  apply Bool.orb_true_iff in E. destruct E as [E|E].
  - left. apply existsb_exists in E. destruct E as ([x k] & HI & E). apply andb_prop in E. destruct E as [E1 E2]. cbn [fst snd] in E1, E2. apply N.eqb_eq in E1. apply keyeqb_eq in E2. subst c. rewrite <- E1. apply S1. exact HI.
  - right. apply existsb_exists in E. destruct E as ([k i] & HI & E). apply existsb_exists in E. destruct E as ([[x y] w] & HE & E). cbn [fst snd] in E. apply andb_prop in E. destruct E as [E E3]. apply andb_prop in E. destruct E as [E1 E2].
    apply N.eqb_eq in E1, E2. apply keyeqb_eq in E3. exists k, i, w. split; [exact HI|]. split; [|exact E3]. rewrite <- E1, <- E2. apply S2. exact HE.
Qed.
Fixpoint search_fn (roomy : bool) (B : nat) (s : @fstate N nat) (ops : list (option (@offer N nat))) : option (@fstate N nat) :=
  match ops with [] => Some s | o :: r => if match o with None => true | Some b => licit_b s b end then match fstep_fn roomy B s o with Some s1 => search_fn roomy B s1 r | None => None end else None end.
Lemma search_fn_ok roomy B ops : forall s s', search_fn roomy B s ops = Some s' -> search U32 DEF 0 start edge add roomy B s ops s'.
Proof.
  induction ops as [|o ops IH]; intros s s' E; cbn [search_fn] in E; [injection E as <-; constructor|].
  destruct (match o with None => true | Some b => licit_b s b end) eqn:EL; [|discriminate]. destruct (fstep_fn roomy B s o) as [s1|] eqn:E1; [|discriminate].
  assert (F : frun U32 DEF 0 roomy B s [o] s1) by (apply frun_fn_ok; cbn [frun_fn]; rewrite E1; reflexivity). inversion F as [|? ? s2 ? ? ST F2]; subst. inversion F2; subst.
  apply (se_cons U32 DEF 0 start edge add roomy B s o s1 ops s'); [exact ST| |apply IH; exact E]. intros b ->. apply licit_ok. exact EL.
Qed.
Definition expanded_b (os : list (@offer N nat)) (s : @fstate N nat) : bool :=
  forallb (fun p => match fst (nth (snd p) (f_dist s) (nothing 0)) with
    | Cost k => negb (keyeqb k (fst p)) || forallb (fun e => match e with (x, y, w) => negb (x =? GetItem U32 (f_table s) (snd p))%N || offers_le os y (add k w) end) EDGES
    | CNaN => true end) (f_popped s).
Lemma expanded_ok os s : expanded_b os s = true -> expanded U32 0 edge add os s.
Proof.
  intros E k i y w HI HD HE HF. unfold expanded_b in E. rewrite forallb_forall in E. specialize (E (k, i) HI). cbn [fst snd] in E. rewrite HD in E. rewrite (proj2 (keyeqb_eq k k) eq_refl) in E. cbn [negb orb] in E.
  rewrite forallb_forall in E. specialize (E _ (S3 _ _ _ HE)). cbv beta iota in E. rewrite N.eqb_refl in E. cbn [negb orb] in E. apply offers_le_ok. exact E.
Qed.
Lemma started_ok os : forallb (fun p => offers_le os (fst p) (snd p)) STARTS = true -> started U32 0 start os.
Proof. intros E x k HS _. rewrite forallb_forall in E. apply offers_le_ok. exact (E (x, k) (S4 _ _ HS)). Qed.

End Checker.

(** the search starts from 5, 7, 1 and 2 *)
Definition start (x : N) (k : key) : Prop := In (x, k) [(5, Fin 30); (7, Fin 10); (5, Fin 20); (7, Fin 40); (1, Fin 10); (2, Fin 10)]%N.
(** weights are natural numbers *)
Definition EDGES : list (N * N * nat) := [(7%N, 5%N, 5); (5%N, 7%N, 70); (7%N, 3%N, 8); (2%N, 5%N, 6); (2%N, 1%N, 0)].
Definition edge (x y : N) (w : nat) : Prop := In (x, y, w) EDGES.
Definition add (k : key) (w : nat) : key := match k with Fin z => Fin (z + Z.of_nat w) | _ => k end.
Lemma add_growing : growing add.
Proof.
  split.
  - intros [|z|] w; cbn [add kle]; [reflexivity| |reflexivity]. apply Z.leb_le. lia.
  - intros [|z|] [|z'|] w; cbn [add kle]; try (intros; congruence). intros E. apply Z.leb_le in E. apply Z.leb_le. lia.
Qed.
Lemma start_finite x : ~ start x NInf.
Proof. intros H. cbn [start In] in H. unfold start in H. cbn [In] in H. repeat (destruct H as [H|H]; [discriminate|]). exact H. Qed.
Definition STARTS : list (N * key) := [(5, Fin 30); (7, Fin 10); (5, Fin 20); (7, Fin 40); (1, Fin 10); (2, Fin 10)]%N.
(** the moves out of 7, 5 and 2: 5 for 15 and 16, 7 for 90, 3 for 18, 1 for 10 *)
Definition OD : @offer N nat := MkOffer XLA [5; 7; 3; 5; 1]%N (FScalar true) (fin [15; 90; 18; 16; 10]%Z) [11; 12; 13; 14; 15].
Definition OPSD : list (option (@offer N nat)) := [Some O1; None; Some OD; None; None].
Definition OUTD : list (key * N) := [(Fin 10, 7%N); (Fin 10, 1%N); (Fin 10, 2%N); (Fin 20, 5%N); (Fin 15, 5%N); (Fin 18, 3%N)].
Definition OUTE : list (key * N) := [(Fin 10, 7%N); (Fin 10, 1%N); (Fin 10, 2%N); (Fin 20, 5%N)].
Lemma OD_reliable : dedupe_reliable U32 DEF (o_items OD) (mask_list (length (o_items OD)) (o_fill OD)) (Some (o_costs OD)).
Proof.
  cbn [o_items o_fill o_costs OD]. split; [intros q Hq _; cbn [length] in Hq; do 5 (destruct q as [|q]; [discriminate|]); lia|].
  split; [|split; [left; cbn; lia|right; right]]; left; intros q Hq; cbn [length] in *; do 5 (destruct q as [|q]; [reflexivity|]); lia.
Qed.
Lemma OD_asked x : asked U32 (map call_of [O1; OD]) x -> In x [5; 7; 9; 1; 2; 3]%N.
Proof.
  intros (c & HI & HA). cbn [map In] in HI. destruct HI as [<-|[<-|[]]].
  - apply O_asked. exists (call_of O1). split; [now left|exact HA].
  - cbn [call_of asks OD o_items o_fill] in HA. destruct HA as (q & [HQ _] & <-). cbn in HQ. do 5 (destruct q as [|q]; [cbn; tauto|]). lia.
Qed.
Lemma D_calls : Forall (fun o => lossless U32 DEF T0 6 (call_of o)) [O1; OD] /\ 6 <= slots T0 /\ at_most 6 (asked U32 (map call_of [O1; OD])).
Proof.
  split.
  { constructor; [|constructor; [|constructor]]; (split; [first [solve [apply O_reliable; auto]|apply OD_reliable]|]); cbn [call_of o_be O1 OD o_items o_fill o_costs]; cbv zeta;
    (split; [apply Nat.leb_le; vm_compute; reflexivity|vm_compute; discriminate]). }
  split; [apply Nat.leb_le; vm_compute; reflexivity|]. exists [5; 7; 9; 1; 2; 3]%N. split; [cbn; lia|exact OD_asked].
Qed.
(** to the end: 5 was handed out with 20, then with its shortest distance 15 *)
Example C91_case : exists s, search U32 DEF 0 start edge add true 7 S0 OPSD s /\
  config_ok U32 16 8 2 None /\ PropHeap.params_ok 14 7 /\
  Forall (fun o => lossless U32 DEF T0 6 (call_of o)) (offers OPSD) /\ 6 <= slots T0 /\ at_most 6 (asked U32 (map call_of (offers OPSD))) /\
  growing add /\ (forall x, ~ start x NInf) /\ started U32 0 start (offers OPSD) /\ expanded U32 0 edge add (offers OPSD) s /\
  HeapModel.size (f_queue s) = 0%Z /\ out_of s = OUTD /\ PropDijkstra.path start edge add 5%N (Fin 15) /\ PropDijkstra.path start edge add 7%N (Fin 85).
Proof.
  assert (K : match search_fn STARTS EDGES add true 7 S0 OPSD with Some s => (HeapModel.size (f_queue s) =? 0)%Z && same_out (out_of s) OUTD && expanded_b EDGES add (offers OPSD) s | None => false end = true) by (vm_compute; reflexivity).
  destruct (search_fn STARTS EDGES add true 7 S0 OPSD) as [s|] eqn:ER; [|discriminate]. exists s. apply andb_prop in K. destruct K as [K K3]. apply andb_prop in K. destruct K as [K1 K2].
  split; [apply (search_fn_ok STARTS EDGES start edge add); [intros x k H; exact H|intros x y w H; exact H|exact ER]|]. split; [exact T0_ok|]. split; [unfold PropHeap.params_ok; lia|].
  change (offers OPSD) with [O1; OD] in *. split; [apply D_calls|]. split; [apply D_calls|]. split; [apply D_calls|].
  split; [exact add_growing|]. split; [exact start_finite|]. split; [apply (started_ok STARTS start); [intros x k H; exact H|]; vm_compute; reflexivity|]. split; [apply (expanded_ok EDGES edge add); [intros x y w H; exact H|exact K3]|].
  split; [apply Z.eqb_eq; exact K1|]. split; [apply same_out_eq; exact K2|].
  assert (P5 : PropDijkstra.path start edge add 5%N (Fin 15)).
  { change (Fin 15) with (add (Fin 10) 5). apply path_edge with 7%N; [apply path_start|]; unfold start, edge, EDGES; cbn [In]; tauto. }
  split; [exact P5|]. change (Fin 85) with (add (Fin 15) 70). apply path_edge with 5%N; [exact P5|]. unfold edge, EDGES; cbn [In]; tauto.
Qed.
(** stopped after the second batch, with 5 and 3 still in the queue: 7, 1 and 2 are already right,
    for nothing in the queue is cheaper *)
Example C91_case_early : exists s, search U32 DEF 0 start edge add true 7 S0 [Some O1; None; Some OD] s /\
  started U32 0 start [O1; OD] /\ expanded U32 0 edge add [O1; OD] s /\ HeapModel.size (f_queue s) = 2%Z /\ out_of s = OUTE /\
  (forall p, In p (HeapSpec.contents (f_queue s)) -> kle (Fin 10) (fst p) = true) /\ ~ (forall p, In p (HeapSpec.contents (f_queue s)) -> kle (Fin 20) (fst p) = true).
Proof.
  assert (K : match search_fn STARTS EDGES add true 7 S0 [Some O1; None; Some OD] with Some s => (HeapModel.size (f_queue s) =? 2)%Z && same_out (out_of s) OUTE && expanded_b EDGES add [O1; OD] s &&
      forallb (fun p => kle (Fin 10) (fst p)) (HeapSpec.contents (f_queue s)) && negb (forallb (fun p => kle (Fin 20) (fst p)) (HeapSpec.contents (f_queue s))) | None => false end = true) by (vm_compute; reflexivity).
  destruct (search_fn STARTS EDGES add true 7 S0 [Some O1; None; Some OD]) as [s|] eqn:ER; [|discriminate]. exists s. apply andb_prop in K. destruct K as [K K5]. apply andb_prop in K. destruct K as [K K4]. apply andb_prop in K. destruct K as [K K3]. apply andb_prop in K. destruct K as [K1 K2].
  split; [apply (search_fn_ok STARTS EDGES start edge add); [intros x k H; exact H|intros x y w H; exact H|exact ER]|]. split; [apply (started_ok STARTS start); [intros x k H; exact H|]; vm_compute; reflexivity|]. split; [apply (expanded_ok EDGES edge add); [intros x y w H; exact H|exact K3]|]. split; [apply Z.eqb_eq; exact K1|]. split; [apply same_out_eq; exact K2|].
  rewrite forallb_forall in K4. split; [exact K4|]. intros H. rewrite (proj2 (forallb_forall _ _) H) in K5. discriminate.
Qed.
(** refuted: as in Dijkstra's algorithm, a state comes out of the queue for the first time with its
    shortest distance.  A block hands out several states at once, before the first of them was
    expanded: 5 comes with 20 in the block of 7, over which it is reached with 15 *)
Theorem C91_first_handed_out_refuted : exists s a k i b c, search U32 DEF 0 start edge add true 7 S0 OPSD s /\ growing add /\
  expanded U32 0 edge add (offers OPSD) s /\ f_popped s = a ++ (k, i) :: b /\ ~ In i (map snd a) /\
  PropDijkstra.path start edge add (GetItem U32 (f_table s) i) c /\ kle k c = false.
Proof.
  destruct C91_case as (s & HS & HC & HP & HL & HR & HM & HG & HN & HST & HE & HZ & HO & P5 & _).
  pose proof (C90_frontier U32 DEF 0 14 7 16 8 2 None OPSD s 6 HC HP (search_run _ _ _ _ _ _ _ _ _ _ _ HS) HL HR HM) as (_ & _ & P3 & _).
  unfold out_of, OUTD in HO. destruct (f_popped s) as [|p1 [|p2 [|p3 [|p4 l]]]] eqn:EP; try discriminate. injection HO as E1 E2 E3 E4 E5 E6 E7 E8 EL. destruct p4 as [k4 i4]. cbn [fst snd] in *.
  exists s, [p1; p2; p3], k4, i4, l, (Fin 15). split; [exact HS|]. split; [exact HG|]. split; [exact HE|]. split; [exact EP|]. split.
  - cbn [map In]. intros [E|[E|[E|[]]]]; rewrite E in *; congruence.
  - rewrite E8, E7. split; [exact P5|reflexivity].
Qed.
