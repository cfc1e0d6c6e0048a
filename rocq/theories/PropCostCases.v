(** * PropCostCases.v — C63: a concrete search loop meeting the hypotheses, and what goes
      wrong once an item is lost. *)
From Verif Require Import Jax KeyModel HashModel HashProofs StableSort TableModel ProbeProofs TableInv DedupeModel DedupeSpec DedupeProofs DedupeExact ParInsertModel ParInsert ParEffect TritonModel PallasModel TableSpec TableHistory PropTable UpdateModel PropTableCases PropSplit PropCost.

(** the loop as a function, default backend; the payload is a natural number *)
Definition step_fn (s : @table N * list (costval * nat)) (o : offer) : option (@table N * list (costval * nat)) :=
  match pinsert (fst s) (o_items o) (o_fill o) (Some (o_costs o)) with
  | Some (t', ins, uniq, idx) => Some (t', relax 0 (snd s) uniq idx (o_costs o) (o_data o))
  | None => None
  end.
Definition shaped (o : @offer N nat) : bool :=
  (length (mask_list (length (o_items o)) (o_fill o)) =? length (o_items o)) && (length (o_costs o) =? length (o_items o)) &&
  (length (o_data o) =? length (o_items o)) && match o_be o with XLA => true | _ => false end.
Fixpoint run_fn (s : @table N * list (costval * nat)) (os : list offer) : option (@table N * list (costval * nat)) :=
  match os with [] => Some s | o :: os' => match step_fn s o with Some s1 => run_fn s1 os' | None => None end end.
Lemma run_fn_ok os : forall s s', forallb shaped os = true -> run_fn s os = Some s' -> offers_run U32 DEF 0 s os s'.
Proof.
  induction os as [|o os IH]; intros s s' HS E; cbn [run_fn forallb] in *; [injection E as <-; constructor|].
  apply andb_prop in HS. destruct HS as [HS HS']. destruct (step_fn s o) as [s1|] eqn:E1; [|discriminate]. econstructor; [|apply IH; eassumption].
  unfold shaped in HS. apply andb_prop in HS. destruct HS as [HS HB]. apply andb_prop in HS. destruct HS as [HS H3]. apply andb_prop in HS. destruct HS as [H1 H2].
  apply Nat.eqb_eq in H1, H2, H3. destruct o as [be xs f cs ds]. cbn [o_be o_items o_fill o_costs o_data] in *. destruct be; try discriminate.
  unfold step_fn in E1. cbn [o_be o_items o_fill o_costs o_data] in E1. destruct s as [t dist]. cbn [fst snd] in E1.
  destruct (pinsert t xs f (Some cs)) as [[[[t' ins] uniq] idx]|] eqn:EP; [|discriminate]. injection E1 as <-.
  apply (step U32 DEF 0 t dist (MkOffer XLA xs f cs ds) t' ins uniq idx); cbn [o_be o_items o_fill o_costs o_data]; try assumption. apply xla_function. exact EP.
Qed.

Definition fin (l : list Z) : list costval := map (fun z => Cost (Fin z)) l.
(** first 5 and 7 twice, 9 masked out, 1, 2; then 5 cheaper and dearer, 7 dearer, 3 new, 1 equal *)
Definition O1 : @offer N nat := MkOffer XLA B1 F1 (fin [30; 10; 20; 0; 40; 10; 10]%Z) [1; 2; 3; 4; 5; 6; 7].
Definition O2 : @offer N nat := MkOffer XLA [5; 7; 3; 5; 1]%N (FScalar true) (fin [15; 90; 8; 16; 10]%Z) [11; 12; 13; 14; 15].
Lemma O_reliable o : o = O1 \/ o = O2 -> dedupe_reliable U32 DEF (o_items o) (mask_list (length (o_items o)) (o_fill o)) (Some (o_costs o)).
Proof.
  intros [-> | ->]; cbn [o_items o_fill o_costs O1 O2].
  - change (length B1) with 7. split; [intros q Hq _; change (length B1) with 7 in Hq; do 7 (destruct q as [|q]; [discriminate|]); lia|].
    split; [|split; [left; cbn; lia|right; right]]; right; intros q Hq HF; change (length B1) with 7 in Hq; cbn [dc_words dc_nwords U32];
    do 7 (destruct q as [|q]; [vm_compute; discriminate|]); lia.
  - split; [intros q Hq _; cbn [length] in Hq; do 5 (destruct q as [|q]; [discriminate|]); lia|].
    split; [|split; [left; cbn; lia|right; right]]; left; intros q Hq; cbn [length] in *; do 5 (destruct q as [|q]; [reflexivity|]); lia.
Qed.
Lemma O_asked x : asked U32 (map call_of [O1; O2]) x -> In x [5; 7; 9; 1; 2; 3]%N.
Proof.
  intros (c & HI & HA). cbn [map call_of O1 O2 In o_be o_items o_fill o_costs] in HI. destruct HI as [<-|[<-|[]]]; cbn [asks] in HA; destruct HA as (q & [HQ _] & <-).
  - cbn in HQ. do 7 (destruct q as [|q]; [cbn; tauto|]). lia.
  - cbn in HQ. do 5 (destruct q as [|q]; [cbn; tauto|]). lia.
Qed.
Definition is_entry (e : costval * nat) (z : Z) (n : nat) : bool := match e with (Cost (Fin z'), n') => (z' =? z)%Z && (n' =? n) | _ => false end.
Lemma is_entry_eq e z n : is_entry e z n = true -> e = (Cost (Fin z), n).
Proof.
  destruct e as [[|[|z'|]] n']; cbn [is_entry]; try discriminate. intros E. apply andb_prop in E. destruct E as [E1 E2].
  apply Z.eqb_eq in E1. apply Nat.eqb_eq in E2. subst. reflexivity.
Qed.
Example C63_case : exists t dist, offers_run U32 DEF 0 (T0, repeat (nothing 0) (slots T0)) [O1; O2] (t, dist) /\
  Forall (fun o => lossless U32 DEF T0 6 (call_of o)) [O1; O2] /\ 6 <= slots T0 /\ at_most 6 (asked U32 (map call_of [O1; O2])) /\
  (exists i, Lookup U32 t 5%N = Some (i, true) /\ nth i dist (nothing 0) = (Cost (Fin 15), 11)) /\
  (exists i, Lookup U32 t 1%N = Some (i, true) /\ nth i dist (nothing 0) = (Cost (Fin 10), 6)).
Proof.
  assert (K : match run_fn (T0, repeat (nothing 0) (slots T0)) [O1; O2] with
              | Some (t, dist) => match Lookup U32 t 5%N, Lookup U32 t 1%N with
                  | Some (i, true), Some (j, true) => is_entry (nth i dist (nothing 0)) 15 11 && is_entry (nth j dist (nothing 0)) 10 6
                  | _, _ => false end
              | None => false end = true) by (vm_compute; reflexivity).
  destruct (run_fn _ _) as [[t dist]|] eqn:ER; [|discriminate]. exists t, dist.
  split; [apply run_fn_ok; [reflexivity|exact ER]|]. split.
  { constructor; [|constructor; [|constructor]]; (split; [apply O_reliable; auto|]); cbn [call_of o_be O1 O2 o_items o_fill o_costs]; cbv zeta;
    (split; [apply Nat.leb_le; vm_compute; reflexivity|vm_compute; discriminate]). }
  split; [apply Nat.leb_le; vm_compute; reflexivity|]. split; [exists [5; 7; 9; 1; 2; 3]%N; split; [cbn; lia|exact O_asked]|].
  clear ER. destruct (Lookup U32 t 5%N) as [[i [|]]|]; try discriminate. destruct (Lookup U32 t 1%N) as [[j [|]]|]; try discriminate.
  apply andb_prop in K. destruct K as [K1 K2]. apply is_entry_eq in K1, K2.
  split; [exists i|exists j]; (split; [reflexivity|assumption]).
Qed.

(** In a full table the index returned for a lost item is the slot of another one, whose
    cost is then overwritten by a cost nobody offered for it; [unique] and the returned
    indices do not tell.  (The code that keeps such a table must drop inputs that are
    neither inserted nor found again.) *)
Definition O3 : @offer N nat := MkOffer XLA [5; 6]%N (FScalar true) (fin [50; 60]%Z) [1; 2].
Definition O4 : @offer N nat := MkOffer XLA [8]%N (FScalar true) (fin [10]%Z) [3].
Theorem C63_lost_item_overwrites_refuted : exists capacity bs mult mp os t dist x i,
  config_ok U32 capacity bs mult mp /\ let t0 := Build U32 capacity bs mult mp in
  offers_run U32 DEF 0 (t0, repeat (nothing 0) (slots t0)) os (t, dist) /\ Lookup U32 t x = Some (i, true) /\
  ~ offered U32 0 os x (nth i dist (nothing 0)) /\
  forall e, offered U32 0 os x e -> clt (fst (nth i dist (nothing 0))) (fst e) = true.
Proof.
  exists 2, 1, 1, None, [O3; O4]. set (t0 := Build U32 2 1 1 None).
  assert (K : match run_fn (t0, repeat (nothing 0) (slots t0)) [O3; O4] with
              | Some (t, dist) => match Lookup U32 t 5%N with
                  | Some (i, true) => is_entry (nth i dist (nothing 0)) 10 3
                  | _ => false end
              | None => false end = true) by (vm_compute; reflexivity).
  destruct (run_fn _ _) as [[t dist]|] eqn:ER; [|discriminate].
  assert (HR : offers_run U32 DEF 0 (t0, repeat (nothing 0) (slots t0)) [O3; O4] (t, dist)) by (apply run_fn_ok; [reflexivity|exact ER]). clear ER.
  destruct (Lookup U32 t 5%N) as [[i [|]]|] eqn:EL; try discriminate. apply is_entry_eq in K.
  exists t, dist, 5%N, i. split; [unfold config_ok; change (cap (Build U32 2 1 1 None)) with 2; cbv zeta; split; [lia|]; split; [vm_compute; reflexivity|exact Logic.I]|].
  cbv zeta. split; [exact HR|]. split; [exact EL|]. rewrite K.
  assert (OF : forall e, offered U32 0 [O3; O4] 5%N e -> e = (Cost (Fin 50), 1)).
  { intros e (o & q & HI & [HQ _] & EX & ->). cbn [In] in HI. destruct HI as [<-|[<-|[]]]; cbn [o_items o_costs o_data O3 O4 length] in *.
    - do 2 (destruct q as [|q]; [first [reflexivity|discriminate EX]|]). lia.
    - destruct q as [|q]; [discriminate EX|lia]. }
  split.
  - intros HE. apply OF in HE. discriminate HE.
  - intros e HE. rewrite (OF e HE). reflexivity.
Qed.
Print Assumptions C63_case.
Print Assumptions C63_lost_item_overwrites_refuted.
