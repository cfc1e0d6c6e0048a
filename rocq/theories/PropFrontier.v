(** * PropFrontier.v — property C90: a best-first search over a hash table, a cost table and a
      priority queue.

    One step of the search loop the three structures are made for: [parallel_insert] the batch of
    successors, take over the costs that are better than the known ones ([update_on_condition],
    C63), and put exactly these into the queue, with their costs as keys and their slots as values
    (the others with key +inf, padded to a block by make_batched).  [delete_mins] hands out the
    next slots to expand.  The pieces are those of PropCost.v and HeapModel.v. *)
From Verif Require Import Jax KeyModel SortProofs HashModel HashProofs StableSort TableModel ProbeProofs TableLookup TableInv TableInsert ResolveProofs TableRounds TableCommit TableBound DedupeModel DedupeSpec DedupeProofs DedupeExact ParInsertModel ParInsert ParEffect Claims TritonModel TritonProofs PallasModel PallasProofs TableSpec TableHistory PropTable UpdateModel PropUpdate PropSplit PropCost.
From Verif Require HeapModel HeapSpec HeapProofs HeapInsert HeapDelete PropHeap.

Section Frontier.
Context {item : Type} (T : dataclass item) (C : settings) {A : Type} (a0 : A).
Notation table := (@table item).
Notation d := (dc_default T).
Notation entry := (costval * A)%type.
Notation nothing := (nothing a0).
Notation row := (list (key * nat)).
Notation heap := (HeapModel.heap nat).

Record fstate := FS { f_table : table; f_dist : list entry; f_queue : heap; f_popped : row }.
(** input [q] of the batch improves on what is known for its item *)
Definition better (dist : list entry) (uniq : list bool) (idx : list nat) (costs : list costval) (q : nat) : bool :=
  nth q uniq false && clt (nth q costs (Cost PInf)) (fst (nth (nth q idx 0) dist nothing)).
Definition key_of (c : costval) : key := match c with Cost k => k | CNaN => PInf end.
(** the block that is inserted: [where(better, costs, inf)] with the slots as values *)
Definition to_queue (B : nat) (dist : list entry) (uniq : list bool) (idx : list nat) (costs : list costval) : row :=
  map (fun q => (if better dist uniq idx costs q then key_of (nth q costs (Cost PInf)) else PInf, nth q idx 0)) (seq 0 (length uniq)) ++ repeat (PInf, 0) (B - length uniq).
(** [Some o]: a batch of successors is offered; [None]: the next block is popped.  If [roomy],
    the queue must have room for the improvements *)
Inductive fstep (roomy : bool) (B : nat) : fstate -> option (@offer item A) -> fstate -> Prop :=
  | f_push t dist h done o t' ins uniq idx : mask_ok (o_items o) (o_fill o) ->
      length (o_costs o) = length (o_items o) -> length (o_data o) = length (o_items o) ->
      ParallelInsert T C (o_be o) t (o_items o) (o_fill o) (Some (o_costs o)) (t', ins, uniq, idx) ->
      length (o_items o) <= B -> ~ In (Cost NInf) (o_costs o) ->
      (roomy = true -> length (HeapSpec.contents h) + length (HeapSpec.fin (to_queue B dist uniq idx (o_costs o))) < HeapModel.max_size h + B) ->
      fstep roomy B (FS t dist h done) (Some o)
        (FS t' (relax a0 dist uniq idx (o_costs o) (o_data o)) (HeapModel.insert h (to_queue B dist uniq idx (o_costs o))) done)
  | f_pop t dist h done h' out : HeapModel.delete_mins h = Some (h', out) ->
      fstep roomy B (FS t dist h done) None (FS t dist h' (done ++ HeapSpec.fin out)).
Inductive frun (roomy : bool) (B : nat) : fstate -> list (option (@offer item A)) -> fstate -> Prop :=
  | frun_nil s : frun roomy B s [] s
  | frun_cons s o s1 os s2 : fstep roomy B s o s1 -> frun roomy B s1 os s2 -> frun roomy B s (o :: os) s2.
Fixpoint offers (ops : list (option (@offer item A))) : list (@offer item A) :=
  match ops with [] => [] | Some o :: r => o :: offers r | None :: r => offers r end.

(** every pair that was ever put into the queue: it is still there, or was popped *)
Definition known (s : fstate) : row := HeapSpec.contents (f_queue s) ++ f_popped s.
Record finv (roomy : bool) (total B : nat) (es : list event) (os : list (@offer item A)) (s : fstate) : Prop := {
  fi_cost : cinv T C a0 es os (f_table s) (f_dist s);
  fi_heap : HeapSpec.reachable total B 0 (f_queue s);
  fi_nodup : NoDup (known s);
  fi_all : roomy = true -> forall i k, i < slots (f_table s) -> fst (nth i (f_dist s) nothing) = Cost k -> finite k = true -> In (k, i) (known s);
  fi_below : forall k i, In (k, i) (known s) -> i < slots (f_table s) /\ finite k = true /\ cle (fst (nth i (f_dist s) nothing)) (Cost k) = true;
  fi_from : forall k i, In (k, i) (known s) -> exists x e, Lookup T (f_table s) x = Some (i, true) /\ offered T a0 os x e /\ fst e = Cost k;
  fi_noninf : forall i, i < slots (f_table s) -> fst (nth i (f_dist s) nothing) <> Cost NInf }.

Lemma reach_insert total B h block : PropHeap.params_ok total B -> HeapSpec.reachable total B 0 h -> HeapSpec.legal B (HeapSpec.Ins block) -> HeapSpec.reachable total B 0 (HeapModel.insert h block).
Proof.
  intros HP (ops & obs & HF & HR) HL. exists (ops ++ [HeapSpec.Ins block]), (obs ++ [([], HeapModel.size (HeapModel.insert h block))]). split; [apply Forall_app; split; [exact HF|constructor; [exact HL|constructor]]|].
  rewrite (PropHeap.run_app ops [HeapSpec.Ins block] _ h obs HR). cbn [HeapSpec.run]. reflexivity.
Qed.
Lemma reach_delete total B h h' out : HeapSpec.reachable total B 0 h -> HeapModel.delete_mins h = Some (h', out) -> HeapSpec.reachable total B (0 : nat) h'.
Proof.
  intros (ops & obs & HF & HR) HD. exists (ops ++ [HeapSpec.Del]), (obs ++ [(out, HeapModel.size h')]). split; [apply Forall_app; split; [exact HF|constructor; [exact Logic.I|constructor]]|].
  rewrite (PropHeap.run_app ops [HeapSpec.Del] _ h obs HR). cbn [HeapSpec.run]. now rewrite HD.
Qed.
(** what insert does to the pairs in the queue: it adds the block's and, in a full queue, loses some *)
Lemma insert_pairs roomy total B h block : PropHeap.params_ok total B -> HeapSpec.reachable total B 0 h -> HeapSpec.legal B (HeapSpec.Ins block) ->
  (roomy = true -> length (HeapSpec.contents h) + length (HeapSpec.fin block) < HeapModel.max_size h + B) ->
  exists ev, Permutation (HeapSpec.contents (HeapModel.insert h block) ++ ev) (HeapSpec.contents h ++ HeapSpec.fin block) /\ (roomy = true -> ev = []).
Proof.
  intros HP FH LEG HF. destruct (Nat.lt_ge_cases (length (HeapSpec.contents h) + length (HeapSpec.fin block)) (HeapModel.max_size h + B)) as [HL|HG].
  - exists []. split; [|reflexivity]. rewrite app_nil_r. apply (PropHeap.C11_insert_adds_exactly_the_block nat total B 0 h block HP FH (proj1 LEG) (proj2 LEG) HL).
  - destruct (PropHeap.C14_eviction nat total B 0 h block HP FH (proj1 LEG) (proj2 LEG) HG) as (low & rest & ev & P1 & P2 & _). exists ev. split; [rewrite P1; exact P2|].
    intros HR. specialize (HF HR). lia.
Qed.
Lemma fin_to_queue B dist uniq idx costs : (forall q, nth q costs (Cost PInf) <> Cost NInf) ->
  HeapSpec.fin (to_queue B dist uniq idx costs) = map (fun q => (key_of (nth q costs (Cost PInf)), nth q idx 0)) (filter (better dist uniq idx costs) (seq 0 (length uniq))).
Proof.
  intros HN. unfold HeapSpec.fin, to_queue. rewrite filter_app. assert (R : forall n, filter (fun p : key * nat => finite (fst p)) (repeat (PInf, 0) n) = []) by (induction n; [reflexivity|assumption]). rewrite R, app_nil_r. clear R.
  induction (seq 0 (length uniq)) as [|q l IH]; [reflexivity|]. cbn [map filter fst]. destruct (better dist uniq idx costs q) eqn:EB; [|cbn [finite]; exact IH].
  assert (K : finite (key_of (nth q costs (Cost PInf))) = true).
  { unfold better in EB. apply andb_prop in EB. destruct EB as [_ EB]. unfold clt in EB. specialize (HN q). destruct (nth q costs (Cost PInf)) as [|[|z|]]; [discriminate|congruence|reflexivity|]. destruct (fst (nth _ dist nothing)) as [|y]; [discriminate|]. rewrite kle_PInf in EB. discriminate. }
  cbn [key_of] in K. rewrite K. cbn [map]. f_equal. exact IH.
Qed.

Lemma NoDup_map_in {X Y} (f : X -> Y) l : (forall x y, In x l -> In y l -> f x = f y -> x = y) -> NoDup l -> NoDup (map f l).
Proof.
  intros HI HN. induction HN as [|x l HX HN IH]; [constructor|]. cbn [map]. constructor.
  - intros HM. apply in_map_iff in HM. destruct HM as (y & E & HY). apply HX. rewrite (HI x y); [exact HY|now left|now right|congruence].
  - apply IH. intros a b HA HB. apply HI; now right.
Qed.
Lemma clt_cle_false a b : clt a b = true -> cle b a = true -> False.
Proof. destruct a as [|a], b as [|b]; cbn; intros E F; try discriminate. rewrite F in E. discriminate. Qed.
Lemma NoDup_app_in {X} (a b : list X) : NoDup a -> NoDup b -> (forall x, In x a -> ~ In x b) -> NoDup (a ++ b).
Proof.
  intros HA HB HD. induction HA as [|x a HX HA IH]; [exact HB|]. cbn [app]. constructor.
  - intros HI. apply in_app_or in HI. destruct HI as [HI|HI]; [exact (HX HI)|exact (HD x (or_introl eq_refl) HI)].
  - apply IH. intros y Hy. apply HD. now right.
Qed.
Lemma NoDup_app_l {X} (a b : list X) : NoDup (a ++ b) -> NoDup a.
Proof. induction a as [|x a IH]; [constructor|]. cbn [app]. intros H. inversion H; subst. constructor; [|auto]. intros HI. apply H2. apply in_or_app. now left. Qed.
Lemma NoDup_app_r {X} (a b : list X) : NoDup (a ++ b) -> NoDup b.
Proof. induction a as [|x a IH]; [auto|]. cbn [app]. intros H. inversion H; auto. Qed.

Lemma push_inv roomy total B es os s o s' R : PropHeap.params_ok total B -> finv roomy total B es os s -> fstep roomy B s (Some o) s' ->
  lossless T C (f_table s) R (call_of o) -> R <= slots (f_table s) -> at_most R (fun x => present T (f_table s) x \/ asks T (call_of o) x) ->
  exists e, finv roomy total B (es ++ [e]) (os ++ [o]) s' /\ cap (f_table s') = cap (f_table s) /\ bsz (f_table s') = bsz (f_table s) /\ maxp (f_table s') = maxp (f_table s) /\
    forall x, present T (f_table s') x <-> present T (f_table s) x \/ asks T (call_of o) x.
Proof.
  intros HP [FC FH FN FA FB FO FI] HS LL RS AM.
  inversion HS as [t dist h done o' t' ins uniq idx MK LC LD HPI LB NI HF E1 E2 E3|]; subst s o' s'. clear HS. cbn [f_table f_dist f_queue f_popped] in *.
  destruct (step_inv T C a0 es os t dist o t' (relax a0 dist uniq idx (o_costs o) (o_data o)) R FC (step T C a0 t dist o t' ins uniq idx MK LC LD HPI) LL RS AM) as (e & H1 & K1 & K2 & K3 & KX).
  exists e. split; [|auto]. set (xs := o_items o) in *. set (f := o_fill o) in *. set (uk := Some (o_costs o)) in *. set (cs := o_costs o) in *.
  pose proof (proj1 LL) as DR. pose proof (ci_hist _ _ _ _ _ _ _ FC) as HH. pose proof (ci_len _ _ _ _ _ _ _ FC) as HL. pose proof (ci_hist _ _ _ _ _ _ _ H1) as HH'.
  destruct (C26_union T C (o_be o) es t xs f uk t' ins uniq idx HH MK HPI) as (LI & LU & LX & _ & _ & LUN & _).
  destruct (C28_sound T C (o_be o) es t xs f uk t' ins uniq idx HH MK HPI) as (_ & UF & UQ).
  assert (SL : slots t' = slots t) by (unfold slots; rewrite K1, K2; reflexivity).
  assert (FD : forall q, is_filled xs f q -> Lookup T t' (nth q xs d) = Some (nth q idx 0, true)).
  { intros q HQ. destruct (proj2 (KX (nth q xs d)) (or_intror (ex_intro _ q (conj HQ eq_refl)))) as (i & Hi).
    destruct (C27_indices T C (o_be o) es t xs f uk t' ins uniq idx HH MK DR HPI q i HQ Hi) as [-> _]. exact Hi. }
  assert (ONE : forall x y i, Lookup T t' x = Some (i, true) -> Lookup T t' y = Some (i, true) -> x = y).
  { intros x y i Hx Hy. destruct (C23_no_false_positives T C _ t' x HH') as (i1 & f1 & E1 & _ & G1). rewrite Hx in E1. injection E1 as <- <-.
    destruct (C23_no_false_positives T C _ t' y HH') as (i2 & f2 & E2 & _ & G2). rewrite Hy in E2. injection E2 as <- <-.
    rewrite <- (proj1 (G1 eq_refl)). exact (proj1 (G2 eq_refl)). }
  assert (SAME : forall q q', q < length uniq -> q' < length uniq -> nth q uniq false = true -> nth q' uniq false = true -> nth q idx 0 = nth q' idx 0 -> q = q').
  { intros q q' Hq Hq' HU HU' HE. apply UQ; [lia|lia|exact HU|exact HU'|]. apply (ONE _ _ (nth q idx 0)); [apply FD; apply UF; [lia|exact HU]|].
    rewrite HE. apply FD. apply UF; [lia|exact HU']. }
  assert (NI' : forall q, nth q cs (Cost PInf) <> Cost NInf).
  { intros q. destruct (nth_in_or_default q cs (Cost PInf)) as [HI|E]; [intros E; apply NI; rewrite <- E; exact HI|rewrite E; discriminate]. }
  assert (BET : forall q, q < length uniq -> better dist uniq idx cs q = true ->
            is_filled xs f q /\ nth q uniq false = true /\ nth q idx 0 < slots t /\ (exists k, nth q cs (Cost PInf) = Cost k /\ finite k = true) /\ clt (nth q cs (Cost PInf)) (fst (nth (nth q idx 0) dist nothing)) = true).
  { intros q Hq EB. unfold better in EB. apply andb_prop in EB. destruct EB as [EU EB]. assert (HFq : is_filled xs f q) by (apply UF; [lia|exact EU]).
    split; [exact HFq|]. split; [exact EU|]. split; [rewrite <- SL; eapply lookup_range; [exact HH'|apply FD; exact HFq]|]. split; [|exact EB].
    specialize (NI' q). unfold clt in EB. destruct (nth q cs (Cost PInf)) as [|[|z|]]; [discriminate|congruence|exists (Fin z); auto|]. destruct (fst (nth _ dist nothing)) as [|y]; [discriminate|]. rewrite kle_PInf in EB. discriminate. }
  pose proof (fin_to_queue B dist uniq idx cs NI') as EQ.
  assert (LEG : HeapSpec.legal B (HeapSpec.Ins (to_queue B dist uniq idx cs))).
  { split.
    - unfold to_queue. rewrite app_length, map_length, seq_length, repeat_length. lia.
    - intros p HI. unfold to_queue in HI. apply in_app_or in HI. destruct HI as [HI|HI]; [|apply repeat_spec in HI; subst p; discriminate].
      apply in_map_iff in HI. destruct HI as (q & <- & _). cbn [fst]. destruct (better dist uniq idx cs q); [|discriminate]. specialize (NI' q). unfold key_of. destruct (nth q cs (Cost PInf)); congruence. }
  destruct (insert_pairs roomy total B h (to_queue B dist uniq idx cs) HP FH LEG HF) as (ev & PERM & EV). rewrite EQ in PERM.
  set (E := map (fun q => (key_of (nth q cs (Cost PInf)), nth q idx 0)) (filter (better dist uniq idx cs) (seq 0 (length uniq)))) in *.
  assert (INE : forall k i, In (k, i) E <-> exists q, q < length uniq /\ better dist uniq idx cs q = true /\ key_of (nth q cs (Cost PInf)) = k /\ nth q idx 0 = i).
  { intros k i. unfold E. rewrite in_map_iff. split.
    - intros (q & EQ' & HI). apply filter_In in HI. destruct HI as [HI HB]. apply in_seq in HI. injection EQ' as <- <-. exists q. repeat split; [lia|exact HB].
    - intros (q & Hq & HB & <- & <-). exists q. split; [reflexivity|]. apply filter_In. split; [apply in_seq; lia|exact HB]. }
  assert (NDE : NoDup E).
  { unfold E. apply NoDup_map_in; [|apply NoDup_filter, seq_NoDup]. intros q q' HQ HQ' EQ'. apply filter_In in HQ, HQ'. destruct HQ as [HQ HB], HQ' as [HQ' HB']. apply in_seq in HQ, HQ'. injection EQ' as _ EI.
    apply SAME; [lia|lia|apply BET; [lia|exact HB]|apply BET; [lia|exact HB']|exact EI]. }
  assert (DIS : forall p, In p (known (FS t dist h done)) -> ~ In p E).
  { intros [k i] HK HE. destruct (FB _ _ HK) as (_ & _ & LE). apply INE in HE. destruct HE as (q & Hq & HB & <- & <-).
    destruct (BET q Hq HB) as (_ & _ & _ & (k & EK & _) & LT). rewrite EK in LE. cbn [key_of] in LE. rewrite <- EK in LE. exact (clt_cle_false _ _ LT LE). }
  set (s' := FS t' (relax a0 dist uniq idx cs (o_data o)) (HeapModel.insert h (to_queue B dist uniq idx cs)) done).
  assert (KP : Permutation (known s' ++ ev) (known (FS t dist h done) ++ E)).
  { unfold known, s'. cbn [f_queue f_popped]. rewrite <- !app_assoc. rewrite (Permutation_app_comm done ev), app_assoc, PERM. rewrite <- !app_assoc. apply Permutation_app_head. apply Permutation_app_comm. }
  assert (KI : forall p, In p (known s') -> In p (known (FS t dist h done) ++ E)) by (intros p Hp; apply (Permutation_in _ KP); apply in_or_app; now left).
  assert (LN1 : length idx = length uniq) by congruence. assert (LN2 : length cs = length uniq) by congruence. assert (LN3 : length (o_data o) = length uniq) by congruence.
  pose proof (fun p => relax_nth a0 dist uniq idx cs (o_data o) p LN1 LN2 LN3) as RN.
  assert (KEEP : forall x i, Lookup T t x = Some (i, true) -> Lookup T t' x = Some (i, true)) by (intros x i Hi; apply LUN; now left).
  split; unfold s'; cbn [f_table f_dist f_queue f_popped]; fold s'.
  - exact H1.
  - apply reach_insert; assumption.
  - apply (NoDup_app_l (known s') ev). eapply Permutation_NoDup; [symmetry; exact KP|]. apply NoDup_app_in; [exact FN|exact NDE|exact DIS].
  - intros RM i k Hi Hk FK. rewrite SL in Hi. rewrite (EV RM), app_nil_r in KP. change (In (k, i) (known s')). apply (Permutation_in _ (Permutation_sym KP)). apply in_or_app.
    destruct (RN i ltac:(lia)) as (_ & [(q & Hq & HU & HX & HC & EN)|(NO & EN)]); rewrite EN in Hk; cbn [fst] in Hk.
    + right. apply INE. exists q. split; [exact Hq|]. split; [unfold better; rewrite HU, HX; exact HC|]. rewrite Hk. split; [reflexivity|exact HX].
    + left. apply (FA RM); assumption.
  - intros k i HK. rewrite SL. apply KI in HK. apply in_app_or in HK. destruct HK as [HK|HK].
    + destruct (FB _ _ HK) as (Hi & FK & LE). split; [exact Hi|]. split; [exact FK|].
      destruct (RN i ltac:(lia)) as (_ & [(q & Hq & HU & HX & HC & EN)|(NO & EN)]); rewrite EN; [|exact LE]. cbn [fst]. apply cle_trans with (fst (nth i dist nothing)); [apply clt_le; exact HC|exact LE].
    + apply INE in HK. destruct HK as (q & Hq & HB & <- & <-). destruct (BET q Hq HB) as (_ & HU & Hi & (k & EK & FK) & LT). split; [exact Hi|]. rewrite EK. cbn [key_of]. split; [exact FK|].
      destruct (RN (nth q idx 0) ltac:(lia)) as (_ & [(q' & Hq' & HU' & HX' & HC' & EN)|(NO & EN)]).
      * assert (q' = q) as -> by (apply SAME; assumption). rewrite EN. cbn [fst]. rewrite EK. apply cle_refl.
      * rewrite (NO q Hq HU eq_refl) in LT. discriminate.
  - intros k i HK. apply KI in HK. apply in_app_or in HK. destruct HK as [HK|HK].
    + destruct (FO _ _ HK) as (x & e' & HX & HO & HE). exists x, e'. split; [apply KEEP; exact HX|]. split; [apply offered_snoc; now left|exact HE].
    + apply INE in HK. destruct HK as (q & Hq & HB & <- & <-). destruct (BET q Hq HB) as (HFq & HU & Hi & (k & EK & FK) & LT).
      exists (nth q xs d), (nth q cs (Cost PInf), nth q (o_data o) a0). split; [apply FD; exact HFq|]. split; [|cbn [fst]; rewrite EK; reflexivity].
      apply offered_snoc. right. exists o, q. split; [now left|]. split; [exact HFq|]. split; reflexivity.
  - intros i Hi. rewrite SL in Hi. destruct (RN i ltac:(lia)) as (_ & [(q & Hq & HU & HX & HC & EN)|(NO & EN)]); rewrite EN; [cbn [fst]; apply NI'|apply FI; exact Hi].
Qed.

Lemma pop_inv roomy total B es os s s' : PropHeap.params_ok total B -> finv roomy total B es os s -> fstep roomy B s None s' ->
  finv roomy total B es os s' /\ f_table s' = f_table s /\ f_dist s' = f_dist s /\ Permutation (known s') (known s).
Proof.
  intros HP [FC FH FN FA FB FO FI] HS. inversion HS as [|t dist h done h' out HD E1 E2 E3]; subst s s'. clear HS. cbn [f_table f_dist f_queue f_popped] in *.
  destruct (PropHeap.C10_delete_mins_returns_the_smallest nat total B 0 h HP FH) as (h2 & out2 & ED & _ & _ & _ & PE & _). rewrite HD in ED. injection ED as <- <-.
  assert (KP : Permutation (known (FS t dist h' (done ++ HeapSpec.fin out))) (known (FS t dist h done))).
  { unfold known. cbn [f_queue f_popped]. rewrite PE. rewrite (Permutation_app_comm done). rewrite app_assoc. apply Permutation_app_tail. apply Permutation_app_comm. }
  split; [|auto]. split; cbn [f_table f_dist f_queue f_popped]; try assumption.
  - eapply reach_delete; eassumption.
  - eapply Permutation_NoDup; [symmetry; exact KP|exact FN].
  - intros RM i k Hi Hk FK. apply (Permutation_in _ (Permutation_sym KP)). apply (FA RM); assumption.
  - intros k i HK. apply (Permutation_in _ KP) in HK. apply FB; assumption.
  - intros k i HK. apply (Permutation_in _ KP) in HK. apply FO; assumption.
Qed.
Lemma frun_inv roomy total B ops : PropHeap.params_ok total B -> forall es os0 s s' R, finv roomy total B es os0 s -> frun roomy B s ops s' ->
  Forall (fun o => lossless T C (f_table s) R (call_of o)) (offers ops) -> R <= slots (f_table s) ->
  at_most R (fun x => present T (f_table s) x \/ asked T (map call_of (offers ops)) x) ->
  exists es', finv roomy total B es' (os0 ++ offers ops) s' /\ slots (f_table s') = slots (f_table s).
Proof.
  intros HP. induction ops as [|[o|] ops IH]; intros es os0 s s' R HI HRN HL HR HM; inversion HRN as [|? ? s1 ? ? HD HP' E1 E2]; subst; cbn [offers] in *.
  - exists es. rewrite app_nil_r. auto.
  - inversion HL as [|? ? HL1 HL2]; subst.
    assert (AS : forall x, asked T (map call_of (o :: offers ops)) x <-> asks T (call_of o) x \/ asked T (map call_of (offers ops)) x).
    { intros x. cbn [map]. split.
      - intros (c' & [<-|HIn] & HA); [now left|right; exists c'; auto].
      - intros [HA|(c' & HIn & HA)]; [exists (call_of o); split; [now left|exact HA]|exists c'; split; [now right|exact HA]]. }
    destruct (push_inv roomy total B es os0 s o s1 R HP HI HD HL1 HR) as (e & H1 & E1 & E2 & E3 & EX).
    { destruct HM as (U & HU & HIn). exists U. split; [exact HU|]. intros x [Hx|Hx]; apply HIn; [now left|right; apply AS; now left]. }
    destruct (IH _ (os0 ++ [o]) s1 s' R H1 HP') as (es' & H2 & SE).
    + eapply Forall_impl; [|exact HL2]. intros c' HC. unfold call_of, lossless, slots in *. rewrite E1, E2, E3. exact HC.
    + unfold slots in *. rewrite E1, E2. exact HR.
    + destruct HM as (U & HU & HIn). exists U. split; [exact HU|]. intros x [Hx|Hx]; apply HIn; [apply EX in Hx; destruct Hx; [now left|right; apply AS; now left]|right; apply AS; now right].
    + exists es'. rewrite <- app_assoc in H2. split; [exact H2|]. rewrite SE. unfold slots. rewrite E1, E2. reflexivity.
  - destruct (pop_inv roomy total B es os0 s s1 HP HI HD) as (H1 & E1 & E2 & _).
    destruct (IH es os0 s1 s' R H1 HP') as (es' & H2 & SE); rewrite ?E1; try assumption. exists es'. split; [exact H2|]. rewrite SE, E1. reflexivity.
Qed.

Lemma frun_init roomy total B capacity bs mult mp ops s R : config_ok T capacity bs mult mp -> PropHeap.params_ok total B ->
  let t0 := Build T capacity bs mult mp in
  frun roomy B (FS t0 (repeat nothing (slots t0)) (HeapModel.build 0 total B) []) ops s ->
  Forall (fun o => lossless T C t0 R (call_of o)) (offers ops) -> R <= slots t0 -> at_most R (asked T (map call_of (offers ops))) ->
  finv roomy total B [] [] (FS t0 (repeat nothing (slots t0)) (HeapModel.build 0 total B) []) /\
  exists es, finv roomy total B es (offers ops) s /\ slots (f_table s) = slots t0.
Proof.
  intros HC HP t0 HRN HL HR HM.
  assert (H0 : history T C [] t0) by (exists capacity, bs, mult, mp; split; [exact HC|constructor]).
  assert (N0 : forall x, ~ present T t0 x).
  { intros x (i & Hi). destruct (C23_no_false_positives T C [] t0 x H0) as (i0 & f & E & B0 & _). rewrite Hi in E. injection E as <- <-. destruct (proj1 B0 eq_refl) as (j & e & [] & _). }
  assert (NR : forall i, nth i (repeat nothing (slots t0)) nothing = nothing).
  { intros i. destruct (nth_in_or_default i (repeat nothing (slots t0)) nothing) as [HI|E]; [apply repeat_spec in HI; exact HI|exact E]. }
  assert (HH0 : HeapSpec.reachable total B 0 (HeapModel.build 0 total B)) by (exists [], []; split; [constructor|reflexivity]).
  assert (C0 : HeapSpec.contents (HeapModel.build 0 total B) = []).
  { destruct HP as (HB1 & HB2 & HB3). apply (HeapDelete.build_ok 0 total B HB1 HB2). unfold HeapInsert.small. lia. }
  assert (I0 : finv roomy total B [] [] (FS t0 (repeat nothing (slots t0)) (HeapModel.build 0 total B) [])).
  { split; cbn [f_table f_dist f_queue f_popped].
    - split; [exact H0|apply repeat_length| | |].
      + intros x i Hi. destruct (N0 x (ex_intro _ i Hi)).
      + intros i _ _. apply NR.
      + intros x e (o & q & [] & _).
    - exact HH0.
    - unfold known. cbn [f_queue f_popped]. rewrite C0. constructor.
    - intros _ i k _ Hk FK. rewrite NR in Hk. injection Hk as <-. discriminate.
    - intros k i HK. unfold known in HK. cbn [f_queue f_popped] in HK. rewrite C0 in HK. destruct HK.
    - intros k i HK. unfold known in HK. cbn [f_queue f_popped] in HK. rewrite C0 in HK. destruct HK.
    - intros i _. rewrite NR. discriminate. }
  split; [exact I0|]. destruct (frun_inv roomy total B ops HP [] [] _ s R I0 HRN HL HR) as (es & HI & SE).
  { destruct HM as (U & HU & HIn). exists U. split; [exact HU|]. intros x [Hx|Hx]; [destruct (N0 x Hx)|auto]. }
  exists es. split; [exact HI|exact SE].
Qed.

(** from empty structures, after any interleaving of pushes and pops *)
Theorem C90_frontier : forall total B capacity bs mult mp ops s R, config_ok T capacity bs mult mp -> PropHeap.params_ok total B ->
  let t0 := Build T capacity bs mult mp in
  frun true B (FS t0 (repeat nothing (slots t0)) (HeapModel.build 0 total B) []) ops s ->
  Forall (fun o => lossless T C t0 R (call_of o)) (offers ops) -> R <= slots t0 -> at_most R (asked T (map call_of (offers ops))) ->
  (* an item that was offered with a finite cost is stored, and the pair of its best cost and its
     slot is in the queue or has been handed out: it is never lost *)
  (forall x e, offered T a0 (offers ops) x e -> fst e <> Cost PInf ->
     exists i k, Lookup T (f_table s) x = Some (i, true) /\ fst (nth i (f_dist s) nothing) = Cost k /\ finite k = true /\
       best T a0 (offers ops) x (nth i (f_dist s) nothing) /\ In (k, i) (HeapSpec.contents (f_queue s) ++ f_popped s)) /\
  (* no pair is there twice, or handed out twice *)
  NoDup (HeapSpec.contents (f_queue s) ++ f_popped s) /\
  (* nothing else is there: the slot of a pair is that of a stored item, and its key is a finite cost
     which was offered for this item, the best one or a larger one *)
  (forall k i, In (k, i) (HeapSpec.contents (f_queue s) ++ f_popped s) ->
     exists x e, Lookup T (f_table s) x = Some (i, true) /\ GetItem T (f_table s) i = x /\ offered T a0 (offers ops) x e /\ fst e = Cost k /\
       finite k = true /\ cle (fst (nth i (f_dist s) nothing)) (Cost k) = true) /\
  (* so once the queue reports size 0, every such item has been handed out with its best cost *)
  (HeapModel.size (f_queue s) = 0%Z -> forall x e, offered T a0 (offers ops) x e -> fst e <> Cost PInf ->
     exists i k, Lookup T (f_table s) x = Some (i, true) /\ In (k, i) (f_popped s) /\
       forall e', offered T a0 (offers ops) x e' -> cle (Cost k) (fst e') = true).
Proof.
  intros total B capacity bs mult mp ops s R HC HP t0 HRN HL HR HM.
  destruct (frun_init true total B capacity bs mult mp ops s R HC HP HRN HL HR HM) as (_ & es & [FC FH FN FA FB FO FI] & SE).
  assert (P1 : forall x e, offered T a0 (offers ops) x e -> fst e <> Cost PInf ->
     exists i k, Lookup T (f_table s) x = Some (i, true) /\ fst (nth i (f_dist s) nothing) = Cost k /\ finite k = true /\
       best T a0 (offers ops) x (nth i (f_dist s) nothing) /\ In (k, i) (known s)).
  { intros x e HO NE. destruct (ci_off _ _ _ _ _ _ _ FC x e HO) as ((i & Hi) & NN). pose proof (ci_best _ _ _ _ _ _ _ FC x i Hi) as HB.
    pose proof (lookup_range T C es _ x i (ci_hist _ _ _ _ _ _ _ FC) Hi) as RI. pose proof (FI i RI) as NI. pose proof (proj2 HB e HO) as LE.
    exists i. destruct (fst (nth i (f_dist s) nothing)) as [|k] eqn:EK.
    - exfalso. destruct (proj1 HB) as [OX|EN]; [exact (proj2 (ci_off _ _ _ _ _ _ _ FC _ _ OX) EK)|rewrite EN in EK; discriminate].
    - exists k. split; [exact Hi|]. split; [reflexivity|]. assert (FK : finite k = true).
      { destruct k as [|z|]; [congruence|reflexivity|]. destruct (fst e) as [|[|z|]]; [congruence|discriminate|discriminate|congruence]. }
      split; [exact FK|]. split; [exact HB|]. apply (FA eq_refl); assumption. }
  split; [exact P1|]. split; [exact FN|]. split.
  - intros k i HK. destruct (FO k i HK) as (x & e & HX & HO & HE). destruct (FB k i HK) as (_ & FK & LE). exists x, e. split; [exact HX|]. split; [|auto].
    destruct (C23_no_false_positives T C _ _ x (ci_hist _ _ _ _ _ _ _ FC)) as (i1 & f1 & E1 & _ & G1). rewrite HX in E1. injection E1 as <- <-. apply (G1 eq_refl).
  - intros SZ x e HO NE. destruct (P1 x e HO NE) as (i & k & HX & HK & FK & HB & HI). exists i, k. split; [exact HX|].
    rewrite (PropHeap.C12_size_counts_stored_items nat total B 0 _ HP FH) in SZ. split.
    + unfold known in HI. destruct (HeapSpec.contents (f_queue s)); [exact HI|cbn [length] in SZ; lia].
    + intros e' HO'. rewrite <- HK. apply HB. exact HO'.
Qed.
(** ** Costs that do not fall below what was handed out: Dijkstra *)
(** as [frun], but no offered cost is smaller than a key that was already handed out *)
Inductive frun_up (roomy : bool) (B : nat) : fstate -> list (option (@offer item A)) -> fstate -> Prop :=
  | fup_nil s : frun_up roomy B s [] s
  | fup_cons s o s1 os s2 : fstep roomy B s o s1 ->
      (forall b q p, o = Some b -> is_filled (o_items b) (o_fill b) q -> In p (f_popped s) -> cle (Cost (fst p)) (nth q (o_costs b) (Cost PInf)) = true) ->
      frun_up roomy B s1 os s2 -> frun_up roomy B s (o :: os) s2.
Lemma up_run roomy B s ops s' : frun_up roomy B s ops s' -> frun roomy B s ops s'.
Proof. induction 1; econstructor; eassumption. Qed.
Definition in_order (s : fstate) : Prop := sorted (f_popped s) /\ below (f_popped s) (HeapSpec.contents (f_queue s)).
Lemma sorted_fin (l : row) : sorted l -> sorted (HeapSpec.fin l).
Proof.
  unfold sorted. induction 1 as [|x l HS IH HF]; [constructor|]. unfold HeapSpec.fin in *. cbn [filter]. destruct (finite (fst x)); [|exact IH]. constructor; [exact IH|].
  rewrite Forall_forall in *. intros y HY. apply filter_In in HY. apply HF. apply HY.
Qed.
Lemma order_step roomy total B es os s o s' : PropHeap.params_ok total B -> finv roomy total B es os s -> in_order s -> fstep roomy B s o s' ->
  (forall b q p, o = Some b -> is_filled (o_items b) (o_fill b) q -> In p (f_popped s) -> cle (Cost (fst p)) (nth q (o_costs b) (Cost PInf)) = true) ->
  in_order s'.
Proof.
  intros HP HI [HS HB] HST HUP. destruct HST as [t dist h done o t' ins uniq idx MK LC LD HPI LB NI HF|t dist h done h' out HD]; unfold in_order in *; cbn [f_queue f_popped] in *.
  - split; [exact HS|]. pose proof HI as [FC FH FN FA FB FO FI]. cbn [f_table f_dist f_queue f_popped] in *.
    assert (NI' : forall q, nth q (o_costs o) (Cost PInf) <> Cost NInf).
    { intros q. destruct (nth_in_or_default q (o_costs o) (Cost PInf)) as [HIn|E]; [intros E; apply NI; rewrite <- E; exact HIn|rewrite E; discriminate]. }
    pose proof (ci_hist _ _ _ _ _ _ _ FC) as HH. destruct (C28_sound T C (o_be o) es t (o_items o) (o_fill o) (Some (o_costs o)) t' ins uniq idx HH MK HPI) as (LU & UF & _).
    assert (BN : forall q, better dist uniq idx (o_costs o) q = true -> exists k, nth q (o_costs o) (Cost PInf) = Cost k).
    { intros q EB. unfold better in EB. apply andb_prop in EB. destruct EB as [_ EB]. destruct (nth q (o_costs o) (Cost PInf)) as [|k]; [discriminate|exists k; reflexivity]. }
    destruct (insert_pairs roomy total B h (to_queue B dist uniq idx (o_costs o)) HP FH) as (ev & PERM & _); [split| exact HF|].
    + unfold to_queue. rewrite app_length, map_length, seq_length, repeat_length. lia.
    + intros p HIn. unfold to_queue in HIn. apply in_app_or in HIn. destruct HIn as [HIn|HIn]; [|apply repeat_spec in HIn; subst p; discriminate].
      apply in_map_iff in HIn. destruct HIn as (q & <- & _). cbn [fst]. destruct (better dist uniq idx (o_costs o) q); [|discriminate]. specialize (NI' q). unfold key_of. destruct (nth q (o_costs o) (Cost PInf)); congruence.
    + apply (below_app_r _ _ ev). eapply below_perm_r; [symmetry; exact PERM|]. apply below_app_r. split; [exact HB|]. rewrite fin_to_queue by exact NI'. intros p y Hp Hy. apply in_map_iff in Hy. destruct Hy as (q & <- & HQ). apply filter_In in HQ. destruct HQ as [HQ EB]. apply in_seq in HQ.
      destruct (BN q EB) as (k & EK). unfold better in EB. apply andb_prop in EB. destruct EB as [EU _].
      specialize (HUP o q p eq_refl (UF q ltac:(lia) EU) Hp). rewrite EK in HUP. unfold ile. cbn [fst]. rewrite EK. exact HUP.
  - pose proof HI as [FC FH FN FA FB FO FI]. cbn [f_table f_dist f_queue f_popped] in *.
    destruct (PropHeap.C10_delete_mins_returns_the_smallest nat total B 0 h HP FH) as (h2 & out2 & ED & _ & SO & _ & PE & BL). rewrite HD in ED. injection ED as <- <-.
    assert (BB : below done (HeapSpec.fin out ++ HeapSpec.contents h')) by (eapply below_perm_r; [exact PE|exact HB]). apply below_app_r in BB. destruct BB as [B1 B2].
    split; [apply sorted_app; split; [exact HS|]; split; [apply sorted_fin; exact SO|exact B1]|]. apply below_app_l. split; [exact B2|exact BL].
Qed.
Lemma up_inv roomy total B ops : PropHeap.params_ok total B -> forall es os0 s s' R, finv roomy total B es os0 s -> in_order s -> frun_up roomy B s ops s' ->
  Forall (fun o => lossless T C (f_table s) R (call_of o)) (offers ops) -> R <= slots (f_table s) ->
  at_most R (fun x => present T (f_table s) x \/ asked T (map call_of (offers ops)) x) ->
  in_order s'.
Proof.
  intros HP. induction ops as [|o ops IH]; intros es os0 s s' R HI HO HRN HL HR HM; inversion HRN as [|? ? s1 ? ? HD HUP HP' E1 E2]; subst; [exact HO|].
  pose proof (order_step roomy total B es os0 s o s1 HP HI HO HD HUP) as HO1.
  assert (ST : exists es1 os1, finv roomy total B es1 os1 s1 /\ Forall (fun o => lossless T C (f_table s1) R (call_of o)) (offers ops) /\ R <= slots (f_table s1) /\
            at_most R (fun x => present T (f_table s1) x \/ asked T (map call_of (offers ops)) x)).
  { destruct o as [o|]; cbn [offers] in *.
    - inversion HL as [|? ? HL1 HL2]; subst.
      assert (AS : forall x, asked T (map call_of (o :: offers ops)) x <-> asks T (call_of o) x \/ asked T (map call_of (offers ops)) x).
      { intros x. cbn [map]. split.
        - intros (c' & [<-|HIn] & HA); [now left|right; exists c'; auto].
        - intros [HA|(c' & HIn & HA)]; [exists (call_of o); split; [now left|exact HA]|exists c'; split; [now right|exact HA]]. }
      destruct (push_inv roomy total B es os0 s o s1 R HP HI HD HL1 HR) as (e & H1 & E1 & E2 & E3 & EX).
      { destruct HM as (U & HU & HIn). exists U. split; [exact HU|]. intros x [Hx|Hx]; apply HIn; [now left|right; apply AS; now left]. }
      exists (es ++ [e]), (os0 ++ [o]). split; [exact H1|]. split; [|split].
      + eapply Forall_impl; [|exact HL2]. intros c' HC. unfold call_of, lossless, slots in *. rewrite E1, E2, E3. exact HC.
      + unfold slots in *. rewrite E1, E2. exact HR.
      + destruct HM as (U & HU & HIn). exists U. split; [exact HU|]. intros x [Hx|Hx]; apply HIn; [apply EX in Hx; destruct Hx; [now left|right; apply AS; now left]|right; apply AS; now right].
    - destruct (pop_inv roomy total B es os0 s s1 HP HI HD) as (H1 & E1 & E2 & _). exists es, os0. rewrite E1. auto. }
  destruct ST as (es1 & os1 & S1 & S2 & S3 & S4). exact (IH es1 os1 s1 s' R S1 HO1 HP' S2 S3 S4).
Qed.
(** the keys come out in order, and the first time a slot is handed out it comes with the smallest
    cost that was ever offered for its item, before or after *)
Theorem C90_settled : forall total B capacity bs mult mp ops s R, config_ok T capacity bs mult mp -> PropHeap.params_ok total B ->
  let t0 := Build T capacity bs mult mp in
  frun_up true B (FS t0 (repeat nothing (slots t0)) (HeapModel.build 0 total B) []) ops s ->
  Forall (fun o => lossless T C t0 R (call_of o)) (offers ops) -> R <= slots t0 -> at_most R (asked T (map call_of (offers ops))) ->
  (forall a p b q c, f_popped s = a ++ p :: b ++ q :: c -> kle (fst p) (fst q) = true) /\
  (forall p q, In p (f_popped s) -> In q (HeapSpec.contents (f_queue s)) -> kle (fst p) (fst q) = true) /\
  (forall a k i b, f_popped s = a ++ (k, i) :: b -> ~ In i (map snd a) ->
     exists x e, Lookup T (f_table s) x = Some (i, true) /\ GetItem T (f_table s) i = x /\ offered T a0 (offers ops) x e /\ fst e = Cost k /\
       (forall e', offered T a0 (offers ops) x e' -> cle (Cost k) (fst e') = true) /\
       (forall k' , In (k', i) b -> clt (Cost k) (Cost k') = true)).
Proof.
  intros total B capacity bs mult mp ops s R HC HP t0 HRN HL HR HM.
  destruct (frun_init true total B capacity bs mult mp ops s R HC HP (up_run _ _ _ _ _ HRN) HL HR HM) as (I0 & es & HI & SE). pose proof HI as [FC FH FN FA FB FO FI]. fold t0 in I0.
  assert (OR : in_order s).
  { apply (up_inv true total B ops HP [] [] _ s R I0); [|exact HRN|exact HL|exact HR|].
    - split; [constructor|intros p q []].
    - assert (N0 : forall x, ~ present T t0 x).
      { intros x (i & Hi). destruct (C23_no_false_positives T C [] t0 x (ci_hist _ _ _ _ _ _ _ (fi_cost _ _ _ _ _ _ I0))) as (i0 & f & E & B0 & _). rewrite Hi in E. injection E as <- <-. destruct (proj1 B0 eq_refl) as (j & e & [] & _). }
      destruct HM as (U & HU & HIn). exists U. split; [exact HU|]. intros x [Hx|Hx]; [destruct (N0 x Hx)|auto]. }
  destruct OR as [OS OB]. split; [|split; [exact OB|]].
  - intros a p b q c E. rewrite E in OS. apply sorted_app in OS. destruct OS as (_ & OS & _). unfold sorted in OS. inversion OS as [|? ? _ HF]; subst. rewrite Forall_forall in HF. apply HF. apply in_or_app. right. now left.
  - intros a k i b E NA. assert (HK : In (k, i) (known s)) by (unfold known; rewrite E; apply in_or_app; right; apply in_or_app; right; now left).
    destruct (FO k i HK) as (x & e & HX & HO & HE). destruct (FB k i HK) as (Hi & FK & LE). pose proof (ci_best _ _ _ _ _ _ _ FC x i HX) as HB.
    assert (DK : fst (nth i (f_dist s) nothing) = Cost k).
    { destruct (fst (nth i (f_dist s) nothing)) as [|k0] eqn:ED.
      - exfalso. destruct (proj1 HB) as [OX|EN]; [exact (proj2 (ci_off _ _ _ _ _ _ _ FC _ _ OX) ED)|rewrite EN in ED; discriminate].
      - assert (F0 : finite k0 = true). { pose proof (FI i Hi) as NI. rewrite ED in NI. cbn [cle] in LE. destruct k0; [congruence|reflexivity|]. destruct k; discriminate. }
        pose proof (FA eq_refl i k0 Hi ED F0) as H0. f_equal. apply kle_antisym; [exact LE|].
        unfold known in H0. apply in_app_or in H0. destruct H0 as [H0|H0].
        + apply (OB (k, i) (k0, i)); [rewrite E; apply in_or_app; right; now left|exact H0].
        + rewrite E in H0. apply in_app_or in H0. destruct H0 as [H0|[H0|H0]].
          * exfalso. apply NA. apply in_map_iff. exists (k0, i). split; [reflexivity|exact H0].
          * injection H0 as <-. apply kle_refl.
          * rewrite E in OS. apply sorted_app in OS. destruct OS as (_ & OS & _). unfold sorted in OS. inversion OS as [|? ? _ HF]; subst. rewrite Forall_forall in HF. apply (HF _ H0). }
    exists x, e. split; [exact HX|]. split; [|split; [exact HO|split; [exact HE|split]]].
    + destruct (C23_no_false_positives T C _ _ x (ci_hist _ _ _ _ _ _ _ FC)) as (i1 & f1 & E1 & _ & G1). rewrite HX in E1. injection E1 as <- <-. apply (G1 eq_refl).
    + intros e' HO'. rewrite <- DK. apply HB. exact HO'.
    + intros k' HK'. unfold clt. destruct (kle k' k) eqn:EK; [exfalso|reflexivity].
      assert (k' = k) as ->.
      { apply kle_antisym; [exact EK|]. rewrite E in OS. apply sorted_app in OS. destruct OS as (_ & OS & _). unfold sorted in OS. inversion OS as [|? ? _ HF]; subst. rewrite Forall_forall in HF. apply (HF _ HK'). }
      unfold known in FN. rewrite E in FN. apply NoDup_app_r in FN. apply NoDup_app_r in FN. inversion FN as [|? ? HN _]; subst. exact (HN HK').
Qed.
(** ** A queue that overflows: states get lost (C14 says which), but what is handed out stays right *)
Theorem C90_overflow : forall total B capacity bs mult mp ops s R, config_ok T capacity bs mult mp -> PropHeap.params_ok total B ->
  let t0 := Build T capacity bs mult mp in
  frun false B (FS t0 (repeat nothing (slots t0)) (HeapModel.build 0 total B) []) ops s ->
  Forall (fun o => lossless T C t0 R (call_of o)) (offers ops) -> R <= slots t0 -> at_most R (asked T (map call_of (offers ops))) ->
  NoDup (HeapSpec.contents (f_queue s) ++ f_popped s) /\
  (forall k i, In (k, i) (HeapSpec.contents (f_queue s) ++ f_popped s) ->
     exists x e, Lookup T (f_table s) x = Some (i, true) /\ GetItem T (f_table s) i = x /\ offered T a0 (offers ops) x e /\ fst e = Cost k /\
       finite k = true /\ cle (fst (nth i (f_dist s) nothing)) (Cost k) = true) /\
  (* the cost table does not suffer *)
  (forall x e, offered T a0 (offers ops) x e -> exists i, Lookup T (f_table s) x = Some (i, true) /\ best T a0 (offers ops) x (nth i (f_dist s) nothing)) /\
  (* and the keys come out in order if the offered costs never fall below them *)
  (frun_up false B (FS t0 (repeat nothing (slots t0)) (HeapModel.build 0 total B) []) ops s ->
     forall a p b q c, f_popped s = a ++ p :: b ++ q :: c -> kle (fst p) (fst q) = true).
Proof.
  intros total B capacity bs mult mp ops s R HC HP t0 HRN HL HR HM.
  destruct (frun_init false total B capacity bs mult mp ops s R HC HP HRN HL HR HM) as (I0 & es & [FC FH FN FA FB FO FI] & SE). fold t0 in I0.
  split; [exact FN|]. split; [|split].
  - intros k i HK. destruct (FO k i HK) as (x & e & HX & HO & HE). destruct (FB k i HK) as (_ & FK & LE). exists x, e. split; [exact HX|]. split; [|auto].
    destruct (C23_no_false_positives T C _ _ x (ci_hist _ _ _ _ _ _ _ FC)) as (i1 & f1 & E1 & _ & G1). rewrite HX in E1. injection E1 as <- <-. apply (G1 eq_refl).
  - intros x e HO. destruct (ci_off _ _ _ _ _ _ _ FC x e HO) as ((i & Hi) & _). exists i. split; [exact Hi|]. exact (ci_best _ _ _ _ _ _ _ FC x i Hi).
  - intros HUP a p b q c E.
    assert (OR : in_order s).
    { apply (up_inv false total B ops HP [] [] _ s R I0); [|exact HUP|exact HL|exact HR|].
      - split; [constructor|intros p0 q0 []].
      - assert (N0 : forall x, ~ present T t0 x).
        { intros x (i & Hi). destruct (C23_no_false_positives T C [] t0 x (ci_hist _ _ _ _ _ _ _ (fi_cost _ _ _ _ _ _ I0))) as (i0 & f & E0 & B0 & _). rewrite Hi in E0. injection E0 as <- <-. destruct (proj1 B0 eq_refl) as (j & e & [] & _). }
        destruct HM as (U & HU & HIn). exists U. split; [exact HU|]. intros x [Hx|Hx]; [destruct (N0 x Hx)|auto]. }
    destruct OR as [OS _]. rewrite E in OS. apply sorted_app in OS. destruct OS as (_ & OS & _). unfold sorted in OS. inversion OS as [|? ? _ HF]; subst. rewrite Forall_forall in HF. apply HF. apply in_or_app. right. now left.
Qed.
End Frontier.
Print Assumptions C90_frontier.
Print Assumptions C90_settled.
Print Assumptions C90_overflow.
