(** * PropRoom.v — properties C90 and C91, continued: how much a best-first search does, and how
      large its queue has to be. *)
From Verif Require Import Jax KeyModel SortProofs HashModel HashProofs StableSort TableModel ProbeProofs TableLookup TableInv TableInsert ResolveProofs TableRounds TableCommit TableBound DedupeModel DedupeSpec DedupeProofs DedupeExact ParInsertModel ParInsert ParEffect Claims TritonModel TritonProofs PallasModel PallasProofs TableSpec TableHistory PropTable UpdateModel PropUpdate PropSplit PropCost PropFrontier PropDijkstra.
From Verif Require HeapModel HeapSpec HeapProofs HeapInsert HeapDelete PropHeap.

(** ** Specification: the number of inputs that were offered (not masked out) with a finite cost *)
Definition worth {item A : Type} (o : @offer item A) (q : nat) : bool :=
  nth q (mask_list (length (o_items o)) (o_fill o)) false && match nth q (o_costs o) (Cost PInf) with Cost (Fin _) => true | _ => false end.
Definition made {item A : Type} (os : list (@offer item A)) : nat :=
  list_sum (map (fun o => length (filter (worth o) (seq 0 (length (o_items o))))) os).

Lemma filter_le {X} (f g : X -> bool) l : (forall x, In x l -> f x = true -> g x = true) -> length (filter f l) <= length (filter g l).
Proof.
  induction l as [|x l IH]; intros H; [auto|]. cbn [filter]. assert (IH' : length (filter f l) <= length (filter g l)) by (apply IH; intros y Hy; apply H; now right).
  destruct (f x) eqn:E; [rewrite (H x (or_introl eq_refl) E); cbn [length]; lia|]. destruct (g x); cbn [length]; lia.
Qed.
Section Room.
Context {item : Type} (T : dataclass item) (C : settings) {A : Type} (a0 : A).
Notation d := (dc_default T).
Notation nothing := (nothing a0).
Notation fstate := (@fstate item A).

Lemma made_app (os os' : list (@offer item A)) : made (os ++ os') = made os + made os'.
Proof. unfold made. rewrite map_app. induction (map _ os) as [|x l IH]; [reflexivity|]. cbn [app list_sum fold_right] in *. unfold list_sum in *. cbn [fold_right]. lia. Qed.
(** the pairs an offer can give *)
Definition pairs_of (t : @table item) (o : @offer item A) : list (key * nat) :=
  map (fun q => (key_of (nth q (o_costs o) (Cost PInf)), match Lookup T t (nth q (o_items o) d) with Some (i, _) => i | None => 0 end)) (filter (worth o) (seq 0 (length (o_items o)))).
Lemma pairs_length t (os : list (@offer item A)) : length (flat_map (pairs_of t) os) = made os.
Proof. unfold made. induction os as [|o os IH]; [reflexivity|]. cbn [flat_map map list_sum fold_right]. rewrite app_length, IH. unfold pairs_of. rewrite map_length. reflexivity. Qed.
Lemma known_made roomy total B es os s : finv T C a0 roomy total B es os s -> (forall x k, offered T a0 os x k -> fst k <> Cost NInf) -> length (known s) <= made os.
Proof.
  intros [FC FH FN FA FB FO FI] NI. rewrite <- (pairs_length (f_table s) os). apply NoDup_incl_length; [exact FN|]. intros [k i] HK.
  destruct (FO k i HK) as (x & e & HX & (o & q & HI & HF & Hx & He) & HE). destruct (FB k i HK) as (_ & FK & _).
  assert (NK : k <> NInf).
  { intros ->. apply (NI x e); [exists o, q; auto|exact HE]. }
  apply in_flat_map. exists o. split; [exact HI|]. unfold pairs_of. apply in_map_iff. subst e x. cbn [fst] in HE. exists q. rewrite HX, HE. split; [reflexivity|].
  apply filter_In. destruct HF as [Hq HM]. split; [apply in_seq; lia|]. unfold worth. rewrite HM, HE. destruct k; [congruence|reflexivity|discriminate].
Qed.
Lemma reach_size total B (h : HeapModel.heap nat) : PropHeap.params_ok total B -> HeapSpec.reachable total B 0 h -> total <= HeapModel.max_size h.
Proof.
  intros HP HR. destruct (PropHeap.reachable_inv total B 0 h HP HR) as (_ & _ & E1 & E2). unfold HeapModel.max_size. rewrite E1, E2. destruct HP as (HB & _ & _).
  pose proof (Nat.div_mod (total + B - 1) B ltac:(lia)) as E. pose proof (Nat.mod_upper_bound (total + B - 1) B ltac:(lia)). nia.
Qed.
Lemma room_step total B es os s o s' : PropHeap.params_ok total B -> finv T C a0 false total B es os s -> (forall x k, offered T a0 os x k -> fst k <> Cost NInf) ->
  fstep T C a0 false B s (Some o) s' -> made (os ++ [o]) < total + B -> fstep T C a0 true B s (Some o) s'.
Proof.
  intros HP HI NI HS HM. pose proof (known_made false total B es os s HI NI) as HK. destruct HI as [FC FH FN FA FB FO FI].
  inversion HS as [t dist h done o' t' ins uniq idx MK LC LD HPI LB NI1 HF E1 E2 E3|]; subst s o' s'. cbn [f_table f_dist f_queue f_popped] in *.
  eapply f_push; try eassumption. intros _. pose proof (reach_size total B h HP FH) as RS.
  assert (NI' : forall q, nth q (o_costs o) (Cost PInf) <> Cost NInf).
  { intros q. destruct (nth_in_or_default q (o_costs o) (Cost PInf)) as [HI|E]; [intros E; apply NI1; rewrite <- E; exact HI|rewrite E; discriminate]. }
  destruct (C28_sound T C (o_be o) es t (o_items o) (o_fill o) (Some (o_costs o)) t' ins uniq idx (ci_hist _ _ _ _ _ _ _ FC) MK HPI) as (LU & UF & _).
  assert (LE : length (HeapSpec.fin (to_queue a0 B dist uniq idx (o_costs o))) <= made [o]).
  { rewrite (fin_to_queue a0 B dist uniq idx (o_costs o) NI'), map_length. unfold made. cbn [map list_sum fold_right]. rewrite Nat.add_0_r, LU. apply filter_le. intros q Hq EB. apply in_seq in Hq.
    unfold better in EB. apply andb_prop in EB. destruct EB as [EU EB]. destruct (UF q ltac:(lia) EU) as [_ HMq]. unfold worth. rewrite HMq. cbn [andb].
    specialize (NI' q). unfold clt in EB. destruct (nth q (o_costs o) (Cost PInf)) as [|[|z|]]; [discriminate|congruence|reflexivity|]. destruct (fst (nth _ dist nothing)) as [|y]; [discriminate|]. rewrite kle_PInf in EB. discriminate. }
  unfold known in HK. rewrite app_length in HK. cbn [f_queue f_popped] in HK. rewrite made_app in HM. lia.
Qed.
Section Search.
Context {W : Type} (start : item -> key -> Prop) (edge : item -> item -> W -> Prop) (add : key -> W -> key).
Lemma room_run total B ops : PropHeap.params_ok total B -> forall es os0 s s' R, finv T C a0 false total B es os0 s -> (forall x k, offered T a0 os0 x k -> fst k <> Cost NInf) ->
  search T C a0 start edge add false B s ops s' -> made (os0 ++ offers ops) < total + B ->
  Forall (fun o => lossless T C (f_table s) R (call_of o)) (offers ops) -> R <= slots (f_table s) ->
  at_most R (fun x => present T (f_table s) x \/ asked T (map call_of (offers ops)) x) ->
  search T C a0 start edge add true B s ops s'.
Proof.
  intros HP. induction ops as [|[o|] ops IH]; intros es os0 s s' R HI NI HRN HMD HL HR HM; inversion HRN as [|? ? s1 ? ? HD HLi HP' E1 E2]; subst; cbn [offers] in *.
  - constructor.
  - inversion HL as [|? ? HL1 HL2]; subst.
    assert (AS : forall x, asked T (map call_of (o :: offers ops)) x <-> asks T (call_of o) x \/ asked T (map call_of (offers ops)) x).
    { intros x. cbn [map]. split.
      - intros (c' & [<-|HIn] & HA); [now left|right; exists c'; auto].
      - intros [HA|(c' & HIn & HA)]; [exists (call_of o); split; [now left|exact HA]|exists c'; split; [now right|exact HA]]. }
    destruct (push_inv T C a0 false total B es os0 s o s1 R HP HI HD HL1 HR) as (e & H1 & E1 & E2 & E3 & EX).
    { destruct HM as (U & HU & HIn). exists U. split; [exact HU|]. intros x [Hx|Hx]; apply HIn; [now left|right; apply AS; now left]. }
    apply se_cons with s1; [|exact HLi|].
    + apply (room_step total B es os0 s o s1 HP HI NI HD). change (o :: offers ops) with ([o] ++ offers ops) in HMD. rewrite app_assoc, made_app in HMD. lia.
    + apply (IH (es ++ [e]) (os0 ++ [o]) s1 s' R H1); [|exact HP'| | | |].
      * intros x k HO. apply offered_snoc in HO. destruct HO as [HO|(o' & q & [<-|[]] & HQ & _ & ->)]; [exact (NI x k HO)|]. cbn [fst].
        inversion HD as [t dist h done o' t' ins uniq idx MK LC LD HPI LB NI1 HF E4 E5 E6|]; subst. destruct (nth_in_or_default q (o_costs o) (Cost PInf)) as [HIq|E]; [intros E; apply NI1; rewrite <- E; exact HIq|rewrite E; discriminate].
      * rewrite <- app_assoc. exact HMD.
      * eapply Forall_impl; [|exact HL2]. intros c' HC. unfold call_of, lossless, slots in *. rewrite E1, E2, E3. exact HC.
      * unfold slots in *. rewrite E1, E2. exact HR.
      * destruct HM as (U & HU & HIn). exists U. split; [exact HU|]. intros x [Hx|Hx]; apply HIn; [apply EX in Hx; destruct Hx; [now left|right; apply AS; now left]|right; apply AS; now right].
  - assert (HD' : fstep T C a0 true B s None s1) by (inversion HD; subst; constructor; assumption).
    destruct (pop_inv T C a0 false total B es os0 s s1 HP HI HD) as (H1 & E1 & E2 & _).
    apply se_cons with s1; [exact HD'|exact HLi|]. apply (IH es os0 s1 s' R H1 NI HP' HMD); rewrite ?E1; assumption.
Qed.
Lemma no_ninf roomy B s ops s' : frun T C a0 roomy B s ops s' -> forall x k, offered T a0 (offers ops) x k -> fst k <> Cost NInf.
Proof.
  induction 1 as [s|s o s1 os s2 HD HR IH]; intros x k HO; [destruct HO as (o & q & [] & _)|].
  inversion HD as [t dist h done o' t' ins uniq idx MK LC LD HPI LB NI1 HF E4 E5 E6|]; subst; cbn [offers] in HO; [|exact (IH x k HO)].
  destruct HO as (o1 & q & [<-|HI] & HQ & Hx & ->); [|apply (IH x); exists o1, q; auto]. cbn [fst].
  destruct (nth_in_or_default q (o_costs o') (Cost PInf)) as [HIq|E]; [intros E; apply NI1; rewrite <- E; exact HIq|rewrite E; discriminate].
Qed.
(** a search never does more than it was offered: the pairs in the queue and those handed out are
    together at most as many as the inputs that were offered with a finite cost, so the loop ends once
    nothing new is offered, and a queue of that size (or smaller by less than a block) never overflows: what C90 and C91 say under the
    condition that there is room holds without it *)
Theorem C91_room : forall total B capacity bs mult mp ops s R, config_ok T capacity bs mult mp -> PropHeap.params_ok total B ->
  let t0 := Build T capacity bs mult mp in let s0 := FS t0 (repeat nothing (slots t0)) (HeapModel.build 0 total B) [] in
  Forall (fun o => lossless T C t0 R (call_of o)) (offers ops) -> R <= slots t0 -> at_most R (asked T (map call_of (offers ops))) ->
  made (offers ops) < total + B ->
  search T C a0 start edge add false B s0 ops s -> search T C a0 start edge add true B s0 ops s.
Proof.
  intros total B capacity bs mult mp ops s R HC HP t0 s0 HL HR HM HMD HRN.
  destruct (frun_init T C a0 false total B capacity bs mult mp ops s R HC HP (search_run _ _ _ _ _ _ _ _ _ _ _ HRN) HL HR HM) as (I0 & _). fold t0 in I0. fold s0 in I0.
  apply (room_run total B ops HP [] [] s0 s R I0); [intros x k (o & q & [] & _)|exact HRN|exact HMD|exact HL|exact HR|].
  destruct HM as (U & HU & HIn). exists U. split; [exact HU|]. intros x [(i & Hi)|Hx]; [|auto]. exfalso.
  destruct (C23_no_false_positives T C _ _ x (ci_hist _ _ _ _ _ _ _ (fi_cost _ _ _ _ _ _ _ _ _ I0))) as (i0 & f & E & B0 & _). unfold s0 in Hi, E. cbn [f_table] in Hi, E. rewrite Hi in E. injection E as <- <-. destruct (proj1 B0 eq_refl) as (j & e & [] & _).
Qed.
End Search.
Theorem C90_work : forall roomy total B capacity bs mult mp ops s R, config_ok T capacity bs mult mp -> PropHeap.params_ok total B ->
  let t0 := Build T capacity bs mult mp in
  frun T C a0 roomy B (FS t0 (repeat nothing (slots t0)) (HeapModel.build 0 total B) []) ops s ->
  Forall (fun o => lossless T C t0 R (call_of o)) (offers ops) -> R <= slots t0 -> at_most R (asked T (map call_of (offers ops))) ->
  length (HeapSpec.contents (f_queue s)) + length (f_popped s) <= made (offers ops).
Proof.
  intros roomy total B capacity bs mult mp ops s R HC HP t0 HRN HL HR HM.
  destruct (frun_init T C a0 roomy total B capacity bs mult mp ops s R HC HP HRN HL HR HM) as (_ & es & HI & _).
  pose proof (known_made roomy total B es (offers ops) s HI (no_ninf _ _ _ _ _ HRN)) as K. unfold known in K. rewrite app_length in K. exact K.
Qed.
Theorem C90_room : forall total B capacity bs mult mp ops s R, config_ok T capacity bs mult mp -> PropHeap.params_ok total B ->
  let t0 := Build T capacity bs mult mp in let s0 := FS t0 (repeat nothing (slots t0)) (HeapModel.build 0 total B) [] in
  Forall (fun o => lossless T C t0 R (call_of o)) (offers ops) -> R <= slots t0 -> at_most R (asked T (map call_of (offers ops))) ->
  made (offers ops) < total + B ->
  frun T C a0 false B s0 ops s -> frun T C a0 true B s0 ops s.
Proof.
  intros total B capacity bs mult mp ops s R HC HP t0 s0 HL HR HM HMD HRN.
  apply (search_run T C a0 (fun _ _ => True) (fun _ _ (_ : unit) => True) (fun k _ => k)).
  apply (C91_room (fun _ _ => True) (fun _ _ (_ : unit) => True) (fun k _ => k) total B capacity bs mult mp ops s R HC HP HL HR HM HMD). fold t0 s0.
  clear - HRN. revert HRN. generalize s0. intros s1 HRN. induction HRN as [s1|s1 o s2 os s3 HS HR IH]; [constructor|]. apply se_cons with s2; [exact HS| |exact IH].
  intros b _ q c _ _ _. left. exact Logic.I.
Qed.
End Room.
Print Assumptions C90_work.
Print Assumptions C90_room.
Print Assumptions C91_room.
