(** * PropConvStore.v — property C77: Queue, Stack and indexed updates given items of other dtypes. *)
From Coq Require Import String.
From Verif Require Import Jax StructModel ArrayModel ArrayFacts ShapeModel PropShape RowsModel RowsLift PropRows PropRows2 PropRows3 EqModel FloatEq PropEq RowsModel2 PropRows5 PropRows6 PropRows7 CompareModel PropCompare PropSafeCast PromoteModel FloatRound PropPromote PropRandom PropMixed PropMixed2 PropMixed3 PropTableConv2.
From Verif Require Import QueueModel QueueSpec QueueProofs PropQueue StableSort GroupFirst UpdateModel PropUpdate SoaModel PropSoa PropSoa2 ConvStore.

(** ** Specification *)
(** the instance with every array converted to the dtype its class declares *)
Fixpoint decl_v (d : desc) (v : value) {struct d} : value :=
  match d, v with
  | Prim dt _ _ _ _, VArr a => VArr (a_conv dt a)
  | Nest c _, VObj o => VObj (decl c o)
  | _, _ => v
  end
with decl (c : class) (o : obj) {struct c} : obj :=
  match c, o with
  | CCons _ d r, OCons m v q => OCons m (decl_v d v) (decl r q)
  | _, _ => o
  end.
(** what a user may pass: a single item or a one-dimensional batch of them, of any dtypes *)
Definition any_item (c : class) (o : obj) : Prop := loose [] c o \/ exists n, loose [n] c o.
Definition any_qop (c : class) (op : oqop) : Prop := match op with OEnqueue items => any_item c items | _ => True end.
Definition any_sop (c : class) (op : osop) : Prop := match op with OPush items => any_item c items | _ => True end.
Definition decl_qop (c : class) (op : oqop) : oqop := match op with OEnqueue items => OEnqueue (decl c items) | _ => op end.
Definition decl_sop (c : class) (op : osop) : osop := match op with OPush items => OPush (decl c items) | _ => op end.

(** ** Facts *)
Lemma decl_batched_both : (forall d s v, loose_v s d v -> conforms_v d (decl_v d v) /\ has_v s d (decl_v d v)) /\ (forall c s o, loose s c o -> batched c s (decl c o)).
Proof.
  apply desc_class_ind.
  - intros dt ish bits pb fill s [a|o] H; [|destruct H]. destruct H as [HW HS]. cbn [decl_v conforms_v has_v]. split; [split; [reflexivity|now apply conv_wfa]|exact HS].
  - intros c IH ish s [a|o] H; [destruct H|]. cbn [decl_v]. exact (IH _ o H).
  - intros s [|] H; [|destruct H]. split; exact Coq.Init.Logic.I.
  - intros n d IHd r IHr s [|m v q] H; [destruct H|]. destruct H as (<- & H1 & H2). destruct (IHd s v H1), (IHr s q H2). cbn [decl]. split; cbn; auto.
Qed.
Lemma set_each_decl f : (forall d v w, conforms_v d v -> set_each_v (fun b a => f (a_conv (adtype a) b) a) v w = set_each_v f v (decl_v d w)) /\
  (forall c o q, conforms c o -> set_each (fun b a => f (a_conv (adtype a) b) a) o q = set_each f o (decl c q)).
Proof.
  apply desc_class_ind.
  - intros dt ish bits pb fill [a|o] [b|q] H; try contradiction; [|reflexivity]. destruct H as [E _]. cbn [set_each_v decl_v]. now rewrite E.
  - intros c IH ish [a|o] [b|q] H; try contradiction; [reflexivity|]. cbn [set_each_v decl_v]. f_equal. exact (IH o q H).
  - intros [|] q H; try contradiction. reflexivity.
  - intros n d IHd r IHr [|m v o] [|k w q] H; try contradiction; [reflexivity|]. destruct H as (_ & H1 & H2). cbn [set_each decl]. f_equal; auto.
Qed.
Lemma any_item_ok c o : any_item c o -> item_ok c (decl c o).
Proof. intros [H|[n H]]; [left|right; exists n]; now apply (proj2 decl_batched_both). Qed.
Lemma decl_elem_both B b : inb b B -> (forall d J v, loose_v (B ++ J) d v -> elem_v b (decl_v d v) = decl_v d (elem_v b v)) /\ (forall c J o, loose (B ++ J) c o -> elem b (decl c o) = decl c (elem b o)).
Proof.
  intros Hb. apply desc_class_ind.
  - intros dt ish bits pb fill J [a|o] H; [|destruct H]. destruct H as [HW HS]. cbn [decl_v elem_v]. f_equal. unfold sub. cbn [adtype ashape a_conv].
    assert (EL : length b = length B) by (now apply inb_length).
    assert (ES : skipn (length b) (ashape a) = J ++ ish) by (rewrite HS, <- app_assoc, EL, skipn_app, skipn_all, Nat.sub_diag; reflexivity). rewrite ES.
    unfold a_conv at 2. rewrite map_build by apply build_wfa. cbn [ashape build adtype]. apply build_ext. intros t Ht.
    rewrite conv_get; [|exact HW|rewrite HS, <- app_assoc; now apply inb_app_intro]. f_equal. now rewrite get_build.
  - intros c IH ish J [a|o] H; [destruct H|]. cbn [decl_v elem_v]. f_equal. apply (IH (J ++ ish)). cbn in H. now rewrite app_assoc.
  - intros J [|] H; [reflexivity|destruct H].
  - intros n d IHd r IHr J [|m v q] H; [destruct H|]. destruct H as (_ & H1 & H2). cbn [decl elem]. f_equal; [now apply (IHd J)|now apply (IHr J)].
Qed.
Lemma decl_native_both : (forall d v, conforms_v d v -> decl_v d v = v) /\ (forall c o, conforms c o -> decl c o = o).
Proof.
  apply desc_class_ind.
  - intros dt ish bits pb fill [a|o] H; [|destruct H]. destruct H as [E _]. cbn [decl_v]. f_equal. now apply conv_same.
  - intros c IH ish [a|o] H; [destruct H|]. cbn [decl_v]. f_equal. exact (IH o H).
  - intros [|] H; [reflexivity|destruct H].
  - intros n d IHd r IHr [|m v q] H; [destruct H|]. destruct H as (_ & H1 & H2). cbn [decl]. f_equal; auto.
Qed.

(** ** What conversion does to the entries *)
(** items of the declared dtypes are stored as they are *)
Theorem C77_native : forall c s v, batched c s v -> decl c v = v.
Proof. intros c s v [H _]. now apply (proj2 decl_native_both). Qed.
(** field by field: same shape, the declared dtype, each entry converted; an entry whose number
    the declared dtype has keeps its number, an infinity stays itself in a float field *)
Theorem C77_converted : forall c s v, dtypes standard c -> loose s c v -> Forall (fun a => standard (adtype a)) (arrays v) ->
  batched c s (decl c v) /\
  Forall2 (fun a b => ashape b = ashape a /\
     forall idx, inb idx (ashape a) -> in_dtype (adtype a) (get a idx) ->
       get b idx = conv (adtype a) (adtype b) (get a idx) /\ in_dtype (adtype b) (get b idx) /\
       (forall x, represents (adtype a) (get a idx) x -> expressible (adtype b) x -> represents (adtype b) (get b idx) x) /\
       (forall neg, infinite (adtype a) neg (get a idx) -> is_float (adtype b) = true -> infinite (adtype b) neg (get b idx)))
    (arrays v) (arrays (decl c v)).
Proof.
  intros c s v HD HL HA. split; [now apply (proj2 decl_batched_both)|]. revert c s v HD HL HA.
  pose (P := fun a b => ashape b = ashape a /\ forall idx, inb idx (ashape a) -> in_dtype (adtype a) (get a idx) ->
       get b idx = conv (adtype a) (adtype b) (get a idx) /\ in_dtype (adtype b) (get b idx) /\
       (forall x, represents (adtype a) (get a idx) x -> expressible (adtype b) x -> represents (adtype b) (get b idx) x) /\
       (forall neg, infinite (adtype a) neg (get a idx) -> is_float (adtype b) = true -> infinite (adtype b) neg (get b idx))).
  assert (K : (forall d s v, dtypes_d standard d -> loose_v s d v -> Forall (fun a => standard (adtype a)) (arrays_v v) -> Forall2 P (arrays_v v) (arrays_v (decl_v d v))) /\
    (forall c s v, dtypes standard c -> loose s c v -> Forall (fun a => standard (adtype a)) (arrays v) -> Forall2 P (arrays v) (arrays (decl c v)))); [|exact (proj2 K)].
  apply desc_class_ind.
  - intros dt ish bits pb fill s [a|o] HD HL HA; [|destruct HL]. destruct HL as [HW _]. cbn [dtypes_d] in HD. cbn [arrays_v] in *. pose proof (Forall_inv HA) as HS. cbv beta in HS. cbn [decl_v arrays_v]. constructor; [|constructor]. split; [reflexivity|]. intros idx HI HZ. cbn [adtype a_conv]. rewrite conv_get by assumption.
    split; [reflexivity|]. split; [now apply C72_lands|]. split.
    + intros x HR HE. exact (carry (adtype a) dt (get a idx) (inl x) HS HD HZ HR HE).
    + intros neg HR HE. exact (carry (adtype a) dt (get a idx) (inr neg) HS HD HZ HR HE).
  - intros c IH ish s [a|o] HD HL HA; [destruct HL|]. exact (IH _ o HD HL HA).
  - intros s [|] HD HL HA; [constructor|destruct HL].
  - intros n d IHd r IHr s [|m v q] HD HL HA; [destruct HL|]. destruct HL as (_ & L1 & L2). cbn [dtypes] in HD. destruct HD as [D1 D2]. cbn [arrays decl] in *. apply Forall_app in HA. destruct HA as [A1 A2]. apply Forall2_app; [exact (IHd s v D1 L1 A1)|exact (IHr s q D2 L2 A2)].
Qed.

(** ** Indexed updates *)
Theorem C77_at_set : forall c n R o idx v, batched c (n :: R) o -> wfa idx -> loose (ashape idx ++ R) c v ->
  let o' := obj_at_set_p idx o v in
  batched c (n :: R) o' /\
  (forall i q, i < n -> inb q R ->
     match last_hit n (adata idx) i with
     | Some j => j < prod (ashape idx) /\ elem (i :: q) o' = decl c (elem (unravel (ashape idx) j ++ q) v)
     | None => elem (i :: q) o' = elem (i :: q) o
     end).
Proof.
  intros c n R o idx v HO HW HV o'. unfold o', obj_at_set_p. rewrite (proj2 (set_each_decl (a_at_set idx)) c o v (proj1 HO)).
  destruct (C45_at_set_array c n R o idx (decl c v) HO HW (proj2 decl_batched_both c _ v HV)) as [H1 H2]. split; [exact H1|]. intros i q Hi Hq. specialize (H2 i q Hi Hq).
  destruct (last_hit n (adata idx) i) as [j|]; [|exact H2]. destruct H2 as [Hj H2]. split; [exact Hj|]. etransitivity; [exact H2|]. apply (proj2 (decl_elem_both (ashape idx ++ R) _ (inb_app_intro _ _ _ _ (unravel_inb _ _ Hj) Hq)) c []). now rewrite app_nil_r.
Qed.
(** one item for all the indices *)
Theorem C77_at_set_one : forall c n R o idx v, batched c (n :: R) o -> wfa idx -> loose [] c v ->
  let o' := obj_at_set_p idx o v in
  batched c (n :: R) o' /\
  (forall i q, i < n -> inb q R ->
     elem (i :: q) o' = if existsb (fun z => match norm_index z n with Some k => k =? i | None => false end) (adata idx) then decl c v else elem (i :: q) o).
Proof.
  intros c n R o idx v HO HW HV o'. unfold o', obj_at_set_p. rewrite (proj2 (set_each_decl (a_at_set idx)) c o v (proj1 HO)).
  exact (C45_set_broadcast c n R o idx (decl c v) HO HW (proj2 decl_batched_both c _ v HV)).
Qed.
Theorem C77_set_as_condition : forall c n o indices condition v, batched c [n] o ->
  wfa indices -> wfa condition -> ashape condition = ashape indices -> index_room (adtype indices) n -> loose [prod (ashape condition)] c v ->
  let o' := obj_at_set_as_condition_p indices condition o v in
  batched c [n] o' /\
  forall p, p < n -> elem [p] o' = match winner (adata indices) (truth condition) p with Some i => decl c (elem [i] v) | None => elem [p] o end.
Proof.
  intros c n o indices condition v HO HI HC HS HRM HV o'. unfold o', obj_at_set_as_condition_p. rewrite (proj2 (set_each_decl (a_update indices condition)) c o v (proj1 HO)).
  destruct (C45_set_as_condition c n o indices condition (decl c v) HO HI HC HS HRM (proj2 decl_batched_both c _ v HV)) as [H1 H2]. split; [exact H1|]. intros p Hp. specialize (H2 p Hp). etransitivity; [exact H2|].
  destruct (winner (adata indices) (truth condition) p) as [i|] eqn:E; [|reflexivity]. pose proof (truth_len condition HC) as L1.
  assert (HI' : i < prod (ashape condition)) by (unfold winner in E; apply find_some in E; destruct E as [E _]; apply in_seq in E; pose proof (ind_len indices condition HI HS); lia).
  apply (proj2 (decl_elem_both [prod (ashape condition)] [i] ltac:(apply inb_cons; split; [exact HI'|apply inb_nil])) c []). exact HV.
Qed.
Theorem C77_set_as_condition_one : forall c n o indices condition v, batched c [n] o ->
  wfa indices -> wfa condition -> ashape condition = ashape indices -> index_room (adtype indices) n -> loose [] c v ->
  let o' := obj_at_set_as_condition_p indices condition o v in
  batched c [n] o' /\
  forall p, p < n -> elem [p] o' = match winner (adata indices) (truth condition) p with Some _ => decl c v | None => elem [p] o end.
Proof.
  intros c n o indices condition v HO HI HC HS HRM HV o'. unfold o', obj_at_set_as_condition_p. rewrite (proj2 (set_each_decl (a_update indices condition)) c o v (proj1 HO)).
  exact (C45_set_as_condition_one c n o indices condition (decl c v) HO HI HC HS HRM (proj2 decl_batched_both c _ v HV)).
Qed.

(** ** Histories *)
Section Hist.
Variables (c : class) (n : nat).
Hypotheses (HN : c <> CNil) (HS : solid c) (Hn : n <> 0).
Lemma enqueue_decl q items : batched c [n] (oq_store q) -> any_item c items -> oq_enqueue_p c q items = oq_enqueue c q (decl c items).
Proof.
  intros [HC _] [HI|[k HI]]; unfold oq_enqueue_p, oq_enqueue, obj_at_set_p; rewrite (loose_get c _ items HN HS HI), (batch_is c HN HS _ _ (proj2 decl_batched_both c _ items HI)); now rewrite (proj2 (set_each_decl _) c _ items HC).
Qed.
Lemma push_decl s items : batched c [n] (os_store s) -> any_item c items -> os_push_p c s items = os_push c s (decl c items).
Proof.
  intros [HC _] [HI|[k HI]]; unfold os_push_p, os_push, obj_at_set_p; rewrite (loose_get c _ items HN HS HI), (batch_is c HN HS _ _ (proj2 decl_batched_both c _ items HI)); now rewrite (proj2 (set_each_decl _) c _ items HC).
Qed.
Lemma run_decl ops : forall q, batched c [n] (oq_store q) -> Forall (any_qop c) ops -> oq_run_p c q ops = oq_run c q (map (decl_qop c) ops).
Proof.
  induction ops as [|op ops IH]; intros q HB HO; [reflexivity|]. pose proof (Forall_inv HO) as H1. pose proof (Forall_inv_tail HO) as H2. cbn [oq_run_p map oq_run].
  assert (E : oq_step_p c q op = oq_step c q (decl_qop c op)) by (destruct op; try reflexivity; cbn [oq_step_p oq_step decl_qop]; now rewrite enqueue_decl).
  rewrite E. assert (HK : qop_ok c (decl_qop c op)) by (destruct op; try exact Coq.Init.Logic.I; now apply any_item_ok).
  destruct (q_step_sim c n HN HS Hn q (mkQ (rows n (oq_store q)) (oq_head q) (oq_tail q)) (decl_qop c op)) as (q' & r & E1 & E2 & _); [repeat split; try reflexivity; apply HB|exact HK|]. rewrite E1. f_equal. apply IH; [apply E2|exact H2].
Qed.
Lemma runs_decl ops : forall s, batched c [n] (os_store s) -> Forall (any_sop c) ops -> os_run_p c s ops = os_run c s (map (decl_sop c) ops).
Proof.
  induction ops as [|op ops IH]; intros s HB HO; [reflexivity|]. pose proof (Forall_inv HO) as H1. pose proof (Forall_inv_tail HO) as H2. cbn [os_run_p map os_run].
  assert (E : os_step_p c s op = os_step c s (decl_sop c op)) by (destruct op; try reflexivity; cbn [os_step_p os_step decl_sop]; now rewrite push_decl).
  rewrite E. assert (HK : sop_ok c (decl_sop c op)) by (destruct op; try exact Coq.Init.Logic.I; now apply any_item_ok).
  destruct (s_step_sim c n HN HS Hn s (mkS (rows n (os_store s)) (os_size s)) (decl_sop c op)) as (s' & r & E1 & E2 & _); [repeat split; try reflexivity; apply HB|exact HK|]. rewrite E1. f_equal. apply IH; [apply E2|exact H2].
Qed.
End Hist.
(** every legal history of a queue given items of any dtypes: first in, first out, of the
    converted items; no call raises *)
Theorem C77_queue_is_fifo : forall c max_size ops, c <> CNil -> solid c -> (0 < Z.of_nat max_size < 2 ^ 31)%Z -> Forall (any_qop c) ops ->
  q_legal max_size 0 [] (map (qop_of c) (map (decl_qop c) ops)) ->
  exists tr, oq_run_p c (oq_build c max_size) ops = Some tr /\ seen c tr = fifo_run (default_obj [] c) [] (map (qop_of c) (map (decl_qop c) ops)).
Proof.
  intros c n ops HN HS Hn HO HL. rewrite (run_decl c n HN HS ltac:(lia) ops (oq_build c n) (proj1 (C45_default_rows c n)) HO). apply C45_queue_is_fifo; auto.
  apply Forall_map. revert HO. apply Forall_impl. intros [] H; try exact Coq.Init.Logic.I. now apply any_item_ok.
Qed.
Theorem C77_stack_is_lifo : forall c max_size ops, c <> CNil -> solid c -> (0 < Z.of_nat max_size < 2 ^ 31)%Z -> Forall (any_sop c) ops ->
  s_legal (default_obj [] c) max_size [] (map (sop_of c) (map (decl_sop c) ops)) ->
  exists tr, os_run_p c (os_build c max_size) ops = Some tr /\ seen c tr = lifo_run (default_obj [] c) [] (map (sop_of c) (map (decl_sop c) ops)).
Proof.
  intros c n ops HN HS Hn HO HL. rewrite (runs_decl c n HN HS ltac:(lia) ops (os_build c n) (proj1 (C45_default_rows c n)) HO). apply C45_stack_is_lifo; auto.
  apply Forall_map. revert HO. apply Forall_impl. intros [] H; try exact Coq.Init.Logic.I. now apply any_item_ok.
Qed.
(** the shape check does not depend on the dtypes either *)
Theorem C77_bad_items_raise : forall c q s bad B, loose B c bad -> c <> CNil -> solid c -> 2 <= length B ->
  oq_enqueue_p c q bad = None /\ os_push_p c s bad = None.
Proof.
  intros c q s bad B HL HN HS HB. unfold oq_enqueue_p, os_push_p. rewrite (loose_get c B bad HN HS HL). destruct B as [|x [|y B]]; cbn [length] in HB; try lia. auto.
Qed.
(** false claim: "what is dequeued (or popped) is what was enqueued (pushed)": 300 given as int32
    for a uint8 field comes back as 44, and neither call raises *)
Definition wide_cells (s : list nat) (ids : list Z) : obj :=
  (OCons "id" (VArr (MkArr (DInt 32) s ids)) (OCons "pos" (VArr (MkArr (DInt 32) (s ++ [2]) (flat_map (fun z => [z; z + 1]%Z) ids))) ONil))%string.
Theorem C77_lossless_refuted : Forall (any_qop cell) [OEnqueue (wide_cells [] [300]%Z); ODequeue 1] /\ q_legal 4 0 [] (map (qop_of cell) (map (decl_qop cell) [OEnqueue (wide_cells [] [300]%Z); ODequeue 1])) /\
  option_map (map fst) (oq_run_p cell (oq_build cell 4) [OEnqueue (wide_cells [] [300]%Z); ODequeue 1]) = Some [None; Some (OCons "id" (VArr (arr8 [] [44]%Z)) (OCons "pos" (VArr (arr8 [2] [44; 45]%Z)) ONil))]%string /\
  option_map (map fst) (os_run_p cell (os_build cell 4) [OPush (wide_cells [] [300]%Z); OPop 1]) = Some [None; Some (OCons "id" (VArr (arr8 [] [44]%Z)) (OCons "pos" (VArr (arr8 [2] [44; 45]%Z)) ONil))]%string.
Proof.
  split; [|split; [cbn; lia|split; vm_compute; reflexivity]].
  repeat apply Forall_cons; try apply Forall_nil; try exact Coq.Init.Logic.I. left. repeat split; vm_compute; reflexivity.
Qed.
(** examples: a history mixing dtypes; the hypotheses hold *)
Example C77_example : let ops := [OEnqueue (wide_cells [3] [1; 2; 3]%Z); ODequeue 1; OEnqueue (cells [] [9]%Z); OPeek 3; ODequeue 3] in
  Forall (any_qop cell) ops /\ q_legal 6 0 [] (map (qop_of cell) (map (decl_qop cell) ops)) /\ dtypes standard cell /\ Forall (fun a => standard (adtype a)) (arrays (wide_cells [3] [1; 2; 3]%Z)) /\
  option_map (fun tr => nth_error tr 3) (oq_run_p cell (oq_build cell 6) ops) =
    Some (Some (Some (OCons "id" (VArr (arr8 [3] [2; 3; 9]%Z)) (OCons "pos" (VArr (arr8 [3; 2] [2; 3; 3; 4; 109; 110]%Z)) ONil)), 3%Z))%string.
Proof.
  cbn zeta. split; [|split; [cbn; lia|split; [cbn; tauto|split; [repeat constructor; cbn; tauto|vm_compute; reflexivity]]]].
  repeat apply Forall_cons; try apply Forall_nil; try exact Coq.Init.Logic.I.
  - right. exists 3. repeat split; vm_compute; reflexivity.
  - left. repeat split; vm_compute; reflexivity.
Qed.
Print Assumptions C77_native. Print Assumptions C77_converted. Print Assumptions C77_at_set. Print Assumptions C77_at_set_one. Print Assumptions C77_set_as_condition. Print Assumptions C77_set_as_condition_one. Print Assumptions C77_queue_is_fifo. Print Assumptions C77_stack_is_lifo. Print Assumptions C77_bad_items_raise. Print Assumptions C77_lossless_refuted.
