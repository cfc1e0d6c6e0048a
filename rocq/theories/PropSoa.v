(** * PropSoa.v — property C45: storage kept as one array per field behaves as a list of
      instances; Queue, Stack and conditional updates on such storage. *)
From Coq Require Import String.
From Verif Require Import Jax StructModel ArrayModel ArrayFacts ShapeModel PropShape RowsModel RowsLift PropRows PropRows2 PropRows3.
From Verif Require Import QueueModel QueueSpec QueueProofs PropQueue StableSort GroupFirst UpdateModel PropUpdate SoaModel.

(** ** Specification: the rows of a batch instance, each a single instance *)
Definition rows (n : nat) (o : obj) : list obj := map (fun i => elem [i] o) (seq 0 n).
(** the value passed in: one instance or a list of them *)
Definition arg_of (c : class) (o : obj) : arg obj :=
  match get_batch c o with Some (Batch [n]) => Many (rows n o) | _ => One o end.

Lemma rows_length n o : length (rows n o) = n.
Proof. unfold rows. now rewrite map_length, seq_length. Qed.
Lemma rows_nth n o i d : i < n -> nth i (rows n o) d = elem [i] o.
Proof. intros H. unfold rows. rewrite (nth_indep _ d (elem [0] o)) by (now rewrite map_length, seq_length). rewrite (map_nth (fun i => elem [i] o)), seq_nth by exact H. reflexivity. Qed.
Lemma rows_eq n o l : length l = n -> (forall i d, i < n -> nth i l d = elem [i] o) -> rows n o = l.
Proof. intros HL H. apply (nth_ext_len _ _ o); rewrite rows_length; [congruence|]. intros i Hi. rewrite rows_nth by exact Hi. now rewrite H. Qed.

Lemma norm_index_norm z n i : norm_index z n = Some i <-> norm_idx n z = Z.of_nat i /\ i < n.
Proof.
  unfold norm_index, norm_axis, norm_idx. destruct (Z.ltb_spec z 0).
  - destruct (Z.leb_spec 0 (Z.of_nat n + z)); split; try discriminate; try (intros [? ?]; lia).
    + intros E. assert (i = Z.to_nat (Z.of_nat n + z)) by congruence. lia.
    + intros [E1 E2]. f_equal. lia.
  - destruct (Z.ltb_spec z (Z.of_nat n)); split; try discriminate; try (intros [? ?]; lia).
    + intros E. assert (i = Z.to_nat z) by congruence. lia.
    + intros [E1 E2]. f_equal. lia.
Qed.
Lemma jset_nth {A} (l : list A) z v i d : i < length l ->
  nth i (jset l z v) d = match norm_index z (length l) with Some k => if k =? i then v else nth i l d | None => nth i l d end.
Proof.
  intros Hi. unfold jset. destruct (norm_index z (length l)) as [k|] eqn:E.
  - apply norm_index_norm in E. destruct E as [E1 E2]. rewrite E1.
    destruct ((0 <=? Z.of_nat k)%Z && (Z.of_nat k <? Z.of_nat (length l))%Z) eqn:E3; [|lia]. rewrite Nat2Z.id, Jax.nth_upd.
    destruct (Nat.eqb_spec k i), (Nat.ltb_spec k (length l)); cbn [andb]; try reflexivity; lia.
  - destruct ((0 <=? norm_idx (length l) z)%Z && (norm_idx (length l) z <? Z.of_nat (length l))%Z) eqn:E3; [|reflexivity]. exfalso.
    assert (norm_index z (length l) = Some (Z.to_nat (norm_idx (length l) z))) by (apply norm_index_norm; lia). congruence.
Qed.
Lemma jsets_last {A} is : forall (l : list A) vs i d, length is = length vs -> i < length l ->
  nth i (jsets l is vs) d = match last_hit (length l) is i with Some j => nth j vs d | None => nth i l d end.
Proof.
  induction is as [|z is IH]; intros l [|v vs] i d HL Hi; cbn [length] in HL; try discriminate; [reflexivity|].
  change (jsets l (z :: is) (v :: vs)) with (jsets (jset l z v) is vs). rewrite IH by (rewrite ?jset_length; lia). rewrite jset_length. cbn [last_hit].
  destruct (last_hit (length l) is i); [reflexivity|]. rewrite jset_nth by exact Hi. destruct (norm_index z (length l)) as [k|]; [|reflexivity]. destruct (k =? i); reflexivity.
Qed.
Lemma last_hit_lt n is i j : last_hit n is i = Some j -> j < length is.
Proof.
  revert j. induction is as [|z is IH]; intros j E; cbn [last_hit] in E; [discriminate|]. cbn [length]. destruct (last_hit n is i) as [k|].
  - specialize (IH k eq_refl). assert (S k = j) by congruence. lia.
  - destruct (norm_index z n) as [k|]; [|discriminate]. destruct (k =? i); [|discriminate]. assert (0 = j) by congruence. lia.
Qed.

(** ** A field-by-field update that does not fail on any field is a tree_map *)
Lemma set_each_tmap f :
  (forall v w v', tmap_v (two (fun a b => f b a)) v [w] = Some v' -> set_each_v f v w = v') /\
  (forall o q o', tmap (two (fun a b => f b a)) o [q] = Some o' -> set_each f o q = o').
Proof.
  apply value_obj_ind.
  - intros a w v' E. cbn [tmap_v map sequence] in E. destruct w as [b|]; [|discriminate]. cbn [as_arr option_map two] in E. cbn [set_each_v]. destruct (f b a); [|discriminate]. now injection E as <-.
  - intros o IH w v' E. cbn [tmap_v map sequence] in E. destruct w as [|q]; [discriminate|]. cbn [as_obj option_map] in E. cbn [set_each_v]. destruct (tmap _ o [q]) as [o'|] eqn:EO; [|discriminate].
    cbn [option_map] in E. injection E as <-. f_equal. now apply IH.
  - intros q o' E. cbn [tmap] in E. destruct (forallb is_nil [q]); [|discriminate]. injection E as <-. reflexivity.
  - intros n v IHv r IHr q o' E. cbn [tmap map sequence] in E. destruct q as [|m w s]; [discriminate|]. cbn [head_field] in E. destruct (String.eqb m n); [|discriminate]. cbn [option_map map fst snd] in E.
    destruct (tmap_v _ v [w]) as [v'|] eqn:EV; [|discriminate]. destruct (tmap _ r [s]) as [r'|] eqn:ER; [|discriminate]. injection E as <-. cbn [set_each]. f_equal; auto.
Qed.
Definition set_src (n : nat) (idx : array) (b : list nat) : option (nat * list nat) :=
  match last_hit n (adata idx) (hd 0 b) with Some j => Some (1, unravel (ashape idx) j ++ tl b) | None => Some (0, b) end.
Lemma rowwise_at_set n R idx : wfa idx -> rowwise (two (fun a v => a_at_set idx v a)) [n :: R; ashape idx ++ R] (n :: R) (set_src n idx) nofill.
Proof.
  intros HW. split.
  - intros b Hb. unfold set_src. destruct b as [|i b]; [inversion Hb|]. apply inb_cons in Hb. destruct Hb as [Hi Hb]. cbn [hd tl].
    destruct (last_hit n (adata idx) i) as [j|] eqn:E; cbn [length nth]; [split; [lia|]|split; [lia|apply inb_cons; auto]].
    apply inb_app_intro; [|exact Hb]. apply unravel_inb. apply last_hit_lt in E. unfold wfa in HW. lia.
  - intros dt J l _ HA. inversion HA as [|a B0 l1 Bs1 [A1 [A2 A3]] HA1]; subst. inversion HA1 as [|v V0 l2 Bs2 [V1 [V2 V3]] HA2]; subst. inversion HA2; subst. cbn [two].
    unfold a_at_set. rewrite A2. cbn [app]. unfold a_broadcast_to. rewrite app_assoc, <- V2. unfold ndim. rewrite Nat.leb_refl, Nat.sub_diag. cbn [skipn]. rewrite bcast_ok_refl. cbn [andb].
    eexists. split; [reflexivity|]. split; [reflexivity|]. split; [reflexivity|]. split; [apply build_wfa|].
    intros b t dflt Hb Ht. destruct b as [|i b]; [inversion Hb|]. pose proof Hb as Hb0. apply inb_cons in Hb. destruct Hb as [Hi Hb]. cbn [app].
    rewrite get_build by (apply inb_cons; split; [exact Hi|now apply inb_app_intro]). unfold set_src. cbn [hd tl].
    destruct (last_hit n (adata idx) i) as [j|] eqn:E; cbn [nth]; [|reflexivity].
    assert (HI : inb (unravel (ashape idx) j ++ b ++ t) (ashape v)).
    { rewrite V2, <- app_assoc. apply inb_app_intro; [apply unravel_inb; apply last_hit_lt in E; unfold wfa in HW; lia|now apply inb_app_intro]. }
    rewrite get_build by exact HI. rewrite bcast_id by exact HI. now rewrite app_assoc.
Qed.
(** [.at[idx].set(values)] with an integer index array of any shape: row [i] is the row of
    [values] at the last position of [idx] that addresses [i], or unchanged *)
Theorem C45_at_set_array : forall c n R o idx v, batched c (n :: R) o -> wfa idx -> batched c (ashape idx ++ R) v ->
  let o' := obj_at_set idx o v in
  batched c (n :: R) o' /\
  (forall i q, i < n -> inb q R ->
     match last_hit n (adata idx) i with
     | Some j => j < prod (ashape idx) /\ elem (i :: q) o' = elem (unravel (ashape idx) j ++ q) v
     | None => elem (i :: q) o' = elem (i :: q) o
     end).
Proof.
  intros c n R o idx v [HC HB] HW [HCv HBv] o'.
  destruct (lift_many _ _ _ _ _ c [o; v] (rowwise_at_set n R idx HW)) as [o2 [E1 [E2 [E3 E4]]]]; [discriminate|repeat constructor; assumption|].
  cbn [tree_mapn] in E1. apply (proj2 (set_each_tmap _)) in E1. change (o' = o2) in E1. subst o2. split; [split; assumption|].
  intros i q Hi Hq. assert (Hb : inb (i :: q) (n :: R)) by (apply inb_cons; auto). specialize (E4 _ Hb). unfold set_src in E4. cbn [hd tl] in E4.
  destruct (last_hit n (adata idx) i) as [j|] eqn:E; cbn [nth] in E4; [|exact E4]. split; [|exact E4]. apply last_hit_lt in E. unfold wfa in HW. lia.
Qed.
Print Assumptions C45_at_set_array.

(** ** Storage as a list of instances *)
Lemma single_elem c o : batched c [] o -> elem [] o = o.
Proof. intros [HC _]. now apply (proj2 elem_nil_both o c). Qed.
(** one instance written at one index *)
Theorem C45_set_one : forall c n o z v, batched c [n] o -> batched c [] v ->
  batched c [n] (obj_at_set (iscal z) o v) /\ rows n (obj_at_set (iscal z) o v) = jset (rows n o) z v.
Proof.
  intros c n o z v HO HV. destruct (C45_at_set_array c n [] o (iscal z) v HO eq_refl HV) as [H1 H2]. split; [exact H1|].
  apply rows_eq; [now rewrite jset_length, rows_length|]. intros i d Hi. rewrite jset_nth by (now rewrite rows_length). rewrite rows_length, rows_nth by exact Hi.
  specialize (H2 i [] Hi inb_nil). cbn [iscal adata last_hit ashape unravel app] in H2. destruct (norm_index z n) as [k|]; [|now symmetry].
  destruct (k =? i); [|now symmetry]. destruct H2 as [_ ->]. symmetry. now apply (single_elem c).
Qed.
(** a batch written at a vector of indices *)
Theorem C45_set_many : forall c n o zs v, batched c [n] o -> batched c [length zs] v ->
  batched c [n] (obj_at_set (ivec zs) o v) /\ rows n (obj_at_set (ivec zs) o v) = jsets (rows n o) zs (rows (length zs) v).
Proof.
  intros c n o zs v HO HV. destruct (C45_at_set_array c n [] o (ivec zs) v HO) as [H1 H2]; [unfold wfa; cbn; lia|exact HV|]. split; [exact H1|].
  apply rows_eq; [now rewrite jsets_length, rows_length|]. intros i d Hi. rewrite jsets_last by (now rewrite rows_length). rewrite rows_length, rows_nth by exact Hi.
  specialize (H2 i [] Hi inb_nil). cbn [ivec adata ashape] in H2. destruct (last_hit n zs i) as [j|]; [|now symmetry]. destruct H2 as [H2 ->].
  unfold prod in H2. cbn [fold_right] in H2. rewrite rows_nth by lia. cbn [unravel app]. unfold prod. cbn [fold_right]. now rewrite Nat.div_1_r.
Qed.
(** one row read at one index *)
Theorem C45_get_one : forall c n o z d, batched c [n] o -> n <> 0 ->
  exists r, obj_index_array (iscal z) o = Some r /\ batched c [] r /\ r = jget d (rows n o) z.
Proof.
  intros c n o z d HO Hn. destruct (C41_index_array c n [] o (iscal z) HO Hn) as [r [E1 [E2 E3]]]. exists r. split; [exact E1|]. split; [exact E2|].
  specialize (E3 [] [] inb_nil inb_nil). cbn [app iscal get ashape ravel adata nth] in E3. rewrite <- (single_elem c r E2), E3. unfold jget. rewrite rows_length.
  rewrite rows_nth; [reflexivity|]. unfold clamp_index. lia.
Qed.
Lemma get_ivec zs i : get (ivec zs) [i] = nth i zs 0%Z.
Proof. unfold get. cbn [ivec ashape adata ravel]. unfold prod. cbn [fold_right]. f_equal. lia. Qed.
(** rows read at a vector of indices *)
Theorem C45_get_many : forall c n o zs d, batched c [n] o -> n <> 0 ->
  exists r, obj_index_array (ivec zs) o = Some r /\ batched c [length zs] r /\ rows (length zs) r = map (jget d (rows n o)) zs.
Proof.
  intros c n o zs d HO Hn. destruct (C41_index_array c n [] o (ivec zs) HO Hn) as [r [E1 [E2 E3]]]. exists r. split; [exact E1|]. split; [exact E2|].
  apply rows_eq; [now rewrite map_length|]. intros i d' Hi. rewrite (nth_indep _ d' (jget d (rows n o) 0%Z)) by (now rewrite map_length). rewrite map_nth.
  assert (Hb : inb [i] (ashape (ivec zs))) by (apply inb_cons; split; [exact Hi|apply inb_nil]).
  specialize (E3 [i] [] Hb inb_nil). cbn [app] in E3. rewrite E3, get_ivec. unfold jget. rewrite rows_length. rewrite rows_nth by lia. reflexivity.
Qed.
Print Assumptions C45_get_many.
(** fresh storage: every row is the default instance *)
Theorem C45_default_rows : forall c n, batched c [n] (default_obj [n] c) /\ rows n (default_obj [n] c) = repeat (default_obj [] c) n.
Proof.
  intros c n. split; [apply (proj2 default_both c [n])|]. apply rows_eq; [apply repeat_length|]. intros i d Hi. rewrite C41_default_elem by (apply inb_cons; split; [exact Hi|apply inb_nil]).
  rewrite (nth_indep _ d (default_obj [] c)) by (now rewrite repeat_length). apply nth_repeat.
Qed.

(** ** Queue and Stack *)
(** what a user may pass: one instance of the class, or a one-dimensional batch of them *)
Definition item_ok (c : class) (o : obj) : Prop := batched c [] o \/ exists n, batched c [n] o.
Definition reply_of (c : class) (r : option obj) : reply obj := match r with None => RNone | Some o => RItems (arg_of c o) end.
Definition qop_of (c : class) (op : oqop) : qop obj :=
  match op with OEnqueue items => Enqueue (arg_of c items) | ODequeue n => Dequeue n | OPeek n => QPeek n | OGet i => QGet i | OClear => Clear end.
Definition qop_ok (c : class) (op : oqop) : Prop := match op with OEnqueue items => item_ok c items | _ => True end.
Definition sop_of (c : class) (op : osop) : sop obj :=
  match op with OPush items => Push (arg_of c items) | OPop n => Pop n | OSPeek n => SPeek n | OSGet i => SGet i end.
Definition sop_ok (c : class) (op : osop) : Prop := match op with OPush items => item_ok c items | _ => True end.
(** a trace of calls, as a user sees it *)
Definition seen (c : class) (tr : list (option obj * Z)) : list (reply obj * Z) := map (fun p => (reply_of c (fst p), snd p)) tr.

Section Sim.
Variables (c : class) (n : nat).
Hypothesis HN : c <> CNil.
Hypothesis HS : solid c.
Hypothesis Hn : n <> 0.
Let d := default_obj [] c.
Lemma batch_is s o : batched c s o -> get_batch c o = Some (Batch s).
Proof. intros [H1 H2]. now apply C40_reports. Qed.
Lemma arg_one o : batched c [] o -> arg_of c o = One o.
Proof. intros H. unfold arg_of. now rewrite (batch_is _ _ H). Qed.
Lemma arg_many k o : batched c [k] o -> arg_of c o = Many (rows k o).
Proof. intros H. unfold arg_of. now rewrite (batch_is _ _ H). Qed.
Lemma arange_len k : length (arange k) = k.
Proof. unfold arange. now rewrite map_length, seq_length. Qed.
Lemma arange_down_len k : length (arange_down k) = k.
Proof. unfold arange_down. now rewrite map_length, seq_length. Qed.
(** reading [k] rows through an index vector, presented as one item when [k] is 1 *)
Lemma read_sim o (z : Z) (zs : list Z) k : batched c [n] o -> length zs = k ->
  exists r, match k with 1 => obj_index_array (iscal z) o | _ => obj_index_array (ivec zs) o end = Some r /\
            arg_of c r = match k with 1 => One (jget d (rows n o) z) | _ => Many (map (jget d (rows n o)) zs) end.
Proof.
  intros HO HL. destruct (Nat.eq_dec k 1) as [->|Hk].
  - destruct (C45_get_one c n o z d HO Hn) as [r [E1 [E2 E3]]]. exists r. split; [exact E1|]. rewrite (arg_one r E2). now rewrite E3.
  - destruct (C45_get_many c n o zs d HO Hn) as [r [E1 [E2 E3]]]. exists r. rewrite HL in *.
    assert (EQ : forall X (a b : X), match k with 1 => a | _ => b end = b) by (intros; destruct k as [|[|k]]; congruence).
    rewrite EQ. rewrite EQ. split; [exact E1|]. now rewrite (arg_many _ r E2), E3.
Qed.
Definition qrep (oq : oqueue) (q : queue obj) : Prop :=
  batched c [n] (oq_store oq) /\ q_store q = rows n (oq_store oq) /\ q_head q = oq_head oq /\ q_tail q = oq_tail oq.
Lemma q_peek_sim oq q k : qrep oq q -> exists r, oq_peek oq k = Some r /\ arg_of c r = q_peek d q k.
Proof.
  intros [H1 [H2 [H3 H4]]]. destruct (read_sim (oq_store oq) (oq_head oq) (map (fun j => i32 (oq_head oq + j)) (arange k)) k H1) as [r [E1 E2]]; [now rewrite map_length, arange_len|].
  exists r. unfold oq_peek, q_peek. rewrite H2, H3. split; [exact E1|]. rewrite E2. now rewrite map_map.
Qed.
Lemma q_step_sim oq q op : qrep oq q -> qop_ok c op ->
  exists oq' r, oq_step c oq op = Some (oq', r) /\ qrep oq' (fst (q_step d q (qop_of c op))) /\ reply_of c r = snd (q_step d q (qop_of c op)).
Proof.
  intros HR HO. pose proof HR as [H1 [H2 [H3 H4]]]. destruct op as [items|k|k|i|]; cbn [oq_step qop_of q_step qop_ok] in *.
  - unfold oq_enqueue. destruct HO as [HI|[k HI]]; rewrite (batch_is _ _ HI); cbn [option_map fst snd].
    + rewrite (arg_one _ HI). cbn [q_enqueue]. destruct (C45_set_one c n (oq_store oq) (oq_tail oq) items H1 HI) as [S1 S2].
      eexists _, _. split; [reflexivity|]. split; [|reflexivity]. unfold qrep. cbn [oq_store oq_head oq_tail q_store q_head q_tail]. rewrite H2, H3, H4, S2. auto.
    + rewrite (arg_many _ _ HI). cbn [q_enqueue]. rewrite rows_length. set (zs := map (fun j => i32 (oq_tail oq + j)) (arange k)).
      assert (HL : length zs = k) by (unfold zs; now rewrite map_length, arange_len).
      destruct (C45_set_many c n (oq_store oq) zs items H1) as [S1 S2]; [now rewrite HL|].
      eexists _, _. split; [reflexivity|]. split; [|reflexivity]. unfold qrep. cbn [oq_store oq_head oq_tail q_store q_head q_tail]. rewrite H2, H3, H4. fold zs. rewrite HL in S2. rewrite S2. auto.
  - destruct (q_peek_sim oq q k HR) as [r [E1 E2]]. unfold oq_dequeue. rewrite E1. cbn [option_map fst snd q_dequeue]. eexists _, _. split; [reflexivity|]. cbn [fst snd reply_of]. rewrite E2. split; [|reflexivity].
    unfold qrep. cbn [oq_store oq_head oq_tail q_store q_head q_tail]. rewrite H2, H3, H4. auto.
  - destruct (q_peek_sim oq q k HR) as [r [E1 E2]]. rewrite E1. cbn [option_map]. eexists _, _. split; [reflexivity|]. cbn [fst snd reply_of]. rewrite E2. auto.
  - unfold oq_get. destruct (C45_get_one c n (oq_store oq) (u32 (oq_head oq + Z.of_nat i)) d H1 Hn) as [r [E1 [E2 E3]]]. rewrite E1. cbn [option_map]. eexists _, _. split; [reflexivity|]. cbn [fst snd reply_of].
    split; [exact HR|]. rewrite (arg_one r E2). unfold q_get. now rewrite H2, H3, E3.
  - eexists _, _. split; [reflexivity|]. cbn [fst snd reply_of]. split; [|reflexivity]. unfold qrep, oq_clear, q_clear. cbn. auto.
Qed.
Lemma q_run_sim ops : forall oq q, qrep oq q -> Forall (qop_ok c) ops ->
  exists tr, oq_run c oq ops = Some tr /\ seen c tr = q_run d q (map (qop_of c) ops).
Proof.
  induction ops as [|op ops IH]; intros oq q HR HO; [exists []; auto|]. inversion HO as [|? ? O1 O2]; subst.
  destruct (q_step_sim oq q op HR O1) as [oq' [r [E1 [E2 E3]]]]. cbn [oq_run map q_run]. rewrite E1. destruct (q_step d q (qop_of c op)) as [q' rr] eqn:EQ. cbn [fst snd] in *.
  destruct (IH oq' q' E2 O2) as [tr [E4 E5]]. rewrite E4. cbn [option_map]. eexists. split; [reflexivity|]. cbn [seen map fst snd]. fold (seen c tr). rewrite E5, E3. f_equal. f_equal.
  destruct E2 as [_ [_ [F1 F2]]]. unfold oq_size, q_size. now rewrite F1, F2.
Qed.
Definition srep (os : ostack) (s : stack obj) : Prop := batched c [n] (os_store os) /\ s_store s = rows n (os_store os) /\ s_size s = os_size os.
Lemma s_peek_sim os s k : srep os s -> exists r, os_peek os k = Some r /\ arg_of c r = s_peek d s k.
Proof.
  intros [H1 [H2 H3]]. destruct (read_sim (os_store os) (u32 (os_size os - 1)) (map (fun j => i32 (os_size os - j)) (arange_down k)) k H1) as [r [E1 E2]]; [now rewrite map_length, arange_down_len|].
  exists r. unfold os_peek, s_peek. rewrite H2, H3. split; [exact E1|]. rewrite E2. now rewrite map_map.
Qed.
Lemma s_step_sim os s op : srep os s -> sop_ok c op ->
  exists os' r, os_step c os op = Some (os', r) /\ srep os' (fst (s_step d s (sop_of c op))) /\ reply_of c r = snd (s_step d s (sop_of c op)).
Proof.
  intros HR HO. pose proof HR as [H1 [H2 H3]]. destruct op as [items|k|k|i]; cbn [os_step sop_of s_step sop_ok] in *.
  - unfold os_push. destruct HO as [HI|[k HI]]; rewrite (batch_is _ _ HI); cbn [option_map fst snd].
    + rewrite (arg_one _ HI). cbn [s_push]. destruct (C45_set_one c n (os_store os) (os_size os) items H1 HI) as [S1 S2].
      eexists _, _. split; [reflexivity|]. split; [|reflexivity]. unfold srep. cbn [os_store os_size s_store s_size]. rewrite H2, H3, S2. auto.
    + rewrite (arg_many _ _ HI). cbn [s_push]. rewrite rows_length. set (zs := map (fun j => i32 (os_size os + j)) (arange k)).
      assert (HL : length zs = k) by (unfold zs; now rewrite map_length, arange_len).
      destruct (C45_set_many c n (os_store os) zs items H1) as [S1 S2]; [now rewrite HL|].
      eexists _, _. split; [reflexivity|]. split; [|reflexivity]. unfold srep. cbn [os_store os_size s_store s_size]. rewrite H2, H3. fold zs. rewrite HL in S2. rewrite S2. auto.
  - destruct (s_peek_sim os s k HR) as [r [E1 E2]]. unfold os_pop. rewrite E1. cbn [option_map fst snd s_pop]. eexists _, _. split; [reflexivity|]. cbn [fst snd reply_of]. rewrite E2. split; [|reflexivity].
    unfold srep. cbn [os_store os_size s_store s_size]. rewrite H2, H3. auto.
  - destruct (s_peek_sim os s k HR) as [r [E1 E2]]. rewrite E1. cbn [option_map]. eexists _, _. split; [reflexivity|]. cbn [fst snd reply_of]. rewrite E2. auto.
  - unfold os_get. destruct (C45_get_one c n (os_store os) (Z.of_nat i) d H1 Hn) as [r [E1 [E2 E3]]]. rewrite E1. cbn [option_map]. eexists _, _. split; [reflexivity|]. cbn [fst snd reply_of].
    split; [exact HR|]. rewrite (arg_one r E2). unfold s_get. now rewrite H2, E3.
Qed.
Lemma s_run_sim ops : forall os s, srep os s -> Forall (sop_ok c) ops ->
  exists tr, os_run c os ops = Some tr /\ seen c tr = s_run d s (map (sop_of c) ops).
Proof.
  induction ops as [|op ops IH]; intros os s HR HO; [exists []; auto|]. inversion HO as [|? ? O1 O2]; subst.
  destruct (s_step_sim os s op HR O1) as [os' [r [E1 [E2 E3]]]]. cbn [os_run map s_run]. rewrite E1. destruct (s_step d s (sop_of c op)) as [s' rr] eqn:EQ. cbn [fst snd] in *.
  destruct (IH os' s' E2 O2) as [tr [E4 E5]]. rewrite E4. cbn [option_map]. eexists. split; [reflexivity|]. cbn [seen map fst snd]. fold (seen c tr). rewrite E5, E3. f_equal. f_equal.
  destruct E2 as [_ [_ F1]]. now rewrite F1.
Qed.
End Sim.

(** every history of calls on a queue of instances, legal or not, never raises and is
    observably the history of a queue holding a list of instances *)
Theorem C45_queue_of_instances : forall c max_size ops, c <> CNil -> solid c -> max_size <> 0 -> Forall (qop_ok c) ops ->
  exists tr, oq_run c (oq_build c max_size) ops = Some tr /\
    seen c tr = q_run (default_obj [] c) (q_build (default_obj [] c) max_size) (map (qop_of c) ops).
Proof.
  intros c n ops HN HS Hn HO. apply (q_run_sim c n); auto. destruct (C45_default_rows c n) as [D1 D2]. split; [exact D1|]. cbn [oq_build oq_store q_build q_store q_head q_tail oq_head oq_tail]. auto.
Qed.
Print Assumptions C45_queue_of_instances.
(** hence a legal history is first-in first-out on the instances themselves, in all fields *)
Theorem C45_queue_is_fifo : forall c max_size ops, c <> CNil -> solid c -> (0 < Z.of_nat max_size < 2 ^ 31)%Z -> Forall (qop_ok c) ops ->
  q_legal max_size 0 [] (map (qop_of c) ops) ->
  exists tr, oq_run c (oq_build c max_size) ops = Some tr /\ seen c tr = fifo_run (default_obj [] c) [] (map (qop_of c) ops).
Proof.
  intros c n ops HN HS Hn HO HL. destruct (C45_queue_of_instances c n ops HN HS ltac:(lia) HO) as [tr [E1 E2]]. exists tr. split; [exact E1|]. rewrite E2. apply C01_queue_is_fifo; [lia|exact HL].
Qed.
Print Assumptions C45_queue_is_fifo.
Theorem C45_stack_of_instances : forall c max_size ops, c <> CNil -> solid c -> max_size <> 0 -> Forall (sop_ok c) ops ->
  exists tr, os_run c (os_build c max_size) ops = Some tr /\
    seen c tr = s_run (default_obj [] c) (s_build (default_obj [] c) max_size) (map (sop_of c) ops).
Proof.
  intros c n ops HN HS Hn HO. apply (s_run_sim c n); auto. destruct (C45_default_rows c n) as [D1 D2]. split; [exact D1|]. cbn [os_build os_store s_build s_store s_size os_size]. auto.
Qed.
Theorem C45_stack_is_lifo : forall c max_size ops, c <> CNil -> solid c -> (0 < Z.of_nat max_size < 2 ^ 31)%Z -> Forall (sop_ok c) ops ->
  s_legal (default_obj [] c) max_size [] (map (sop_of c) ops) ->
  exists tr, os_run c (os_build c max_size) ops = Some tr /\ seen c tr = lifo_run (default_obj [] c) [] (map (sop_of c) ops).
Proof.
  intros c n ops HN HS Hn HO HL. destruct (C45_stack_of_instances c n ops HN HS ltac:(lia) HO) as [tr [E1 E2]]. exists tr. split; [exact E1|]. rewrite E2. apply C03_stack_is_lifo; [lia|exact HL].
Qed.
Print Assumptions C45_stack_is_lifo.
(** items that are neither single nor a one-dimensional batch are refused *)
Theorem C45_bad_items_raise : forall c q s bad B, batched c B bad -> c <> CNil -> solid c -> 2 <= length B ->
  oq_enqueue c q bad = None /\ os_push c s bad = None.
Proof.
  intros c q s bad B [HC HB] HN HS HL. unfold oq_enqueue, os_push. rewrite (proj2 (C40_reports c bad B HN HS HC) HB).
  destruct B as [|x [|y B]]; cbn [length] in HL; try lia. auto.
Qed.
