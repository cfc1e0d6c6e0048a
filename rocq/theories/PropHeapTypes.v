(** * PropHeapTypes.v — property C74: keys of another dtype than the queue's. *)
From Coq Require Import String.
From Verif Require Import StructModel ArrayModel EqModel FloatEq PropSafeCast PromoteModel FloatRound PropPromote PropMixed3 Jax KeyModel SortProofs HeapModel HeapSpec HeapProofs HeapInsert HeapInv HeapDelete PropHeap HeapFloat FloatOrder HeapFloatSim PropHeapFloat HeapTypes.

(** ** dtypes: accepted exactly when the queue's dtype is the common dtype; then nothing changes *)
Theorem C74_types : forall x64 d e, available x64 d -> available x64 e ->
  insert_t x64 (MkQT d d) e = (if dtype_eqb (result_type x64 [d; e]) d then Some (MkQT d d) else None) /\
  delete_t x64 (MkQT d d) = Some (MkQT d d).
Proof.
  intros x64 d e [Sd Ad] [Se Ae]. unfold insert_t, delete_t, merge_buffer_t, update_path_t, merge_t. cbn [qstore qbuffer].
  destruct d as [|a|a|a]; cbn [standard] in Sd; [|destruct Sd as [-> |[-> |[-> | ->]]]..|destruct Sd as [-> |[-> | ->]]]; (destruct e as [|b|b|b]; cbn [standard] in Se; [|destruct Se as [-> |[-> |[-> | ->]]]..|destruct Se as [-> |[-> | ->]]]);
    destruct x64; try (exfalso; specialize (Ad eq_refl); intuition congruence); try (exfalso; specialize (Ae eq_refl); intuition congruence); vm_compute; split; reflexivity.
Qed.
(** a queue with float keys takes every integer dtype and every float dtype that is not wider *)
Theorem C74_accepts : forall x64 w e, available x64 (DFloat w) -> available x64 e ->
  (insert_t x64 (MkQT (DFloat w) (DFloat w)) e = Some (MkQT (DFloat w) (DFloat w)) <-> (forall v, e = DFloat v -> v <= w)) /\
  (insert_t x64 (MkQT (DFloat w) (DFloat w)) e = None <-> exists v, e = DFloat v /\ w < v).
Proof.
  intros x64 w e Ad Ae. rewrite (proj1 (C74_types x64 (DFloat w) e Ad Ae)). destruct Ad as [Sd Ad], Ae as [Se Ae]. cbn [standard] in Sd.
  assert (K : forall v, DFloat v = e -> v <= w <-> dtype_eqb (result_type x64 [DFloat w; e]) (DFloat w) = true).
  { intros v <-. cbn [standard] in Se. destruct Sd as [-> |[-> | ->]], Se as [-> |[-> | ->]], x64; try (exfalso; specialize (Ad eq_refl); intuition congruence); try (exfalso; specialize (Ae eq_refl); intuition congruence); vm_compute; (split; [intros; try reflexivity; exfalso; lia|intros; try discriminate; lia]). }
  destruct e as [|v|v|v].
  4: { specialize (K v eq_refl). destruct (dtype_eqb _ _); split; split; intros H; try reflexivity; try discriminate.
    - intros v' [= <-]. now apply K.
    - destruct H as (v' & [= <-] & H). assert (v <= w) by now apply K. lia.
    - exfalso. specialize (H v eq_refl). apply K in H. discriminate.
    - exists v. split; [reflexivity|]. destruct (Nat.le_gt_cases v w) as [C|C]; [|exact C]. apply K in C. discriminate. }
  all: assert (dtype_eqb (result_type x64 [DFloat w; _]) (DFloat w) = true) as -> by (destruct Sd as [-> |[-> | ->]], x64; try (exfalso; specialize (Ad eq_refl); intuition congruence); reflexivity);
    split; split; intros H; try reflexivity; try discriminate; destruct H as (v' & H & _); discriminate.
Qed.
(** so through every history both arrays keep the dtype they were built with *)
Fixpoint types_run (x64 : bool) (h : qtypes) (ops : list (option dtype)) : option qtypes :=
  match ops with
  | [] => Some h
  | Some e :: t => match insert_t x64 h e with Some h' => types_run x64 h' t | None => None end
  | None :: t => match delete_t x64 h with Some h' => types_run x64 h' t | None => None end
  end.
Theorem C74_types_history : forall x64 d ops h, available x64 d -> (forall e, In (Some e) ops -> available x64 e) ->
  types_run x64 (MkQT d d) ops = Some h -> h = MkQT d d /\ forall e, In (Some e) ops -> result_type x64 [d; e] = d.
Proof.
  intros x64 d ops h Ad. induction ops as [|[e|] ops IH]; intros HA HR; cbn [types_run] in HR.
  - injection HR as <-. split; [reflexivity|]. intros e [].
  - rewrite (proj1 (C74_types x64 d e Ad (HA e (or_introl eq_refl)))) in HR. unfold dtype_eqb in HR. destruct (dtype_eq_dec (result_type x64 [d; e]) d) as [E|]; [|discriminate]. destruct (IH ltac:(intros; apply HA; now right) HR) as [-> K]. split; [reflexivity|]. intros e' [[= <-]|H]; [exact E|now apply K].
  - rewrite (proj2 (C74_types x64 d d Ad Ad)) in HR. destruct (IH ltac:(intros; apply HA; now right) HR) as [-> K]. split; [reflexivity|]. intros e' [H|H]; [discriminate|now apply K].
Qed.

(** ** keys *)
Local Open Scope Z_scope.
Lemma fsle_vals w x y : float_width w -> pat w x -> pat w y -> (exists vx vy, fval w x = Some vx /\ fval w y = Some vy /\ vx <= vy) -> fsle w x y = true.
Proof.
  intros HW Hx Hy (vx & vy & E1 & E2 & HL). unfold fsle.
  assert (N : forall z v, pat w z -> fval w z = Some v -> is_nan w z = false) by (intros z v Hz Ev; destruct (is_nan w z) eqn:EN; [apply (is_nan_spec w HW) in EN; [congruence|exact Hz]|reflexivity]).
  rewrite (N x vx), (N y vy) by assumption. cbn [negb orb andb]. apply Z.leb_le. now apply (fval_ford w HW x y vx vy Hx Hy E1 E2).
Qed.
Lemma ford_bounds w z : float_width w -> is_nan w z = false -> - inf_pat w <= ford w z <= inf_pat w.
Proof. intros HW H. unfold is_nan in H. apply Z.ltb_ge in H. pose proof (fmag_range w HW z). unfold ford. destruct (fneg w z); lia. Qed.
Lemma ford_inf w z neg : infinite (DFloat w) neg z -> ford w z = if neg then - inf_pat w else inf_pat w.
Proof. intros [E1 E2]. unfold ford, fneg. now rewrite E1, E2. Qed.
(** converting keys never inverts their order, whatever the dtype they come from *)
Theorem C74_key_order : forall w e x y, float_width w -> standard e -> in_dtype e x -> in_dtype e y -> ele e x y = true ->
  fsle w (conv e (DFloat w) x) (conv e (DFloat w) y) = true.
Proof.
  intros w e x y HW He Hx Hy HL.
  assert (FW : standard (DFloat w)) by exact HW. pose proof (C72_lands e (DFloat w) x He FW Hx) as L1. pose proof (C72_lands e (DFloat w) y He FW Hy) as L2.
  assert (NUM : forall a b, represents e x a -> represents e y b -> a <= b -> fsle w (conv e (DFloat w) x) (conv e (DFloat w) y) = true).
  { intros a b Ra Rb Hab. apply (fsle_vals w _ _ HW L1 L2). exact (C72_monotone e e w x y a b He He HW Hx Hy Ra Rb Hab). }
  destruct e as [|v|v|v].
  1-3: cbn [ele] in HL; apply Z.leb_le in HL; eapply NUM; [reflexivity|reflexivity|]; assert (0 < 2 ^ 1074) as P by (apply Z.pow_pos_nonneg; lia); revert P; generalize (2 ^ 1074); intros q P; nia.
  cbn [standard] in He. cbn [ele] in HL. unfold fsle in HL. destruct (is_nan v y) eqn:NY.
  { unfold fsle. now rewrite (proj1 (C72_specials v w y He HW Hy) NY). }
  cbn [orb] in HL. apply andb_true_iff in HL. destruct HL as [NX HL]. apply negb_true_iff in NX. apply Z.leb_le in HL.
  assert (NC : forall z, in_dtype (DFloat v) z -> is_nan v z = false -> is_nan w (conv (DFloat v) (DFloat w) z) = false).
  { intros z Hz NZ. destruct (entry_cases (DFloat v) z He Hz) as [[a Ra]|[(v0 & neg & [= <-] & Hi)|(v0 & [= <-] & Hn)]]; [|exact (inf_not_nan w _ neg (inf_conv v w z neg He HW Hz Hi))|congruence].
    destruct (C72_monotone (DFloat v) (DFloat v) w z z a a He He HW Hz Hz Ra Ra (Z.le_refl a)) as (q & _ & Eq & _). destruct (is_nan w _) eqn:EN; [|reflexivity]. apply (is_nan_spec w HW) in EN; [congruence|]. exact (C72_lands (DFloat v) (DFloat w) z He HW Hz). }
  pose proof (NC x Hx NX) as CX. pose proof (NC y Hy NY) as CY. pose proof (ford_bounds w _ HW CX) as BX. pose proof (ford_bounds w _ HW CY) as BY.
  destruct (entry_cases (DFloat v) x He Hx) as [[a Ra]|[(v0 & neg & [= <-] & Hi)|(v0 & [= <-] & Hn)]]; [| |congruence].
  - destruct (entry_cases (DFloat v) y He Hy) as [[b Rb]|[(v0 & neg' & [= <-] & Hi')|(v0 & [= <-] & Hn)]]; [| |congruence].
    + apply (NUM a b Ra Rb). destruct Ra as (va & Ea & _ & ->), Rb as (vb & Eb & _ & ->). apply (fval_ford v He x y va vb Hx Hy Ea Eb) in HL. assert (0 < 2 ^ (1074 - units v)) by (apply Z.pow_pos_nonneg; [lia|pose proof (units_small v He); lia]). nia.
    + rewrite (ford_inf v y neg' Hi') in HL. destruct neg'.
      * exfalso. apply (represents_float v He x a Hx) in Ra. destruct Ra as [Ra _]. pose proof (ford_finite v He x ltac:(unfold ffinite; apply Z.ltb_lt; exact Ra)). lia.
      * unfold fsle. rewrite CX, CY. cbn [negb orb andb]. apply Z.leb_le. rewrite (ford_inf w _ false (inf_conv v w y false He HW Hy Hi')). lia.
  - rewrite (ford_inf v x neg Hi) in HL. unfold fsle. rewrite CX, CY. cbn [negb orb andb]. apply Z.leb_le. destruct neg.
    + rewrite (ford_inf w _ true (inf_conv v w x true He HW Hx Hi)). lia.
    + destruct (entry_cases (DFloat v) y He Hy) as [[b Rb]|[(v0 & neg' & [= <-] & Hi')|(v0 & [= <-] & Hn)]]; [| |congruence].
      * exfalso. apply (represents_float v He y b Hy) in Rb. destruct Rb as [Rb _]. pose proof (ford_finite v He y ltac:(unfold ffinite; apply Z.ltb_lt; exact Rb)). lia.
      * rewrite (ford_inf v y neg' Hi') in HL. pose proof (inf_pat_pos v He). destruct neg'; [lia|]. rewrite (ford_inf w _ false (inf_conv v w x false He HW Hx Hi)), (ford_inf w _ false (inf_conv v w y false He HW Hy Hi')). lia.
Qed.
Local Close Scope Z_scope.
Section S.
Variables (w : nat) (e : dtype).
Hypothesis HW : float_width w.
Hypothesis He : standard e.
Context {V : Type}.
Notation frow := (list (Z * V)%type).
Notation okb := (fun p : Z * V => in_dtype e (fst p)).
Lemma ele_total x y : ele e x y = false -> ele e y x = true.
Proof.
  destruct e as [|v|v|v]; cbn [ele]; [intros H; apply Z.leb_gt in H; apply Z.leb_le; lia..|]. unfold fsle. destruct (is_nan v y), (is_nan v x); cbn [negb orb andb]; try reflexivity; try discriminate. intros H. apply Z.leb_gt in H. apply Z.leb_le. lia.
Qed.
Lemma einsert_perm (x : Z * V) (l : frow) : Permutation (einsert e x l) (x :: l).
Proof. induction l as [|y t IH]; [reflexivity|]. cbn [einsert]. destruct (ele e (fst x) (fst y)); [reflexivity|]. rewrite IH. apply perm_swap. Qed.
Lemma esort_perm (l : frow) : Permutation (esort e l) l.
Proof. unfold esort. induction l as [|x t IH]; [reflexivity|]. cbn [fold_right]. rewrite einsert_perm. now apply perm_skip. Qed.
(** adjacent elements in order is enough: the sort of the converted list leaves it *)
Inductive chain : frow -> Prop := ch0 : chain [] | ch1 x : chain [x] | ch2 x y l : ele e (fst x) (fst y) = true -> chain (y :: l) -> chain (x :: y :: l).
Lemma einsert_chain (x : Z * V) (l : frow) : chain l -> chain (einsert e x l).
Proof.
  induction 1 as [|y|y z l Hyz Hl IH]; cbn [einsert]; [constructor| |].
  - destruct (ele e (fst x) (fst y)) eqn:E; constructor; [exact E|constructor|now apply ele_total|constructor].
  - destruct (ele e (fst x) (fst y)) eqn:E; [constructor; [exact E|now constructor]|]. cbn [einsert] in IH. destruct (ele e (fst x) (fst z)) eqn:E2; constructor; try exact IH; [now apply ele_total|exact Hyz].
Qed.
Lemma esort_chain (l : frow) : chain (esort e l).
Proof. unfold esort. induction l as [|x t IH]; [constructor|]. cbn [fold_right]. now apply einsert_chain. Qed.
Lemma conv_sorted (l : frow) : Forall okb l -> chain l -> fsort w (map (conv_key w e) l) = map (conv_key w e) l.
Proof.
  intros HO HC. induction HC as [|x|x y l Hxy Hl IH]; [reflexivity|reflexivity|]. inversion HO as [|? ? O1 O2]; subst. inversion O2 as [|? ? O3 O4]; subst.
  cbn [map] in *. unfold fsort in *. cbn [fold_right] in *. specialize (IH O2). rewrite IH. cbn [fsinsert fst conv_key]. now rewrite (C74_key_order w e _ _ HW He O1 O3 Hxy).
Qed.
(** inserting keys of an accepted dtype is inserting the converted keys, the block being first put
    in the order of the original keys *)
Theorem C74_insert : forall x64 (h : fheap V) block, available x64 (DFloat w) -> available x64 e -> (forall v, e = DFloat v -> v <= w) -> Forall okb block ->
  insert_p w x64 e h block = Some (finsert w h (map (conv_key w e) (esort e block))).
Proof.
  intros x64 h block Ad Ae HA HO. unfold insert_p. rewrite (proj2 (proj1 (C74_accepts x64 w e Ad Ae)) HA). f_equal. unfold finsert. fold (insert_sorted w h (fsort w (map (conv_key w e) (esort e block)))).
  rewrite conv_sorted; [reflexivity| |apply esort_chain]. rewrite Forall_forall in *. intros p Hp. apply HO. exact (Permutation_in _ (esort_perm block) Hp).
Qed.
Theorem C74_rejects : forall x64 (h : fheap V) block, available x64 (DFloat w) -> available x64 e -> (exists v, e = DFloat v /\ w < v) -> insert_p w x64 e h block = None.
Proof. intros x64 h block Ad Ae HA. unfold insert_p. now rewrite (proj2 (proj2 (C74_accepts x64 w e Ad Ae)) HA). Qed.
End S.

(** ** every history *)
(** what a history means for the bag: the block with its keys converted to the queue's dtype *)
Definition as_fop (w : nat) {V} (o : pop V) : fop V := match o with PIns e block => FIns (map (conv_key w e) block) | PDel => FDel end.
(** accepted dtype, keys of that dtype, batch_size of them; none becomes -inf *)
Definition plegal (x64 : bool) (w B : nat) {V} (o : pop V) : Prop :=
  match o with
  | PIns e block => available x64 e /\ (forall v, e = DFloat v -> v <= w) /\ length block = B /\
      (forall p, In p block -> in_dtype e (fst p) /\ conv e (DFloat w) (fst p) <> neg_inf w)
  | PDel => True
  end.
Lemma ffin_perm (w : nat) {V} (l l' : list (Z * V)) : Permutation l l' -> Permutation (ffin w l) (ffin w l').
Proof. intros H. unfold ffin. induction H as [|x l l' H IH|x y l|l l' l'' H1 IH1 H2 IH2]; cbn [filter]; [constructor|destruct (ffinite w (fst x)); [now constructor|exact IH]|destruct (ffinite w (fst x)), (ffinite w (fst y)); try apply perm_swap; reflexivity|now rewrite IH1]. Qed.
Lemma fins_spec_perm (w B cap : nat) {V} (bag l l' bag' : list (Z * V)) : Permutation l l' -> fins_spec w B cap bag l bag' -> fins_spec w B cap bag l' bag'.
Proof.
  intros HP H. pose proof (ffin_perm w l l' HP) as HF. pose proof (Permutation_length HF) as HL. destruct H as [H1 H2|low rest ev H1 H2 H3 H4 H5 H6 H7].
  - apply fins_fits; [lia|]. rewrite H2. now apply Permutation_app_head.
  - apply (fins_evicts w B cap bag l' bag' low rest ev); try assumption; [lia|]. rewrite H5. now apply Permutation_app_head.
Qed.
Theorem C74_every_history : forall x64 (w : nat) (V : Type) (total B : nat) (dv : V) ops,
  available x64 (DFloat w) -> params_ok total B -> Forall (plegal x64 w B) ops ->
  exists h obs, prun w x64 (fbuild w dv total B) ops = Some (h, obs) /\
    fpq_trace w B (((total + B - 1) / B) * B) [] (map (as_fop w) ops) obs (fcontents w h).
Proof.
  intros x64 w V total B dv ops Ad HP HF. pose proof (available_standard x64 _ Ad) as HW. cbn [standard] in HW.
  set (srt := fun o : pop V => match o with PIns e block => FIns (map (conv_key w e) (esort e block)) | PDel => FDel end).
  assert (HL : Forall (flegal w B) (map srt ops)).
  { rewrite Forall_forall in *. intros o Ho. apply in_map_iff in Ho. destruct Ho as (q & <- & Hq). specialize (HF q Hq). destruct q as [e block|]; [|exact Coq.Init.Logic.I]. cbn [srt flegal]. destruct HF as (Ae & HA & HB & HK). split; [rewrite map_length; rewrite (Permutation_length (esort_perm e block)); exact HB|].
    intros x Hx. apply in_map_iff in Hx. destruct Hx as (p & <- & Hx). apply (Permutation_in _ (esort_perm e block)) in Hx. destruct (HK p Hx) as [K1 K2]. cbn [conv_key fst]. split; [|exact K2]. exact (C72_lands e (DFloat w) (fst p) (available_standard x64 e Ae) HW K1). }
  destruct (C57_every_history w V total B dv (map srt ops) HW HP HL) as (h & obs & R1 & R2). exists h, obs. split.
  - clear R2 HL. revert R1. generalize (fbuild w dv total B) as h0. revert h obs. induction HF as [|o ops Ho HF IH]; intros h obs h0 R1; [exact R1|]. cbn [map] in R1. destruct o as [e block|]; cbn [srt frun prun] in *.
    + destruct Ho as (Ae & HA & HB & HK). rewrite (C74_insert w e HW (available_standard x64 e Ae) x64 h0 block Ad Ae HA) by (rewrite Forall_forall; intros p Hp; apply (HK p Hp)).
      destruct (frun w _ (map srt ops)) as [[hf ob]|] eqn:ER; [|discriminate]. injection R1 as <- <-. now rewrite (IH hf ob _ ER).
    + destruct (fdelete_mins w h0) as [[h' out]|]; [|discriminate]. destruct (frun w h' (map srt ops)) as [[hf ob]|] eqn:ER; [|discriminate]. injection R1 as <- <-. now rewrite (IH hf ob _ ER).
  - clear R1 HL HF. revert R2. generalize (@nil (Z * V)) as bag, obs. induction ops as [|o ops IH]; intros bag ob R2; cbn [map] in *; [exact R2|]. destruct o as [e block|]; cbn [srt as_fop] in *.
    + inversion R2 as [|? ? bag' ? ob' ? H1 H2 |]; subst. econstructor; [|exact (IH _ _ H2)]. eapply fins_spec_perm; [|exact H1]. apply Permutation_map. apply esort_perm.
    + inversion R2 as [| |? ? bag' ? ob' ? H1 H2]; subst. econstructor; [exact H1|]. exact (IH _ _ H2).
Qed.
(** a key of a wider float dtype makes the whole history raise *)
Theorem C74_wider_raises : forall x64 (w v : nat) (V : Type) (h : fheap V) ops e block, available x64 (DFloat w) -> available x64 (DFloat v) -> w < v -> In (PIns e block) ops -> e = DFloat v -> prun w x64 h ops = None.
Proof.
  intros x64 w v V h ops e block Ad Av HL HI ->. revert h. induction ops as [|o ops IH]; intros h; [destruct HI|]. cbn [prun]. destruct HI as [-> |HI].
  - rewrite (C74_rejects w (DFloat v) x64 h block Ad Av); [reflexivity|eauto].
  - destruct o as [e' b'|].
    + destruct (insert_p w x64 e' h b') as [h'|]; [|reflexivity]. now rewrite (IH HI h').
    + destruct (fdelete_mins w h) as [[h' out]|]; [|reflexivity]. now rewrite (IH HI h').
Qed.

(** ** which keys are stored *)
Local Open Scope Z_scope.
(** an integer key is stored unless it is beyond the largest number of the queue's dtype by half a
    unit or more; in the default float16 queue: from 65520 on *)
Theorem C74_stored : forall w e z, float_width w -> standard e -> is_float e = false -> in_dtype e z ->
  (ffinite w (conv e (DFloat w) z) = true <-> 2 * Z.abs z * 2 ^ 1074 < 2 * beyond w - beyond w / 2 ^ (man_bits w + 1)).
Proof.
  intros w e z HW He Hf HD. assert (HR : represents e z (z * 2 ^ 1074)) by (destruct e; try discriminate; reflexivity). destruct (C72_overflow e w z _ He HW HD HR) as [OV _].
  assert (NN : is_nan w (conv e (DFloat w) z) = false).
  { destruct (C72_monotone e e w z z _ _ He He HW HD HD HR HR (Z.le_refl _)) as (q & _ & Eq & _). destruct (is_nan w _) eqn:EN; [|reflexivity]. apply (is_nan_spec w HW) in EN; [congruence|]. exact (C72_lands e (DFloat w) z He HW HD). }
  unfold is_nan in NN. apply Z.ltb_ge in NN. unfold ffinite. rewrite Z.ltb_lt. assert (P : 0 < 2 ^ 1074) by (apply Z.pow_pos_nonneg; lia). rewrite Z.abs_mul, (Z.abs_eq (2 ^ 1074)) in OV by lia. rewrite Z.mul_assoc in OV. lia.
Qed.
Theorem C74_stored_float16 : forall e z, standard e -> is_float e = false -> in_dtype e z -> (ffinite 16 (conv e (DFloat 16) z) = true <-> Z.abs z < 65520).
Proof.
  intros e z He Hf HD. rewrite (C74_stored 16 e z (or_introl eq_refl) He Hf HD).
  assert (E : 2 * beyond 16 - beyond 16 / 2 ^ (man_bits 16 + 1) = 131040 * 2 ^ 1074) by (vm_compute; reflexivity). rewrite E. assert (P : 0 < 2 ^ 1074) by (apply Z.pow_pos_nonneg; lia). revert P. generalize (2 ^ 1074). intros q P. nia.
Qed.
Local Close Scope Z_scope.
(** so integer keys can be lost, and different keys can tie and come out in the wrong order *)
Definition i32item (z : Z) : Z * Z := (z, z).
Theorem C74_int_keys_are_stored_refuted :
  ~ (forall x64 (V : Type) (dv : V) block h obs, plegal x64 16 2 (PIns (DInt 32) block) ->
       prun 16 x64 (fbuild 16 dv 6 2) [PIns (DInt 32) block] = Some (h, obs) -> length (fcontents 16 h) = length block).
Proof.
  intros H. specialize (H false Z 0%Z [i32item 70000; i32item 3]). destruct (prun 16 false (fbuild 16 0%Z 6 2) [PIns (DInt 32) [i32item 70000; i32item 3]]) as [[h obs]|] eqn:E; [|vm_compute in E; discriminate].
  specialize (H h obs). assert (C : length (fcontents 16 h) = 1%nat) by (vm_compute in E; injection E as <- _; vm_compute; reflexivity). rewrite C in H. discriminate H; [|reflexivity].
  split; [split; [right; right; now left|intros _; repeat split; discriminate]|]. split; [discriminate|]. split; [reflexivity|]. intros p [<-|[<-|[]]]; (split; [cbn; lia|intros D; vm_compute in D; discriminate D]).
Qed.
Theorem C74_int_order_refuted :
  exists h obs, prun 16 false (fbuild 16 0%Z 2 1) [PIns (DInt 32) [i32item 2049]; PIns (DInt 32) [i32item 2048]; PDel] = Some (h, obs) /\
    Forall (plegal false 16 1) [PIns (DInt 32) [i32item 2049]; PIns (DInt 32) [i32item 2048]; PDel] /\ obs = [([], 1); ([], 2); ([(0x6800, 2049)], 1)]%Z.
Proof.
  eexists. eexists. split; [vm_compute; reflexivity|]. split; [|reflexivity].
  constructor; [|constructor; [|constructor; [exact Coq.Init.Logic.I|constructor]]].
  all: split; [split; [right; right; now left|intros _; repeat split; discriminate]|]; split; [discriminate|]; split; [reflexivity|]; intros p [<-|[]]; (split; [cbn; lia|intros D; vm_compute in D; discriminate D]).
Qed.
(** ** A concrete history: int32, float16 and bool keys in a float32 queue *)
Example C74_example : Forall (plegal false 32 2) [PIns (DInt 32) [(7, 1); (-3, 2)]; PIns (DFloat 16) [(0x3800, 3); (0x7C00, 4)]; PIns DBool [(1, 5); (0, 6)]; PDel]%Z /\
  insert_t false (MkQT (DFloat 32) (DFloat 32)) (DInt 32) = Some (MkQT (DFloat 32) (DFloat 32)) /\ insert_t false (MkQT (DFloat 16) (DFloat 16)) (DFloat 32) = None /\
  exists h obs, prun 32 false (fbuild 32 0%Z 6 2) [PIns (DInt 32) [(7, 1); (-3, 2)]; PIns (DFloat 16) [(0x3800, 3); (0x7C00, 4)]; PIns DBool [(1, 5); (0, 6)]; PDel]%Z = Some (h, obs) /\
    obs = [([], 2); ([], 3); ([], 5); ([(0xC0400000, 2); (0, 6)], 3)]%Z.
Proof.
  split; [|split; [reflexivity|split; [reflexivity|]]].
  - repeat (constructor; [first [exact Coq.Init.Logic.I|split; [split; [first [exact Coq.Init.Logic.I|now left|right; right; now left]|intros _; repeat split; discriminate]|]; split; [intros v [= <-]; lia|]; split; [reflexivity|]; intros p [<-|[<-|[]]]; (split; [cbn; lia|intros D; vm_compute in D; discriminate D])]|]). constructor.
  - eexists. eexists. split; vm_compute; reflexivity.
Qed.
Print Assumptions C74_types. Print Assumptions C74_accepts. Print Assumptions C74_types_history. Print Assumptions C74_key_order. Print Assumptions C74_insert. Print Assumptions C74_rejects. Print Assumptions C74_every_history. Print Assumptions C74_wider_raises. Print Assumptions C74_stored. Print Assumptions C74_stored_float16. Print Assumptions C74_int_keys_are_stored_refuted. Print Assumptions C74_int_order_refuted.
