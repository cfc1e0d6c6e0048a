(** * PropSplit.v — C62: results do not depend on how the work is split or ordered. *)
From Verif Require Import Jax KeyModel HashModel HashProofs StableSort TableModel ProbeProofs TableLookup TableInv TableInsert ResolveProofs TableRounds TableCommit TableBound DedupeModel DedupeSpec DedupeProofs DedupeExact ParInsertModel ParInsert ParEffect Claims TritonModel TritonProofs PallasModel PallasProofs TableSpec TableHistory PropTable.

(** ** Hash table *)
Section Table.
Context {item : Type} (T : dataclass item) (C : settings).
Notation table := (@table item).
Notation d := (dc_default T).
Notation hp := (hash_pair T).

(** the calls of a program *)
Inductive call := CInsert (x : item) | CBatch (be : backend) (xs : list item) (f : fillarg) (uk : option (list costval)).
Inductive does : table -> call -> table -> Prop :=
  | does_insert t x t' ok i : Insert T t x = Some (t', ok, i) -> does t (CInsert x) t'
  | does_batch t be xs f uk t' ins uniq idx : mask_ok xs f -> ParallelInsert T C be t xs f uk (t', ins, uniq, idx) ->
      does t (CBatch be xs f uk) t'.
Inductive program : table -> list call -> table -> Prop :=
  | program_nil t : program t [] t
  | program_cons t c t1 cs t2 : does t c t1 -> program t1 cs t2 -> program t (c :: cs) t2.
(** the items the calls ask to store *)
Definition asks (c : call) (x : item) : Prop :=
  match c with CInsert y => y = x | CBatch _ xs f _ => exists q, is_filled xs f q /\ nth q xs d = x end.
Definition asked (cs : list call) (x : item) : Prop := exists c, In c cs /\ asks c x.
(** [R] bounds the number of different items asked for *)
Definition at_most (R : nat) (P : item -> Prop) : Prop := exists U, length U <= R /\ forall x, P x -> In x U.
(** a batch that cannot lose an item in a table with the shape of [t] while at most [R]
    items are stored *)
Definition lossless (t : table) (R : nat) (c : call) : Prop :=
  match c with
  | CInsert _ => True
  | CBatch be xs f uk =>
      dedupe_reliable T C xs (mask_list (length xs) f) uk /\
      match be with
      | XLA => let m := trues (mask_list (length xs) f) in R + m <= slots t /\ (N.of_nat (rounds_needed m (R / bsz t)) <= maxp t)%N
      | Triton maxb | Pallas maxb _ => cap t <= maxb
      end
  end.
Definition present (t : table) (x : item) : Prop := exists i, Lookup T t x = Some (i, true).

Lemma nodup_fst {A B} (l : list (A * B)) x i j : NoDup (map fst l) -> In (x, i) l -> In (x, j) l -> i = j.
Proof.
  induction l as [|[a b] l IH]; intros ND H1 H2; [destruct H1|]. cbn [map fst] in ND. inversion ND as [|? ? HN HD]; subst.
  assert (K : forall k, In (a, k) l -> False) by (intros k HK; apply HN; apply in_map_iff; exists (a, k); auto).
  destruct H1 as [H1|H1], H2 as [H2|H2].
  - congruence.
  - injection H1 as -> ->. destruct (K _ H2).
  - injection H2 as -> ->. destruct (K _ H1).
  - auto.
Qed.
(** the contents as a list of different items *)
Lemma size_set es t : history T C es t -> exists l, NoDup l /\ (forall x, In x l <-> present t x) /\ size t = N.of_nat (length l).
Proof.
  intros H. destruct (C24_set T C es t H) as (L & A & B & D & E & _ & _). exists (map fst L). split; [exact A|]. split; [|rewrite map_length; exact E].
  intros x. rewrite in_map_iff. split.
  - intros ([y i] & <- & HI). exists i. apply D. exact HI.
  - intros (i & HI). exists (x, i). split; [reflexivity|]. apply D. exact HI.
Qed.
Lemma size_at_most es t R : history T C es t -> at_most R (present t) -> (size t <= N.of_nat R)%N.
Proof.
  intros H (U & HU & HI). destruct (size_set es t H) as (l & ND & HL & ->). assert (length l <= length U); [|lia].
  apply NoDup_incl_length; [exact ND|]. intros x Hx. apply HI, HL, Hx.
Qed.
Lemma full_total (t : table) : full_buckets t * bsz t <= total t.
Proof.
  unfold full_buckets, total. induction (seq 0 (cap t)) as [|b l IH]; [apply Nat.le_0_l|]. cbn [filter map list_sum fold_right]. change (fold_right Nat.add 0) with list_sum.
  destruct (Nat.eqb_spec (fillOf t b) (bsz t)); cbn [length]; lia.
Qed.
Lemma rounds_mono m F F' : F <= F' -> rounds_needed m F <= rounds_needed m F'.
Proof. intros H. unfold rounds_needed. apply Nat.add_le_mono_r, Nat.mul_le_mono_l. exact H. Qed.

Lemma step_ok es t c t' R : history T C es t -> does t c t' -> lossless t R c -> R <= slots t ->
  at_most R (fun x => present t x \/ asks c x) ->
  exists e, history T C (es ++ [e]) t' /\ cap t' = cap t /\ bsz t' = bsz t /\ maxp t' = maxp t /\
    forall x, present t' x <-> present t x \/ asks c x.
Proof.
  intros H HD HL HR HM. destruct (history_facts T C es t H) as (k & G & _).
  assert (KH : forall e, op T C t e t' -> exists e, history T C (es ++ [e]) t' /\ cap t' = cap t /\ bsz t' = bsz t /\ maxp t' = maxp t).
  { intros e HO. exists e. split; [apply (history_run T C es t [e] t' H); econstructor; [exact HO|constructor]|].
    pose proof (op_fact T C k t e t' G HO) as SF. split; [apply SF|]. split; apply SF. }
  assert (MT : (size t <= N.of_nat R)%N) by (apply (size_at_most es t R H); destruct HM as (U & HU & HI); exists U; split; [exact HU|]; intros x Hx; apply HI; now left).
  destruct HD as [t x t' ok i E|t be xs f uk t' ins uniq idx HK HP].
  - destruct (KH _ (op_insert T C t x t' ok i E)) as (e & K1 & K2). exists e. split; [exact K1|]. destruct K2 as (K2 & K3 & K4). repeat (split; [assumption|]).
    destruct (C25_insert T C es t x H) as (t2 & ok2 & i2 & E2 & HF & HA). rewrite E in E2. injection E2 as <- <- <-.
    destruct (C23_no_false_positives T C es t x H) as (i0 & fl & EL & _). destruct fl.
    + destruct (HF i0 EL) as (_ & _ & ->). intros y. cbn [asks]. split; [auto|]. intros [Hy|<-]; [exact Hy|]. now exists i0.
    + destruct (HA (ex_intro _ i0 EL)) as (B1 & B2 & B3). destruct ok.
      * destruct (B3 eq_refl) as (C1 & C2 & _ & C4). intros y. cbn [asks]. split.
        -- intros (j & Hj). destruct (dc_eqb T x y) eqn:EQ; [right; now apply (dc_eq T)|]. left. exists j. apply C4; [|exact Hj]. intros ->. rewrite (proj2 (dc_eq T x x) eq_refl) in EQ. discriminate.
        -- intros [(j & Hj)|<-]; [|now exists i]. exists j. apply C4; [|exact Hj]. intros ->. rewrite EL in Hj. discriminate.
      * exfalso. destruct (N.lt_ge_cases (size t) (N.of_nat (slots t))) as [HS|HS]; [apply B1 in HS; discriminate|].
        destruct (size_set es t H) as (l & ND & HLi & ES). destruct HM as (U & HU & HI).
        assert (length (x :: l) <= length U); [|cbn [length] in *; lia]. apply NoDup_incl_length.
        -- constructor; [|exact ND]. rewrite HLi. intros (j & Hj). rewrite EL in Hj. discriminate.
        -- intros y [<-|Hy]; apply HI; [right; reflexivity|left; apply HLi; exact Hy].
  - destruct (KH _ (op_batch T C t be xs f uk t' ins uniq idx HK HP)) as (e & K1 & K2 & K3 & K4). exists e. split; [exact K1|]. repeat (split; [assumption|]).
    destruct (C26_union T C be es t xs f uk t' ins uniq idx H HK HP) as (_ & _ & _ & U1 & _ & U2 & _).
    assert (IN : forall x, present t' x -> present t x \/ asks (CBatch be xs f uk) x).
    { intros x (i & Hi). apply U2 in Hi. destruct Hi as [Hi|(q & Hq & EI & EQ & _)]; [left; now exists i|]. right. exists q. split; [|exact EQ]. apply U1; assumption. }
    intros x. split; [apply IN|]. intros [(i & Hi)|(q & HQ & <-)]; [exists i; apply U2; now left|].
    destruct HL as [HD HL]. destruct be as [|maxb|maxb order].
    + cbv zeta in HL. destruct HL as [HL1 HL2]. exists (nth q idx 0).
      apply (C26_xla_complete_full T C es t xs f uk H HK HD) with (t' := t') (ins := ins) (uniq := uniq); [lia| |exact HP|exact HQ].
      apply N.le_trans with (N.of_nat (rounds_needed (trues (mask_list (length xs) f)) (R / bsz t))); [|exact HL2].
      assert (full_buckets t <= R / bsz t).
      { apply Nat.div_le_lower_bound; [pose proof (wf_bsz _ _ (i_wf _ _ _ _ (proj1 G))); lia|]. pose proof (full_total t). rewrite (size_total T k t G) in MT. lia. }
      pose proof (rounds_mono (trues (mask_list (length xs) f)) _ _ H0). lia.
    + destruct (C26_accelerators_complete T C (Triton maxb) maxb es t xs f uk t' ins uniq idx (or_introl eq_refl) H HK HD HL HP q HQ) as [HF|HF]; [exact HF|].
      destruct (C23_no_false_positives T C _ t' (nth q xs d) K1) as (i0 & fl & EL & _). destruct fl; [now exists i0|exfalso].
      destruct (size_set _ t' K1) as (l & ND & HLi & ES). destruct HM as (U & HU & HI).
      assert (length (nth q xs d :: l) <= length U); [|cbn [length] in *; lia]. apply NoDup_incl_length.
      * constructor; [|exact ND]. rewrite HLi. intros (j & Hj). rewrite EL in Hj. discriminate.
      * intros y [<-|Hy]; apply HI; [right; now exists q|apply IN, HLi, Hy].
    + destruct (C26_accelerators_complete T C (Pallas maxb order) maxb es t xs f uk t' ins uniq idx (or_intror (ex_intro _ order eq_refl)) H HK HD HL HP q HQ) as [HF|HF]; [exact HF|].
      destruct (C23_no_false_positives T C _ t' (nth q xs d) K1) as (i0 & fl & EL & _). destruct fl; [now exists i0|exfalso].
      destruct (size_set _ t' K1) as (l & ND & HLi & ES). destruct HM as (U & HU & HI).
      assert (length (nth q xs d :: l) <= length U); [|cbn [length] in *; lia]. apply NoDup_incl_length.
      * constructor; [|exact ND]. rewrite HLi. intros (j & Hj). rewrite EL in Hj. discriminate.
      * intros y [<-|Hy]; apply HI; [right; now exists q|apply IN, HLi, Hy].
Qed.
Lemma program_ok cs : forall es t t' R, history T C es t -> program t cs t' -> Forall (lossless t R) cs -> R <= slots t ->
  at_most R (fun x => present t x \/ asked cs x) ->
  exists es', history T C es' t' /\ forall x, present t' x <-> present t x \/ asked cs x.
Proof.
  induction cs as [|c cs IH]; intros es t t' R H HP HL HR HM; inversion HP as [|? ? t1 ? ? HD HP']; subst.
  - exists es. split; [exact H|]. intros x. split; [auto|]. intros [Hx|(c & [] & _)]. exact Hx.
  - inversion HL as [|? ? HL1 HL2]; subst.
    assert (AS : forall x, asked (c :: cs) x <-> asks c x \/ asked cs x).
    { intros x. split.
      - intros (c' & [<-|HI] & HA); [now left|right; exists c'; auto].
      - intros [HA|(c' & HI & HA)]; [exists c; split; [now left|exact HA]|exists c'; split; [now right|exact HA]]. }
    destruct (step_ok es t c t1 R H HD HL1 HR) as (e & H1 & E1 & E2 & E3 & EX).
    { destruct HM as (U & HU & HI). exists U. split; [exact HU|]. intros x [Hx|Hx]; apply HI; [now left|right; apply AS; now left]. }
    destruct (IH _ t1 t' R H1 HP') as (es' & H2 & EY).
    + eapply Forall_impl; [|exact HL2]. intros c' HC. unfold lossless, slots in *. rewrite E1, E2, E3. exact HC.
    + unfold slots in *. rewrite E1, E2. exact HR.
    + destruct HM as (U & HU & HI). exists U. split; [exact HU|]. intros x [Hx|Hx]; apply HI; [apply EX in Hx; destruct Hx; [now left|right; apply AS; now left]|right; apply AS; now right].
    + exists es'. split; [exact H2|]. intros x. rewrite EY, EX, AS. tauto.
Qed.
(** a program of lossless calls leaves exactly the items it asked for *)
Theorem C62_table_contents : forall capacity bs mult mp cs t R, config_ok T capacity bs mult mp ->
  let t0 := Build T capacity bs mult mp in
  program t0 cs t -> Forall (lossless t0 R) cs -> R <= slots t0 -> at_most R (asked cs) ->
  (forall x, present t x <-> asked cs x) /\
  (exists l, NoDup l /\ (forall x, In x l <-> asked cs x) /\ size t = N.of_nat (length l)) /\
  exists es, history T C es t.
Proof.
  intros capacity bs mult mp cs t R HC t0 HP HL HR HM.
  assert (H0 : history T C [] t0) by (exists capacity, bs, mult, mp; split; [exact HC|constructor]).
  assert (N0 : forall x, ~ present t0 x).
  { intros x (i & Hi). destruct (C23_no_false_positives T C [] t0 x H0) as (i0 & f & E & A & _). rewrite Hi in E. injection E as <- <-. destruct (proj1 A eq_refl) as (j & e & [] & _). }
  destruct (program_ok cs [] t0 t R H0 HP HL HR) as (es & H & EX).
  { destruct HM as (U & HU & HI). exists U. split; [exact HU|]. intros x [Hx|Hx]; [destruct (N0 x Hx)|auto]. }
  assert (EX' : forall x, present t x <-> asked cs x) by (intros x; rewrite EX; split; [intros [Hx|Hx]; [destruct (N0 x Hx)|exact Hx]|auto]).
  split; [exact EX'|]. split; [|now exists es]. destruct (size_set es t H) as (l & A & B & D). exists l. split; [exact A|]. split; [|exact D]. intros x. rewrite B. apply EX'.
Qed.
End Table.

(** two programs that ask for the same items — whatever their hash functions, seeds,
    backends, table shapes, order and batch boundaries — answer every lookup alike *)
Theorem C62_table_same : forall (item : Type) (T1 T2 : dataclass item) (C1 C2 : settings)
    capacity1 bs1 mult1 mp1 capacity2 bs2 mult2 mp2 cs1 cs2 t1 t2 R,
  config_ok T1 capacity1 bs1 mult1 mp1 -> config_ok T2 capacity2 bs2 mult2 mp2 ->
  let b1 := Build T1 capacity1 bs1 mult1 mp1 in let b2 := Build T2 capacity2 bs2 mult2 mp2 in
  program T1 C1 b1 cs1 t1 -> program T2 C2 b2 cs2 t2 ->
  Forall (lossless T1 C1 b1 R) cs1 -> Forall (lossless T2 C2 b2 R) cs2 -> R <= slots b1 -> R <= slots b2 ->
  (forall x, asked T1 cs1 x <-> asked T2 cs2 x) -> at_most R (asked T1 cs1) ->
  size t1 = size t2 /\
  (forall x, (exists i, Lookup T1 t1 x = Some (i, true)) <-> (exists i, Lookup T2 t2 x = Some (i, true))) /\
  (forall ys f, mask_ok ys f -> exists o1 o2, LookupParallel T1 t1 ys f = Some o1 /\ LookupParallel T2 t2 ys f = Some o2 /\
     map snd o1 = map snd o2).
Proof.
  intros item T1 T2 C1 C2 ca1 bs1 mu1 mp1 ca2 bs2 mu2 mp2 cs1 cs2 t1 t2 R K1 K2 b1 b2 P1 P2 L1 L2 R1 R2 HE HM.
  destruct (C62_table_contents T1 C1 ca1 bs1 mu1 mp1 cs1 t1 R K1 P1 L1 R1 HM) as (A1 & (l1 & N1 & I1 & S1) & es1 & H1).
  assert (HM2 : at_most R (asked T2 cs2)) by (destruct HM as (U & HU & HI); exists U; split; [exact HU|]; intros x Hx; apply HI, HE, Hx).
  destruct (C62_table_contents T2 C2 ca2 bs2 mu2 mp2 cs2 t2 R K2 P2 L2 R2 HM2) as (A2 & (l2 & N2 & I2 & S2) & es2 & H2).
  assert (PR : forall x, present T1 t1 x <-> present T2 t2 x) by (intros x; rewrite A1, A2; apply HE).
  split; [|split; [exact PR|]].
  - rewrite S1, S2. f_equal. apply Permutation_length, NoDup_Permutation; [exact N1|exact N2|]. intros x. rewrite I1, I2. apply HE.
  - intros ys f HK. destruct (C22_found_parallel T1 C1 es1 t1 ys f H1 HK) as (o1 & E1 & G1 & Q1).
    destruct (C22_found_parallel T2 C2 es2 t2 ys f H2 HK) as (o2 & E2 & G2 & Q2). exists o1, o2. split; [exact E1|]. split; [exact E2|].
    apply nth_ext with (d := false) (d' := false); [rewrite !map_length; lia|]. rewrite map_length. intros q Hq. rewrite G1 in Hq.
    change false with (snd (0, false)) at 1 2. rewrite !map_nth. destruct (Q1 q Hq) as [B1 D1]. destruct (Q2 q Hq) as [B2 D2].
    destruct (nth q (mask_list (length ys) f) false) eqn:EM; [|rewrite D1, D2 by reflexivity; reflexivity].
    specialize (B1 eq_refl). specialize (B2 eq_refl). rewrite (nth_indep ys (dc_default T2) (dc_default T1)) in B2 by exact Hq.
    set (y := nth q ys (dc_default T1)) in *.
    assert (F1 : snd (nth q o1 (0, false)) = true <-> present T1 t1 y).
    { destruct (C23_no_false_positives T1 C1 es1 t1 y H1) as (i & fl & EL & RI & RG). split.
      - destruct (nth q o1 (0, false)) as [j [|]] eqn:EN; cbn [snd]; [intros _|discriminate]. pose proof (proj1 (B1 j) eq_refl) as HR.
        exists i. rewrite EL. f_equal. f_equal. apply RI. now exists j.
      - intros (j & Hj). rewrite EL in Hj. injection Hj as -> ->. rewrite (proj2 (B1 j) (proj2 (RG eq_refl))). reflexivity. }
    assert (F2 : snd (nth q o2 (0, false)) = true <-> present T2 t2 y).
    { destruct (C23_no_false_positives T2 C2 es2 t2 y H2) as (i & fl & EL & RI & RG). split.
      - destruct (nth q o2 (0, false)) as [j [|]] eqn:EN; cbn [snd]; [intros _|discriminate]. pose proof (proj1 (B2 j) eq_refl) as HR.
        exists i. rewrite EL. f_equal. f_equal. apply RI. now exists j.
      - intros (j & Hj). rewrite EL in Hj. injection Hj as -> ->. rewrite (proj2 (B2 j) (proj2 (RG eq_refl))). reflexivity. }
    specialize (PR y). destruct (snd (nth q o1 (0, false))), (snd (nth q o2 (0, false))); try reflexivity; exfalso; intuition discriminate.
Qed.
Print Assumptions C62_table_contents.
Print Assumptions C62_table_same.
