(** * PropBlock2.v — property C71: nested tuples of instances. *)
From Coq Require Import String.
From Verif Require Import Jax StructModel ArrayModel ArrayFacts ShapeModel PropShape RowsModel RowsLift PropRows PropRows2 PropRows3 PropRows4 EqModel FloatEq PropEq RowsModel2 PropRows5 PropRows6 PropRows7 BlockModel PropBlock BlockTupleModel.

Lemma seqs_ind' {A} (P : seqs A -> Prop) : (forall a, P (One a)) -> (forall b l, Forall P l -> P (Seq b l)) -> forall t, P t.
Proof.
  intros H1 H2. fix IH 1. intros [a|b l]; [apply H1|]. apply H2. induction l as [|t l IHl]; constructor; [apply IH|exact IHl].
Qed.
(** nested lists, without tuples *)
Fixpoint lists {A} (t : nested A) : seqs A := match t with Blk a => One a | Lst l => Seq false (map lists l) end.
(** a tuple occurs *)
Fixpoint has_tuple {A} (t : seqs A) : Prop :=
  match t with One _ => False | Seq true _ => True | Seq false l => (fix go l := match l with [] => False | t :: r => has_tuple t \/ go r end) l end.

Lemma sequence_iff {X} (l : list (option X)) ys : sequence l = Some ys <-> Forall2 (fun x y => x = Some y) l ys.
Proof.
  revert ys. induction l as [|[x|] l IH]; intros ys; cbn [sequence].
  - split; [intros E; injection E as <-; constructor|intros H; inversion H; reflexivity].
  - destruct (sequence l) as [z|] eqn:E; cbn [option_map]; split; intros H.
    + injection H as <-. constructor; [reflexivity|]. now apply IH.
    + inversion H as [|? y ? ys' E1 H1]; subst. injection E1 as <-. apply IH in H1. congruence.
    + discriminate.
    + inversion H as [|? y ? ys' E1 H1]; subst. apply IH in H1. discriminate.
  - split; [discriminate|intros H; inversion H; discriminate].
Qed.
Lemma sequence_map_iff {Y X} (f : Y -> option X) l ys : sequence (map f l) = Some ys <-> Forall2 (fun x y => f x = Some y) l ys.
Proof. rewrite sequence_iff. revert ys. induction l as [|x l IH]; intros ys; cbn [map]; split; intros H; inversion H; subst; constructor; try assumption; now apply IH. Qed.
Lemma seq_some {X} (f : nat -> option X) d : forall n s ys, sequence (map f (seq s n)) = Some ys <-> length ys = n /\ forall k, k < n -> f (s + k) = Some (nth k ys d).
Proof.
  induction n as [|n IH]; intros s ys; cbn [seq map].
  - cbn [sequence]. split; [intros E; injection E as <-; split; [reflexivity|intros k Hk; lia]|]. intros [HL _]. destruct ys; [reflexivity|discriminate].
  - split.
    + destruct (f s) as [x|] eqn:EF; cbn [sequence]; [|discriminate]. destruct (sequence (map f (seq (S s) n))) as [zs|] eqn:ES; cbn [option_map]; [|discriminate]. intros E. injection E as <-.
      apply IH in ES. destruct ES as [E1 E2]. split; [cbn [length]; lia|]. intros [|k] Hk; [now rewrite Nat.add_0_r|]. cbn [nth]. rewrite <- E2 by lia. f_equal. lia.
    + intros [HL HK]. destruct ys as [|y ys]; [discriminate|]. injection HL as HL. pose proof (HK 0 ltac:(lia)) as H0. rewrite Nat.add_0_r in H0. rewrite H0. cbn [sequence nth].
      assert (E : sequence (map f (seq (S s) n)) = Some ys). { apply IH. split; [exact HL|]. intros k Hk. specialize (HK (S k) ltac:(lia)). cbn [nth] in HK. rewrite <- HK. f_equal. lia. } rewrite E. reflexivity.
Qed.
Definition no_field : seqs array := One no_array.
Definition col (k : nat) (t : seqs obj) : seqs array := smap (fun o => nth k (arrays o) no_array) t.
Lemma blocks_iff c t R : obj_blocks c t = Some R <-> length R = places c /\ forall k, k < places c -> field_block (col k t) = Some (nth k R no_field).
Proof. unfold obj_blocks. exact (seq_some (fun k => field_block (col k t)) no_field (places c) 0 R). Qed.
Lemma nth_cols {X} (f : nat -> X) n k d : k < n -> nth k (map f (seq 0 n)) d = f k.
Proof. intros Hk. rewrite (nth_indep _ d (f 0)) by (now rewrite map_length, seq_length). rewrite map_nth, seq_nth by exact Hk. reflexivity. Qed.

Lemma Forall2_by_nth {X Y} (P : X -> Y -> Prop) : forall ts (g : nat -> Y), (forall j t, nth_error ts j = Some t -> P t (g j)) -> Forall2 P ts (map g (seq 0 (length ts))).
Proof.
  induction ts as [|t ts IH]; intros g K; [constructor|]. cbn [length seq map]. constructor; [exact (K 0 t eq_refl)|]. rewrite <- seq_shift, map_map. apply (IH (fun j => g (S j))). intros j t' Hj. exact (K (S j) t' Hj).
Qed.
(** [block] of a tuple blocks its members separately and puts a tuple into every field: the
    members are never joined *)
Theorem C71_block_tuple : forall c ts R, places c <> 0 ->
  (obj_blocks c (Seq true ts) = Some R <->
   exists Rs, Forall2 (fun t r => obj_blocks c t = Some r) ts Rs /\ R = map (fun k => Seq true (map (fun r => nth k r no_field) Rs)) (seq 0 (places c))).
Proof.
  intros c ts R HP. rewrite blocks_iff. unfold col. cbn [smap field_block]. split.
  - intros [HL HK].
    assert (D : forall k, k < places c -> exists l, nth k R no_field = Seq true l /\ Forall2 (fun t x => field_block (col k t) = Some x) ts l).
    { intros k Hk. specialize (HK k Hk). destruct (sequence _) as [l|] eqn:E in HK; [|discriminate]. cbn [option_map] in HK. injection HK as HK. exists l. split; [congruence|]. rewrite map_map in E. now apply sequence_map_iff in E. }
    exists (map (fun j => map (fun k => match nth k R no_field with Seq true l => nth j l no_field | _ => no_field end) (seq 0 (places c))) (seq 0 (length ts))). split.
    + assert (K : forall j t, nth_error ts j = Some t -> obj_blocks c t = Some (map (fun k => match nth k R no_field with Seq true l => nth j l no_field | _ => no_field end) (seq 0 (places c)))).
      { intros j t Hj. apply blocks_iff. split; [now rewrite map_length, seq_length|]. intros k Hk. rewrite nth_cols by exact Hk. destruct (D k Hk) as (l & EL & HF). rewrite EL.
        clear - HF Hj. revert j Hj. induction HF as [|t' x ts' l' H1 H2 IH]; intros [|j] Hj; try discriminate; [injection Hj as ->; exact H1|]. exact (IH j Hj). }
      exact (Forall2_by_nth (fun t r => obj_blocks c t = Some r) ts _ K).
    + apply (nth_ext _ _ no_field no_field); [now rewrite map_length, seq_length|]. intros k Hk. rewrite HL in Hk. rewrite nth_cols by exact Hk. destruct (D k Hk) as (l & EL & HF). rewrite EL, map_map. f_equal.
      apply (nth_ext _ _ no_field no_field); [rewrite map_length, seq_length; symmetry; apply (Forall2_len _ _ _ HF)|]. intros j Hj. rewrite <- (Forall2_len _ _ _ HF) in Hj. rewrite (nth_cols _ _ _ _ Hj), (nth_cols _ _ _ _ Hk), EL. reflexivity.
  - intros (Rs & HF & ->). split; [now rewrite map_length, seq_length|]. intros k Hk. rewrite nth_cols by exact Hk. rewrite map_map.
    assert (E : sequence (map (fun t => field_block (col k t)) ts) = Some (map (fun r => nth k r no_field) Rs)); [|unfold col in E; rewrite E; reflexivity].
    apply sequence_map_iff. clear - HF Hk. induction HF as [|t r ts Rs H1 H2 IH]; cbn [map]; constructor; [|exact IH]. apply blocks_iff in H1. destruct H1 as [_ H1]. exact (H1 k Hk).
Qed.
(** refutation of "a nested sequence of instances is joined": the fields of [block((x, y, ...))]
    are the tuples of the fields of the instances; nothing is joined, nothing is raised *)
Theorem C71_block_tuple_refuted : forall c os, places c <> 0 ->
  obj_blocks c (Seq true (map One os)) = Some (map (fun k => Seq true (map (fun o => One (nth k (arrays o) no_array)) os)) (seq 0 (places c))).
Proof.
  intros c os HP. apply C71_block_tuple; [exact HP|]. exists (map (fun o => map (fun k => One (nth k (arrays o) no_array)) (seq 0 (places c))) os). split.
  - induction os as [|o os IH]; cbn [map]; constructor; [|exact IH]. apply blocks_iff. split; [now rewrite map_length, seq_length|]. intros k Hk. rewrite nth_cols by exact Hk. reflexivity.
  - apply map_ext_in. intros k Hk. apply in_seq in Hk. f_equal. rewrite map_map. apply map_ext. intros o. symmetry. apply (nth_cols (fun k0 => One (nth k0 (arrays o) no_array))). lia.

Qed.
(** a tuple inside a list is refused *)
Lemma as_lists_tuple {A} (t : seqs A) : has_tuple t -> as_lists t = None.
Proof.
  induction t as [a|b l IH] using seqs_ind'; intros H; [destruct H|]. destruct b; [reflexivity|]. cbn [as_lists]. cbn [has_tuple] in H.
  assert (E : sequence (map as_lists l) = None); [|now rewrite E]. induction IH as [|t r Ht HF IH]; [destruct H|]. cbn [map]. destruct H as [H|H].
  - cbn [sequence]. rewrite (Ht H). reflexivity.
  - specialize (IH H). cbn [sequence]. destruct (as_lists t); [|reflexivity]. now rewrite IH.
Qed.
Lemma has_tuple_smap {A B} (f : A -> B) (t : seqs A) : has_tuple t -> has_tuple (smap f t).
Proof.
  induction t as [a|b l IH] using seqs_ind'; intros H; [exact H|]. destruct b; [exact I|]. cbn [has_tuple smap] in *. induction IH as [|t r Ht HF IH]; [exact H|]. cbn [map]. destruct H as [H|H]; [left; now apply Ht|right; now apply IH].
Qed.
Theorem C71_block_tuple_in_list : forall c l, places c <> 0 -> has_tuple (Seq false l) -> obj_blocks c (Seq false l) = None.
Proof.
  intros c l HP HT. destruct (obj_blocks c (Seq false l)) as [R|] eqn:E; [|reflexivity]. apply blocks_iff in E. destruct E as [_ E]. specialize (E 0 ltac:(lia)).
  unfold col in E. pose proof (has_tuple_smap (fun o => nth 0 (arrays o) no_array) (Seq false l) HT) as K. cbn [smap] in K, E. cbn [field_block] in E. unfold jnp_block in E. rewrite (as_lists_tuple _ K) in E. discriminate.
Qed.

Lemma seq_shift_add a b n : seq (a + b) n = map (fun k => a + k) (seq b n).
Proof. revert b. induction n as [|n IH]; intros b; [reflexivity|]. cbn [seq map]. f_equal. rewrite <- IH. f_equal. lia. Qed.
(** ** Lists: the two models of [block] agree *)
Lemma as_lists_lists {A} (t : nested A) : as_lists (lists t) = Some t.
Proof.
  induction t as [a|l IH] using nested_ind'; [reflexivity|]. cbn [lists as_lists]. assert (E : sequence (map as_lists (map lists l)) = Some l); [|now rewrite E].
  rewrite map_map. apply sequence_map_iff. induction IH; constructor; assumption.
Qed.
Lemma smap_lists {A B} (f : A -> B) (t : nested A) : smap f (lists t) = lists (nmap f t).
Proof. induction t as [a|l IH] using nested_ind'; [reflexivity|]. cbn [lists smap nmap]. f_equal. rewrite !map_map. induction IH as [|t r Ht HF IH]; [reflexivity|]. cbn [map]. now rewrite Ht, IH. Qed.
Lemma fill_map {A} (g : A -> array) (t : nested A) : fill t (map g (leaves t)) = Some (nmap g t).
Proof.
  induction t as [a|ts IH] using nested_ind'; [reflexivity|]. rewrite fill_lst. cbn [leaves nmap].
  assert (E : fill_list ts (map g (flat_map leaves ts)) = Some (map (nmap g) ts)); [|now rewrite E].
  induction IH as [|t r Ht HF IH]; [reflexivity|]. cbn [fill_list flat_map map]. rewrite map_app, firstn_app, skipn_app, map_length, Nat.sub_diag. cbn [firstn skipn].
  rewrite firstn_all2 by (rewrite map_length; lia). rewrite skipn_all2 by (rewrite map_length; lia). rewrite app_nil_r. cbn [app]. now rewrite Ht, IH.
Qed.
Lemma places_arrays : (forall d v, conforms_v d v -> length (arrays_v v) = places_d d) /\ (forall c o, conforms c o -> length (arrays o) = places c).
Proof.
  apply desc_class_ind.
  - intros dt ish bits pb fl [a|o] H; [reflexivity|destruct H].
  - intros c IH ish [a|o] H; [destruct H|]. exact (IH o H).
  - intros [|n v r] H; [reflexivity|destruct H].
  - intros n d IHd r IHr [|m v q] H; [destruct H|]. destruct H as (_ & H1 & H2). cbn [arrays places]. rewrite app_length. rewrite (IHd v H1), (IHr q H2). reflexivity.
Qed.
Lemma nth_split {X} (l r : list X) n k d : length l = n -> nth (n + k) (l ++ r) d = nth k r d.
Proof. intros <-. rewrite app_nth2 by lia. f_equal. lia. Qed.
Lemma tmap_arrays f :
  (forall d v vs, conforms_v d v -> Forall (conforms_v d) vs ->
     option_map arrays_v (tmap_v f v vs) = sequence (map (fun k => f (map (fun w => nth k (arrays_v w) no_array) (v :: vs))) (seq 0 (places_d d)))) /\
  (forall c o os, conforms c o -> Forall (conforms c) os ->
     option_map arrays (tmap f o os) = sequence (map (fun k => f (map (fun q => nth k (arrays q) no_array) (o :: os))) (seq 0 (places c)))).
Proof.
  apply desc_class_ind.
  - intros dt ish bits pb fl v vs HV HVS. destruct v as [a|]; [|destruct HV].
    assert (E : exists l, vs = map VArr l). { clear HV. induction HVS as [|w vs Hw HF [l IH]]; [now exists []|]. destruct w as [b|]; [|destruct Hw]. exists (b :: l). cbn [map]. now rewrite IH. }
    destruct E as [l ->]. cbn [tmap_v places_d seq map]. rewrite map_map. cbn [as_arr].
    assert (E : sequence (map (fun x => Some x) l) = Some l) by (apply sequence_map_iff; clear; induction l; constructor; auto). rewrite E. cbn [arrays_v nth]. rewrite map_map. cbn [arrays_v nth]. rewrite map_id.
    cbn [sequence]. destruct (f (a :: l)); reflexivity.
  - intros c IH ish v vs HV HVS. destruct v as [|o]; [destruct HV|].
    assert (E : exists l, vs = map VObj l /\ Forall (conforms c) l). { clear HV. induction HVS as [|w vs Hw HF [l [IH1 IH2]]]; [now exists []|]. destruct w as [|q]; [destruct Hw|]. exists (q :: l). cbn [map]. split; [now rewrite IH1|now constructor]. }
    destruct E as [l [-> HL]]. cbn [tmap_v places_d]. rewrite map_map. cbn [as_obj].
    assert (E : sequence (map (fun x => Some x) l) = Some l) by (apply sequence_map_iff; clear; induction l; constructor; auto). rewrite E.
    pose proof (IH o l HV HL) as K. transitivity (option_map arrays (tmap f o l)); [destruct (tmap f o l); reflexivity|]. rewrite K. f_equal. apply map_ext. intros k. cbn [map arrays_v]. now rewrite map_map.
  - intros o os HO HOS. destruct o; [|destruct HO]. cbn [tmap places seq map sequence].
    assert (E : forallb is_nil os = true). { apply forallb_forall. intros q Hq. rewrite Forall_forall in HOS. specialize (HOS q Hq). destruct q; [reflexivity|destruct HOS]. } rewrite E. reflexivity.
  - intros n d IHd r IHr o os HO HOS. destruct o as [|m v q]; [destruct HO|]. destruct HO as (<- & HV & HQ).
    assert (E : exists l, os = map (fun p => OCons n (fst p) (snd p)) l /\ Forall (conforms_v d) (map fst l) /\ Forall (conforms r) (map snd l)).
    { clear HV HQ. induction HOS as [|w os Hw HF (l & I1 & I2 & I3)]; [exists []; repeat split; constructor|]. destruct w as [|m w t]; [destruct Hw|]. destruct Hw as (<- & W1 & W2). exists ((w, t) :: l). cbn [map fst snd]. split; [now rewrite I1|split; constructor; assumption]. }
    destruct E as (l & -> & L1 & L2). cbn [tmap]. rewrite map_map. cbn [head_field].
    assert (E : sequence (map (fun p : value * obj => if String.eqb n n then Some (fst p, snd p) else None) l) = Some l).
    { rewrite String.eqb_refl. apply sequence_map_iff. clear. induction l as [|[a b] l IH]; constructor; auto. }
    rewrite E. pose proof (IHd v (map fst l) HV L1) as K1. pose proof (IHr q (map snd l) HQ L2) as K2.
    cbn [places]. rewrite seq_app, map_app, sequence_app.
    assert (A1 : map (fun k => f (map (fun q0 => nth k (arrays q0) no_array) (OCons n v q :: map (fun p => OCons n (fst p) (snd p)) l))) (seq 0 (places_d d))
              = map (fun k => f (map (fun w => nth k (arrays_v w) no_array) (v :: map fst l))) (seq 0 (places_d d))).
    { apply map_ext_in. intros k Hk. apply in_seq in Hk. f_equal. cbn [map arrays]. rewrite app_nth1 by (rewrite (proj1 places_arrays d v HV); lia). f_equal. rewrite !map_map. apply map_ext_in. intros p Hp. cbn [arrays].
      rewrite app_nth1; [reflexivity|]. rewrite Forall_forall in L1. rewrite (proj1 places_arrays d (fst p)) by (apply L1, in_map, Hp). lia. }
    assert (A2 : map (fun k => f (map (fun q0 => nth k (arrays q0) no_array) (OCons n v q :: map (fun p => OCons n (fst p) (snd p)) l))) (seq (0 + places_d d) (places r))
              = map (fun k => f (map (fun q0 => nth k (arrays q0) no_array) (q :: map snd l))) (seq 0 (places r))).
    { cbn [Nat.add]. replace (places_d d) with (places_d d + 0) by lia. rewrite (seq_shift_add (places_d d) 0 (places r)), map_map. apply map_ext. intros k. f_equal. cbn [map arrays]. rewrite (nth_split _ _ _ _ _ (proj1 places_arrays d v HV)). f_equal. rewrite !map_map. apply map_ext_in. intros p Hp. cbn [arrays].
      apply nth_split. rewrite Forall_forall in L1. apply (proj1 places_arrays d). apply L1, in_map, Hp. }
    rewrite A1, A2, <- K1, <- K2. destruct (tmap_v f v (map fst l)) as [v'|]; [|reflexivity]. destruct (tmap f q (map snd l)); reflexivity.
Qed.

(** nested lists without tuples: every array of the result of the first model *)
Theorem C71_block_lists : forall c t, Forall (conforms c) (leaves t) -> leaves t <> [] ->
  obj_blocks c (lists t) = option_map (fun r => map One (arrays r)) (obj_block t).
Proof.
  intros c t HC HN. unfold obj_block, tree_mapn. destruct (leaves t) as [|o os] eqn:EL; [congruence|]. inversion HC as [|? ? HO HOS]; subst.
  set (f := fun l : list array => match fill t l with Some u => option_map fst (block_arr u) | None => None end).
  assert (EM : forall x : option obj, option_map (fun r => map (@One array) (arrays r)) x = option_map (map One) (option_map arrays x)) by (intros [x|]; reflexivity).
  rewrite EM, (proj2 (tmap_arrays f) c o os HO HOS). unfold obj_blocks.
  assert (EK : forall k, field_block (smap (fun q => nth k (arrays q) no_array) (lists t)) = option_map One (f (map (fun q => nth k (arrays q) no_array) (o :: os)))).
  { intros k. rewrite smap_lists. unfold f. rewrite <- EL, fill_map. set (u := nmap _ t). assert (EF : field_block (lists u) = option_map One (jnp_block (lists u))) by (destruct u; reflexivity). rewrite EF. unfold jnp_block. now rewrite as_lists_lists. }
  generalize (seq 0 (places c)) as ks. intros ks. induction ks as [|k ks IH]; [reflexivity|]. cbn [map]. rewrite EK. destruct (f _); cbn [sequence option_map]; [|reflexivity]. rewrite IH.
  assert (EC : forall (b : array) (y : option (list array)), option_map (cons (One b)) (option_map (map One) y) = option_map (map One) (option_map (cons b) y)) by (intros b [y|]; reflexivity). apply EC.
Qed.
Example C71_block_tuple_case :
  let c := CCons "id" (Prim (DUInt 8) [] None false 0%Z) CNil in let x k := OCons "id" (VArr (MkArr (DUInt 8) [2] [k; k + 1]%Z)) ONil in
  places c <> 0 /\ Forall (conforms c) [x 1%Z; x 7%Z] /\
  obj_blocks c (Seq false [One (x 1%Z); One (x 7%Z)]) = Some [One (MkArr (DUInt 8) [4] [1; 2; 7; 8]%Z)] /\
  obj_blocks c (Seq true [One (x 1%Z); One (x 7%Z)]) = Some [Seq true [One (MkArr (DUInt 8) [2] [1; 2]%Z); One (MkArr (DUInt 8) [2] [7; 8]%Z)]] /\
  has_tuple (Seq false [Seq true [One (x 1%Z)]]) /\ obj_blocks c (Seq false [Seq true [One (x 1%Z)]]) = None.
Proof. cbn zeta. split; [discriminate|]. split; [repeat constructor|]. split; [reflexivity|]. split; [reflexivity|]. split; [left; exact Logic.I|reflexivity]. Qed.
Print Assumptions C71_block_tuple. Print Assumptions C71_block_tuple_refuted. Print Assumptions C71_block_tuple_in_list. Print Assumptions C71_block_lists.
