(** * HeapFloatSim.v — the queue on IEEE keys (HeapFloat.v) simulates the queue on abstract
    keys (HeapModel.v): NaN stands with +inf, the value of a padding slot is ignored. *)
From Verif Require Import Jax StructModel EqModel FloatEq KeyModel SortProofs HeapModel HeapFloat FloatOrder.

Section S.
Variable w : nat.
Hypothesis HW : float_width w.
Context {V : Type}.
Notation fitem := (Z * V)%type.
Notation frow := (list fitem).
Notation aitem := (key * (Z * V))%type.
Notation arow := (list aitem).
Notation nan := (is_nan w).

Definition nemb (p : fitem) : key * option fitem := (kof w (fst p), if ffinite w (fst p) then Some p else None).
Definition norm (x : aitem) : key * option fitem := (fst x, if finite (fst x) then Some (snd x) else None).
(** a number, possibly infinite: a valid pattern, not NaN *)
Definition okp (p : fitem) : Prop := pat w (fst p) /\ nan (fst p) = false.
Definition rl (a : frow) (b : arow) : Prop := map nemb a = map norm b /\ Forall (fun p => pat w (fst p)) a.
Definition srl (a : frow) (b : arow) : Prop := rl a b /\ Forall okp a.

Lemma rl_length a b : rl a b -> length a = length b.
Proof. intros [H _]. apply (f_equal (@length _)) in H. now rewrite !map_length in H. Qed.
Lemma rl_nil : rl [] []. Proof. split; [reflexivity|constructor]. Qed.
Lemma srl_nil : srl [] []. Proof. split; [apply rl_nil|constructor]. Qed.
Lemma rl_app a b a' b' : rl a a' -> rl b b' -> rl (a ++ b) (a' ++ b').
Proof. intros [H1 H2] [H3 H4]. split; [rewrite !map_app; congruence|now apply Forall_app]. Qed.
Lemma rl_firstn n a b : rl a b -> rl (firstn n a) (firstn n b).
Proof.
  intros [H H2]. split; [now rewrite <- !firstn_map, H|]. apply Forall_forall. intros x Hx. rewrite Forall_forall in H2. apply H2.
  rewrite <- (firstn_skipn n a). apply in_or_app. now left.
Qed.
Lemma rl_skipn n a b : rl a b -> rl (skipn n a) (skipn n b).
Proof.
  intros [H H2]. split; [now rewrite <- !skipn_map, H|]. apply Forall_forall. intros x Hx. rewrite Forall_forall in H2. apply H2.
  rewrite <- (firstn_skipn n a). apply in_or_app. now right.
Qed.

(** sorting *)
Lemma sinsert_map (X Y : Type) (g : key * X -> key * Y) (x : key * X) l : (forall y, fst (g y) = fst y) ->
  map g (sinsert x l) = sinsert (g x) (map g l).
Proof. intros H. induction l as [|y t IH]; [reflexivity|]. cbn [sinsert map]. rewrite !H. destruct (kle (fst x) (fst y)); cbn [map]; [reflexivity|now rewrite IH]. Qed.
Lemma ssort_map (X Y : Type) (g : key * X -> key * Y) (l : list (key * X)) : (forall y, fst (g y) = fst y) -> map g (ssort l) = ssort (map g l).
Proof. intros H. unfold ssort. induction l as [|x t IH]; [reflexivity|]. cbn [fold_right map]. rewrite <- IH. now apply sinsert_map. Qed.
Lemma norm_fst x : fst (norm x) = fst x. Proof. reflexivity. Qed.

Definition fsorted (l : frow) : Prop := StronglySorted (fun x y => fsle w (fst x) (fst y) = true) l.
Lemma fsle_trans x y z : fsle w x y = true -> fsle w y z = true -> fsle w x z = true.
Proof. unfold fsle. destruct (nan x); destruct (nan y); destruct (nan z); cbn; try congruence. rewrite !Z.leb_le. lia. Qed.
Lemma fsle_total x y : fsle w x y = false -> fsle w y x = true.
Proof. unfold fsle. destruct (nan x); destruct (nan y); cbn; try congruence. rewrite Z.leb_le, Z.leb_gt. lia. Qed.
Lemma fsinsert_perm (x : fitem) l : Permutation (fsinsert w x l) (x :: l).
Proof. induction l as [|y t IH]; [reflexivity|]. cbn [fsinsert]. destruct (fsle w (fst x) (fst y)); [reflexivity|]. rewrite IH. apply perm_swap. Qed.
Lemma fsort_perm (l : frow) : Permutation (fsort w l) l.
Proof. unfold fsort. induction l as [|x t IH]; [reflexivity|]. cbn [fold_right]. rewrite fsinsert_perm. now apply perm_skip. Qed.
Lemma fsinsert_sorted (x : fitem) l : fsorted l -> fsorted (fsinsert w x l).
Proof.
  unfold fsorted. induction l as [|y t IH]; intros H; [repeat constructor|]. cbn [fsinsert]. inversion H as [|? ? H1 H2]; subst.
  destruct (fsle w (fst x) (fst y)) eqn:E.
  - constructor; [exact H|]. constructor; [exact E|]. rewrite Forall_forall in *. intros z Hz. exact (fsle_trans _ _ _ E (H2 z Hz)).
  - constructor; [now apply IH|]. rewrite Forall_forall in *. intros z Hz. apply (Permutation_in _ (fsinsert_perm x t)) in Hz. destruct Hz as [<-|Hz]; [now apply fsle_total|now apply H2].
Qed.
Lemma fsort_sorted (l : frow) : fsorted (fsort w l).
Proof. unfold fsort. induction l as [|x t IH]; [constructor|]. cbn [fold_right]. now apply fsinsert_sorted. Qed.
(** the two orders agree but for a NaN against +inf *)
Lemma fsle_kle x y : ~ (nan x = true /\ nan y = false /\ kof w y = PInf) -> fsle w x y = kle (kof w x) (kof w y).
Proof.
  intros H. unfold fsle. destruct (nan y) eqn:NY.
  - cbn. unfold kof at 2. rewrite NY. symmetry. apply kle_PInf.
  - destruct (nan x) eqn:NX.
    + cbn. symmetry. destruct (kle (kof w x) (kof w y)) eqn:E; [|reflexivity]. exfalso. apply H. unfold kof in E at 1. rewrite NX in E. apply kle_PInf_inv in E. auto.
    + cbn. symmetry. now apply kof_le.
Qed.
Lemma nemb_PInf p : kof w (fst p) = PInf -> nemb p = (PInf, None).
Proof. intros E. unfold nemb. rewrite E. assert (F : ffinite w (fst p) = false) by (rewrite <- kof_finite, E; reflexivity). now rewrite F. Qed.
Lemma fsle_PInf x y : fsle w x y = true -> kof w x = PInf -> kof w y = PInf.
Proof.
  unfold fsle. intros H E. destruct (nan y) eqn:NY; [unfold kof; now rewrite NY|]. cbn in H. apply andb_true_iff in H as [NX H]. apply negb_true_iff in NX.
  rewrite <- kof_le in H by assumption. rewrite E in H. now apply kle_PInf_inv.
Qed.
Lemma PInf_all (l : frow) : Forall (fun p => kof w (fst p) = PInf) l -> map nemb l = repeat (PInf, None) (length l).
Proof. induction l as [|x t IH]; intros H; [reflexivity|]. inversion H; subst. cbn [map length repeat]. rewrite nemb_PInf by assumption. now rewrite IH. Qed.
Lemma fsinsert_nemb x l : fsorted l -> map nemb (fsinsert w x l) = sinsert (nemb x) (map nemb l).
Proof.
  induction l as [|y t IH]; intros H; [reflexivity|]. inversion H as [|? ? H1 H2]; subst. cbn [fsinsert map sinsert].
  change (fst (nemb x)) with (kof w (fst x)). change (fst (nemb y)) with (kof w (fst y)).
  destruct (nan (fst x)) eqn:NX.
  - destruct (nan (fst y)) eqn:NY; [|destruct (kof w (fst y)) eqn:KY].
    + rewrite fsle_kle by (intros (_ & C & _); congruence). destruct (kle _ _); [reflexivity|]. cbn [map]. now rewrite IH.
    + rewrite fsle_kle by (intros (_ & _ & C); congruence). rewrite KY. destruct (kle _ _); [reflexivity|]. cbn [map]. now rewrite IH.
    + rewrite fsle_kle by (intros (_ & _ & C); congruence). rewrite KY. destruct (kle _ _); [reflexivity|]. cbn [map]. now rewrite IH.
    + assert (KX : kof w (fst x) = PInf) by (unfold kof; now rewrite NX). rewrite KX, kle_PInf.
      assert (A : Forall (fun p => kof w (fst p) = PInf) (x :: y :: t)).
      { constructor; [exact KX|]. constructor; [exact KY|]. rewrite Forall_forall in *. intros z Hz. exact (fsle_PInf _ _ (H2 z Hz) KY). }
      assert (B : Permutation (fsinsert w x (y :: t)) (x :: y :: t)) by apply fsinsert_perm.
      change (map nemb (fsinsert w x (y :: t)) = map nemb (x :: y :: t)).
      rewrite (PInf_all (x :: y :: t) A), <- (Permutation_length B). apply PInf_all. rewrite Forall_forall in *. intros z Hz. apply A. apply (Permutation_in _ B Hz).
  - rewrite fsle_kle by (intros (C & _); congruence). destruct (kle _ _); [reflexivity|]. cbn [map]. now rewrite IH.
Qed.
Lemma fsort_nemb l : map nemb (fsort w l) = ssort (map nemb l).
Proof. induction l as [|x t IH]; [reflexivity|]. cbn [map]. unfold ssort, fsort. cbn [fold_right]. fold (fsort w t). rewrite fsinsert_nemb by apply fsort_sorted. now rewrite IH. Qed.
Lemma rl_sort a b : rl a b -> rl (fsort w a) (ssort b).
Proof.
  intros [H1 H2]. split; [rewrite fsort_nemb, H1; symmetry; now apply ssort_map|]. apply Forall_forall. intros x Hx. rewrite Forall_forall in H2. apply H2. apply (Permutation_in _ (fsort_perm a) Hx).
Qed.
Lemma rl_nfin a b : rl a b -> fnfin w a = nfin b.
Proof.
  intros [H _]. unfold fnfin, nfin. transitivity (length (filter (fun x => finite (fst x)) (map nemb a))).
  - clear. induction a as [|x t IH]; [reflexivity|]. cbn [map filter]. change (fst (nemb x)) with (kof w (fst x)). rewrite kof_finite. destruct (ffinite w (fst x)); cbn [length]; now rewrite ?IH.
  - rewrite H. clear. induction b as [|x t IH]; [reflexivity|]. cbn [map filter]. rewrite norm_fst. destruct (finite (fst x)); cbn [length]; now rewrite ?IH.
Qed.
Lemma rl_clear a b : rl a b -> srl (fclear w a) (clear_keys b).
Proof.
  intros H. pose proof (rl_length a b H) as L. destruct (inf_pat_facts w HW) as (P1 & P2 & P3 & P4 & P5).
  assert (A : Forall okp (fclear w a)) by (apply Forall_forall; intros x Hx; unfold fclear in Hx; apply in_map_iff in Hx as (y & <- & _); split; assumption).
  split; [|exact A]. split; [|eapply Forall_impl; [|exact A]; intros x Hx; exact (proj1 Hx)].
  clear A. transitivity (repeat (PInf, @None fitem) (length a)).
  - clear - HW P4 P5. pose proof (kof_inf w HW) as K. induction a as [|x t IH]; [reflexivity|]. cbn [fclear map length repeat]. unfold nemb at 1. cbn [fst snd]. rewrite K, P5. f_equal. exact IH.
  - rewrite L. clear. induction b as [|x t IH]; [reflexivity|]. cbn [clear_keys map length repeat]. unfold norm at 1. cbn. f_equal. exact IH.
Qed.
(** [a] NaN-free: so is the low half of the split *)
Lemma fsorted_prefix (P : nat) (l : frow) : fsorted l -> P <= length (filter (fun p => negb (nan (fst p))) l) -> Forall (fun p => nan (fst p) = false) (firstn P l).
Proof.
  revert P. induction l as [|x t IH]; intros P H L; [rewrite firstn_nil; constructor|]. destruct P as [|P]; [constructor|]. inversion H as [|? ? H1 H2]; subst.
  cbn [firstn]. cbn [filter] in L. destruct (nan (fst x)) eqn:N; cbn [negb] in L.
  - exfalso. assert (E : filter (fun p : fitem => negb (nan (fst p))) t = []).
    { rewrite Forall_forall in H2. clear - H2 N. induction t as [|y t IH]; [reflexivity|]. cbn [filter].
      pose proof (H2 y (or_introl eq_refl)) as Q. unfold fsle in Q. rewrite N in Q. cbn in Q. rewrite orb_false_r in Q. rewrite Q. cbn. apply IH. intros z Hz. apply H2. now right. }
    rewrite E in L. cbn in L. lia.
  - cbn [length] in L. constructor; [exact N|]. apply IH; [exact H1|lia].
Qed.
Lemma filter_len_perm {A : Type} (f : A -> bool) l l' : Permutation l l' -> length (filter f l) = length (filter f l').
Proof. intros H. induction H; cbn [filter]; repeat match goal with |- context [if f ?z then _ else _] => destruct (f z) end; cbn [length]; congruence. Qed.
Lemma okp_count (l : frow) : Forall okp l -> length (filter (fun p => negb (nan (fst p))) l) = length l.
Proof. induction 1 as [|x t [_ H] _ IH]; [reflexivity|]. cbn [filter]. rewrite H. cbn. now rewrite IH. Qed.
Lemma okp_of (l : frow) : Forall (fun p => pat w (fst p)) l -> Forall (fun p => nan (fst p) = false) l -> Forall okp l.
Proof. rewrite !Forall_forall. intros A B x Hx. split; auto. Qed.
Lemma rl_split a b a' b' : rl a a' -> rl b b' -> Forall okp a ->
  exists lo hi lo' hi', fmsplit w a b = (lo, hi) /\ msplit a' b' = (lo', hi') /\ srl lo lo' /\ rl hi hi'.
Proof.
  intros HA HB O. unfold fmsplit, msplit. rewrite <- (rl_length a a' HA). pose proof (rl_sort _ _ (rl_app _ _ _ _ HA HB)) as HS.
  do 4 eexists. split; [reflexivity|]. split; [reflexivity|]. split; [|now apply rl_skipn].
  split; [now apply rl_firstn|]. apply okp_of; [exact (proj2 (rl_firstn _ _ _ HS))|]. apply fsorted_prefix; [apply fsort_sorted|].
  rewrite (filter_len_perm _ _ _ (fsort_perm (a ++ b))), filter_app, app_length, (okp_count a O). lia.
Qed.
Lemma srl_split a b a' b' : srl a a' -> srl b b' ->
  exists lo hi lo' hi', fmsplit w a b = (lo, hi) /\ msplit a' b' = (lo', hi') /\ srl lo lo' /\ srl hi hi'.
Proof.
  intros [HA OA] [HB OB]. destruct (rl_split a b a' b' HA HB OA) as (lo & hi & lo' & hi' & E1 & E2 & E3 & E4). exists lo, hi, lo', hi'.
  split; [exact E1|]. split; [exact E2|]. split; [exact E3|]. split; [exact E4|]. unfold fmsplit in E1. injection E1 as _ <-.
  apply Forall_forall. intros x Hx. assert (Hx' : In x (fsort w (a ++ b))) by (rewrite <- (firstn_skipn (length a)); apply in_or_app; now right).
  apply (Permutation_in _ (fsort_perm _)) in Hx'. apply in_app_or in Hx'. rewrite Forall_forall in OA, OB. destruct Hx'; auto.
Qed.
(** keys *)
Lemma srl_first a b : srl a b -> kof w (ffirst w a) = first_key b /\ nan (ffirst w a) = false.
Proof.
  intros [[H _] O]. destruct a as [|x t]; destruct b as [|y u]; cbn in H; try discriminate; unfold ffirst, first_key; cbn.
  - split; [apply (kof_inf w HW)|apply (inf_pat_facts w HW)].
  - injection H as -> _ _. inversion O as [|? ? [_ N] _]; subst. auto.
Qed.
Lemma srl_last a b : srl a b -> kof w (flast w a) = last_key b /\ nan (flast w a) = false.
Proof.
  intros [[H _] O]. unfold flast, last_key.
  assert (E : map (fun p : fitem => kof w (fst p)) a = map fst b) by (apply (f_equal (map fst)) in H; rewrite !map_map in H; exact H).
  split.
  - rewrite <- E, <- (kof_inf w HW). clear. induction a as [|x [|y t] IH]; [reflexivity|reflexivity|]. exact IH.
  - destruct (inf_pat_facts w HW) as (_ & _ & _ & N & _). clear - O N. induction O as [|x [|y t] [_ H] _ IH]; [exact N|exact H|exact IH].
Qed.
(** lists of rows *)
Lemma F2_length {A B : Type} (R : A -> B -> Prop) l l' : Forall2 R l l' -> length l = length l'.
Proof. induction 1; cbn; congruence. Qed.
Definition rrel : list frow -> list arow -> Prop := Forall2 srl.
Lemma rrel_at rs qs i : rrel rs qs -> srl (frow_at rs i) (row_at qs i).
Proof.
  intros H. unfold frow_at, row_at. rewrite <- (F2_length _ _ _ H). generalize (Nat.min i (length rs - 1)) as j. revert qs H.
  induction rs as [|r rs IH]; intros qs H j; inversion H; subst; [destruct j; apply srl_nil|]. destruct j; [assumption|]. cbn [nth]. now apply IH.
Qed.
Lemma rrel_upd rs qs i r q : rrel rs qs -> srl r q -> rrel (upd rs i r) (upd qs i q).
Proof. intros H. revert i. induction H as [|x y l l' H1 H2 IH]; intros i Hr; [constructor|]. destruct i; cbn [upd]; constructor; auto. now apply IH. Qed.
Lemma rrel_scatter ups qps : Forall2 (fun p q => fst p = fst q /\ srl (snd p) (snd q)) ups qps ->
  forall rs qs, rrel rs qs -> rrel (fscatter rs ups) (scatter_rows qs qps).
Proof.
  unfold fscatter, scatter_rows. induction 1 as [|p q l l' [E1 E2] _ IH]; intros rs qs H; [exact H|]. cbn [fold_left]. apply IH. rewrite E1. now apply rrel_upd.
Qed.

(** heaps *)
Record frel (f : fheap V) (h : heap (Z * V)) : Prop := MkFrel {
  fr_rows : rrel (frows f) (rows h); fr_buf : rl (fbuf f) (buf h);
  fr_hs : fhsize f = hsize h; fr_bs : fbsize f = bsize h; fr_br : fbranch f = branch h; fr_bt : fbatch f = batch h }.

Lemma rl_repeat dv n : srl (repeat (inf_pat w, dv) n) (repeat (PInf, (inf_pat w, dv)) n).
Proof.
  destruct (inf_pat_facts w HW) as (P1 & _ & _ & P4 & P5).
  split; [split|]; [|apply Forall_forall; intros x Hx; apply repeat_spec in Hx as ->; exact P1|apply Forall_forall; intros x Hx; apply repeat_spec in Hx as ->; split; assumption].
  induction n as [|n IH]; [reflexivity|]. cbn [repeat map]. rewrite IH. f_equal. unfold nemb, norm. cbn. now rewrite (kof_inf w HW), P5.
Qed.
Lemma sim_build (dv : V) total B : frel (fbuild w dv total B) (build (inf_pat w, dv) total B).
Proof.
  unfold fbuild, build. constructor; cbn; try reflexivity; [|apply rl_repeat].
  match goal with |- context [if ?c then ?x else ?y] => generalize (if c then x else y) as n end. intros n.
  induction n as [|n IH]; [constructor|]. cbn [repeat]. constructor; [apply rl_repeat|exact IH].
Qed.
Lemma sim_size f h : frel f h -> fsize w f = size h.
Proof. intros [A B C D E F]. unfold fsize, size. rewrite C, D, F. rewrite (rl_nfin _ _ (proj1 (rrel_at _ _ 0 A))). reflexivity. Qed.
Lemma sim_merge_buffer f h a b : frel f h -> rl a b ->
  exists f2 h2 a2 b2 o, fmerge_buffer w f a = (f2, a2, o) /\ merge_buffer h b = (h2, b2, o) /\ frel f2 h2 /\ rl a2 b2 /\ (o = true -> srl a2 b2).
Proof.
  intros [A B C D E F] R. unfold fmerge_buffer, merge_buffer. rewrite <- F.
  pose proof (rl_sort _ _ (rl_app _ _ _ _ R B)) as HS. rewrite <- (rl_nfin _ _ HS), <- (rl_length _ _ HS).
  set (s := fsort w (a ++ fbuf f)) in *. set (s' := ssort (b ++ buf h)) in *.
  destruct (fbatch f <=? fnfin w s) eqn:O.
  - pose proof (rl_firstn (fbatch f) _ _ HS) as R1. pose proof (rl_skipn (fbatch f) _ _ HS) as R2.
    do 5 eexists. split; [reflexivity|]. split; [reflexivity|]. split; [constructor; cbn [frows fbuf fhsize fbsize fbranch fbatch rows buf hsize bsize branch batch fset_rows set_rows]; auto; now apply rl_nfin|]. split; [exact R1|]. intros _. split; [exact R1|].
    apply okp_of; [exact (proj2 R1)|]. apply fsorted_prefix; [apply fsort_sorted|]. apply Nat.leb_le in O. etransitivity; [exact O|]. unfold fnfin.
    generalize s as l. clear. induction l as [|x t IH]; [reflexivity|]. cbn [filter]. destruct (ffinite w (fst x)) eqn:FX.
    + assert (N : nan (fst x) = false) by (destruct (nan (fst x)) eqn:N; [rewrite (nan_not_finite w _ N) in FX; discriminate|reflexivity]). rewrite N. cbn. lia.
    + destruct (negb (nan (fst x))); cbn [length]; lia.
  - do 5 eexists. split; [reflexivity|]. split; [reflexivity|].
    pose proof (rl_firstn (length s - fbatch f) _ _ HS) as R1. pose proof (rl_skipn (length s - fbatch f) _ _ HS) as R2.
    split; [constructor; cbn [frows fbuf fhsize fbsize fbranch fbatch rows buf hsize bsize branch batch fset_rows set_rows]; auto; now apply rl_nfin|]. split; [exact R2|discriminate].
Qed.
Lemma sim_scan rs qs xs : rrel rs qs -> forall a b, srl a b ->
  Forall2 srl (snd (fscan_path w rs xs a)) (snd (scan_path qs xs b)).
Proof.
  intros H. induction xs as [|[i m] t IH]; intros a b R; [constructor|]. cbn [fscan_path scan_path].
  pose proof (rrel_at rs qs (if m then i else 0) H) as N. destruct m.
  - destruct (srl_split _ _ _ _ N R) as (lo & hi & lo' & hi' & E1 & E2 & E3 & E4). rewrite E1, E2. specialize (IH hi hi' E4).
    destruct (fscan_path w rs t hi), (scan_path qs t hi'). cbn [snd] in *. constructor; assumption.
  - specialize (IH a b R). destruct (fscan_path w rs t a), (scan_path qs t b). cbn [snd] in *. constructor; assumption.
Qed.
Lemma argmax_sim (l : list Z) : Forall (fun z => nan z = false) l -> forall i best bk, nan bk = false ->
  fargmax_from w i best bk l = argmax_from i best (kof w bk) (map (kof w) l).
Proof.
  induction 1 as [|k t H _ IH]; intros i best bk N; [reflexivity|]. cbn [fargmax_from map argmax_from].
  rewrite kof_gt by assumption. unfold farg_gt, fgt. rewrite H, N. cbn. destruct (ford w bk <? ford w k)%Z; now apply IH.
Qed.
Lemma sim_target f h : frel f h -> finsert_target w f = insert_target h.
Proof.
  intros [A B C D E F]. unfold finsert_target, insert_target, fis_full, is_full. rewrite C, E. destruct (branch h - 1 <=? hsize h); [|reflexivity].
  assert (K : map last_key (rows h) = map (kof w) (map (flast w) (frows f)) /\ Forall (fun z => nan z = false) (map (flast w) (frows f))).
  { clear - A HW. induction A as [|x y l l' H1 _ [IH1 IH2]]; [split; [reflexivity|constructor]|]. destruct (srl_last x y H1) as [L1 L2]. cbn [map]. rewrite IH1, L1. auto. }
  destruct K as [K1 K2]. rewrite K1. destruct K2 as [|k t H1 H2]; [reflexivity|]. unfold fargmax, argmax. cbn [map]. now apply argmax_sim.
Qed.
Lemma sim_heapify f h a b : frel f h -> srl a b ->
  frel (fst (finsert_heapify w f a)) (fst (insert_heapify h b)) /\ snd (finsert_heapify w f a) = snd (insert_heapify h b).
Proof.
  intros H R. pose proof (sim_target f h H) as T. pose proof H as [A B C D E F]. unfold finsert_heapify, insert_heapify. rewrite T. cbn [fst snd].
  unfold fis_full, is_full. rewrite C, E. split; [|reflexivity]. destruct (insert_target h <? branch h); [|exact H].
  destruct (insert_target h =? 0).
  - unfold fupdate_root_only, update_root_only. constructor; cbn [frows fbuf fhsize fbsize fbranch fbatch rows buf hsize bsize branch batch fset_rows set_rows]; auto. apply rrel_upd; [exact A|].
    destruct (srl_split _ _ _ _ (rrel_at _ _ 0 A) R) as (lo & hi & lo' & hi' & E1 & E2 & E3 & _). rewrite E1, E2. exact E3.
  - unfold fupdate_path, update_path. rewrite E. pose proof (sim_scan _ _ (path (branch h) (insert_target h)) A a b R) as S.
    destruct (fscan_path w (frows f) (path (branch h) (insert_target h)) a) as [c1 heads]. destruct (scan_path (rows h) (path (branch h) (insert_target h)) b) as [c2 heads']. cbn [snd] in S.
    constructor; cbn [frows fbuf fhsize fbsize fbranch fbatch rows buf hsize bsize branch batch fset_rows set_rows]; auto. apply rrel_scatter; [|exact A]. unfold fscatter_indices, scatter_indices. rewrite E.
    generalize (map (fun l => if path_mask (insert_target h) l && (0 <? l) || (l =? 0) then path_index (insert_target h) l else branch h) (seq 0 (max_depth (branch h)))) as ix.
    clear - S. induction S as [|x y l l' H _ IH]; intros ix; destruct ix; cbn [combine]; constructor; [split; [reflexivity|exact H]|apply IH].
Qed.
Theorem sim_insert f h a b : frel f h -> rl a b -> frel (finsert w f a) (insert h b).
Proof.
  intros H R. pose proof H as [A B C D E F]. unfold finsert, insert.
  destruct (rl_split _ _ _ _ (proj1 (rrel_at _ _ 0 A)) (rl_sort _ _ R) (proj2 (rrel_at _ _ 0 A))) as (lo & hi & lo' & hi' & E1 & E2 & E3 & E4). rewrite E1, E2.
  assert (H1 : frel (fset_rows f (upd (frows f) 0 lo)) (set_rows h (upd (rows h) 0 lo'))) by (constructor; cbn [frows fbuf fhsize fbsize fbranch fbatch rows buf hsize bsize branch batch fset_rows set_rows]; auto; now apply rrel_upd).
  destruct (sim_merge_buffer _ _ _ _ H1 E4) as (f2 & h2 & a2 & b2 & o & M1 & M2 & M3 & M4 & M5). rewrite M1, M2.
  destruct o.
  - destruct (sim_heapify f2 h2 a2 b2 M3 (M5 eq_refl)) as [K1 K2]. destruct (finsert_heapify w f2 a2) as [f3 ad]. destruct (insert_heapify h2 b2) as [h3 ad']. cbn [fst snd] in *. subst ad'.
    destruct K1 as [A3 B3 C3 D3 E3' F3]. constructor; cbn [frows fbuf fhsize fbsize fbranch fbatch rows buf hsize bsize branch batch fset_rows set_rows]; auto.
  - destruct M3 as [A3 B3 C3 D3 E3' F3]. constructor; cbn [frows fbuf fhsize fbsize fbranch fbatch rows buf hsize bsize branch batch fset_rows set_rows]; auto.
Qed.
(** deletion *)
Definition upsrel : list (nat * frow) -> list (nat * arow) -> Prop := Forall2 (fun p q => fst p = fst q /\ srl (snd p) (snd q)).
Definition strel (s : nat * frow * list (nat * frow)) (t : nat * arow * list (nat * arow)) : Prop :=
  fst (fst s) = fst (fst t) /\ srl (snd (fst s)) (snd (fst t)) /\ upsrel (snd s) (snd t).
Lemma sim_write mu us us' i r r' : upsrel us us' -> srl r r' -> upsrel (fwrite_update mu us i r) (write_update mu us' i r').
Proof. intros H R. unfold fwrite_update, write_update. rewrite (F2_length _ _ _ H). destruct (length us' <? mu); [|exact H]. apply Forall2_app; [exact H|]. constructor; [split; [reflexivity|exact R]|constructor]. Qed.
Lemma sim_cond rs qs s t : rrel rs qs -> strel s t -> fsift_cond w rs s = sift_cond qs t.
Proof.
  intros H. destruct s as [[c cur] us], t as [[c' cur'] us']. intros (E & R & _). cbn [fst snd] in *. subst c'. cbn [fsift_cond sift_cond].
  destruct (srl_last _ _ R) as [L1 L2]. destruct (srl_first _ _ (rrel_at _ _ (lc c) H)) as [F1 F2]. destruct (srl_first _ _ (rrel_at _ _ (rc c) H)) as [G1 G2].
  rewrite <- L1, <- F1, <- G1. destruct (kof_min w HW _ _ F2 G2) as [M1 M2]. rewrite M1. symmetry. now apply kof_gt.
Qed.
Lemma sim_body mu rs qs s t : rrel rs qs -> strel s t -> strel (fsift_body w mu rs s) (sift_body mu qs t).
Proof.
  intros H. destruct s as [[c cur] us], t as [[c' cur'] us']. intros (E & R & U). cbn [fst snd] in *. subst c'. cbn [fsift_body sift_body].
  destruct (srl_last _ _ (rrel_at _ _ (lc c) H)) as [F1 F2]. destruct (srl_last _ _ (rrel_at _ _ (rc c) H)) as [G1 G2].
  rewrite <- F1, <- G1. rewrite kof_gt by assumption.
  destruct (srl_split _ _ _ _ (rrel_at _ _ (lc c) H) (rrel_at _ _ (rc c) H)) as (lo & hi & lo' & hi' & E1 & E2 & E3 & E4).
  destruct (srl_split _ _ _ _ R E3) as (lo2 & hi2 & lo2' & hi2' & E5 & E6 & E7 & E8).
  destruct (fgt w (flast w (frow_at rs (lc c))) (flast w (frow_at rs (rc c)))); rewrite E1, E2, E5, E6;
    (split; [reflexivity|]; split; [exact E8|]; cbn [snd]; apply sim_write; [apply sim_write; assumption|assumption]).
Qed.
Lemma sim_while mu rs qs : rrel rs qs -> forall n s t, strel s t ->
  match while n (fsift_cond w rs) (fsift_body w mu rs) s, while n (sift_cond qs) (sift_body mu qs) t with
  | Some s', Some t' => strel s' t' | None, None => True | _, _ => False end.
Proof.
  intros H n. induction n as [|n IH]; intros s t R; cbn [while]; rewrite (sim_cond rs qs s t H R); destruct (sift_cond qs t); auto.
  apply IH. now apply sim_body.
Qed.
Theorem sim_delete f h : frel f h ->
  match fdelete_mins w f, delete_mins h with
  | Some (f', a), Some (h', b) => frel f' h' /\ srl a b | None, None => True | _, _ => False end.
Proof.
  intros H. pose proof H as [A B C D E F]. unfold fdelete_mins, delete_mins. rewrite C. pose proof (rrel_at _ _ 0 A) as R0.
  destruct (hsize h =? 0).
  - unfold fmake_empty, make_empty. destruct (rl_clear _ _ (proj1 R0)) as [Q1 Q2].
    destruct (rl_split _ _ _ _ Q1 B Q2) as (lo & hi & lo' & hi' & E1 & E2 & E3 & E4). rewrite E1, E2. split; [|exact R0]. constructor; cbn [frows fbuf fhsize fbsize fbranch fbatch rows buf hsize bsize branch batch fset_rows set_rows]; auto. now apply rrel_upd.
  - unfold fdelete_heapify, delete_heapify. rewrite C, E. pose proof (rrel_at _ _ (hsize h) A) as RL.
    destruct (rl_split _ _ _ _ (proj1 RL) B (proj2 RL)) as (lo & hi & lo' & hi' & E1 & E2 & E3 & E4). rewrite E1, E2.
    set (rs := upd (upd (frows f) (hsize h) (fclear w (frow_at (frows f) (hsize h)))) 0 lo).
    set (qs := upd (upd (rows h) (hsize h) (clear_keys (row_at (rows h) (hsize h)))) 0 lo').
    assert (HR : rrel rs qs) by (apply rrel_upd; [apply rrel_upd; [exact A|apply rl_clear; exact (proj1 RL)]|exact E3]).
    pose proof (sim_while (max_depth (branch h) * 2 + 1) rs qs HR (branch h) (0, lo, []) (0, lo', [])) as W.
    specialize (W (conj eq_refl (conj E3 (Forall2_nil _)))).
    destruct (while (branch h) (fsift_cond w rs) (fsift_body w (max_depth (branch h) * 2 + 1) rs) (0, lo, [])) as [[[c cur] us]|];
      destruct (while (branch h) (sift_cond qs) (sift_body (max_depth (branch h) * 2 + 1) qs) (0, lo', [])) as [[[c' cur'] us']|]; try contradiction; [|exact Logic.I].
    destruct W as (W1 & W2 & W3). cbn [fst snd] in *. subst c'. split; [|exact R0]. constructor; cbn [frows fbuf fhsize fbsize fbranch fbatch rows buf hsize bsize branch batch fset_rows set_rows]; auto.
    apply rrel_scatter; [|exact HR]. now apply sim_write.
Qed.
End S.
