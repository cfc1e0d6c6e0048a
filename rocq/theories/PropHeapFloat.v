(** * PropHeapFloat.v — property theorems C57 (priority queue with IEEE floating-point keys). *)
From Verif Require Import Jax StructModel EqModel FloatEq KeyModel SortProofs HeapModel HeapSpec HeapProofs HeapInsert HeapInv HeapDelete PropHeap HeapFloat FloatOrder HeapFloatSim.

(** ** Specification, on bags of (bit pattern, value) pairs; [fval w p] is the number the
    pattern [p] stands for, [None] for NaN. *)
Section Spec.
Variable w : nat.
Context {V : Type}.
Notation fitem := (Z * V)%type.
Notation frow := (list fitem).
Definition neg_inf : Z := (2 ^ (Z.of_nat w - 1) + inf_pat w)%Z.
(** the real items of a block: neither NaN nor infinite *)
Definition ffin (r : frow) : frow := filter (fun p => ffinite w (fst p)) r.
(** numerically at most *)
Definition nle (x y : fitem) : Prop := exists vx vy, fval w (fst x) = Some vx /\ fval w (fst y) = Some vy /\ (vx <= vy)%Z.
Definition nbelow (a b : frow) : Prop := forall x y, In x a -> In y b -> nle x y.
Inductive fop := FIns (block : frow) | FDel.
(** a block has batch_size slots with keys of the key dtype; NaN of any kind, -0.0, 0.0 and
    +inf are allowed, -inf is not (C12_minus_infinity_is_not_counted) *)
Definition flegal (B : nat) (o : fop) : Prop :=
  match o with
  | FIns block => length block = B /\ (forall x, In x block -> (0 <= fst x < 2 ^ Z.of_nat w)%Z /\ fst x <> neg_inf)
  | FDel => True
  end.
Inductive fins_spec (B cap : nat) (bag block bag' : frow) : Prop :=
| fins_fits :
    length bag + length (ffin block) < cap + B ->
    Permutation bag' (bag ++ ffin block) ->
    fins_spec B cap bag block bag'
| fins_evicts (low rest ev : frow) :
    cap + B <= length bag + length (ffin block) ->
    length ev = B -> length low = B ->
    Permutation bag' (low ++ rest) ->
    Permutation (bag' ++ ev) (bag ++ ffin block) ->
    nbelow low (rest ++ ev) ->
    (exists kept late e, Permutation bag' (kept ++ late) /\ length late < B /\ In e ev /\ (forall x, In x kept -> nle x e)) ->
    fins_spec B cap bag block bag'.
Definition fdel_spec (B : nat) (bag out bag' : frow) : Prop :=
  exists ret pad,
    out = ret ++ pad /\ length out = B /\
    length ret = Nat.min B (length bag) /\
    (forall x, In x pad -> fst x = inf_pat w) /\
    StronglySorted nle ret /\
    Permutation bag (ret ++ bag') /\
    nbelow ret bag'.
Inductive fpq_trace (B cap : nat) : frow -> list fop -> list (frow * Z) -> frow -> Prop :=
| ftr_nil bag : fpq_trace B cap bag [] [] bag
| ftr_ins bag block bag' ops obs bag'' :
    fins_spec B cap bag block bag' -> fpq_trace B cap bag' ops obs bag'' ->
    fpq_trace B cap bag (FIns block :: ops) (([], Z.of_nat (length bag')) :: obs) bag''
| ftr_del bag out bag' ops obs bag'' :
    fdel_spec B bag out bag' -> fpq_trace B cap bag' ops obs bag'' ->
    fpq_trace B cap bag (FDel :: ops) ((out, Z.of_nat (length bag')) :: obs) bag''.
Fixpoint frun (h : fheap V) (ops : list fop) : option (fheap V * list (frow * Z)) :=
  match ops with
  | [] => Some (h, [])
  | FIns block :: t =>
      let h' := finsert w h block in
      match frun h' t with Some (hf, obs) => Some (hf, ([], fsize w h') :: obs) | None => None end
  | FDel :: t =>
      match fdelete_mins w h with
      | None => None
      | Some (h', out) => match frun h' t with Some (hf, obs) => Some (hf, (out, fsize w h') :: obs) | None => None end
      end
  end.
Definition fcontents (h : fheap V) : frow := ffin (concat (frows h) ++ fbuf h).
End Spec.
Arguments fop V : clear implicits.

(** C57: what "finite" and the two infinities are, as numbers. *)
Theorem C57_finite : forall w z, float_width w -> (0 <= z < 2 ^ Z.of_nat w)%Z ->
  (ffinite w z = true <-> fval w z <> None /\ z <> inf_pat w /\ z <> neg_inf w).
Proof.
  intros w z HW Hz.
  assert (E : fval w z <> None <-> is_nan w z = false).
  { destruct (is_nan w z) eqn:N; [apply (is_nan_spec w HW z Hz) in N; rewrite N; intuition congruence|].
    split; [reflexivity|]. intros _ C. apply (is_nan_spec w HW z Hz) in C. congruence. }
  rewrite E. pose proof (inf_pat_pos w HW) as [P1 P2]. pose proof (fmag_split w HW z Hz) as S. pose proof (fmag_range w HW z) as R.
  destruct (inf_pat_facts w HW) as (_ & _ & F1 & _). unfold neg_inf.
  assert (F2 : fmag w (2 ^ (Z.of_nat w - 1) + inf_pat w) = inf_pat w).
  { unfold fmag in *. rewrite <- F1 at 2. rewrite Z.add_mod, Z.mod_same, Z.add_0_l, Z.mod_mod; try reflexivity; lia. }
  unfold ffinite, is_nan. rewrite Z.ltb_lt, Z.ltb_ge. split.
  - intros L. split; [lia|]. split; intros ->; lia.
  - intros (L & N1 & N2). destruct (Z.eq_dec (fmag w z) (inf_pat w)) as [Q|]; [|lia]. exfalso. rewrite Q in S. destruct (fneg w z); [apply N2|apply N1]; lia.
Qed.
Print Assumptions C57_finite.

Section P.
Variable w : nat.
Hypothesis HW : float_width w.
Context {V : Type}.
Notation fitem := (Z * V)%type.
Notation frow := (list fitem).
Notation aitem := (key * (Z * V))%type.
Notation arow := (list aitem).
Definition femb (p : fitem) : aitem := (kof w (fst p), p).
Definition fgood (x : aitem) : Prop := fst x = kof w (fst (snd x)) /\ ffinite w (fst (snd x)) = true /\ pat w (fst (snd x)).
Lemma rl_femb (a : frow) : Forall (fun p => pat w (fst p)) a -> rl w a (map femb a).
Proof. intros H. split; [|exact H]. rewrite map_map. apply map_ext. intros p. unfold nemb, norm, femb. cbn [fst snd]. now rewrite kof_finite. Qed.
Lemma rl_fin (a : frow) (b : arow) : rl w a b -> map femb (ffin w a) = fin b.
Proof.
  intros [H _]. revert b H. induction a as [|x t IH]; intros [|y u] H; try discriminate; [reflexivity|]. cbn [map] in H. injection H as H1 H2 H3.
  unfold ffin, fin in *. cbn [filter]. rewrite <- H1, kof_finite in *. destruct (ffinite w (fst x)) eqn:F.
  - cbn [map]. rewrite (IH u H3). f_equal. unfold femb. rewrite H1. injection H2 as ->. destruct y; reflexivity.
  - apply IH. exact H3.
Qed.
Lemma rrel_concat (rs : list frow) qs : rrel w rs qs -> rl w (concat rs) (concat qs).
Proof. induction 1 as [|x y l l' [H _] _ IH]; [apply rl_nil|]. cbn [concat]. now apply rl_app. Qed.
Lemma frel_contents (f : fheap V) h : frel w f h -> map femb (fcontents w f) = contents h.
Proof. intros [A B _ _ _ _]. apply rl_fin. apply rl_app; [now apply rrel_concat|exact B]. Qed.
Lemma ffin_in (x : fitem) (r : frow) : In x (ffin w r) <-> In x r /\ ffinite w (fst x) = true.
Proof. unfold ffin. apply filter_In. Qed.
Lemma femb_good (r : frow) : Forall (fun p => pat w (fst p)) r -> Forall fgood (map femb (ffin w r)).
Proof. rewrite !Forall_forall. intros H x Hx. apply in_map_iff in Hx as (p & <- & Hp). apply ffin_in in Hp as [P1 P2]. split; [reflexivity|]. split; [exact P2|]. now apply H. Qed.
Lemma frel_pat (f : fheap V) h : frel w f h -> Forall (fun p => pat w (fst p)) (concat (frows f) ++ fbuf f).
Proof. intros [A B _ _ _ _]. apply Forall_app. split; [exact (proj2 (rrel_concat _ _ A))|exact (proj2 B)]. Qed.
Lemma snd_femb (r : frow) : map snd (map femb r) = r.
Proof. rewrite map_map. rewrite <- (map_id r) at 2. apply map_ext. reflexivity. Qed.
Lemma fgood_nle x y : fgood x -> fgood y -> ile x y -> nle w (snd x) (snd y).
Proof.
  intros (X1 & X2 & X3) (Y1 & Y2 & Y3). unfold ile. rewrite X1, Y1.
  assert (NX : is_nan w (fst (snd x)) = false) by (destruct (is_nan w (fst (snd x))) eqn:N; [rewrite (nan_not_finite w _ N) in X2; discriminate|reflexivity]).
  assert (NY : is_nan w (fst (snd y)) = false) by (destruct (is_nan w (fst (snd y))) eqn:N; [rewrite (nan_not_finite w _ N) in Y2; discriminate|reflexivity]).
  rewrite (kof_le w HW) by assumption. intros L. apply Z.leb_le in L. unfold nle.
  destruct (fval w (fst (snd x))) as [vx|] eqn:VX; [|apply (is_nan_spec w HW _ X3) in VX; congruence].
  destruct (fval w (fst (snd y))) as [vy|] eqn:VY; [|apply (is_nan_spec w HW _ Y3) in VY; congruence].
  exists vx, vy. split; [reflexivity|]. split; [reflexivity|]. apply (fval_ford w HW _ _ vx vy X3 Y3 VX VY). exact L.
Qed.
Lemma fgood_below a b : Forall fgood a -> Forall fgood b -> below a b -> nbelow w (map snd a) (map snd b).
Proof.
  rewrite !Forall_forall. intros GA GB H x y Hx Hy. apply in_map_iff in Hx as (x' & <- & Hx). apply in_map_iff in Hy as (y' & <- & Hy). apply fgood_nle; auto.
Qed.
Lemma fgood_femb (l : arow) : Forall fgood l -> map femb (map snd l) = l.
Proof. induction 1 as [|x t (H & _) _ IH]; [reflexivity|]. cbn [map]. rewrite IH. f_equal. unfold femb. rewrite <- H. destruct x; reflexivity. Qed.
Lemma perm_good (a b : arow) : Permutation a b -> Forall fgood b -> Forall fgood a.
Proof. intros H G. rewrite Forall_forall in *. intros x Hx. apply G. apply (Permutation_in _ H Hx). Qed.
Lemma ins_transfer B cap (bag block bag' : frow) : Forall (fun p => pat w (fst p)) bag -> Forall (fun p => pat w (fst p)) block -> ffin w bag = bag ->
  ins_spec B cap (map femb bag) (map femb block) (map femb bag') -> fins_spec w B cap bag block bag'.
Proof.
  intros PB PK FB H. pose proof (rl_fin _ _ (rl_femb block PK)) as EF. pose proof (femb_good block PK) as GK.
  assert (GB : Forall fgood (map femb bag)) by (rewrite <- FB; now apply femb_good).
  destruct H as [Hc Hp|low rest ev Hc L1 L2 P1 P2 P3 (kept & late & e & Q1 & Q2 & Q3 & Q4)].
  - apply fins_fits.
    + rewrite <- EF in Hc. now rewrite !map_length in Hc.
    + rewrite <- EF in Hp. apply (Permutation_map snd) in Hp. now rewrite map_app, !snd_femb in Hp.
  - rewrite <- EF in *.
    assert (GA : Forall fgood (map femb bag' ++ ev)) by (eapply perm_good; [exact P2|apply Forall_app; split; [exact GB|exact GK]]).
    apply Forall_app in GA as [GB' GE]. assert (GL : Forall fgood (low ++ rest)) by (eapply perm_good; [symmetry; exact P1|exact GB']).
    apply Forall_app in GL as [GL GR]. assert (GQ : Forall fgood (kept ++ late)) by (eapply perm_good; [symmetry; exact Q1|exact GB']). apply Forall_app in GQ as [GQ _].
    apply (fins_evicts w B cap bag block bag' (map snd low) (map snd rest) (map snd ev)); rewrite ?map_length; try assumption.
    + now rewrite !map_length in Hc.
    + apply (Permutation_map snd) in P1. now rewrite map_app, !snd_femb in P1.
    + apply (Permutation_map snd) in P2. now rewrite !map_app, !snd_femb in P2.
    + rewrite <- map_app. apply fgood_below; [exact GL|apply Forall_app; auto|exact P3].
    + exists (map snd kept), (map snd late), (snd e). split; [apply (Permutation_map snd) in Q1; now rewrite map_app, !snd_femb in Q1|].
      split; [now rewrite map_length|]. split; [now apply in_map|]. intros x Hx. apply in_map_iff in Hx as (x' & <- & Hx).
      rewrite Forall_forall in GQ, GE. apply fgood_nle; auto.
Qed.
Lemma nonfinite_inf (p : fitem) : okp w p -> kof w (fst p) = PInf -> fst p = inf_pat w.
Proof.
  intros [P N] K. pose proof (fmag_split w HW _ P) as S. unfold kof in K. rewrite N in K. destruct (ffinite w (fst p)) eqn:F; [discriminate|]. destruct (fneg w (fst p)); [discriminate|].
  rewrite S. unfold ffinite, is_nan in *. apply Z.ltb_ge in F, N. lia.
Qed.
Lemma good_prefix (a : frow) (b : arow) : srl w a b -> forall r q, b = r ++ q -> Forall fgood r -> (forall x, In x q -> fst x = PInf) ->
  exists pad, a = map snd r ++ pad /\ (forall x, In x pad -> fst x = inf_pat w).
Proof.
  intros [[H _] O]. revert b H. induction a as [|x t IH]; intros b H r q E G Q.
  - destruct b; [|discriminate]. symmetry in E. apply app_eq_nil in E as [-> ->]. exists []. split; [reflexivity|]. intros ? [].
  - destruct b as [|y u]; [discriminate|]. cbn [map] in H. injection H as H1 H2 H3. inversion O as [|? ? O1 O2]; subst. destruct r as [|y' r].
    + cbn [app] in E. subst q. destruct (IH O2 u H3 [] u eq_refl (Forall_nil _)) as (pad & P1 & P2); [intros z Hz; apply Q; now right|].
      exists (x :: pad). cbn [map app] in *. subst t. split; [reflexivity|]. intros z [<-|Hz]; [|now apply P2]. apply nonfinite_inf; [exact O1|]. rewrite H1. apply Q. now left.
    + cbn [app] in E. injection E as -> E. inversion G as [|? ? (G1 & G2 & G3) G4]; subst. destruct (IH O2 _ H3 r q eq_refl G4 Q) as (pad & P1 & P2). exists pad. split; [|exact P2].
      cbn [map app]. f_equal; [|exact P1]. rewrite G1 in H1. rewrite G1, kof_finite, G2 in H2.
      assert (FX : ffinite w (fst x) = true) by (rewrite <- kof_finite, H1, kof_finite; exact G2). rewrite FX in H2. congruence.
Qed.
Lemma del_transfer B (bag a : frow) (b : arow) (bag' : frow) : Forall (fun p => pat w (fst p)) bag -> ffin w bag = bag ->
  srl w a b -> del_spec B (map femb bag) b (map femb bag') -> fdel_spec w B bag a bag'.
Proof.
  intros PB FB R (ret & pad & E & L & L2 & HP & HS & PM & HB).
  assert (GB : Forall fgood (map femb bag)) by (rewrite <- FB; now apply femb_good).
  assert (GA : Forall fgood (ret ++ map femb bag')) by (eapply perm_good; [symmetry; exact PM|exact GB]). apply Forall_app in GA as [GR GB'].
  destruct (good_prefix a b R ret pad E GR HP) as (p & P1 & P2). exists (map snd ret), p. split; [exact P1|].
  split; [rewrite (rl_length w _ _ (proj1 R)); exact L|]. split; [rewrite map_length, L2, map_length; reflexivity|]. split; [exact P2|].
  split; [|split].
  - clear - HS GR HW. induction HS as [|x t H1 IH H2]; [constructor|]. inversion GR; subst. cbn [map]. constructor; [auto|].
    rewrite Forall_forall in *. intros y Hy. apply in_map_iff in Hy as (y' & <- & Hy). apply fgood_nle; auto.
  - apply (Permutation_map snd) in PM. now rewrite map_app, !snd_femb in PM.
  - rewrite <- (snd_femb bag'). now apply fgood_below.
Qed.
Lemma fcontents_facts (f : fheap V) h : frel w f h -> Forall (fun p => pat w (fst p)) (fcontents w f) /\ ffin w (fcontents w f) = fcontents w f.
Proof.
  intros H. split.
  - pose proof (frel_pat f h H) as P. rewrite Forall_forall in *. intros x Hx. apply ffin_in in Hx as [Hx _]. now apply P.
  - unfold fcontents. generalize (concat (frows f) ++ fbuf f) as l. induction l as [|x t IH]; [reflexivity|]. unfold ffin in *. cbn [filter]. destruct (ffinite w (fst x)) eqn:F; cbn [filter]; rewrite ?F, IH; reflexivity.
Qed.
Lemma legal_femb B (block : frow) : flegal w B (FIns block) -> Forall (fun p => pat w (fst p)) block /\ length (map femb block) = B /\ nonn (map femb block).
Proof.
  intros [L H]. split; [apply Forall_forall; intros x Hx; exact (proj1 (H x Hx))|]. split; [now rewrite map_length|].
  intros x Hx. apply in_map_iff in Hx as (p & <- & Hp). cbn [femb fst]. destruct (H p Hp) as [P1 P2]. unfold kof.
  destruct (is_nan w (fst p)) eqn:N; [discriminate|]. destruct (ffinite w (fst p)) eqn:F; [discriminate|]. destruct (fneg w (fst p)) eqn:S; [|discriminate].
  exfalso. apply P2. pose proof (fmag_split w HW _ P1) as Q. rewrite S in Q. unfold is_nan, ffinite in *. apply Z.ltb_ge in N, F. unfold neg_inf. lia.
Qed.
Lemma frun_ok (ops : list (fop V)) : forall (f : fheap V) h, frel w f h -> Inv h -> fits32 h -> Forall (flegal w (batch h)) ops ->
  exists f' obs, frun w f ops = Some (f', obs) /\ (exists h', frel w f' h' /\ Inv h' /\ fits32 h') /\
    fpq_trace w (batch h) (max_size h) (fcontents w f) ops obs (fcontents w f').
Proof.
  induction ops as [|o ops IH]; intros f h R HI H32 HF.
  - exists f, []. split; [reflexivity|]. split; [exists h; auto|constructor].
  - inversion HF as [|? ? Ho HF']; subst. destruct (fcontents_facts f h R) as [PC FC]. pose proof (frel_contents f h R) as EC.
    destruct o as [block|]; cbn [frun].
    + destruct (legal_femb _ _ Ho) as (PK & L & N). destruct (insert_ok h (map femb block) HI L N) as (I1 & I2 & I3 & I4).
      pose proof (sim_insert w HW f h block (map femb block) R (rl_femb block PK)) as R1.
      assert (H32' : fits32 (insert h (map femb block))) by (unfold fits32 in *; rewrite I2, I3; exact H32).
      rewrite <- I2 in HF'. destruct (IH _ _ R1 I1 H32' HF') as (f' & obs & E1 & E2 & E3).
      rewrite E1. do 2 eexists. split; [reflexivity|]. split; [exact E2|].
      rewrite (sim_size w _ _ R1), (size_ok _ I1 H32'), <- (frel_contents _ _ R1), map_length.
      apply (ftr_ins _ _ _ _ _ (fcontents w (finsert w f block))).
      * apply ins_transfer; try assumption. rewrite EC, (frel_contents _ _ R1). exact I4.
      * unfold max_size in *. rewrite I2, I3 in E3. exact E3.
    + destruct (delete_ok h HI) as (h1 & out & D0 & I1 & I2 & I3 & I4). pose proof (sim_delete w HW f h R) as R1. rewrite D0 in R1.
      destruct (fdelete_mins w f) as [[f1 a]|]; [|contradiction]. destruct R1 as [R1 RA].
      assert (H32' : fits32 h1) by (unfold fits32 in *; rewrite I2, I3; exact H32).
      rewrite <- I2 in HF'. destruct (IH _ _ R1 I1 H32' HF') as (f' & obs & E1 & E2 & E3).
      rewrite E1. do 2 eexists. split; [reflexivity|]. split; [exact E2|].
      rewrite (sim_size w _ _ R1), (size_ok _ I1 H32'), <- (frel_contents _ _ R1), map_length.
      apply (ftr_del _ _ _ _ _ (fcontents w f1)).
      * apply (del_transfer _ _ _ out); try assumption. rewrite EC, (frel_contents _ _ R1). exact I4.
      * unfold max_size in *. rewrite I2, I3 in E3. exact E3.
Qed.
End P.

(** C57: every history of inserts and delete_mins with float keys refines the bag
    specification: numeric order, NaN and +inf are not stored, every padding slot has key +inf. *)
Theorem C57_every_history : forall (w : nat) (V : Type) (total B : nat) (dv : V) ops,
  float_width w -> params_ok total B -> Forall (flegal w B) ops ->
  exists h obs, frun w (fbuild w dv total B) ops = Some (h, obs) /\
    fpq_trace w B (((total + B - 1) / B) * B) [] ops obs (fcontents w h).
Proof.
  intros w V total B dv ops HW HP HF. pose proof HP as (HB & Ht & Hs).
  destruct (build_fits (inf_pat w, dv) total B HP) as [H32 Hsm]. destruct (build_ok (inf_pat w, dv) total B HB Ht Hsm) as (HI & E0 & E1 & E2).
  rewrite <- E1 in HF. pose proof (sim_build w HW dv total B) as R. destruct (frun_ok w HW ops _ _ R HI H32 HF) as (h & obs & R1 & _ & R2).
  exists h, obs. split; [exact R1|]. unfold max_size in R2. rewrite E1, E2 in R2. pose proof (frel_contents w _ _ R) as EC. rewrite E0 in EC. destruct (fcontents w (fbuild w dv total B)); [exact R2|discriminate].
Qed.
Print Assumptions C57_every_history.

(** C57: on a reachable queue no stored block holds NaN, and what delete_mins returns is never NaN *)
Theorem C57_no_nan_stored : forall (w : nat) (V : Type) (total B : nat) (dv : V) ops h obs,
  float_width w -> params_ok total B -> Forall (flegal w B) ops -> frun w (fbuild w dv total B) ops = Some (h, obs) ->
  (forall r x, In r (frows h) -> In x r -> fval w (fst x) <> None) /\
  (forall h' out x, fdelete_mins w h = Some (h', out) -> In x out -> fval w (fst x) <> None).
Proof.
  intros w V total B dv ops h obs HW HP HF HR. pose proof HP as (HB & Ht & Hs).
  destruct (build_fits (inf_pat w, dv) total B HP) as [H32 Hsm]. destruct (build_ok (inf_pat w, dv) total B HB Ht Hsm) as (HI & E0 & E1 & E2).
  rewrite <- E1 in HF. destruct (frun_ok w HW ops _ _ (sim_build w HW dv total B) HI H32 HF) as (h1 & obs1 & R1 & (g & G1 & G2 & G3) & _).
  rewrite HR in R1. injection R1 as <- <-. assert (K : forall p : Z * V, okp w p -> fval w (fst p) <> None).
  { intros p [P N] C. apply (is_nan_spec w HW _ P) in C. congruence. }
  split.
  - intros r x Hr Hx. apply K. destruct G1 as [A _ _ _ _ _]. clear - A Hr Hx. induction A as [|y z l l' [_ H] _ IH]; [destruct Hr|]. destruct Hr as [->|Hr]; [|now apply IH]. rewrite Forall_forall in H. now apply H.
  - intros h' out x HD Hx. pose proof (sim_delete w HW _ _ G1) as S. rewrite HD in S. destruct (delete_mins g) as [[h2 b]|]; [|contradiction]. destruct S as [_ [_ O]]. rewrite Forall_forall in O. apply K. now apply O.
Qed.
Print Assumptions C57_no_nan_stored.

(** C57: the order is numeric: -0.0 and 0.0 are interchangeable, and they keep the order in
    which they were inserted; a NaN cost is dropped without any report. *)
Definition f16 (p : Z) : Z * Z := (p, p).
Definition nan16 : Z := 0x7E00. Definition nz16 : Z := 0x8000. Definition one16 : Z := 0x3C00. Definition mtwo16 : Z := 0xC000.
Example C57_nonvacuous : float_width 16 /\ params_ok 6 2 /\
  Forall (flegal 16 2) [FIns [f16 nan16; f16 one16]; FIns [f16 0; f16 nz16]; FIns [f16 mtwo16; f16 0x7C00]; FDel; FDel; FDel] /\
  exists h obs, frun 16 (fbuild 16 0%Z 6 2) [FIns [f16 nan16; f16 one16]; FIns [f16 0; f16 nz16]; FIns [f16 mtwo16; f16 0x7C00]; FDel; FDel; FDel] = Some (h, obs) /\
    obs = [([], 1); ([], 3); ([], 4); ([f16 mtwo16; f16 0], 2); ([f16 nz16; f16 one16], 0); ([(0x7C00, nz16); (0x7C00, one16)], 0)]%Z.
Proof.
  split; [left; reflexivity|]. split; [unfold params_ok; lia|]. split.
  - repeat (apply Forall_cons; [first [exact Logic.I|split; [reflexivity|intros x [<-|[<-|[]]]; (split; [split; [vm_compute; intros C; discriminate C|vm_compute; reflexivity]|intros C; vm_compute in C; discriminate C])]]|]). apply Forall_nil.
  - eexists. eexists. split; vm_compute; reflexivity.
Qed.
Theorem C57_nan_items_are_stored_refuted :
  ~ (forall (w : nat) (V : Type) (total B : nat) (dv : V) block h obs, float_width w -> params_ok total B -> flegal w B (FIns block) ->
       frun w (fbuild w dv total B) [FIns block] = Some (h, obs) -> length (fcontents w h) = length block).
Proof.
  intros H. specialize (H 16 Z 6 2 0%Z [f16 nan16; f16 one16]). destruct (frun 16 (fbuild 16 0%Z 6 2) [FIns [f16 nan16; f16 one16]]) as [[h obs]|] eqn:E; [|vm_compute in E; discriminate].
  specialize (H h obs). assert (C : length (fcontents 16 h) = 1%nat) by (vm_compute in E; injection E as <- _; vm_compute; reflexivity).
  rewrite C in H. discriminate H; [left; reflexivity|unfold params_ok; lia| |reflexivity].
  split; [reflexivity|]. intros x [<-|[<-|[]]]; (split; [split; [vm_compute; intros D; discriminate D|vm_compute; reflexivity]|intros D; vm_compute in D; discriminate D]).
Qed.
Print Assumptions C57_nan_items_are_stored_refuted.
