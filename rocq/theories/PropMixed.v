(** * PropMixed.v — property C73: instances whose arrays differ in dtype. *)
From Coq Require Import String.
From Verif Require Import Jax StructModel ArrayModel ArrayFacts ShapeModel PropShape RowsModel RowsLift PropRows PropRows2 PropRows3 PropRows4 EqModel FloatEq PropEq RowsModel2 PropRows5 PropRows6 PropRows7 CompareModel PropCompare PropSafeCast PropBlock PromoteModel FloatRound PropPromote.

(** ** Specification *)
(** an instance of the class with batch shape [s], whatever the dtypes of its arrays *)
Fixpoint loose_v (s : list nat) (d : desc) (v : value) {struct d} : Prop :=
  match d, v with
  | Prim _ ish _ _ _, VArr a => wfa a /\ ashape a = s ++ ish
  | Nest c ish, VObj o => loose (s ++ ish) c o
  | _, _ => False
  end
with loose (s : list nat) (c : class) (o : obj) {struct c} : Prop :=
  match c, o with
  | CNil, ONil => True
  | CCons n d r, OCons m v q => n = m /\ loose_v s d v /\ loose s r q
  | _, _ => False
  end.
(** the class with other dtypes *)
Fixpoint variant_d (d d' : desc) {struct d} : Prop :=
  match d, d' with
  | Prim _ ish bits pb fill, Prim _ ish' bits' pb' fill' => ish' = ish /\ bits' = bits /\ pb' = pb /\ fill' = fill
  | Nest c ish, Nest c' ish' => ish' = ish /\ variant c c'
  | _, _ => False
  end
with variant (c c' : class) {struct c} : Prop :=
  match c, c' with
  | CNil, CNil => True
  | CCons n d r, CCons m d' r' => m = n /\ variant_d d d' /\ variant r r'
  | _, _ => False
  end.
(** [x] is the [i]-th of the arrays [l], each number converted to the common dtype of [l] *)
Definition brought (x64 : bool) (i : nat) (l : list array) (x : array) : Prop :=
  exists a, nth_error l i = Some a /\ adtype x = result_type x64 (map adtype l) /\ ashape x = ashape a /\
    forall idx, inb idx (ashape a) -> get x idx = conv (adtype a) (adtype x) (get a idx).

(** ** Facts *)
Lemma loose_batched_both : (forall d s v, conforms_v d v -> has_v s d v -> loose_v s d v) /\ (forall c s o, conforms c o -> has_batch s c o -> loose s c o).
Proof.
  apply desc_class_ind.
  - intros dt ish bits pb fill s [a|o] HC HH; cbn in *; [|destruct HC]. destruct HC. split; auto.
  - intros c IH ish s [a|o] HC HH; cbn in *; [destruct HC|]. auto.
  - intros s [|] HC HH; cbn in *; auto.
  - intros n d IHd r IHr s [|m v q] HC HH; cbn in *; [destruct HC|]. destruct HC as (? & ? & ?), HH as (? & ? & ?). auto.
Qed.
Lemma variant_batch : (forall d d' v, variant_d d d' -> batch_v d' v = batch_v d v) /\ (forall c c' o, variant c c' -> batches c' o = batches c o).
Proof.
  apply desc_class_ind.
  - intros dt ish bits pb fill [dt' ish' ? ? ?|] v H; cbn in H; [|destruct H]. destruct H as (-> & _). reflexivity.
  - intros c IH ish [|c' ish'] v H; cbn in H; [destruct H|]. destruct H as (-> & H). cbn [batch_v]. destruct v; [reflexivity|]. now rewrite (IH c').
  - intros [|] o H; cbn in H; [reflexivity|destruct H].
  - intros n d IHd r IHr [|m d' r'] o H; cbn in H; [destruct H|]. destruct H as (-> & H1 & H2). cbn [batches]. destruct o; [reflexivity|]. now rewrite (IHd d' v H1), (IHr r' o H2).
Qed.
Lemma variant_get c c' o : variant c c' -> get_batch c' o = get_batch c o.
Proof. intros H. unfold get_batch. now rewrite (proj2 variant_batch c c' o H). Qed.
Lemma variant_solid : (forall d d', variant_d d d' -> solid_d d -> solid_d d') /\ (forall c c', variant c c' -> (c <> CNil -> c' <> CNil) /\ (solid c -> solid c')).
Proof.
  apply desc_class_ind.
  - intros dt ish bits pb fill [dt' ish' ? ? ?|] H; cbn in *; [auto|destruct H].
  - intros c IH ish [|c' ish'] H; cbn in *; [destruct H|]. destruct H as (_ & H). destruct (IH c' H). tauto.
  - intros [|] H; cbn in *; [auto|destruct H].
  - intros n d IHd r IHr [|m d' r'] H; cbn in *; [destruct H|]. destruct H as (_ & H1 & H2). split; [discriminate|]. destruct (IHr r' H2). specialize (IHd d' H1). tauto.
Qed.
Lemma variant_shapes PI : (forall d d' J, variant_d d d' -> shapes_d PI J d -> shapes_d PI J d') /\ (forall c c' J, variant c c' -> shapes PI J c -> shapes PI J c').
Proof.
  apply desc_class_ind.
  - intros dt ish bits pb fill [dt' ish' ? ? ?|] J H; cbn in *; [|destruct H]. destruct H as (-> & _). auto.
  - intros c IH ish [|c' ish'] J H; cbn in *; [destruct H|]. destruct H as (-> & H). now apply IH.
  - intros [|] J H; cbn in *; [auto|destruct H].
  - intros n d IHd r IHr [|m d' r'] J H; cbn in *; [destruct H|]. destruct H as (_ & H1 & H2). intros [K1 K2]. split; auto.
Qed.
Lemma conv_get t a idx : wfa a -> inb idx (ashape a) -> get (a_conv t a) idx = conv (adtype a) t (get a idx).
Proof. intros HW HI. unfold a_conv. rewrite (map_build (conv (adtype a) t) t a HW). now rewrite get_build. Qed.
Lemma conv_wfa t a : wfa a -> wfa (a_conv t a).
Proof. intros HW. unfold wfa, a_conv in *. cbn. now rewrite map_length. Qed.

(** ** Bringing instances to common dtypes *)
Section Bring.
Variable x64 : bool.
Definition tmapn_v (f : list array -> option array) (vs : list value) : option value := match vs with [] => None | v :: r => tmap_v f v r end.
Definition bargs_v (J : list nat) (d : desc) (vs : list value) (Bs : list (list nat)) : Prop := Forall2 (fun v B => loose_v (B ++ J) d v) vs Bs.
Definition bargs_o (J : list nat) (c : class) (os : list obj) (Bs : list (list nat)) : Prop := Forall2 (fun o B => loose (B ++ J) c o) os Bs.
Lemma bprim J dt ish bits pb fill vs Bs : bargs_v J (Prim dt ish bits pb fill) vs Bs -> exists l, vs = map VArr l /\ Forall2 (fun a B => wfa a /\ ashape a = B ++ J ++ ish) l Bs.
Proof.
  intros H. induction H as [|v B vs Bs HV H (l & -> & HL)]; [exists []; split; [reflexivity|constructor]|]. destruct v as [a|o]; [|destruct HV]. exists (a :: l). split; [reflexivity|]. constructor; [|exact HL]. destruct HV as [H1 H2]. split; [exact H1|]. now rewrite H2, <- app_assoc.
Qed.
Lemma bnest J c ish vs Bs : bargs_v J (Nest c ish) vs Bs -> exists os, vs = map VObj os /\ bargs_o (J ++ ish) c os Bs.
Proof.
  intros H. induction H as [|v B vs Bs HV H (l & -> & HL)]; [exists []; split; [reflexivity|constructor]|]. destruct v as [a|o]; [destruct HV|]. exists (o :: l). split; [reflexivity|]. constructor; [|exact HL]. cbn in HV. now rewrite app_assoc.
Qed.
Lemma bcons J n d r os Bs : bargs_o J (CCons n d r) os Bs -> exists vs qs, os = map (fun p => OCons n (fst p) (snd p)) (combine vs qs) /\ length vs = length qs /\ bargs_v J d vs Bs /\ bargs_o J r qs Bs.
Proof.
  intros H. induction H as [|o B os Bs HV H (vs & qs & -> & HL & H1 & H2)]; [exists [], []; repeat split; constructor|]. destruct o as [|m v q]; [destruct HV|]. destruct HV as (<- & V1 & V2). exists (v :: vs), (q :: qs). cbn. repeat split; [now rewrite HL|now constructor|now constructor].
Qed.
Lemma seq_arr m : sequence (map as_arr (map VArr m)) = Some m.
Proof. apply sequence_map. induction m; cbn; constructor; auto. Qed.
Lemma seq_obj m : sequence (map as_obj (map VObj m)) = Some m.
Proof. apply sequence_map. induction m; cbn; constructor; auto. Qed.
Lemma seq_head n (l : list (value * obj)) : sequence (map (head_field n) (map (fun p => OCons n (fst p) (snd p)) l)) = Some l.
Proof. apply sequence_map. induction l as [|[x y] l IH]; cbn; constructor; [cbn; now rewrite String.eqb_refl|exact IH]. Qed.
Lemma tmapn_arr f l : tmapn_v f (map VArr l) = match l with [] => None | _ => option_map VArr (f l) end.
Proof. destruct l as [|a l]; [reflexivity|]. cbn [map tmapn_v tmap_v]. now rewrite seq_arr. Qed.
Lemma tmapn_obj f l : tmapn_v f (map VObj l) = option_map VObj (tree_mapn f l).
Proof. destruct l as [|a l]; [reflexivity|]. cbn [map tmapn_v tmap_v]. now rewrite seq_obj. Qed.
Lemma tmapn_cons f n vs qs : length vs = length qs -> tree_mapn f (map (fun p => OCons n (fst p) (snd p)) (combine vs qs)) =
  match vs with [] => None | _ => match tmapn_v f vs, tree_mapn f qs with Some u, Some r => Some (OCons n u r) | _, _ => None end end.
Proof.
  intros HL. destruct vs as [|v vs], qs as [|q qs]; try discriminate; [reflexivity|]. injection HL as HL. cbn [combine map fst snd tree_mapn tmap tmapn_v]. now rewrite seq_head, combine_fst, combine_snd by exact HL.
Qed.
Lemma bring_both :
  (forall d J vs Bs, vs <> [] -> bargs_v J d vs Bs -> exists d' us, variant_d d d' /\ Forall2 (fun u B => conforms_v d' u /\ has_v (B ++ J) d' u) us Bs /\
     (forall i u, nth_error us i = Some u -> each_v (brought x64 i) vs u) /\ forall f, tmapn_v (promoted x64 f) vs = tmapn_v f us) /\
  (forall c J os Bs, os <> [] -> bargs_o J c os Bs -> exists c' qs, variant c c' /\ Forall2 (fun q B => conforms c' q /\ has_batch (B ++ J) c' q) qs Bs /\
     (forall i q, nth_error qs i = Some q -> each (brought x64 i) os q) /\ forall f, tree_mapn (promoted x64 f) os = tree_mapn f qs).
Proof.
  apply desc_class_ind.
  - intros dt ish bits pb fill J vs Bs HN HA. destruct (bprim _ _ _ _ _ _ _ _ HA) as (l & -> & HL). set (t := result_type x64 (map adtype l)). exists (Prim t ish bits pb fill), (map VArr (map (a_conv t) l)). split; [cbn; auto|]. split; [|split].
    + clear HN HA. subst t. generalize (result_type x64 (map adtype l)) as t. intros t. induction HL as [|a B l Bs [H1 H2] HL IH]; cbn [map]; constructor; [|exact IH]. cbn. split; [split; [reflexivity|now apply conv_wfa]|]. now rewrite H2, app_assoc.
    + intros i u E. rewrite map_map, nth_error_map in E. destruct (nth_error l i) as [a|] eqn:EA; [|discriminate]. injection E as <-. exists l. split; [reflexivity|]. exists a. split; [exact EA|]. split; [reflexivity|]. split; [reflexivity|]. intros idx HI. cbn [adtype a_conv]. apply conv_get; [|exact HI].
      assert (IN : In a l) by (eapply nth_error_In; exact EA). clear - HL IN. induction HL as [|x B l Bs [H1 _] HL IH]; [destruct IN|]. destruct IN as [-> |IN]; auto.
    + intros f. rewrite !tmapn_arr. destruct l as [|a l]; [reflexivity|]. reflexivity.
  - intros c IH ish J vs Bs HN HA. destruct (bnest _ _ _ _ _ HA) as (os & -> & HL). assert (HN' : os <> []) by (intros ->; now apply HN). destruct (IH (J ++ ish) os Bs HN' HL) as (c' & qs & H1 & H2 & H3 & H4). exists (Nest c' ish), (map VObj qs). split; [cbn; auto|]. split; [|split].
    + clear - H2. induction H2 as [|q B qs Bs [K1 K2] H2 IH]; cbn [map]; constructor; [|exact IH]. cbn. split; [exact K1|]. now rewrite <- app_assoc.
    + intros i u E. rewrite nth_error_map in E. destruct (nth_error qs i) as [q|] eqn:EQ; [|discriminate]. injection E as <-. exists os. split; [reflexivity|]. now apply H3.
    + intros f. now rewrite !tmapn_obj, H4.
  - intros J os Bs HN HA. assert (HO : Forall (eq ONil) os) by (clear HN; induction HA as [|o B os Bs H HA IH]; constructor; [destruct o; [reflexivity|destruct H]|exact IH]). exists CNil, os. split; [exact Coq.Init.Logic.I|]. split; [|split].
    + clear HN. induction HA as [|o B os Bs H HA IH]; constructor; [|apply IH; now inversion HO]. destruct o; [|destruct H]. split; exact Coq.Init.Logic.I.
    + intros i q E. apply nth_error_In in E. rewrite Forall_forall in HO. rewrite <- (HO q E). cbn [each]. now apply Forall_forall.
    + intros f. destruct os as [|o os]; [reflexivity|]. cbn [tree_mapn]. inversion HO as [|? ? <- HO']; subst. reflexivity.
  - intros n d IHd r IHr J os Bs HN HA. destruct (bcons _ _ _ _ _ _ HA) as (vs & qs & -> & HL & V1 & V2). assert (NV : vs <> []) by (intros ->; now apply HN). assert (NQ : qs <> []) by (intros ->; destruct vs; [congruence|discriminate]).
    destruct (IHd J vs Bs NV V1) as (d' & us & D1 & D2 & D3 & D4). destruct (IHr J qs Bs NQ V2) as (c' & ps & C1 & C2 & C3 & C4). exists (CCons n d' c'), (map (fun p => OCons n (fst p) (snd p)) (combine us ps)).
    assert (LU : length us = length ps) by (rewrite (Forall2_len _ _ _ D2), (Forall2_len _ _ _ C2); reflexivity). split; [cbn; auto|]. split; [|split].
    + clear - D2 C2. revert ps C2. induction D2 as [|u B us Bs [K1 K2] D2 IH]; intros ps C2; inversion C2 as [|p B' ps' Bs' [M1 M2] C2']; subst; cbn [combine map]; constructor; [cbn; auto|]. now apply IH.
    + intros i q E. rewrite nth_error_map in E. destruct (nth_error (combine us ps) i) as [[u p]|] eqn:EC; [|discriminate]. injection E as <-. cbn [fst snd].
      assert (EU : nth_error us i = Some u /\ nth_error ps i = Some p).
      { clear - EC LU. revert i ps LU EC. induction us as [|x us IH]; intros i ps LU EC; destruct ps as [|y ps]; try discriminate; [destruct i; discriminate|]. destruct i as [|i]; cbn in *; [injection EC as -> ->; auto|]. apply IH; auto. }
      destruct EU as [EU EP]. exists vs, qs. split; [exact HL|]. split; [reflexivity|]. split; [now apply D3|now apply C3].
    + intros f. rewrite !tmapn_cons by assumption. rewrite D4, C4. destruct vs as [|v vs]; [congruence|]. destruct us as [|u us]; [|reflexivity]. exfalso. rewrite (Forall2_len _ _ _ V1) in LU || idtac. apply Forall2_len in D2. apply Forall2_len in V1. cbn in D2, V1. lia.
Qed.
End Bring.
(** operations on instances of different dtypes are the operations on the instances brought to
    the common dtypes, whose class has those dtypes *)
Theorem C73_bring : forall x64 c os Bs, os <> [] -> Forall2 (fun o B => loose B c o) os Bs ->
  exists c' qs, variant c c' /\ Forall2 (fun q B => batched c' B q) qs Bs /\ (forall i q, nth_error qs i = Some q -> each (brought x64 i) os q) /\
    forall f, tree_mapn (promoted x64 f) os = tree_mapn f qs.
Proof.
  intros x64 c os Bs HN HO. destruct (proj2 (bring_both x64) c [] os Bs HN) as (c' & qs & H1 & H2 & H3 & H4).
  { clear HN. induction HO; constructor; [now rewrite app_nil_r|assumption]. }
  exists c', qs. split; [exact H1|]. split; [|split; assumption]. clear - H2. induction H2 as [|q B qs Bs [K1 K2] H2 IH]; constructor; [|exact IH]. rewrite app_nil_r in K2. split; assumption.
Qed.
