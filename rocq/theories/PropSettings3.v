(** * PropSettings3.v — property C79 for the variables of aggregate packing. *)
From Coq Require Import String.
From Verif Require Import Jax BitpackModel BitpackSpec StructModel ArrayModel ShapeModel PropShape RowsModel RowsLift PropRows PromoteModel PropMixed AggModel AggKernel PropAgg PropAgg2 SchemaModel AggAny PropAggFloat EnvModel PropSettings PackEnv.
Local Open Scope string_scope.

(** [be] packs [n] rows of [nwords] words as the environment says: the kernel's programs run in
    some order, over uninitialised memory *)
Definition packs_as (ch : pack_choice) (n nwords : nat) (be : pack_backend) : Prop :=
  match ch, be with
  | ChooseXla, PackXla => True
  | ChoosePallas tile, PackPallas t order init => t = tile /\ Permutation.Permutation order (grid_steps n nwords tile) /\ length init = n /\ Forall (fun r => length r = nwords) init
  | _, _ => False
  end.
Lemma settings_ok p e ch n nwords be : pack_settings p e = Some ch -> packs_as ch n nwords be -> backend_ok be n nwords.
Proof.
  intros E H. destruct ch as [|tile], be as [|t order init]; cbn in *; try contradiction; auto. destruct H as (-> & H). split; [|exact H].
  unfold pack_settings, EnvModel.bind in E. destruct (backend_env e) as [w|]; [|discriminate]. destruct (_ || _); [|discriminate].
  destruct (int_env e _) as [[z|]|] eqn:EI; [| |discriminate].
  - assert (tile = Z.to_nat z) as -> by (destruct p; congruence). unfold int_env in EI. destruct (e _) as [s|]; [|discriminate]. destruct (one_of _ _); [discriminate|]. destruct (at_least 1 _) as [y|] eqn:EA; [|discriminate]. apply at_least_ge in EA. destruct EA as [_ EA]. cbn in EI. assert (y = z) as <- by congruence. lia.
  - assert (tile = 4%nat) as -> by (destruct p; congruence). lia.
Qed.
(** two environments, on any platforms: the packed instance is the same *)
Theorem C79_packing : forall c fs B o p1 p2 e1 e2 ch1 ch2 be1 be2, packable_any c fs -> loose B c o ->
  pack_settings p1 e1 = Some ch1 -> pack_settings p2 e2 = Some ch2 ->
  packs_as ch1 (prod B) (word_count fs) be1 -> packs_as ch2 (prod B) (word_count fs) be2 ->
  pack_any be1 c o = pack_any be2 c o /\ exists q, pack_any be1 c o = Some q.
Proof.
  intros c fs B o p1 p2 e1 e2 ch1 ch2 be1 be2 HP HL E1 E2 H1 H2. pose proof (settings_ok _ _ _ _ _ _ E1 H1) as K1. pose proof (settings_ok _ _ _ _ _ _ E2 H2) as K2. split.
  - exact (C81_backends c fs B o be1 be2 HP HL K1 K2).
  - rewrite pack_any_uint. destruct (C43_pack (uint_c c) fs B (uint_o o) be1 (packable_uint c fs HP) (uint_batched c B o HL) K1) as (q & E & _). now exists q.
Qed.
(** which environments are accepted; the default is Pallas on a TPU and XLA elsewhere *)
Theorem C79_packing_accepted : forall p e,
  word_in e "XTRUCTURE_AGG_BITPACK_PACK_BACKEND" ["auto"; "pallas"; "xla"; "off"]%list -> auto_or_number e "XTRUCTURE_AGG_BITPACK_PACK_WORD_TILE" ->
  (p = Cpu -> forall s, e "XTRUCTURE_AGG_BITPACK_PACK_BACKEND" = Some s -> word s <> "pallas") ->
  exists ch, pack_settings p e = Some ch /\
    (ch = ChooseXla <-> (e "XTRUCTURE_AGG_BITPACK_PACK_BACKEND" = None /\ p <> Tpu) \/ exists s, e "XTRUCTURE_AGG_BITPACK_PACK_BACKEND" = Some s /\ (In (word s) ["xla"; "off"]%list \/ word s = "auto" /\ p <> Tpu)).
Proof.
  intros p e HW HT HC. destruct (auto_read _ _ HT) as [t ET]. unfold pack_settings, backend_env, get. destruct (e "XTRUCTURE_AGG_BITPACK_PACK_BACKEND") as [s|] eqn:E.
  - specialize (HW s E). specialize (fun H => HC H s eq_refl). remember (word s) as w eqn:EW. rewrite (proj2 (one_of_in w _) HW). cbn [EnvModel.bind].
    assert (EX : forall P : string -> Prop, (exists s', Some s = Some s' /\ P (word s')) <-> P w) by (intros P; split; [intros (s' & Hs & H); rewrite EW; congruence|intros H; exists s; rewrite <- EW; auto]).
    setoid_rewrite (EX (fun w => In w ["xla"; "off"]%list \/ w = "auto" /\ p <> Tpu)). clear EX EW E. cbn [In] in *.
    enum HW; subst w; cbn [String.eqb Ascii.eqb Bool.eqb orb andb]; rewrite ?ET; cbn [EnvModel.bind]; destruct p; cbn [is_tpu andb]; try (exfalso; now apply HC); eexists; (split; [reflexivity|]); intuition (discriminate || congruence).
  - change (word "auto") with "auto". cbn [one_of existsb String.eqb Ascii.eqb Bool.eqb orb andb EnvModel.bind]. destruct p; cbn [is_tpu andb]; rewrite ?ET; cbn [EnvModel.bind]; eexists; (split; [reflexivity|]); split; intros H; try discriminate; try reflexivity; try (left; split; [reflexivity|discriminate]).
    exfalso. destruct H as [[_ H]|(s' & Hs & _)]; [now apply H|discriminate].
Qed.
(** unknown words are refused, and so is Pallas on a CPU *)
Theorem C79_packing_refused : forall p e,
  (forall s, e "XTRUCTURE_AGG_BITPACK_PACK_BACKEND" = Some s -> ~ In (word s) ["auto"; "pallas"; "xla"; "off"]%list -> pack_settings p e = None) /\
  (forall s, e "XTRUCTURE_AGG_BITPACK_PACK_BACKEND" = Some s -> word s = "pallas" -> pack_settings Cpu e = None).
Proof.
  intros p e. split; intros s E H.
  - unfold pack_settings, backend_env, get. rewrite E. destruct (one_of (word s) _) eqn:K; [apply one_of_in in K; contradiction|]. reflexivity.
  - unfold pack_settings, backend_env, get. rewrite E, H. cbn [one_of existsb String.eqb Ascii.eqb Bool.eqb orb andb EnvModel.bind]. destruct (int_env e _); reflexivity.
Qed.
Example C79_packing_case : pack_settings Gpu (fun v => if String.eqb v "XTRUCTURE_AGG_BITPACK_PACK_BACKEND" then Some " Pallas " else if String.eqb v "XTRUCTURE_AGG_BITPACK_PACK_WORD_TILE" then Some "8" else None) = Some (ChoosePallas 8) /\
  pack_settings Cpu (fun _ => None) = Some ChooseXla /\ pack_settings Tpu (fun _ => None) = Some (ChoosePallas 4).
Proof. repeat split; reflexivity. Qed.
