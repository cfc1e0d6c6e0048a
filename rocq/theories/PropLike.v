(** * PropLike.v — property C53: what [zeros_like], [ones_like] and [full_like] put into an
      instance, entry by entry. *)
From Coq Require Import String.
From Verif Require Import Jax StructModel ArrayModel ArrayFacts ShapeModel PropShape RowsModel RowsLift PropRows PropRows2 PropRows3 EqModel FloatEq RowsModel2 PropRows5 PropRows6 PropRows7.

Lemma const_arrays fl : (forall d s, Forall (fun a => Forall (fun z => z = fl (adtype a)) (adata a)) (arrays_v (const_v fl s d))) /\
  (forall c s, Forall (fun a => Forall (fun z => z = fl (adtype a)) (adata a)) (arrays (const_obj fl s c))).
Proof.
  apply desc_class_ind.
  - intros dt ish bits pb fill s. cbn [const_v arrays_v]. constructor; [|constructor]. unfold full. cbn [adata adtype]. apply Forall_forall. intros z Hz. apply repeat_spec in Hz. exact Hz.
  - intros c IH ish s. cbn [const_v arrays_v]. apply IH.
  - intros s. constructor.
  - intros n d IHd r IHr s. cbn [const_obj arrays]. apply Forall_app. split; [apply IHd|apply IHr].
Qed.
(** [full_like(inst, v)]: an instance of the same class and shape all of whose entries are [v] *)
Theorem C53_full_like_entries : forall c B o fl, batched c B o ->
  exists r, obj_full_like fl o = Some r /\ batched c B r /\ Forall (fun a => Forall (fun z => z = fl (adtype a)) (adata a)) (arrays r).
Proof.
  intros c B o fl HO. destruct (C53_full_like_elem c B o fl HO) as (r & E & HB & _). exists r. split; [exact E|]. split; [exact HB|].
  rewrite (C53_full_like c B o fl HO) in E. injection E as <-. apply const_arrays.
Qed.
(** [zeros_like(inst)]: all entries are 0 *)
Theorem C53_zeros_like : forall c B o, batched c B o ->
  exists r, obj_zeros_like o = Some r /\ batched c B r /\ Forall (fun a => Forall (fun z => z = 0%Z) (adata a)) (arrays r).
Proof. intros c B o HO. exact (C53_full_like_entries c B o (fun _ => 0%Z) HO). Qed.
(** the number one in an array of dtype [dt]; a float is given by its bits *)
Definition is_one (dt : dtype) (z : Z) : Prop := match dt with DFloat w => float_width w -> fval w z = Some (float_one w) | _ => z = 1%Z end.
(** [ones_like(inst)]: all entries are 1 *)
Theorem C53_ones_like_entries : forall c B o, batched c B o ->
  exists r, obj_ones_like o = Some r /\ batched c B r /\ Forall (fun a => Forall (is_one (adtype a)) (adata a)) (arrays r).
Proof.
  intros c B o HO. destruct (C53_full_like_entries c B o one_of HO) as (r & E & HB & F). exists r. split; [exact E|]. split; [exact HB|].
  revert F. apply Forall_impl. intros a. apply Forall_impl. intros z ->. pose proof (C53_ones_like (adtype a)) as K. unfold is_one. destruct (adtype a); try exact K. intros HW. exact (proj1 (K HW)).
Qed.
Example C53_like_case :
  let c := CCons "x" (Prim (DFloat 32) [] None false 0) (CCons "n" (Prim (DInt 8) [2] None false 0) CNil) in
  let o := OCons "x" (VArr (MkArr (DFloat 32) [2] [5; 6]%Z)) (OCons "n" (VArr (MkArr (DInt 8) [2; 2] [1; 2; 3; 4]%Z)) ONil) in
  batched c [2] o /\ obj_zeros_like o = Some (OCons "x" (VArr (MkArr (DFloat 32) [2] [0; 0]%Z)) (OCons "n" (VArr (MkArr (DInt 8) [2; 2] [0; 0; 0; 0]%Z)) ONil)) /\
  obj_ones_like o = Some (OCons "x" (VArr (MkArr (DFloat 32) [2] [1065353216; 1065353216]%Z)) (OCons "n" (VArr (MkArr (DInt 8) [2; 2] [1; 1; 1; 1]%Z)) ONil)).
Proof. cbn zeta. split; [split; [|repeat split]; repeat split|]. split; reflexivity. Qed.
Print Assumptions C53_full_like_entries. Print Assumptions C53_zeros_like. Print Assumptions C53_ones_like_entries.
