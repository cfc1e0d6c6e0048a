(** * PropMeta.v — property C50, continued: the metadata of a descriptor. *)
From Coq Require Import String.
From Verif Require Import Jax StructModel ArrayModel ConstructModel MetaModel PropDescriptor.
Local Open Scope string_scope.

(** the dict has each keyword of the constructor exactly once, holds the descriptor's values, and
    calling the constructor with it gives the descriptor back: so two descriptors with the same
    metadata are the same, and any change of one entry is a change of that attribute only *)
Theorem C50_metadata : forall d, declared d ->
  (forall k, (exists v, In (k, v) (descriptor_metadata d)) <-> In k PARAMS) /\ NoDup (map fst (descriptor_metadata d)) /\
  get "dtype" (descriptor_metadata d) = Some (MType (f_dtype d)) /\ get "intrinsic_shape" (descriptor_metadata d) = Some (MShape (f_shape d)) /\
  get "fill_value" (descriptor_metadata d) = Some (MFill (f_fill d)) /\ get "fill_value_factory" (descriptor_metadata d) = Some (MFactory (f_factory d)) /\
  get "validator" (descriptor_metadata d) = Some (MValidator (f_validator d)) /\ get "bits" (descriptor_metadata d) = Some (MBits (f_bits d)) /\
  get "packed_bits" (descriptor_metadata d) = Some (MBits (f_packed_bits d)) /\ get "unpacked_dtype" (descriptor_metadata d) = Some (MDtype (f_unpacked_dtype d)) /\
  get "unpacked_intrinsic_shape" (descriptor_metadata d) = Some (MOptShape (f_unpacked_shape d)) /\
  from_keywords (descriptor_metadata d) = Some d /\
  (forall d', declared d' -> descriptor_metadata d' = descriptor_metadata d -> d' = d) /\
  (forall s, from_keywords (map (fun p => if String.eqb (fst p) "intrinsic_shape" then (fst p, MShape s) else p) (descriptor_metadata d)) = with_intrinsic_shape d s).
Proof.
  assert (K : forall d, declared d -> from_keywords (descriptor_metadata d) = Some d).
  { intros d HD. rewrite <- (C50_clone_same d HD). reflexivity. }
  intros d HD. split.
  { intros k. unfold descriptor_metadata, PARAMS. cbn [In]. split.
    - intros (v & H). repeat (destruct H as [H|H]; [injection H as <- _; tauto|]). destruct H.
    - intros H. repeat (destruct H as [<-|H]; [eexists; tauto|]). destruct H. }
  split; [unfold descriptor_metadata; cbn [map fst]; repeat (constructor; [cbn [In]; intros H; repeat (destruct H as [H|H]; [discriminate|]); exact H|]); constructor|].
  do 9 (split; [reflexivity|]). split; [apply K; exact HD|]. split.
  - intros d' HD' E. pose proof (K d' HD') as E1. rewrite E, (K d HD) in E1. injection E1 as <-. reflexivity.
  - intros s. reflexivity.
Qed.
(** without the fill value the constructor chooses the dtype's default again, and a dict without the
    dtype or with another keyword is refused *)
Theorem C50_metadata_keywords :
  (forall t, from_keywords [("dtype", MType t)] = tensor t [] None None None None None None None) /\
  (forall l, get "dtype" l = None -> from_keywords l = None) /\
  (forall l k v, In (k, v) l -> ~ In k PARAMS -> from_keywords l = None).
Proof.
  split; [intros t; reflexivity|]. split.
  - intros l E. unfold from_keywords. rewrite E. destruct (forallb _ l); reflexivity.
  - intros l k v HI HN. unfold from_keywords. destruct (forallb (fun p => existsb (String.eqb (fst p)) PARAMS) l) eqn:E; [exfalso|reflexivity].
    rewrite forallb_forall in E. specialize (E (k, v) HI). apply existsb_exists in E. destruct E as (n & HIn & EN). cbn [fst] in EN. apply String.eqb_eq in EN. subst n. exact (HN HIn).
Qed.
Definition ex_d : option fdesc := packed_tensor None (Some [3; 5]%nat) None 12 (DUInt 8) (Some 0%Z) None None.
Example ex_metadata : exists d, ex_d = Some d /\ declared d /\
  get "packed_bits" (descriptor_metadata d) = Some (MBits (Some 12%Z)) /\ from_keywords (descriptor_metadata d) = Some d /\ from_keywords [("shape", MShape [])] = None.
Proof.
  destruct ex_d as [d|] eqn:E; [|vm_compute in E; discriminate E]. exists d. split; [reflexivity|].
  assert (HD : declared d).
  { vm_compute in E. injection E as <-. exists (TArr (DUInt 8)), [24]%nat, (Some 0%Z), None, (Some 12%Z), (Some (DUInt 32)), (Some [3; 5]%nat), None, None. vm_compute. reflexivity. }
  split; [exact HD|]. split; [vm_compute in E; injection E as <-; reflexivity|]. split; [apply C50_metadata; exact HD|reflexivity].
Qed.
Print Assumptions C50_metadata.
