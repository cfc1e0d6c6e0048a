(** * PropDedupe.v — C28 for the library's own hash function, and the corner cases in
      which in-batch deduplication drops an item. *)
From Verif Require Import Jax KeyModel HashModel HashProofs StableSort TableModel DedupeModel DedupeSpec DedupeProofs DedupeExact ParInsertModel TableSpec PropTable PropTableCases.

(** the two hashes of an item always differ, unless the word count is one of the rare
    [n] with salt constant [saltK n = 0xC2B2AE35]; so the all-ones pair reserved for
    unfilled entries never arises *)
Theorem C28_hashes_differ : forall ws seed, (seed < 2 ^ 32)%N -> Forall (fun x => (x < 2 ^ 32)%N) ws ->
  saltK (length ws) <> CC -> fst (hash_fast_pair ws seed) <> snd (hash_fast_pair ws seed).
Proof.
  intros ws s Hs Hw HK E. destruct ws as [|w ws].
  - cbn [hash_fast_pair fst snd] in E. apply avalanche32_inj in E; [|apply lxor_word; [exact Hs|reflexivity]|apply lxor_word; [exact Hs|reflexivity]].
    rewrite !(N.lxor_comm s) in E. apply lxor_cancel_r in E. discriminate.
  - rewrite hash_fast_pair_eq in E by discriminate. cbn [fst snd] in E. rewrite lanes1_lanes in E.
    set (c0 := xor_reduce (lanes 0 (w :: ws) s)) in *.
    assert (word c0) by (apply xor_reduce_word, lanes_word; assumption).
    pose proof (length_mix_word (length (w :: ws))). pose proof (saltK_word (length (w :: ws))). assert (word s) by exact Hs. assert (word CC) by reflexivity.
    apply avalanche32_inj in E; [|word_tac|word_tac]. apply HK. apply N.bits_inj. intros i. apply (f_equal (fun x => N.testbit x i)) in E.
    rewrite !N.lxor_spec in E.
    destruct (N.testbit c0 i), (N.testbit (saltK (length (w :: ws))) i), (N.testbit (length_mix (length (w :: ws))) i), (N.testbit s i), (N.testbit CC i); cbn in *; congruence.
Qed.
Lemma saltK_small : forall n, n <= 32 -> saltK n <> CC.
Proof.
  assert (forallb (fun n => negb (saltK n =? CC)%N) (seq 0 33) = true) as H by (vm_compute; reflexivity).
  rewrite forallb_forall in H. intros n Hn E. specialize (H n). rewrite E, N.eqb_refl in H. discriminate H. apply in_seq. lia.
Qed.

Section Real.
Context {item : Type} (T : dataclass item) (C : settings) (seed : N).
(** a dataclass hashed by the library: words are 32-bit and the hash is the mixer *)
Hypothesis seed_ok : (seed < 2 ^ 32)%N.
Hypothesis real_hash : forall x, dc_hash T (dc_words T x) = hash_fast_pair (dc_words T x) seed.
(** ** C28 for the default mode: types of at most eight words (32 bytes).  Without a cost
    array, or with finite costs, deduplication is exact for EVERY batch. *)
Theorem C28_default_mode : forall xs filled uk, (forall x, In x xs -> Forall (fun w => (w < 2 ^ 32)%N) (dc_words T x)) -> s_mode C = Safe -> dc_nwords T <= 8 ->
  uk = None \/ (forall q, q < length xs -> nth q filled false = true -> costof uk q <> Cost PInf /\ costof uk q <> CNaN) ->
  dedupe_reliable T C xs filled uk.
Proof.
  intros xs filled uk words_ok HM HW HU. split; [destruct HU as [->|HU]; [discriminate|]; intros q Hq HF; now apply HU|]. unfold grouping_reliable. rewrite HM. split; [|split; [left; exact HW|destruct HU as [HU|HU]; [left; exact HU|right; left; intros q Hq HF; now apply HU]]].
  right. intros q Hq HF E. unfold hash_pair in E. rewrite real_hash in E.
  apply (C28_hashes_differ (dc_words T (nth q xs (dc_default T))) seed seed_ok (words_ok _ (nth_In _ _ Hq))); [|rewrite E; reflexivity].
  rewrite dc_len. apply saltK_small. lia.
Qed.
(** larger types: the same with the 128-bit signature of no filled input all-ones *)
Theorem C28_default_mode_wide : forall xs filled uk, (forall x, In x xs -> Forall (fun w => (w < 2 ^ 32)%N) (dc_words T x)) -> s_mode C = Safe -> saltK (dc_nwords T) <> CC ->
  clean T (fun x => sig_of (dc_words T x)) (repeat sentinel 4) xs filled ->
  uk = None \/ (forall q, q < length xs -> nth q filled false = true -> costof uk q <> Cost PInf /\ costof uk q <> CNaN) ->
  dedupe_reliable T C xs filled uk.
Proof.
  intros xs filled uk words_ok HM HW HS HU. split; [destruct HU as [->|HU]; [discriminate|]; intros q Hq HF; now apply HU|]. unfold grouping_reliable. rewrite HM. split; [|split; [right; exact HS|destruct HU as [HU|HU]; [left; exact HU|right; left; intros q Hq HF; now apply HU]]].
  right. intros q Hq HF E. unfold hash_pair in E. rewrite real_hash in E.
  apply (C28_hashes_differ (dc_words T (nth q xs (dc_default T))) seed seed_ok (words_ok _ (nth_In _ _ Hq))); [|rewrite E; reflexivity].
  rewrite dc_len. exact HW.
Qed.
End Real.
Lemma eight_words n : n <= 8 -> saltK n <> CC.
Proof. intros H. apply saltK_small. lia. Qed.

(** ** When deduplication drops an item.
    [dropped]: a filled input equal to no other input is not inserted, not found and not
    marked unique, although the table is empty. *)
Definition dropped {item} (T : dataclass item) (C : settings) (xs : list item) (f : fillarg) (uk : option (list costval)) (q : nat) : Prop :=
  is_filled xs f q /\ (forall q', q' < length xs -> q' <> q -> nth q' xs (dc_default T) <> nth q xs (dc_default T)) /\
  exists t' ins uniq idx, ParallelInsert T C XLA (Build T 16 8 2 None) xs f uk (t', ins, uniq, idx) /\
    nth q ins true = false /\ nth q uniq true = false /\ absent T t' (nth q xs (dc_default T)).
(** (1) a hash function producing the all-ones pair (default mode) *)
Definition ONES : dataclass N.
Proof.
  refine {| dc_eqb := N.eqb; dc_default := 0xFFFFFFFF%N; dc_words := fun x => [x]; dc_nwords := 1; dc_hash := fun _ => (sentinel, sentinel) |}.
  - intros x y. apply N.eqb_eq.
  - intros x y E. injection E as ->. reflexivity.
  - reflexivity.
Defined.
Ltac drop := split; [split; [cbn; lia|reflexivity]|]; split;
  [intros q' Hq Hne; cbn [length] in Hq; do 3 (try (destruct q' as [|q']; [try contradiction; cbn; discriminate|])); lia|];
  do 4 eexists; split; [apply xla_function; vm_compute; reflexivity|]; split; [reflexivity|]; split; [reflexivity|]; eexists; vm_compute; reflexivity.
Theorem C28_reserved_pair_refuted : dropped ONES DEF [5; 6; 7]%N (FMask [true; false; true]) None 2.
Proof. drop. Qed.
(** (2) the real hash in exact mode: the all-ones item with an infinite cost *)
Definition EXACT : settings := {| s_mode := Exact; s_sort := default_perm; s_sort_ok := default_sorting |}.
Theorem C28_infinite_cost_refuted : dropped U32 EXACT [5; 0xFFFFFFFF]%N (FMask [false; true]) (Some [Cost (Fin 0%Z); Cost PInf]) 1.
Proof. drop. Qed.
(** (3) approximate mode with colliding hashes *)
Definition SAME : dataclass N.
Proof.
  refine {| dc_eqb := N.eqb; dc_default := 0xFFFFFFFF%N; dc_words := fun x => [x]; dc_nwords := 1; dc_hash := fun _ => (3, 3)%N |}.
  - intros x y. apply N.eqb_eq.
  - intros x y E. injection E as ->. reflexivity.
  - reflexivity.
Defined.
Definition APPROX : settings := {| s_mode := Approx; s_sort := default_perm; s_sort_ok := default_sorting |}.
Theorem C28_approx_collision_refuted : dropped SAME APPROX [5; 6; 7]%N (FScalar true) None 2.
Proof. drop. Qed.
(** non-vacuity of the theorem for the library's hash *)
Example C28_case : dedupe_reliable U32 DEF [3; 0xFFFFFFFF; 3; 0xFFFFFFFF]%N [true; false; true; true] (Some [Cost (Fin 4%Z); Cost (Fin 0%Z); Cost (Fin 2%Z); Cost (Fin 9%Z)]).
Proof.
  apply (C28_default_mode U32 DEF 42); [reflexivity|reflexivity| |reflexivity|apply Nat.leb_le; reflexivity|].
  - intros x Hx. cbn [dc_words U32]. constructor; [|constructor]. destruct Hx as [<-|[<-|[<-|[<-|[]]]]]; reflexivity.
  - right. intros q Hq _. do 4 (destruct q as [|q]; [split; discriminate|]). exfalso. cbn [length] in Hq. lia.
Qed.
Print Assumptions C28_hashes_differ. Print Assumptions C28_default_mode. Print Assumptions C28_default_mode_wide.
Print Assumptions C28_reserved_pair_refuted. Print Assumptions C28_infinite_cost_refuted. Print Assumptions C28_approx_collision_refuted.
