(** * PropTableCases.v — concrete non-trivial histories meeting the hypotheses of the
      hash-table theorems, computed with the real hash function, and refutations of
      stronger claims (silent loss; unsupported configurations, C31). *)
From Verif Require Import Jax KeyModel HashModel HashProofs StableSort TableModel ProbeProofs TableInv DedupeModel DedupeSpec DedupeProofs DedupeExact ParInsertModel ParInsert ParEffect TritonModel PallasModel TableSpec TableHistory PropTable.

(** A dataclass with one uint32 field, hashed with the real mixer and seed 42. *)
Definition U32 : dataclass N.
Proof.
  refine {| dc_eqb := N.eqb; dc_default := 0xFFFFFFFF%N; dc_words := fun x => [x]; dc_nwords := 1;
            dc_hash := fun ws => hash_fast_pair ws 42 |}.
  - intros x y. apply N.eqb_eq.
  - intros x y E. injection E as ->. reflexivity.
  - reflexivity.
Defined.
(** the default settings *)
Definition DEF : settings := {| s_mode := Safe; s_sort := default_perm; s_sort_ok := default_sorting |}.

Definition pinsert (t : @table N) (xs : list N) (f : fillarg) (uk : option (list costval)) :=
  parallel_insert (dc_eqb U32) (dc_default U32) (hash_pair U32) (dc_words U32) (dc_nwords U32) (s_mode DEF) (s_sort DEF) t xs f uk.
Fixpoint inserts (t : @table N) (xs : list N) : option (list event * @table N) :=
  match xs with
  | [] => Some ([], t)
  | x :: xs' => match Insert U32 t x with None => None | Some (t1, ok, i) =>
      match inserts t1 xs' with None => None | Some (es, t2) => Some (EInsert x ok i :: es, t2) end end
  end.
Lemma inserts_run xs : forall t es t', inserts t xs = Some (es, t') -> run U32 DEF t es t'.
Proof.
  induction xs as [|x xs IH]; cbn [inserts]; intros t es t' E.
  - injection E as <- <-. constructor.
  - destruct (Insert U32 t x) as [[[t1 ok] i]|] eqn:E1; [|discriminate].
    destruct (inserts t1 xs) as [[es1 t2]|] eqn:E2; [|discriminate]. injection E as <- <-.
    econstructor; [apply op_insert; exact E1|apply IH; exact E2].
Qed.

(** ** Silent loss in the default configuration: after some single inserts, a batch of
    distinct inputs for which there is ample room (even within the requested capacity):
    input [q] is neither inserted nor present, and its returned index holds
    something else.  Nothing in the result distinguishes it from an input that was
    already present. *)
Definition silent_loss (capacity bucket_size : nat) : Prop :=
  exists es t xs t' ins uniq idx q,
    run U32 DEF (Build U32 capacity bucket_size 2 None) es t /\
    ParallelInsert U32 DEF XLA t xs (FScalar true) None (t', ins, uniq, idx) /\
    NoDup xs /\ q < length xs /\ count es + length xs <= capacity /\
    nth q ins true = false /\ absent U32 t' (nth q xs 0%N) /\ GetItem U32 t' (nth q idx 0) <> nth q xs 0%N /\
    (size t' < N.of_nat (slots t'))%N.
Definition loses (capacity bucket_size : nat) (pre batch : list N) (q : nat) : bool :=
  let t0 := Build U32 capacity bucket_size 2 None in
  match inserts t0 pre with None => false | Some (es, t) =>
  match pinsert t batch (FScalar true) None with None => false | Some (t', ins, uniq, idx) =>
  match Lookup U32 t' (nth q batch 0%N) with None => false | Some (_, f) =>
    (length (nodup N.eq_dec batch) =? length batch) && (q <? length batch) && (count es + length batch <=? capacity) &&
    negb (nth q ins true) && negb f && negb (N.eqb (GetItem U32 t' (nth q idx 0)) (nth q batch 0%N)) &&
    (size t' <? N.of_nat (slots t'))%N
  end end end.
Lemma nodup_len_le (l : list N) : length (nodup N.eq_dec l) <= length l.
Proof. induction l as [|a l IH]; cbn; [lia|]. destruct (in_dec N.eq_dec a l); cbn; lia. Qed.
Lemma nodup_len_nodup (l : list N) : length (nodup N.eq_dec l) = length l -> NoDup l.
Proof.
  induction l as [|a l IH]; cbn; [constructor|]. pose proof (nodup_len_le l). destruct (in_dec N.eq_dec a l); cbn; intros E; [lia|].
  constructor; [assumption|apply IH; lia].
Qed.
Lemma loses_spec capacity bs pre batch q : loses capacity bs pre batch q = true -> silent_loss capacity bs.
Proof.
  unfold loses. intros E. destruct (inserts _ pre) as [[es t]|] eqn:E1; [|discriminate].
  destruct (pinsert t batch (FScalar true) None) as [[[[t' ins] uniq] idx]|] eqn:E2; [|discriminate].
  destruct (Lookup U32 t' (nth q batch 0%N)) as [[i f]|] eqn:E3; [|discriminate].
  repeat (apply andb_prop in E; destruct E as [E ?]).
  exists es, t, batch, t', ins, uniq, idx, q. split; [apply (inserts_run pre); exact E1|].
  split; [apply xla_function; exact E2|]. split; [apply nodup_len_nodup; lia|]. split; [lia|]. split; [lia|].
  split; [destruct (nth q ins true); [discriminate|reflexivity]|].
  split; [exists i; rewrite E3; destruct f; [discriminate|reflexivity]|].
  split; [|lia]. intros EG. rewrite EG, N.eqb_refl in *. discriminate.
Qed.
(** one-slot buckets *)
Theorem C26_no_loss_refuted_small : silent_loss 8 1.
Proof. apply (loses_spec 8 1 [193]%N [2; 168; 40; 22; 55; 156; 289]%N 6). vm_compute. reflexivity. Qed.
(** the default bucket size and load factor *)
Theorem C26_no_loss_refuted : silent_loss 64 8.
Proof.
  apply (loses_spec 64 8
    [193; 280; 230; 339; 454; 139; 177; 213; 31; 64; 26; 445; 472; 233; 17; 55; 175; 45]%N
    [125; 301; 23; 406; 90; 36; 3; 5; 7; 1; 14; 166; 21; 10; 57; 75; 240; 144; 15; 260; 62; 25; 47; 38; 58; 2; 131; 48; 24; 269; 249; 134; 178; 43; 500; 76; 456; 37; 39; 154; 103; 130; 428; 447; 140; 73]%N 45).
  vm_compute. reflexivity.
Qed.

(** ** C31 — configurations outside [config_ok].
    Each theorem exhibits a short history. *)
Definition history_of (t0 : @table N) := run U32 DEF t0.
(** a small [max_probes]: insert reports success, lookup never finds the item *)
Theorem C31_small_limit_insert_not_found :
  exists es t x i, run U32 DEF (Build U32 4 2 2 (Some 2%N)) es t /\ reported U32 es x i /\
    GetItem U32 t i = x /\ absent U32 t x.
Proof.
  assert (exists es t, inserts (Build U32 4 2 2 (Some 2%N)) [2; 3; 9]%N = Some (es, t) /\
     reported U32 es 9%N 6 /\ GetItem U32 t 6 = 9%N /\ Lookup U32 t 9%N = Some (6, false)) as (es & t & E & A & B & D).
  { eexists _, _. split; [vm_compute; reflexivity|]. split; [|vm_compute; auto].
    eexists. split; [right; right; left; reflexivity|]. vm_compute. auto. }
  exists es, t, 9%N, 6. split; [apply (inserts_run _ _ _ _ E)|]. split; [exact A|]. split; [exact B|]. exists 6. exact D.
Qed.
(** a small [max_probes]: parallel_insert stores the same item twice *)
Theorem C31_small_limit_duplicates :
  exists t t' t'' u u', run U32 DEF (Build U32 4 2 2 (Some 2%N)) [EInsert 2%N true 4; EInsert 3%N true 5] t /\
    ParallelInsert U32 DEF XLA t [9]%N (FScalar true) None (t', [true], u, [6]) /\
    ParallelInsert U32 DEF XLA t' [9]%N (FScalar true) None (t'', [true], u', [7]) /\
    GetItem U32 t'' 6 = 9%N /\ GetItem U32 t'' 7 = 9%N.
Proof.
  assert (exists t, inserts (Build U32 4 2 2 (Some 2%N)) [2; 3]%N = Some ([EInsert 2%N true 4; EInsert 3%N true 5], t) /\
     exists t' u, pinsert t [9]%N (FScalar true) None = Some (t', [true], u, [6]) /\
     exists t'' u', pinsert t' [9]%N (FScalar true) None = Some (t'', [true], u', [7]) /\
       GetItem U32 t'' 6 = 9%N /\ GetItem U32 t'' 7 = 9%N) as (t & E & t' & u & E1 & t'' & u' & E2 & G1 & G2).
  { eexists. split; [vm_compute; reflexivity|]. eexists _, _. split; [vm_compute; reflexivity|]. eexists _, _. split; vm_compute; auto. }
  exists t, t', t'', u, u'. split; [apply (inserts_run _ _ _ _ E)|]. split; [apply xla_function; exact E1|]. split; [apply xla_function; exact E2|]. auto.
Qed.
(** [max_probes] = 0: parallel_insert overwrites a stored item *)
Theorem C31_zero_limit_overwrites :
  exists t' t'' u u' i, 
    ParallelInsert U32 DEF XLA (Build U32 4 2 2 (Some 0%N)) [2]%N (FScalar true) None (t', [true], u, [i]) /\
    GetItem U32 t' i = 2%N /\
    ParallelInsert U32 DEF XLA t' [3]%N (FScalar true) None (t'', [true], u', [i]) /\
    GetItem U32 t'' i = 3%N.
Proof.
  assert (exists t' u i, pinsert (Build U32 4 2 2 (Some 0%N)) [2]%N (FScalar true) None = Some (t', [true], u, [i]) /\ GetItem U32 t' i = 2%N /\
    exists t'' u', pinsert t' [3]%N (FScalar true) None = Some (t'', [true], u', [i]) /\ GetItem U32 t'' i = 3%N)
    as (t' & u & i & E1 & G1 & t'' & u' & E2 & G2).
  { eexists _, _, _. split; [vm_compute; reflexivity|]. split; [vm_compute; reflexivity|]. eexists _, _. split; vm_compute; auto. }
  exists t', t'', u, u', i. split; [apply xla_function; exact E1|]. split; [exact G1|]. split; [apply xla_function; exact E2|]. exact G2.
Qed.
Lemma while_forever {S : Type} (c : S -> bool) (f : S -> S) (P : S -> Prop) :
  (forall s, P s -> c s = true /\ P (f s)) -> forall n s, P s -> while n c f s = None.
Proof.
  intros H. induction n as [|n IH]; intros s Hs; cbn [while]; destruct (H s Hs) as [E Hs']; rewrite E; [reflexivity|]. apply IH. exact Hs'.
Qed.
(** [max_probes] within bucket_size of 2^32: in a full table the 32-bit probe counter wraps and
    the lookup of an absent item never returns, however long one waits *)
Theorem C31_wrapping_limit_diverges :
  exists es t x, run U32 DEF (Build U32 4 8 2 (Some 4294967295%N)) es t /\ count es = 8 /\ Lookup U32 t x = None /\
    forall n, while n (lk_cond t) (lk_body (dc_eqb U32) (dc_default U32) t x (step_of (hash_pair U32) (cap t) x) (fp_of (hash_pair U32) x))
      (start_of (hash_pair U32) (cap t) x, 0, false, 0%N) = None.
Proof.
  set (xs := map N.of_nat (seq 0 8)).
  assert (match inserts (Build U32 4 8 2 (Some 4294967295%N)) xs with None => false | Some (es, t) =>
     (count es =? 8) && (cap t =? 1) && (bsz t =? 8) && (maxp t =? 4294967295)%N && (u8 (fillOf t 0) =? 8) &&
     negb (fst (scan (dc_eqb U32) (dc_default U32) t 8%N (fp_of (hash_pair U32) 8%N) true 0)) end = true) as HC by (lazy; reflexivity).
  destruct (inserts _ xs) as [[es t]|] eqn:E; [|discriminate].
  repeat (apply andb_prop in HC; destruct HC as [HC ?]).
  assert (forall n, while n (lk_cond t) (lk_body (dc_eqb U32) (dc_default U32) t 8%N (step_of (hash_pair U32) (cap t) 8%N) (fp_of (hash_pair U32) 8%N))
      (start_of (hash_pair U32) (cap t) 8%N, 0, false, 0%N) = None) as HW.
  { assert (cap t = 1) as HCap by lia. assert (bsz t = 8) as HB by lia. assert (maxp t = 4294967295%N) as HM by lia. assert (u8 (fillOf t 0) = 8) as HF by lia.
    intros n. apply (while_forever _ _ (fun s : lst => let '(b, _, f, p) := s in b = 0 /\ f = false /\ (p < 2 ^ 32)%N /\ (p mod 8 = 0)%N)).
    - intros [[[b s] f] p] (-> & -> & Hp & Hp8). change (2 ^ 32)%N with 4294967296%N in *.
      split; [unfold lk_cond; rewrite HM; cbn [negb andb]; apply N.ltb_lt; pose proof (N.div_mod p 8 ltac:(discriminate)); rewrite Hp8 in *; lia|].
      unfold lk_body. destruct (scan _ _ _ _ _ _ _) as [fnd ms]. cbn [fst] in *. destruct fnd; [discriminate|].
      rewrite HF, HB, HCap. cbn [Nat.eqb orb negb]. split.
      + unfold next_bucket, mask_of. change (N.of_nat 1 - 1)%N with 0%N. rewrite N.land_0_r. reflexivity.
      + split; [reflexivity|]. unfold w32. change (N.of_nat 8) with 8%N. change W32 with 4294967296%N. pose proof (N.div_mod p 8 ltac:(discriminate)) as HD. rewrite Hp8 in HD. split; [apply N.mod_lt; discriminate|].
        replace 4294967296%N with (8 * 536870912)%N by reflexivity. set (q := (p / 8)%N) in *. clearbody q. assert (p = 8 * q)%N as -> by lia. replace (8 * q + 8)%N with (8 * (q + 1))%N by lia.
        rewrite N.mul_mod_distr_l by discriminate. rewrite N.mul_comm. apply N.mod_mul. discriminate.
    - rewrite HCap. unfold start_of, mask_of. change (N.of_nat 1 - 1)%N with 0%N. rewrite N.land_0_r. repeat split; lia. }
  exists es, t, 8%N. split; [apply (inserts_run _ _ _ _ E)|]. split; [lia|]. split; [|exact HW].
  unfold Lookup, lookup, lookup_bucket. rewrite HW. reflexivity.
Qed.

(** ** The hypotheses are met: a history with single inserts (one duplicate), a batch
    with duplicates and unfilled entries and costs, on the default backend; then GPU and
    TPU batches on the resulting table. *)
Definition T0 := Build U32 16 8 2 None.
Definition B1 : list N := [5; 7; 5; 9; 7; 1; 2]%N.
Definition F1 : fillarg := FMask [true; true; true; false; true; true; true].
Definition K1 : option (list costval) := Some (map Cost [Fin 3%Z; Fin 1%Z; Fin 2%Z; Fin 0%Z; PInf; Fin 1%Z; Fin 1%Z]).
Lemma T0_ok : config_ok U32 16 8 2 None.
Proof. unfold config_ok. change (cap (Build U32 16 8 2 None)) with 4. cbv zeta. split; [lia|]. split; [vm_compute; reflexivity|exact I]. Qed.
Example case_history : exists es t xs, history U32 DEF es t /\ mask_ok B1 F1 /\ size t = 5%N /\ count es = 5 /\
  reported U32 es 5%N xs /\ Lookup U32 t 5%N = Some (xs, true) /\ absent U32 t 9%N /\ bsz t <= 32 /\ absent U32 t 11%N.
Proof.
  assert (exists es1 t1 t2 ins u idx, inserts T0 [1; 3; 1]%N = Some (es1, t1) /\ pinsert t1 B1 F1 K1 = Some (t2, ins, u, idx) /\
     size t2 = 5%N /\ count (es1 ++ [EBatch B1 ins idx]) = 5 /\ nth 2 ins false = true /\ Lookup U32 t2 5%N = Some (nth 2 idx 0, true) /\ 
     bsz t2 <= 32 /\ absent U32 t2 9%N /\ absent U32 t2 11%N)
     as (es1 & t1 & t2 & ins & u & idx & E1 & E2 & A1 & A2 & A3 & A4 & A5 & A6 & A7).
  { do 6 eexists. split; [vm_compute; reflexivity|]. split; [vm_compute; reflexivity|]. split; [vm_compute; reflexivity|]. split; [vm_compute; reflexivity|].
    split; [vm_compute; reflexivity|]. split; [vm_compute; reflexivity|]. split; [vm_compute; lia|]. split; eexists; vm_compute; reflexivity. }
  exists (es1 ++ [EBatch B1 ins idx]), t2, (nth 2 idx 0). split.
  - apply (history_run U32 DEF es1 t1). { exists 16, 8, 2, None. split; [exact T0_ok|apply (inserts_run _ _ _ _ E1)]. }
    econstructor; [|constructor]. apply (op_batch U32 DEF t1 XLA B1 F1 K1 t2 ins u idx); [reflexivity|]. apply xla_function. exact E2.
  - split; [reflexivity|]. split; [exact A1|]. split; [exact A2|]. split; [|auto].
    exists (EBatch B1 ins idx). split; [apply in_or_app; right; left; reflexivity|]. exists 2. split; [cbn; lia|]. split; [exact A3|]. split; reflexivity.
Qed.
(** the deduplication hypothesis holds for this batch (it has unfilled entries) *)
Example case_reliable : dedupe_reliable U32 DEF B1 (mask_list (length B1) F1) K1.
Proof.
  split; [intros q Hq _; change (length B1) with 7 in Hq; do 7 (destruct q as [|q]; [discriminate|]); lia|].
  split; [|split; [left; cbn; lia|right; right]]; right; intros q Hq HF; change (length B1) with 7 in Hq; cbn [dc_words dc_nwords U32];
  do 7 (destruct q as [|q]; [vm_compute; discriminate|]); lia.
Qed.
(** all three backends run on the empty table with this batch, and an XLA batch of two
    items meets the no-loss bound *)
Example case_backends : forall be, In be [XLA; Triton 4; Pallas 4 (fun _ => seq 0 7); Pallas 4 (fun _ => rev (seq 0 7))] ->
  exists out, ParallelInsert U32 DEF be T0 B1 F1 K1 out.
Proof.
  intros be Hbe. apply (C26_total U32 DEF be []); [exists 16, 8, 2, None; split; [exact T0_ok|constructor]|reflexivity|].
  cbn in Hbe. destruct Hbe as [<-|[<-|[<-|[<-|[]]]]]; change (bsz T0) with 8; [exact I|lia|split; [lia|intros _; apply Permutation_refl]|].
  split; [lia|]. intros _. apply Permutation_sym, Permutation_rev.
Qed.
Example case_bound : (N.of_nat (rounds_needed 8 (full_buckets T0)) <= maxp T0)%N.
Proof. vm_compute. discriminate. Qed.
Example case_rows : exists rows, prepared_rows U32 DEF T0 rows /\ length (filter iupd rows) = 4.
Proof.
  exists (par_rows B1 [false; true; true; false; false; true; true]
     (match par_prepare N.eqb 0xFFFFFFFF%N (hash_pair U32) (fun x => [x]) 1 Safe default_perm T0 B1 (mask_list 7 F1) K1 with Some (_, _, rs) => rs | None => [] end)).
  split; [|vm_compute; reflexivity]. exists B1, (mask_list 7 F1), K1. do 3 eexists. split; [reflexivity|]. split; vm_compute; reflexivity.
Qed.

Print Assumptions C21_bucket_count. Print Assumptions C21_probe_permutation. Print Assumptions C22_found_forever. Print Assumptions C22_found_parallel.
Print Assumptions C23_no_false_positives. Print Assumptions C23_never_moves. Print Assumptions C24_set. Print Assumptions C25_insert.
Print Assumptions C26_inserted_mask. Print Assumptions C28_unique_ignores_the_table. Print Assumptions C26_union. Print Assumptions C26_total. Print Assumptions C26_accelerators_complete. Print Assumptions C26_xla_complete.
Print Assumptions C26_no_loss_refuted. Print Assumptions C28_unique_mask. Print Assumptions C28_sound. Print Assumptions C27_indices. Print Assumptions C27_equal_inputs.
Print Assumptions C29_every_interleaving. Print Assumptions C29_terminates. Print Assumptions C30_assignment. Print Assumptions C30_pallas_total.
Print Assumptions C31_small_limit_insert_not_found. Print Assumptions C31_small_limit_duplicates. Print Assumptions C31_zero_limit_overwrites.
Print Assumptions C31_wrapping_limit_diverges.
