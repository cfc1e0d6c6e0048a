(** * QueueProofs.v — proofs about QueueModel against QueueSpec. *)
From Verif Require Import Jax QueueModel QueueSpec.
Open Scope nat_scope.

Section P.
Context {V : Type} (dflt : V).
Notation queue := (queue V). Notation stack := (stack V).

(* consecutive scatter *)
Definition idxs (t n : nat) : list Z := map (fun k => i32 (Z.of_nat t + k)) (arange n).

Lemma idxs_S t n : idxs t (S n) = i32 (Z.of_nat t) :: idxs (S t) n.
Proof.
  unfold idxs, arange. cbn [seq map]. f_equal. { f_equal; lia. }
  rewrite <- seq_shift, !map_map. apply map_ext. intros a.
  replace (Z.of_nat t + Z.of_nat (S a))%Z with (Z.of_nat (S t) + Z.of_nat a)%Z by lia. reflexivity.
Qed.

Lemma jsets_cons (l : list V) i is v vs : jsets l (i :: is) (v :: vs) = jsets (jset l i v) is vs.
Proof. reflexivity. Qed.

Lemma jsets_consec (vs : list V) : forall l t,
  (Z.of_nat t + Z.of_nat (length vs) <= 2 ^ 31)%Z ->
  jsets l (idxs t (length vs)) vs
  = firstn t l ++ firstn (length l - t) vs ++ skipn (t + length vs) l.
Proof.
  induction vs as [|v vs IH]; intros l t Hb.
  - simpl. unfold jsets; simpl. rewrite firstn_nil, Nat.add_0_r. simpl.
    symmetry; apply firstn_skipn.
  - simpl length in *. rewrite idxs_S, jsets_cons, i32_small by lia.
    rewrite IH by lia. rewrite jset_length.
    destruct (lt_dec t (length l)) as [Ht|Ht].
    + rewrite jset_in by lia. rewrite Nat2Z.id, upd_split by assumption.
      assert (Hsk : skipn (S t + length vs) (firstn t l ++ v :: skipn (S t) l)
                    = skipn (t + S (length vs)) l).
      { rewrite skipn_app, firstn_length, Nat.min_l by lia.
        rewrite skipn_all2 by (rewrite firstn_length; lia).
        replace (S t + length vs - t) with (S (length vs)) by lia.
        rewrite app_nil_l, skipn_cons, skipn_skipn. f_equal; lia. }
      assert (Hfs : firstn (S t) (firstn t l ++ v :: skipn (S t) l) = firstn t l ++ [v]).
      { rewrite firstn_app, firstn_length, Nat.min_l by lia.
        rewrite firstn_firstn, Nat.min_r by lia.
        replace (S t - t) with 1 by lia. reflexivity. }
      rewrite Hsk, Hfs. replace (length l - t) with (S (length l - S t)) by lia.
      rewrite firstn_cons, <- !app_assoc. reflexivity.
    + rewrite jset_oob by lia.
      replace (length l - S t) with 0 by lia. replace (length l - t) with 0 by lia. simpl.
      rewrite !skipn_all2 by lia. rewrite !firstn_all2 by lia. reflexivity.
Qed.

(** Store after an enqueue at any tail position below 2^31. *)
Lemma store_after (l : list V) t (a : arg V) :
  (Z.of_nat t + Z.of_nat (length (arg_items a)) <= 2 ^ 31)%Z ->
  (match a with
   | One v => jset l (Z.of_nat t) v
   | Many vs => jsets l (map (fun k => i32 (Z.of_nat t + k)) (arange (length vs))) vs
   end) = firstn t l ++ firstn (length l - t) (arg_items a) ++ skipn (t + length (arg_items a)) l.
Proof.
  destruct a as [v|vs]; intros H.
  - pose proof (jsets_consec [v] l t H) as J. simpl length in *.
    rewrite idxs_S, jsets_cons, i32_small in J by lia. exact J.
  - apply (jsets_consec vs l t H).
Qed.

Lemma firstn_after (l items : list V) t (used : list V) :
  t = length used ->
  firstn (Nat.min t (length l)) l = firstn (length l) used ->
  let l' := firstn t l ++ firstn (length l - t) items ++ skipn (t + length items) l in
  length l' = length l /\
  firstn (Nat.min (t + length items) (length l)) l' = firstn (length l) (used ++ items).
Proof.
  intros -> Hf l'.
  assert (Hl : length l' = length l).
  { unfold l'. rewrite !app_length, !firstn_length, skipn_length. lia. }
  split; [exact Hl|].
  unfold l'. rewrite (firstn_app (length l)).
  destruct (le_lt_dec (length l) (length used)) as [H|H].
  - replace (length l - length used) with 0 by lia. simpl. rewrite app_nil_r.
    rewrite (firstn_all2 l) by lia. rewrite skipn_all2 by lia. rewrite app_nil_r.
    rewrite !Nat.min_r in * by lia. exact Hf.
  - rewrite Nat.min_l in Hf by lia.
    rewrite (firstn_all2 used) in Hf by lia. rewrite Hf.
    rewrite (firstn_all2 used) by lia.
    rewrite app_assoc, firstn_app.
    rewrite app_length, firstn_length.
    replace (Nat.min (length used + length items) (length l) -
       (length used + Nat.min (length l - length used) (length items))) with 0 by lia.
    simpl. rewrite app_nil_r. apply firstn_all2. rewrite app_length, firstn_length. lia.
Qed.

(** ** C01 *)
(* representation: live items are store[head .. tail) *)
Definition q_rep (max : nat) (q : queue) (used : nat) (live : list V) : Prop :=
  length (q_store q) = max /\
  exists h, q_head q = Z.of_nat h /\ q_tail q = Z.of_nat used /\
    used = h + length live /\ used <= max /\
    firstn (length live) (skipn h (q_store q)) = live.

Lemma map_jget_consec (l : list V) h n :
  (Z.of_nat (h + n) < 2 ^ 31)%Z -> h + n <= length l ->
  map (fun k => jget dflt l (i32 (Z.of_nat h + k))) (arange n) = firstn n (skipn h l).
Proof.
  intros Hb Hl. apply nth_ext_len with (d := dflt).
  - unfold arange. rewrite !map_length, seq_length, firstn_length, skipn_length. lia.
  - intros i Hi. unfold arange in *. rewrite map_map. rewrite !map_length, seq_length in Hi.
    erewrite nth_indep by (rewrite map_length, seq_length; exact Hi).
    rewrite (map_nth (fun k => jget dflt l (i32 (Z.of_nat h + Z.of_nat k))) (seq 0 n) 0).
    rewrite seq_nth by lia. rewrite i32_small by lia. rewrite jget_in by lia.
    replace (Z.to_nat (Z.of_nat h + Z.of_nat (0 + i))) with (h + i) by lia.
    rewrite nth_firstn, nth_skipn by assumption. reflexivity.
Qed.

Lemma q_peek_ok max q used live n : (Z.of_nat max < 2 ^ 31)%Z ->
  q_rep max q used live -> n <= length live ->
  q_peek dflt q n = present dflt n (firstn n live).
Proof.
  intros Hm (Hlen & h & Hh & Ht & Hu & Hmax & Hlive) Hn.
  assert (Hfn : firstn n (skipn h (q_store q)) = firstn n live).
  { rewrite <- Hlive. rewrite firstn_firstn. f_equal. lia. }
  unfold q_peek, present.
  destruct n as [|[|n]].
  - reflexivity.
  - f_equal. rewrite Hh. rewrite jget_in by lia.
    rewrite <- Hfn. rewrite Nat2Z.id.
    replace (nth h (q_store q) dflt) with (nth 0 (skipn h (q_store q)) dflt)
      by (rewrite nth_skipn; f_equal; lia).
    destruct (skipn h (q_store q)); reflexivity.
  - f_equal. rewrite Hh. rewrite map_jget_consec by lia. exact Hfn.
Qed.

Lemma q_get_ok max q used live i : (Z.of_nat max < 2 ^ 31)%Z ->
  q_rep max q used live -> i < length live -> q_get dflt q (Z.of_nat i) = nth i live dflt.
Proof.
  intros Hm (Hlen & h & Hh & Ht & Hu & Hmax & Hlive) Hi.
  unfold q_get. rewrite Hh. rewrite u32_small by (unfold U32; lia). rewrite jget_in by lia.
  replace (Z.to_nat (Z.of_nat h + Z.of_nat i)) with (h + i) by lia.
  replace (nth i live dflt) with (nth i (firstn (length live) (skipn h (q_store q))) dflt) by (rewrite Hlive; reflexivity).
  rewrite nth_firstn, nth_skipn by assumption. reflexivity.
Qed.

Lemma q_size_ok max q used live : (Z.of_nat max < 2 ^ 31)%Z ->
  q_rep max q used live -> q_size q = Z.of_nat (length live).
Proof.
  intros Hm (Hlen & h & Hh & Ht & Hu & Hmax & Hlive).
  unfold q_size. rewrite u32_small; unfold U32; lia.
Qed.

Lemma q_enq_ok max q used live a : (Z.of_nat max < 2 ^ 31)%Z ->
  q_rep max q used live -> used + length (arg_items a) <= max ->
  q_rep max (q_enqueue q a) (used + length (arg_items a)) (live ++ arg_items a).
Proof.
  intros Hm (Hlen & h & Hh & Ht & Hu & Hmax & Hlive) Hn.
  pose proof (store_after (q_store q) used a ltac:(lia)) as HS. rewrite <- Ht in HS.
  assert (Hst : q_store (q_enqueue q a) =
    firstn used (q_store q) ++ arg_items a ++ skipn (used + length (arg_items a)) (q_store q)).
  { rewrite (firstn_all2 (arg_items a)) in HS by lia. destruct a; simpl; exact HS. }
  assert (Htl : q_tail (q_enqueue q a) = Z.of_nat (used + length (arg_items a)))
    by (destruct a; simpl in *; rewrite u32_small; unfold U32; lia).
  assert (Hhd : q_head (q_enqueue q a) = Z.of_nat h) by (destruct a; simpl; exact Hh).
  split.
  - rewrite Hst, !app_length, firstn_length, skipn_length. lia.
  - exists h. rewrite Htl, Hhd, app_length. repeat split; try lia.
    rewrite Hst, skipn_app, firstn_length, Nat.min_l by lia.
    replace (h - used) with 0 by lia. simpl.
    assert (Hsk : skipn h (firstn used (q_store q)) = live).
    { rewrite <- Hlive. rewrite skipn_firstn_comm. f_equal. lia. }
    rewrite Hsk. rewrite app_assoc. rewrite firstn_app, app_length, Nat.sub_diag. simpl.
    rewrite app_nil_r. apply firstn_all2. rewrite app_length. lia.
Qed.

Lemma q_deq_ok max q used live n : (Z.of_nat max < 2 ^ 31)%Z ->
  q_rep max q used live -> n <= length live ->
  q_rep max (fst (q_dequeue dflt q n)) used (skipn n live).
Proof.
  intros Hm (Hlen & h & Hh & Ht & Hu & Hmax & Hlive) Hn.
  unfold q_dequeue; simpl. split; [exact Hlen|].
  exists (h + n). simpl. rewrite skipn_length. repeat split; try lia.
  - rewrite Hh, u32_small; unfold U32; lia.
  - rewrite <- Hlive at 2. rewrite skipn_firstn_comm, skipn_skipn. f_equal. f_equal. lia.
Qed.

Lemma q_run_ok max : (Z.of_nat max < 2 ^ 31)%Z -> forall ops q used live,
  q_rep max q used live -> q_legal max used live ops ->
  q_run dflt q ops = fifo_run dflt live ops.
Proof.
  intros Hm ops; induction ops as [|o ops IH]; intros q used live HR HL; [reflexivity|].
  destruct o as [a|n|n|i|]; simpl in *.
  - destruct HL as [H1 H2]. pose proof (q_enq_ok _ _ _ _ a Hm HR H1) as HR'.
    rewrite (q_size_ok _ _ _ _ Hm HR'). f_equal. eapply IH; eauto.
  - destruct HL as [H1 H2]. pose proof (q_deq_ok _ _ _ _ n Hm HR H1) as HR'. simpl in HR'.
    rewrite (q_size_ok _ _ _ _ Hm HR'). rewrite (q_peek_ok _ _ _ _ _ Hm HR H1).
    f_equal. eapply IH; eauto.
  - destruct HL as [H1 H2]. rewrite (q_size_ok _ _ _ _ Hm HR), (q_peek_ok _ _ _ _ _ Hm HR H1).
    f_equal. eapply IH; eauto.
  - destruct HL as [H1 H2]. rewrite (q_size_ok _ _ _ _ Hm HR), (q_get_ok _ _ _ _ _ Hm HR H1).
    f_equal. eapply IH; eauto.
  - assert (HR' : q_rep max (q_clear q) 0 []).
    { destruct HR as [Hlen _]. split; [exact Hlen|]. exists 0. simpl. repeat split; lia. }
    rewrite (q_size_ok _ _ _ _ Hm HR'). f_equal. eapply IH; eauto.
Qed.

Lemma q_build_rep max : q_rep max (q_build dflt max) 0 [].
Proof. split; [apply repeat_length|]. exists 0; simpl; repeat split; lia. Qed.

Theorem queue_is_fifo max ops : (Z.of_nat max < 2 ^ 31)%Z ->
  q_legal max 0 [] ops -> q_run dflt (q_build dflt max) ops = fifo_run dflt [] ops.
Proof. intros Hm HL. eapply q_run_ok; eauto using q_build_rep. Qed.

(** ** C02 *)
Definition q_hist (q : queue) (max : nat) (enq : list V) (deq : Z) : Prop :=
  length (q_store q) = max /\ q_tail q = Z.of_nat (length enq) /\ q_head q = u32 deq /\
  firstn (Nat.min (length enq) max) (q_store q) = firstn max enq.

Lemma q_hist_ok ops : forall q max enq deq,
  q_hist q max enq deq ->
  (Z.of_nat (length enq + total_enqueued ops) <= 2 ^ 31)%Z ->
  q_hist (q_exec dflt q ops) max
    (fold_left (fun acc o => match o with Enqueue a => acc ++ arg_items a | Clear => [] | _ => acc end) ops enq)
    (fold_left (fun acc o => match o with Dequeue n => acc + Z.of_nat n | Clear => 0 | _ => acc end)%Z ops deq).
Proof.
  induction ops as [|o ops IH]; intros q max enq deq HI Hb; [exact HI|].
  unfold total_enqueued in Hb; simpl in Hb.
  fold (total_enqueued ops) in Hb.
  simpl. destruct o as [a|n|n|i|]; simpl in *.
  - apply IH; [|rewrite app_length; lia].
    destruct HI as (Hlen & Ht & Hh & Hf). subst max.
    pose proof (store_after (q_store q) (length enq) a ltac:(lia)) as HS. rewrite <- Ht in HS.
    pose proof (firstn_after (q_store q) (arg_items a) (length enq) enq eq_refl Hf) as [HA HB].
    unfold q_hist.
    assert (Hst : q_store (q_enqueue q a) = firstn (length enq) (q_store q) ++
       firstn (length (q_store q) - length enq) (arg_items a) ++
       skipn (length enq + length (arg_items a)) (q_store q)) by (destruct a; simpl; exact HS).
    rewrite Hst. split; [exact HA|]. rewrite app_length. split; [|split; [destruct a; exact Hh|exact HB]].
    destruct a; simpl in *; rewrite u32_small; unfold U32; lia.
  - apply IH; [|lia]. destruct HI as (Hlen & Ht & Hh & Hf). unfold q_hist; simpl.
    repeat split; auto. rewrite Hh. unfold u32. rewrite Z.add_mod_idemp_l by (unfold U32; lia). reflexivity.
  - apply IH; [exact HI|lia].
  - apply IH; [exact HI|lia].
  - apply IH; [|simpl; lia]. destruct HI as (Hlen & Ht & Hh & Hf). unfold q_hist; simpl.
    rewrite firstn_nil. repeat split; auto.
Qed.

Lemma queue_history max ops : (Z.of_nat (total_enqueued ops) <= 2 ^ 31)%Z ->
  let q := q_exec dflt (q_build dflt max) ops in
  let all := enqueued_since_clear ops in
  firstn (Nat.min (length all) max) (q_store q) = firstn max all /\
  q_size q = u32 (Z.of_nat (length all) - dequeued_since_clear ops).
Proof.
  intros Hb q all.
  assert (HI : q_hist q max all (dequeued_since_clear ops)).
  { apply q_hist_ok; [|simpl; lia]. unfold q_hist. simpl. rewrite repeat_length, firstn_nil. auto. }
  destruct HI as (Hlen & Ht & Hh & Hf). split; [exact Hf|].
  unfold q_size. rewrite Ht, Hh. unfold u32. rewrite Zminus_mod_idemp_r. reflexivity.
Qed.

(** Reachable tails stay below the bound, so one more enqueue has exactly the
    described effect on the backing array. *)
Lemma enqueue_effect max ops a : (Z.of_nat (total_enqueued ops + length (arg_items a)) <= 2 ^ 31)%Z ->
  let q := q_exec dflt (q_build dflt max) ops in
  let t := length (enqueued_since_clear ops) in
  q_store (q_enqueue q a)
  = firstn t (q_store q) ++ firstn (max - t) (arg_items a) ++ skipn (t + length (arg_items a)) (q_store q)
  /\ q_size (q_enqueue q a) = u32 (q_size q + Z.of_nat (length (arg_items a))).
Proof.
  intros Hb q t.
  assert (HI : q_hist q max (enqueued_since_clear ops) (dequeued_since_clear ops)).
  { apply q_hist_ok; [|simpl; lia]. unfold q_hist. simpl. rewrite repeat_length, firstn_nil. auto. }
  destruct HI as (Hlen & Ht & Hh & Hf).
  assert (Htb : t <= total_enqueued ops).
  { unfold t, enqueued_since_clear, total_enqueued. clear.
    enough (G : forall acc, length (fold_left (fun acc o => match o with Enqueue a => acc ++ arg_items a | Clear => [] | _ => acc end) ops acc)
      <= length acc + list_sum (map (fun o : qop V => match o with Enqueue a => length (arg_items a) | _ => 0 end) ops)) by (specialize (G []); simpl in G; lia).
    induction ops as [|o ops IH]; intros acc; simpl; [lia|].
    destruct o as [a|n|n|i|]; (eapply Nat.le_trans; [apply IH|]); try rewrite app_length; simpl; lia. }
  pose proof (store_after (q_store q) t a ltac:(lia)) as HS.
  split.
  - rewrite <- Hlen. unfold t in *. destruct a; simpl in *; rewrite Ht; exact HS.
  - unfold q_size. destruct a; simpl; unfold u32;
    rewrite Zminus_mod_idemp_l, Zplus_mod_idemp_l; f_equal; lia.
Qed.

(** ** C03 *)
Definition s_rep (max : nat) (s : stack) (live : list V) : Prop :=
  length (s_store s) = max /\ s_size s = Z.of_nat (length live) /\ length live <= max /\
  firstn (length live) (s_store s) = live.

Lemma map_jget_top (l : list V) sz n :
  (Z.of_nat sz < 2 ^ 31)%Z -> n <= sz -> sz <= length l ->
  map (fun k => jget dflt l (i32 (Z.of_nat sz - k))) (arange_down n) = firstn n (skipn (sz - n) l).
Proof.
  intros Hb Hn Hl. rewrite <- map_jget_consec by lia.
  unfold arange, arange_down. rewrite !map_map. apply map_ext_in. intros a Ha.
  apply in_seq in Ha. f_equal. f_equal. lia.
Qed.

Lemma s_peek_ok max s live n : (Z.of_nat max < 2 ^ 31)%Z ->
  s_rep max s live -> n <= length live ->
  s_peek dflt s n = present dflt n (skipn (length live - n) live).
Proof.
  intros Hm (Hlen & Hsz & Hmax & Hlive) Hn.
  assert (Hfn : firstn n (skipn (length live - n) (s_store s)) = skipn (length live - n) live).
  { transitivity (skipn (length live - n) (firstn (length live) (s_store s))).
    - rewrite skipn_firstn_comm. f_equal. lia.
    - rewrite Hlive. reflexivity. }
  unfold s_peek, present. destruct n as [|[|n]].
  - rewrite Nat.sub_0_r, skipn_all. reflexivity.
  - f_equal. rewrite Hsz, u32_small by (unfold U32; lia). rewrite jget_in by lia.
    rewrite <- Hfn. replace (Z.to_nat (Z.of_nat (length live) - 1)) with (length live - 1) by lia.
    replace (nth (length live - 1) (s_store s) dflt) with (nth 0 (skipn (length live - 1) (s_store s)) dflt)
      by (rewrite nth_skipn; f_equal; lia).
    destruct (skipn (length live - 1) (s_store s)); reflexivity.
  - f_equal. rewrite Hsz, map_jget_top by lia. exact Hfn.
Qed.

Lemma s_push_ok max s live a : (Z.of_nat max < 2 ^ 31)%Z ->
  s_rep max s live -> length live + length (arg_items a) <= max ->
  s_rep max (s_push s a) (live ++ arg_items a).
Proof.
  intros Hm (Hlen & Hsz & Hmax & Hlive) Hn.
  pose proof (store_after (s_store s) (length live) a ltac:(lia)) as HS. rewrite <- Hsz in HS.
  assert (Hst : s_store (s_push s a) =
    live ++ arg_items a ++ skipn (length live + length (arg_items a)) (s_store s)).
  { rewrite (firstn_all2 (arg_items a)), Hlive in HS by lia. destruct a; simpl; exact HS. }
  unfold s_rep. rewrite Hst. rewrite !app_length, skipn_length. repeat split; try lia.
  - destruct a; simpl in *; rewrite u32_small; unfold U32; lia.
  - rewrite app_assoc, firstn_app, app_length, Nat.sub_diag. simpl. rewrite app_nil_r.
    apply firstn_all2. rewrite app_length. lia.
Qed.

Lemma s_pop_ok max s live n : (Z.of_nat max < 2 ^ 31)%Z ->
  s_rep max s live -> n <= length live ->
  s_rep max (fst (s_pop dflt s n)) (firstn (length live - n) live).
Proof.
  intros Hm (Hlen & Hsz & Hmax & Hlive) Hn. unfold s_rep, s_pop; simpl.
  rewrite firstn_length, Nat.min_l by lia. repeat split; try lia.
  - rewrite Hsz, u32_small; unfold U32; lia.
  - transitivity (firstn (length live - n) (firstn (length live) (s_store s))).
    + rewrite firstn_firstn. f_equal. lia.
    + rewrite Hlive. reflexivity.
Qed.

Lemma s_run_ok max : (Z.of_nat max < 2 ^ 31)%Z -> forall ops s live,
  s_rep max s live -> s_legal dflt max live ops ->
  s_run dflt s ops = lifo_run dflt live ops.
Proof.
  intros Hm ops; induction ops as [|o ops IH]; intros s live HR HL; [reflexivity|].
  destruct HL as [H1 H2]. pose proof HR as (Hlen & Hsz & Hmax & Hlive).
  destruct o as [a|n|n|i]; simpl in *.
  - pose proof (s_push_ok _ _ _ a Hm HR H1) as HR'. f_equal; [|eapply IH; eauto].
    f_equal. apply HR'.
  - pose proof (s_pop_ok _ _ _ n Hm HR H1) as HR'. simpl in HR'. f_equal; [|eapply IH; eauto].
    rewrite (s_peek_ok _ _ _ _ Hm HR H1). f_equal. apply HR'.
  - rewrite (s_peek_ok _ _ _ _ Hm HR H1), Hsz. f_equal. eapply IH; eauto.
  - rewrite Hsz. f_equal; [|eapply IH; eauto]. f_equal. f_equal. f_equal.
    unfold s_get. rewrite jget_in by lia. rewrite Nat2Z.id.
    replace (nth i live dflt) with (nth i (firstn (length live) (s_store s)) dflt) by (rewrite Hlive; reflexivity).
    rewrite nth_firstn by assumption. reflexivity.
Qed.

Theorem stack_is_lifo max ops : (Z.of_nat max < 2 ^ 31)%Z ->
  s_legal dflt max [] ops -> s_run dflt (s_build dflt max) ops = lifo_run dflt [] ops.
Proof.
  intros Hm HL. eapply s_run_ok; eauto. unfold s_rep; simpl. rewrite repeat_length.
  repeat split; lia.
Qed.

(** ** C04 *)
Lemma push_effect (s : stack) a (sz : nat) :
  s_size s = Z.of_nat sz ->
  (Z.of_nat sz + Z.of_nat (length (arg_items a)) <= 2 ^ 31)%Z ->
  let max := length (s_store s) in
  s_store (s_push s a)
   = firstn sz (s_store s) ++ firstn (max - sz) (arg_items a) ++ skipn (sz + length (arg_items a)) (s_store s)
  /\ s_size (s_push s a) = Z.of_nat (sz + length (arg_items a)).
Proof.
  intros Hsz Hb max. pose proof (store_after (s_store s) sz a ltac:(lia)) as HS.
  split.
  - destruct a; simpl in *; rewrite Hsz; exact HS.
  - destruct a; simpl in *; rewrite Hsz, u32_small; unfold U32; lia.
Qed.

Lemma push_pop_restores (s : stack) a (sz : nat) :
  s_size s = Z.of_nat sz ->
  (Z.of_nat sz + Z.of_nat (length (arg_items a)) <= 2 ^ 31)%Z ->
  let s' := fst (s_pop dflt (s_push s a) (length (arg_items a))) in
  s_size s' = s_size s /\
  length (s_store s') = length (s_store s) /\
  firstn sz (s_store s') = firstn sz (s_store s).
Proof.
  intros Hsz Hb s'. destruct (push_effect s a sz Hsz Hb) as [H1 H2].
  unfold s', s_pop. cbn [fst s_size s_store]. rewrite H1, H2. repeat split.
  - rewrite Hsz, u32_small; unfold U32; lia.
  - rewrite !app_length, !firstn_length, skipn_length. lia.
  - rewrite firstn_app, firstn_firstn, Nat.min_id, firstn_length.
    destruct (le_lt_dec sz (length (s_store s))) as [H|H].
    + replace (sz - Nat.min sz (length (s_store s))) with 0 by lia. simpl. apply app_nil_r.
    + rewrite (skipn_all2 (s_store s)) by lia.
      replace (length (s_store s) - sz) with 0 by lia. simpl.
      rewrite firstn_nil. apply app_nil_r.
Qed.

(** ** C05 *)
Lemma pop_size_iff (s : stack) (n : nat) :
  (0 <= s_size s < U32)%Z -> (Z.of_nat n < U32)%Z ->
  s_size (fst (s_pop dflt s n)) = (if (Z.of_nat n <=? s_size s)%Z then s_size s - Z.of_nat n
                                   else s_size s - Z.of_nat n + U32)%Z
  /\ ((s_size (fst (s_pop dflt s n)) <= s_size s)%Z <-> (Z.of_nat n <= s_size s)%Z).
Proof.
  intros H Hn. unfold s_pop; cbn [fst s_size].
  assert (E : u32 (s_size s - Z.of_nat n) = (if (Z.of_nat n <=? s_size s)%Z then s_size s - Z.of_nat n
                                   else s_size s - Z.of_nat n + U32)%Z).
  { unfold u32. destruct (Z.leb_spec (Z.of_nat n) (s_size s)).
    - apply Z.mod_small; lia.
    - symmetry. apply (Z.mod_unique _ _ (-1)); unfold U32 in *; lia. }
  rewrite E. split; [reflexivity|]. destruct (Z.leb_spec (Z.of_nat n) (s_size s)); unfold U32 in *; lia.
Qed.

Lemma dequeue_size_iff (q : queue) (n : nat) :
  (Z.of_nat n < U32)%Z ->
  q_size (fst (q_dequeue dflt q n)) = (if (Z.of_nat n <=? q_size q)%Z then q_size q - Z.of_nat n
                                   else q_size q - Z.of_nat n + U32)%Z
  /\ ((q_size (fst (q_dequeue dflt q n)) <= q_size q)%Z <-> (Z.of_nat n <= q_size q)%Z).
Proof.
  intros Hn. unfold q_dequeue; cbn [fst].
  pose proof (u32_range (q_tail q - q_head q)) as HR. fold (q_size q) in HR.
  assert (E0 : q_size (mkQ (q_store q) (u32 (q_head q + Z.of_nat n)) (q_tail q)) = u32 (q_size q - Z.of_nat n)).
  { unfold q_size; simpl. unfold u32. rewrite Zminus_mod_idemp_r, Zminus_mod_idemp_l. f_equal. lia. }
  rewrite E0.
  assert (E : u32 (q_size q - Z.of_nat n) = (if (Z.of_nat n <=? q_size q)%Z then q_size q - Z.of_nat n
                                   else q_size q - Z.of_nat n + U32)%Z).
  { unfold u32. destruct (Z.leb_spec (Z.of_nat n) (q_size q)).
    - apply Z.mod_small; lia.
    - symmetry. apply (Z.mod_unique _ _ (-1)); unfold U32 in *; lia. }
  rewrite E. split; [reflexivity|]. destruct (Z.leb_spec (Z.of_nat n) (q_size q)); unfold U32 in *; lia.
Qed.
End P.
