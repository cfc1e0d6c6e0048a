(** * PropQueueDebt.v — C05: what a removal of more items than are present returns, and what
      becomes of the items added afterwards. *)
From Verif Require Import Jax QueueModel QueueSpec QueueProofs PropSplit2.

Lemma i32_neg z : (- 2 ^ 31 <= z < 0)%Z -> i32 z = z.
Proof.
  intros H. unfold i32. replace (z mod U32)%Z with (z + U32)%Z by (apply (Z.mod_unique z U32 (-1)); unfold U32; lia).
  destruct (Z.ltb_spec (z + U32) (2 ^ 31)); unfold U32 in *; lia.
Qed.
(** conversion to int32 is two's complement *)
Lemma i32_spec z : (- 2 ^ 31 <= i32 z < 2 ^ 31)%Z /\ exists k, i32 z = (z + k * 2 ^ 32)%Z.
Proof.
  unfold i32. pose proof (Z.mod_pos_bound z U32 eq_refl) as H. pose proof (Z.div_mod z U32 ltac:(discriminate)) as D. unfold U32 in *. cbv zeta.
  destruct (Z.ltb_spec (z mod 2 ^ 32) (2 ^ 31)); split; try lia; [exists (- (z / 2 ^ 32))%Z|exists (- (z / 2 ^ 32) - 1)%Z]; lia.
Qed.

Section Debt.
Context {V : Type} (dflt : V).

(** the slot that row [i] of [pop(n)]/[peek(n)] is read from, for a stack of [sz] items in
    [max] slots: rows below the bottom come from the far end of the storage *)
Definition slot (sz max n i : nat) : nat := if n <=? sz + i then sz + i - n else max - (n - (sz + i)).
Theorem C05_pop_returns : forall (s : stack V) sz n, s_size s = Z.of_nat sz -> sz <= length (s_store s) -> 0 < length (s_store s) ->
  (Z.of_nat (length (s_store s)) < 2 ^ 31)%Z -> (Z.of_nat n <= 2 ^ 31)%Z ->
  arg_items (snd (s_pop dflt s n)) = map (fun i => nth (slot sz (length (s_store s)) n i) (s_store s) dflt) (seq 0 n) /\
  snd (s_pop dflt s n) = s_peek dflt s n /\ s_store (fst (s_pop dflt s n)) = s_store s.
Proof.
  intros s sz n HS HL HP HM HN. split; [|split; reflexivity]. cbn [s_pop snd].
  assert (G : map (fun k => jget dflt (s_store s) (i32 (s_size s - k))) (arange_down n) = map (fun i => nth (slot sz (length (s_store s)) n i) (s_store s) dflt) (seq 0 n)).
  { unfold arange_down. rewrite map_map. apply map_ext_in. intros i Hi. apply in_seq in Hi. rewrite HS. unfold slot. destruct (Nat.leb_spec n (sz + i)).
    - rewrite i32_small by lia. rewrite jget_in by lia. f_equal. lia.
    - rewrite i32_neg by lia. unfold jget, norm_idx. destruct (Z.ltb_spec (Z.of_nat sz - Z.of_nat (n - i)) 0); [|lia]. f_equal. lia. }
  destruct n as [|[|n]]; [reflexivity| |exact G]. cbn [s_peek arg_items seq map]. f_equal. rewrite HS. unfold slot. destruct (Nat.leb_spec 1 (sz + 0)).
  - rewrite u32_small by (unfold U32; lia). rewrite jget_in by lia. f_equal. lia.
  - assert (sz = 0) as -> by lia. change (u32 (Z.of_nat 0 - 1)) with (2 ^ 32 - 1)%Z. unfold jget, norm_idx. destruct (Z.ltb_spec (2 ^ 32 - 1) 0); [lia|]. f_equal. lia.
Qed.
(** a queue's rows past the last item are whatever lies behind it in the storage; rows past
    the end of the storage repeat its last slot *)
Theorem C05_dequeue_returns : forall (q : queue V) h n, q_head q = Z.of_nat h -> (Z.of_nat (h + n) <= 2 ^ 31)%Z ->
  arg_items (snd (q_dequeue dflt q n)) = map (fun i => nth (Nat.min (h + i) (length (q_store q) - 1)) (q_store q) dflt) (seq 0 n) /\
  snd (q_dequeue dflt q n) = q_peek dflt q n /\ q_store (fst (q_dequeue dflt q n)) = q_store q.
Proof.
  intros q h n HH HN. split; [|split; reflexivity]. cbn [q_dequeue snd].
  assert (J : forall k, jget dflt (q_store q) (Z.of_nat k) = nth (Nat.min k (length (q_store q) - 1)) (q_store q) dflt).
  { intros k. unfold jget, norm_idx. destruct (Z.ltb_spec (Z.of_nat k) 0); [lia|]. f_equal. lia. }
  destruct n as [|[|n]]; [reflexivity| |].
  - cbn [q_peek arg_items seq map]. rewrite HH, J. do 2 f_equal. lia.
  - cbn [q_peek arg_items]. unfold arange. rewrite map_map. apply map_ext_in. intros i Hi. apply in_seq in Hi. rewrite HH, i32_small by lia. rewrite <- Nat2Z.inj_add. apply J.
Qed.

(** ** Items added after such a removal: as many as were missing are lost *)
Definition owes (d : nat) (s : stack V) (all : list V) : Prop :=
  s_size s = u32 (Z.of_nat (length all) - Z.of_nat d) /\ firstn (length all - d) (s_store s) = skipn d all.
Lemma owes_one max d (s : stack V) all v : owes d s all -> length (s_store s) = max -> 0 < d <= max -> (Z.of_nat max < 2 ^ 31)%Z -> length all + 1 <= max ->
  owes d (s_push s (One v)) (all ++ [v]) /\ owes d (s_push s (Many [v])) (all ++ [v]) /\ length (s_store (s_push s (One v))) = max /\ length (s_store (s_push s (Many [v]))) = max.
Proof.
  intros [HS HF] HL HD HM HA.
  assert (SZ : u32 (s_size s + 1) = u32 (Z.of_nat (length (all ++ [v])) - Z.of_nat d)) by (rewrite HS, u32_add, app_length; cbn [length]; f_equal; lia).
  assert (ST : forall i, (length all < d -> exists l, jset (s_store s) i v = l) -> (d <= length all -> i = Z.of_nat (length all - d)) ->
    firstn (length (all ++ [v]) - d) (jset (s_store s) i v) = skipn d (all ++ [v])).
  { intros i _ HI. rewrite app_length. cbn [length]. destruct (Nat.ltb_spec (length all) d) as [L|L].
    - replace (length all + 1 - d) with 0 by lia. rewrite skipn_all2 by (rewrite app_length; cbn [length]; lia). reflexivity.
    - rewrite (HI L), jset_in by lia. rewrite Nat2Z.id. rewrite upd_split by lia. replace (length all + 1 - d) with (S (length all - d)) by lia.
      rewrite firstn_app, firstn_length, Nat.min_l by lia. rewrite firstn_firstn, Nat.min_r by lia. replace (S (length all - d) - (length all - d)) with 1 by lia. cbn [firstn].
      rewrite HF, skipn_app. replace (d - length all) with 0 by lia. reflexivity. }
  assert (SM : forall vs, s_store (s_push s (Many [vs])) = jset (s_store s) (i32 (s_size s)) vs).
  { intros x. cbn [s_push s_store length]. unfold arange. cbn [seq map]. rewrite jsets_cons. unfold jsets. cbn [combine fold_left]. do 2 f_equal. lia. }
  assert (SO : s_store (s_push s (One v)) = jset (s_store s) (s_size s) v) by reflexivity.
  split; [|split; [|split; [rewrite SO, jset_length; exact HL|rewrite SM, jset_length; exact HL]]].
  - split; [exact SZ|]. rewrite SO. apply ST; [eauto|]. intros L. rewrite HS, u32_small by (unfold U32; lia). lia.
  - split; [exact SZ|]. rewrite SM. apply ST; [eauto|]. intros L. rewrite HS, u32_small by (unfold U32; lia). rewrite i32_small by lia. lia.
Qed.
Lemma owes_push max d vs : forall (s : stack V) all, owes d s all -> length (s_store s) = max -> 0 < d <= max -> (Z.of_nat max < 2 ^ 31)%Z -> length all + length vs <= max ->
  owes d (s_push s (Many vs)) (all ++ vs) /\ length (s_store (s_push s (Many vs))) = max.
Proof.
  induction vs as [|v vs IH]; intros s all HO HL HD HM HA; cbn [length] in HA.
  - rewrite app_nil_r. assert (s_push s (Many []) = s) as ->; [|auto]. destruct s as [st sz]. cbn [s_push length s_store s_size]. unfold arange, jsets. cbn [seq map combine fold_left]. f_equal. rewrite Z.add_0_r.
    destruct HO as [HO _]. cbn [s_size] in HO. rewrite HO. apply u32_small. apply u32_range.
  - change (v :: vs) with ([v] ++ vs). rewrite <- push_many, app_assoc. destruct (owes_one max d s all v HO HL HD HM ltac:(lia)) as (_ & O1 & _ & L1). apply IH; try assumption. rewrite app_length. cbn [length]. lia.
Qed.
Theorem C05_stack_debt : forall (s : stack V) d adds, s_size s = (2 ^ 32 - Z.of_nat d)%Z -> 0 < d <= length (s_store s) -> (Z.of_nat (length (s_store s)) < 2 ^ 31)%Z ->
  let items := flat_map arg_items adds in
  d <= length items <= length (s_store s) ->
  let s' := fold_left (@s_push V) adds s in
  s_size s' = Z.of_nat (length items - d) /\ firstn (length items - d) (s_store s') = skipn d items.
Proof.
  intros s d adds HS HD HM items HI s'.
  assert (G : forall l s0 all, owes d s0 all -> length (s_store s0) = length (s_store s) -> length all + length (flat_map arg_items l) <= length (s_store s) ->
              owes d (fold_left (@s_push V) l s0) (all ++ flat_map arg_items l)).
  { induction l as [|a l IH]; intros s0 all HO HL HA; cbn [fold_left flat_map] in *; [now rewrite app_nil_r|]. rewrite app_length in HA. rewrite app_assoc.
    assert (P : owes d (s_push s0 a) (all ++ arg_items a) /\ length (s_store (s_push s0 a)) = length (s_store s)).
    { destruct a as [v|vs]; cbn [arg_items length] in *; [|apply owes_push; try assumption; lia]. destruct (owes_one (length (s_store s)) d s0 all v HO HL HD HM ltac:(lia)) as (O1 & _ & L1 & _). auto. }
    apply IH; [apply P|apply P|]. rewrite app_length. lia. }
  destruct (G adds s []) as [G1 G2]; [split|reflexivity|cbn [length]; fold items; lia|].
  - rewrite HS. change (length (@nil V)) with 0. unfold u32. apply (Z.mod_unique _ _ (-1)); unfold U32; lia.
  - rewrite skipn_nil. destruct d; reflexivity.
  - cbn [app] in G1, G2. fold items s' in G1, G2. split; [|exact G2]. rewrite G1, u32_small by (unfold U32; lia). lia.
Qed.
(** ... a queue likewise; its next reads start behind the lost items *)
Theorem C05_queue_debt : forall (q : queue V) t d adds, q_tail q = Z.of_nat t -> q_head q = Z.of_nat (t + d) -> (Z.of_nat (length (q_store q)) < 2 ^ 31)%Z ->
  let items := flat_map arg_items adds in
  d <= length items -> t + length items <= length (q_store q) ->
  let q' := fold_left (@q_enqueue V) adds q in
  q_size q' = Z.of_nat (length items - d) /\
  (forall n, n <= length items - d -> arg_items (snd (q_dequeue dflt q' n)) = firstn n (skipn d items)).
Proof.
  intros q t d adds HT HH HM items HD HI q'.
  assert (G : forall l q0 t0, q_tail q0 = Z.of_nat t0 -> (Z.of_nat (t0 + length (flat_map arg_items l)) < 2 ^ 31)%Z ->
              fold_left (@q_enqueue V) l q0 = q_enqueue q0 (Many (flat_map arg_items l)) \/ l = []).
  { induction l as [|a l IH]; intros q0 t0 H0 H1; [now right|left]. cbn [fold_left flat_map] in *. rewrite app_length in H1. rewrite (enqueue_one q0 a) by lia.
    assert (T : q_tail (q_enqueue q0 (Many (arg_items a))) = Z.of_nat (t0 + length (arg_items a))) by (cbn [q_enqueue q_tail]; rewrite H0, u32_small by (unfold U32; lia); lia).
    destruct (IH _ _ T ltac:(lia)) as [E| ->]; [rewrite E; apply enqueue_many|]. cbn [fold_left flat_map]. now rewrite app_nil_r. }
  assert (F : q_store q' = firstn t (q_store q) ++ items ++ skipn (t + length items) (q_store q) /\ q_head q' = Z.of_nat (t + d) /\ q_tail q' = Z.of_nat (t + length items)).
  { unfold q'. destruct (G adds q t HT ltac:(fold items; lia)) as [E|E].
    - rewrite E. fold items. cbn [q_enqueue q_store q_head q_tail]. rewrite HT. change (map (fun k => i32 (Z.of_nat t + k)) (arange (length items))) with (idxs t (length items)). rewrite (jsets_consec items) by lia.
      split; [|split; [exact HH|rewrite u32_small by (unfold U32; lia); lia]]. f_equal. f_equal. apply firstn_all2. lia.
    - unfold items. rewrite E. cbn [fold_left flat_map length app]. rewrite Nat.add_0_r. split; [symmetry; apply firstn_skipn|auto]. }
  destruct F as (F1 & F2 & F3). split.
  - unfold q_size. rewrite F2, F3, u32_small by (unfold U32; lia). lia.
  - intros n Hn. cbn [q_dequeue snd]. rewrite peek_items by lia. rewrite F2.
    assert (LL : length (q_store q') = length (q_store q)) by (rewrite F1, !app_length, firstn_length, skipn_length; lia).
    rewrite map_jget_consec by lia. rewrite F1. rewrite skipn_app, firstn_length, Nat.min_l by lia. rewrite skipn_all2 by (rewrite firstn_length; lia). replace (t + d - t) with d by lia. cbn [app].
    rewrite skipn_app, firstn_app, skipn_length. replace (n - (length items - d)) with 0 by lia. cbn [firstn]. apply app_nil_r.
Qed.
End Debt.
Print Assumptions C05_pop_returns.
Print Assumptions C05_dequeue_returns.
Print Assumptions C05_stack_debt.
Print Assumptions C05_queue_debt.
(** one item popped as three: two rows come from the far end of the storage; of the next
    three items pushed only the third is ever seen again *)
Example C05_debt_case :
  let s := s_exec 0%Z (s_build 0%Z 4) [Push (One 7%Z)] in
  snd (s_pop 0%Z s 3) = Many [0; 0; 7]%Z /\ s_size (fst (s_pop 0%Z s 3)) = (2 ^ 32 - 2)%Z /\
  (let s' := fold_left (@s_push Z) [One 1; Many [2; 3]]%Z (fst (s_pop 0%Z s 3)) in s_size s' = 1%Z /\ s_store s' = [3; 0; 0; 2]%Z).
Proof. vm_compute. repeat split; reflexivity. Qed.
