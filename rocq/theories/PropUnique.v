(** * PropUnique.v — property C38 (unique_mask). *)
From Coq Require Import String.
From Verif Require Import Jax KeyModel HashModel HashProofs StableSort GroupFirst DedupeModel DedupeProofs UniqueModel UniqueProofs BitpackModel.
Local Open Scope nat_scope.

(** ** Specification: an item is selectable when it is filled and its cost is not +inf *)
Definition cost_at (cost : list key) (i : nat) : key := nth i cost PInf.
Definition is_filled (filled : option (list bool)) (i : nat) : Prop :=
  match filled with None => True | Some f => nth i f false = true end.
Definition selectable (filled : option (list bool)) (cost : list key) (i : nat) : Prop :=
  is_filled filled i /\ cost_at cost i <> PInf.
(** cheaper, or as cheap and earlier *)
Definition beats (cost : list key) (i j : nat) : Prop :=
  kle (cost_at cost j) (cost_at cost i) = false \/ (cost_at cost i = cost_at cost j /\ i < j).
Definition row_at (rows : list (list N)) (i : nat) : list N := nth i rows [].
(** widths for which the key is compared column by column *)
Definition direct (x64 : bool) (k : nat) : Prop := k <= (if x64 then 2 else 4).
Definition marked x64 k rows filled cost i := nth i (unique_mask x64 k rows filled cost) false = true.

Lemma direct_id x64 k r : direct x64 k -> length r = k -> hash_to_wide x64 r = r.
Proof.
  intros HD HL. unfold hash_to_wide. rewrite HL. unfold direct in HD.
  replace (k <=? (if x64 then 2 else 4)) with true by (symmetry; apply Nat.leb_le; exact HD). reflexivity.
Qed.
Lemma E_cost (rows : list (list N)) filled cost i : i < length rows ->
  (nth i (effective (length rows) filled (Some cost)) false = true <-> selectable filled cost i).
Proof.
  intros Hi. rewrite E_spec by exact Hi. rewrite andb_true_iff. unfold selectable, is_filled, cost_at.
  assert (A : (match filled with None => true | Some f => nth i f false end) = true <-> match filled with None => True | Some f => nth i f false = true end) by (destruct filled; tauto).
  rewrite A. destruct (nth i cost PInf) eqn:EC; split; intros [X Y]; (split; [exact X|]); congruence.
Qed.
Lemma E_nocost (rows : list (list N)) filled i : i < length rows ->
  (nth i (effective (length rows) filled None) false = true <-> is_filled filled i).
Proof.
  intros Hi. rewrite E_spec by exact Hi. rewrite andb_true_r. unfold is_filled. destruct filled; tauto.
Qed.

(** ** With a cost array: exactly the cheapest (earliest on ties) selectable item of every
    hashed row is marked *)
Theorem C38_cheapest_hash : forall x64 k rows filled cost i,
  Forall (fun r => length r = k) rows -> i < length rows ->
  (marked x64 k rows filled (Some cost) i <->
   selectable filled cost i /\
   forall j, j < length rows -> j <> i -> selectable filled cost j ->
     hash_to_wide x64 (row_at rows j) = hash_to_wide x64 (row_at rows i) -> beats cost i j).
Proof.
  intros x64 k rows filled cost i HK Hi. unfold marked.
  rewrite (mask_cost x64 k rows filled (Some cost) HK cost eq_refl i Hi). rewrite E_cost by exact Hi.
  split; intros [HS HF]; (split; [exact HS|]); intros j Hj Hne Sj Eh; specialize (HF j Hj Hne).
  - rewrite E_cost in HF by exact Hj. destruct (HF Sj Eh) as [A B]. unfold beats, cost_at.
    destruct (kle (nth j cost PInf) (nth i cost PInf)) eqn:EK; [|left; reflexivity].
    right. split; [apply kle_antisym; assumption|apply B; reflexivity].
  - rewrite E_cost in Sj by exact Hj. destruct (HF Sj Eh) as [A|[A B]]; unfold cost_at in *.
    + split; [apply kle_total; exact A|congruence].
    + rewrite A. split; [apply kle_refl|intros _; exact B].
Qed.
(** exact for keys of at most four 32-bit columns (two in x64 mode) *)
Theorem C38_cheapest : forall x64 k rows filled cost i,
  direct x64 k -> Forall (fun r => length r = k) rows -> i < length rows ->
  (marked x64 k rows filled (Some cost) i <->
   selectable filled cost i /\
   forall j, j < length rows -> j <> i -> selectable filled cost j -> row_at rows j = row_at rows i -> beats cost i j).
Proof.
  intros x64 k rows filled cost i HD HK Hi. rewrite C38_cheapest_hash by assumption.
  assert (HI : forall j, j < length rows -> hash_to_wide x64 (row_at rows j) = row_at rows j).
  { intros j Hj. apply (direct_id x64 k _ HD). rewrite Forall_forall in HK. apply HK, nth_In, Hj. }
  split; intros [HS HF]; (split; [exact HS|]); intros j Hj Hne Sj Eh; apply HF; auto; revert Eh; rewrite !HI by assumption; auto.
Qed.
(** hence exactly one marked item per row value that has a selectable item, and it carries the
    least cost *)
Lemma beats_total cost i j : i <> j -> beats cost i j \/ beats cost j i.
Proof.
  intros Hne. unfold beats. destruct (kle (cost_at cost j) (cost_at cost i)) eqn:E1; [|auto].
  destruct (kle (cost_at cost i) (cost_at cost j)) eqn:E2; [|auto].
  pose proof (kle_antisym _ _ E1 E2) as E. rewrite E. destruct (Nat.lt_trichotomy i j) as [L|[L|L]]; [auto|contradiction|auto].
Qed.
Lemma klt_trans a b c : kle b a = false -> kle c b = false -> kle c a = false.
Proof.
  intros A B. destruct (kle c a) eqn:E; [|reflexivity]. apply kle_total in B. rewrite (kle_trans b c a B E) in A. discriminate.
Qed.
Lemma beats_trans cost i j l : beats cost i j -> beats cost j l -> beats cost i l.
Proof.
  unfold beats. intros [A|[A A2]] [B|[B B2]].
  - left. eapply klt_trans; eassumption.
  - left. rewrite <- B. exact A.
  - left. rewrite A. exact B.
  - right. split; [congruence|lia].
Qed.
Lemma beats_irrefl cost i : ~ beats cost i i.
Proof. unfold beats. rewrite kle_refl. intros [A|[_ A]]; [discriminate|lia]. Qed.
Lemma beats_asym cost i j : beats cost i j -> beats cost j i -> False.
Proof. intros A B. apply (beats_irrefl cost i). eapply beats_trans; eassumption. Qed.
Lemma best_of cost (l : list nat) : l <> [] -> exists i, In i l /\ forall j, In j l -> j <> i -> beats cost i j.
Proof.
  induction l as [|a l IH]; [congruence|]. intros _. destruct l as [|b l].
  - exists a. split; [now left|]. intros j [->|[]] Hne. contradiction.
  - destruct IH as [i [Hi Bi]]; [discriminate|]. destruct (Nat.eq_dec a i) as [->|Hne].
    + exists i. split; [now left|]. intros j [->|Hj] Hn; [contradiction|now apply Bi].
    + destruct (beats_total cost i a ltac:(congruence)) as [B|B].
      * exists i. split; [now right|]. intros j [->|Hj] Hn; [exact B|now apply Bi].
      * exists a. split; [now left|]. intros j [->|Hj] Hn; [contradiction|]. destruct (Nat.eq_dec j i) as [->|Nj]; [exact B|].
        eapply beats_trans; [exact B|]. now apply Bi.
Qed.
(** decidable [selectable] *)
Definition selb (filled : option (list bool)) (cost : list key) (i : nat) : bool :=
  (match filled with None => true | Some f => nth i f false end) && (match nth i cost PInf with PInf => false | _ => true end).
Lemma selb_spec filled cost i : selb filled cost i = true <-> selectable filled cost i.
Proof.
  unfold selb, selectable, is_filled, cost_at. rewrite andb_true_iff.
  assert (A : (match filled with None => true | Some f => nth i f false end) = true <-> match filled with None => True | Some f => nth i f false = true end) by (destruct filled; tauto).
  rewrite A. destruct (nth i cost PInf) eqn:EC; split; intros [X Y]; (split; [exact X|]); congruence.
Qed.
(** exactly one marked item for every row value that some selectable item has, and it beats
    every other selectable item with that row *)
Theorem C38_exactly_one : forall x64 k rows filled cost r,
  direct x64 k -> Forall (fun r => length r = k) rows ->
  (exists i, i < length rows /\ selectable filled cost i /\ row_at rows i = r) ->
  exists i, i < length rows /\ row_at rows i = r /\ marked x64 k rows filled (Some cost) i /\
    (forall j, j < length rows -> row_at rows j = r -> marked x64 k rows filled (Some cost) j -> j = i) /\
    (forall j, j < length rows -> row_at rows j = r -> selectable filled cost j -> j = i \/ beats cost i j).
Proof.
  intros x64 k rows filled cost r HD HK [i0 [H0 [S0 R0]]].
  set (l := filter (fun i => selb filled cost i && roweqb (row_at rows i) r) (seq 0 (length rows))).
  assert (HIn : forall j, In j l <-> j < length rows /\ selectable filled cost j /\ row_at rows j = r).
  { intros j. unfold l. rewrite filter_In, in_seq, andb_true_iff, selb_spec, roweqb_eq. split; intros; intuition lia. }
  destruct (best_of cost l) as [i [Hi Bi]].
  { intros E. assert (In i0 l) by (apply HIn; tauto). rewrite E in H. contradiction. }
  apply HIn in Hi. destruct Hi as [Hi [Si Ri]]. exists i. split; [exact Hi|]. split; [exact Ri|].
  assert (Mi : marked x64 k rows filled (Some cost) i).
  { apply C38_cheapest; auto. split; [exact Si|]. intros j Hj Hne Sj Rj. apply Bi; [|exact Hne]. apply HIn. rewrite Rj. tauto. }
  split; [exact Mi|]. split.
  - intros j Hj Rj Mj. destruct (Nat.eq_dec j i) as [E|Hne]; [exact E|]. exfalso.
    apply C38_cheapest in Mj, Mi; auto. destruct Mj as [Sj Fj], Mi as [_ Fi].
    apply (beats_asym cost i j); [apply Fi|apply Fj]; auto; congruence.
  - intros j Hj Rj Sj. destruct (Nat.eq_dec j i) as [E|Hne]; [now left|right]. apply Bi; [|exact Hne]. apply HIn. tauto.
Qed.

(** ** Without costs: the first filled item of every row *)
Definition all_ones (k : nat) : list N := repeat 0xFFFFFFFF%N k.
Theorem C38_first : forall x64 k rows filled i,
  direct x64 k -> Forall (fun r => length r = k) rows -> i < length rows ->
  (marked x64 k rows filled None i <->
   is_filled filled i /\ (forall j, j < i -> is_filled filled j -> row_at rows j <> row_at rows i) /\
   (row_at rows i = all_ones k -> forall j, j < i -> is_filled filled j)).
Proof.
  intros x64 k rows filled i HD HK Hi. unfold marked.
  rewrite (mask_nocost x64 k rows filled None HK eq_refl i Hi). rewrite E_nocost by exact Hi.
  assert (HI : forall j, j < length rows -> hash_to_wide x64 (nth j rows []) = row_at rows j).
  { intros j Hj. apply (direct_id x64 k _ HD). rewrite Forall_forall in HK. apply HK, nth_In, Hj. }
  assert (HM : repeat (wide_max x64 k) (wide_width x64 k) = all_ones k).
  { unfold all_ones, wide_max, wide_width, direct in *. destruct x64; [destruct (Nat.leb_spec k 2) as [L|L]|destruct (Nat.leb_spec k 4) as [L|L]]; try lia; reflexivity. }
  rewrite HM. split; intros [HF HJ].
  - split; [exact HF|]. split.
    + intros j Hj Fj Er. destruct (HJ j Hj) as [A _]. rewrite !HI in A by lia. apply A; [|exact Er]. apply E_nocost; [lia|exact Fj].
    + intros EO j Hj. destruct (HJ j Hj) as [_ B]. rewrite HI in B by exact Hi. apply (E_nocost rows filled j ltac:(lia)).
      destruct (nth j (effective (length rows) filled None) false) eqn:EE; [reflexivity|]. exfalso. exact (B eq_refl EO).
  - destruct HJ as [A B]. split; [exact HF|]. intros j Hj. rewrite !HI by lia. split.
    + intros Ej. apply A; [exact Hj|]. apply E_nocost in Ej; [exact Ej|lia].
    + intros Ej EO. specialize (B EO j Hj). apply (E_nocost rows filled j ltac:(lia)) in B. congruence.
Qed.
(** the flaw: without costs, an item whose key is all ones is lost when an unfilled item
    precedes it *)
Theorem C38_all_ones_row_lost : forall k x, 1 <= k -> direct false k -> length x = k ->
  unique_mask false k [x; all_ones k] (Some [false; true]) None = [false; false].
Proof.
  intros k x H1 HD HL. 
  assert (HK : Forall (fun r => length r = k) [x; all_ones k]) by (repeat constructor; [exact HL|apply repeat_length]).
  pose proof (mask_len false k [x; all_ones k] (Some [false; true]) None) as ML.
  assert (M0 : ~ marked false k [x; all_ones k] (Some [false; true]) None 0).
  { intros H. apply C38_first in H; [|exact HD|exact HK|cbn; lia]. destruct H as [H _]. discriminate H. }
  assert (M1 : ~ marked false k [x; all_ones k] (Some [false; true]) None 1).
  { intros H. apply C38_first in H; [|exact HD|exact HK|cbn; lia]. destruct H as [_ [_ H]]. specialize (H eq_refl 0 ltac:(lia)). discriminate H. }
  unfold marked in *. apply not_true_is_false in M0, M1.
  destruct (unique_mask false k [x; all_ones k] (Some [false; true]) None) as [|a [|b [|c l]]]; cbn [length nth] in *; try lia. now subst.
Qed.

(** ** Consistency of the index and inverse outputs with the mask *)
Theorem C38_index : forall x64 k rows filled cost, Forall (fun r => length r = k) rows ->
  NoDup (unique_index x64 k rows filled cost) /\
  (forall i, In i (unique_index x64 k rows filled cost) <-> i < length rows /\ marked x64 k rows filled cost i).
Proof. intros. split; [now apply index_nodup|]. intros i. now apply index_in. Qed.
Theorem C38_index_sized : forall x64 k rows filled cost size fill, Forall (fun r => length r = k) rows ->
  unique_index_sized x64 k rows filled cost size fill =
  firstn size (unique_index x64 k rows filled cost ++ repeat fill size).
Proof. intros. now apply sized_spec. Qed.
(** the inverse of a selectable item points at the marked item with the same row *)
Theorem C38_inverse : forall x64 k rows filled cost i,
  direct x64 k -> Forall (fun r => length r = k) rows -> i < length rows -> selectable filled cost i ->
  exists g r, nth i (unique_inverse x64 k rows filled (Some cost)) (-1)%Z = Z.of_nat g /\
    nth_error (unique_index x64 k rows filled (Some cost)) g = Some r /\
    row_at rows r = row_at rows i /\ marked x64 k rows filled (Some cost) r.
Proof.
  intros x64 k rows filled cost i HD HK Hi Si.
  destruct (C38_exactly_one x64 k rows filled cost (row_at rows i) HD HK) as [r [Hr [Rr [Mr _]]]]; [exists i; tauto|].
  assert (Sr : selectable filled cost r) by (apply C38_cheapest in Mr; tauto).
  destruct (inverse_spec x64 k rows filled (Some cost) HK i r Hi Hr Mr) as [g [G1 G2]].
  - rewrite !M_eq by assumption. rewrite (proj2 (E_cost rows filled cost i Hi) Si), (proj2 (E_cost rows filled cost r Hr) Sr).
    unfold row_at in Rr. now rewrite Rr.
  - exists g, r. tauto.
Qed.
Theorem C38_inverse_no_cost : forall x64 k rows filled i r,
  direct x64 k -> Forall (fun r => length r = k) rows -> i < length rows -> r < length rows ->
  is_filled filled i -> marked x64 k rows filled None r -> row_at rows r = row_at rows i ->
  exists g, nth i (unique_inverse x64 k rows filled None) (-1)%Z = Z.of_nat g /\ nth_error (unique_index x64 k rows filled None) g = Some r.
Proof.
  intros x64 k rows filled i r HD HK Hi Hr Fi Mr Er.
  assert (Fr : is_filled filled r) by (apply C38_first in Mr; tauto).
  apply (inverse_spec x64 k rows filled None HK i r Hi Hr Mr).
  rewrite !M_eq by assumption. rewrite (proj2 (E_nocost rows filled i Hi) Fi), (proj2 (E_nocost rows filled r Hr) Fr).
  unfold row_at in Er. now rewrite Er.
Qed.

(** ** Wide keys: the row hash merges distinct rows *)
Definition flip_top (x : N) : N := N.lxor x 0x80000000.
Definition flip_if (b : bool) (x : N) : N := if b then flip_top x else x.
Lemma flip_top_invol x : flip_top (flip_top x) = x.
Proof. unfold flip_top. rewrite N.lxor_assoc, N.lxor_nilpotent. apply N.lxor_0_r. Qed.
Lemma flip_top_neq x : flip_top x <> x.
Proof. unfold flip_top. intros E. apply (f_equal (fun y => N.lxor x y)) in E. rewrite <- N.lxor_assoc, N.lxor_nilpotent in E. discriminate E. Qed.
Lemma flip_top_mod x : (x < 2 ^ 32)%N -> flip_top x = ((x + 2 ^ 31) mod 2 ^ 32)%N.
Proof.
  intros Hx. unfold flip_top. change 0x80000000%N with (2 ^ 31)%N.
  assert (E : (x = (x mod 2 ^ 31) + 2 ^ 31 * (x / 2 ^ 31))%N) by (rewrite (N.div_mod x (2 ^ 31)) at 1; [lia|discriminate]).
  assert (HD : (x / 2 ^ 31 = 0 \/ x / 2 ^ 31 = 1)%N).
  { assert ((x / 2 ^ 31 < 2)%N) by (apply N.div_lt_upper_bound; [discriminate|exact Hx]). lia. }
  assert (HR : (x mod 2 ^ 31 < 2 ^ 31)%N) by (apply N.mod_lt; discriminate).
  set (r := (x mod 2 ^ 31)%N) in *.
  assert (HB : N.testbit r 31 = false).
  { destruct (N.eq_dec r 0) as [->|Hz]; [reflexivity|]. apply N.bits_above_log2. apply N.log2_lt_pow2; [lia|exact HR]. }
  assert (HLX : N.lxor r (2 ^ 31) = (r + 2 ^ 31)%N).
  { symmetry. apply N.add_nocarry_lxor. apply N.bits_inj. intros i. rewrite N.land_spec, N.bits_0, N.pow2_bits_eqb.
    destruct (N.eqb_spec 31 i) as [<-|]; [now rewrite HB|apply andb_false_r]. }
  destruct HD as [D|D]; rewrite D in E.
  - rewrite N.mul_0_r, N.add_0_r in E. rewrite E, HLX, N.mod_small; [reflexivity|]. change (2 ^ 32)%N with (2 ^ 31 + 2 ^ 31)%N. lia.
  - rewrite N.mul_1_r in E. replace (x + 2 ^ 31)%N with (r + 1 * 2 ^ 32)%N by (rewrite E; change (2 ^ 32)%N with (2 ^ 31 + 2 ^ 31)%N; lia).
    rewrite N.mod_add, N.mod_small; [|change (2 ^ 32)%N with (2 ^ 31 + 2 ^ 31)%N; lia|discriminate].
    rewrite E at 1. rewrite <- HLX. fold (flip_top (flip_top r)). change (flip_top (flip_top r) = r). apply flip_top_invol.
Qed.
Lemma flip_lt x : (x < 2 ^ 32)%N -> (flip_top x < 2 ^ 32)%N.
Proof. intros H. rewrite flip_top_mod by exact H. apply N.mod_lt. discriminate. Qed.
Lemma mod_flip a b : ((a + 2 ^ 31) mod 2 ^ 32 = b mod 2 ^ 32)%N -> flip_top (a mod 2 ^ 32) = (b mod 2 ^ 32)%N.
Proof.
  intros E. rewrite flip_top_mod by (apply N.mod_lt; discriminate). rewrite N.add_mod_idemp_l by discriminate. exact E.
Qed.
Lemma mul32_def a b : mul32 a b = ((a * b) mod 2 ^ 32)%N. Proof. reflexivity. Qed.
Lemma mul32_flip_odd h c : (h < 2 ^ 32)%N -> N.odd c = true -> mul32 (flip_top h) c = flip_top (mul32 h c).
Proof.
  intros Hh Hc. rewrite !mul32_def. symmetry. apply mod_flip. rewrite flip_top_mod by exact Hh. rewrite N.mul_mod_idemp_l by discriminate.
  apply N.odd_spec in Hc. destruct Hc as [m ->].
  replace ((h + 2 ^ 31) * (2 * m + 1))%N with (h * (2 * m + 1) + 2 ^ 31 + m * 2 ^ 32)%N by (change (2 ^ 32)%N with (2 * 2 ^ 31)%N; ring).
  now rewrite N.mod_add by discriminate.
Qed.
Lemma mul32_flip_even h c : (h < 2 ^ 32)%N -> N.odd c = false -> mul32 (flip_top h) c = mul32 h c.
Proof.
  intros Hh Hc. rewrite !mul32_def. rewrite flip_top_mod by exact Hh. rewrite N.mul_mod_idemp_l by discriminate.
  rewrite <- N.negb_even in Hc. apply negb_false_iff, N.even_spec in Hc. destruct Hc as [m ->].
  replace ((h + 2 ^ 31) * (2 * m))%N with (h * (2 * m) + m * 2 ^ 32)%N by (change (2 ^ 32)%N with (2 * 2 ^ 31)%N; ring).
  now rewrite N.mod_add by discriminate.
Qed.
Lemma add_flip a b e : (b < 2 ^ 32)%N -> w32 (flip_if e (a mod 2 ^ 32)%N + b) = flip_if e (w32 ((a mod 2 ^ 32)%N + b)).
Proof.
  intros Hb. destruct e; cbn [flip_if]; [|reflexivity]. unfold w32. change W32 with (2 ^ 32)%N. symmetry. apply mod_flip.
  rewrite flip_top_mod by (apply N.mod_lt; discriminate). rewrite N.add_mod_idemp_l by discriminate. f_equal. ring.
Qed.
Lemma add_flip_r a b e : (b < 2 ^ 32)%N -> w32 (a + flip_if e b) = flip_if e (w32 (a + b)).
Proof.
  intros Hb. destruct e; cbn [flip_if]; [|reflexivity]. unfold w32. change W32 with (2 ^ 32)%N. symmetry. apply mod_flip.
  rewrite flip_top_mod by exact Hb. rewrite N.add_mod_idemp_r by discriminate. f_equal. ring.
Qed.
Lemma flip_if_xorb a b x : flip_if a (flip_if b x) = flip_if (xorb a b) x.
Proof. destruct a, b; cbn [flip_if xorb]; try reflexivity. apply flip_top_invol. Qed.
Lemma lxor_flip a b x y : N.lxor (flip_if a x) (flip_if b y) = flip_if (xorb a b) (N.lxor x y).
Proof.
  destruct a, b; cbn [flip_if xorb]; unfold flip_top; apply N.bits_inj; intros i; rewrite !N.lxor_spec;
    destruct (N.testbit x i), (N.testbit y i), (N.testbit 0x80000000 i); reflexivity.
Qed.
Lemma w32_lt x : (w32 x < 2 ^ 32)%N. Proof. apply N.mod_lt. discriminate. Qed.
Lemma mul_flip_if h c e : (h < 2 ^ 32)%N -> N.odd c = true -> mul32 (flip_if e h) c = flip_if e (mul32 h c).
Proof. intros. destruct e; cbn [flip_if]; [now apply mul32_flip_odd|reflexivity]. Qed.
Lemma mul_flip_if0 h c e : (h < 2 ^ 32)%N -> N.odd c = false -> mul32 (flip_if e h) c = mul32 h c.
Proof. intros. destruct e; cbn [flip_if]; [now apply mul32_flip_even|reflexivity]. Qed.
Lemma lxor_lt x y : (x < 2 ^ 32)%N -> (y < 2 ^ 32)%N -> (N.lxor x y < 2 ^ 32)%N.
Proof. apply lxor_word. Qed.
Lemma sig_step_flip h1 h2 h3 h4 col a g e : (h1 < 2 ^ 32)%N -> (h2 < 2 ^ 32)%N -> (h3 < 2 ^ 32)%N -> (h4 < 2 ^ 32)%N -> (col < 2 ^ 32)%N ->
  sig_step (flip_if a h1, flip_if a h2, flip_if a h3, flip_if g h4) (flip_if e col) =
  let '(r1, r2, r3, r4) := sig_step (h1, h2, h3, h4) col in
  (flip_if (xorb a e) r1, flip_if (xorb a e) r2, flip_if (xorb a e) r3, r4).
Proof.
  intros L1 L2 L3 L4 LC. unfold sig_step.
  rewrite !lxor_flip. rewrite !(mul_flip_if h1), !(mul_flip_if h2) by (assumption || reflexivity).
  rewrite mul_flip_if by (try reflexivity; now apply lxor_lt). rewrite mul_flip_if0 by (try reflexivity; now apply lxor_lt).
  rewrite !add_flip_r by assumption. rewrite !mul32_def. rewrite !add_flip by assumption. rewrite !flip_if_xorb.
  now rewrite (xorb_comm e a).
Qed.
Lemma sig_step_lt h1 h2 h3 h4 col r1 r2 r3 r4 : sig_step (h1, h2, h3, h4) col = (r1, r2, r3, r4) ->
  (r1 < 2 ^ 32)%N /\ (r2 < 2 ^ 32)%N /\ (r3 < 2 ^ 32)%N /\ (r4 < 2 ^ 32)%N.
Proof. unfold sig_step. intros E. injection E as <- <- <- <-. rewrite !mul32_def. repeat split; try apply w32_lt; apply N.mod_lt; discriminate. Qed.
(** flip the top bit of the columns chosen by [es] *)
Definition flip_cols (es : list bool) (row : list N) : list N := map (fun p : bool * N => flip_if (fst p) (snd p)) (combine es row).
Definition parity (es : list bool) : bool := fold_left xorb es false.
Lemma parity_cons e es : parity (e :: es) = xorb e (parity es).
Proof.
  unfold parity. cbn [fold_left]. assert (G : forall l a b, fold_left xorb l (xorb a b) = xorb a (fold_left xorb l b)).
  { induction l as [|x l IH]; intros a b; cbn [fold_left]; [reflexivity|]. rewrite xorb_assoc. apply IH. }
  rewrite <- (G es e false). destruct e; reflexivity.
Qed.
Lemma sig_fold_flip t : forall es h1 h2 h3 h4 a g, length es = length t -> Forall (fun x => (x < 2 ^ 32)%N) t ->
  (h1 < 2 ^ 32)%N -> (h2 < 2 ^ 32)%N -> (h3 < 2 ^ 32)%N -> (h4 < 2 ^ 32)%N -> (t = [] -> g = false) ->
  fold_left sig_step (flip_cols es t) (flip_if a h1, flip_if a h2, flip_if a h3, flip_if g h4) =
  let '(r1, r2, r3, r4) := fold_left sig_step t (h1, h2, h3, h4) in
  let b := xorb a (parity es) in (flip_if b r1, flip_if b r2, flip_if b r3, r4).
Proof.
  induction t as [|c t IH]; intros es h1 h2 h3 h4 a g HL HF L1 L2 L3 L4 Hg.
  - destruct es; [|discriminate]. rewrite (Hg eq_refl). cbn. now rewrite xorb_false_r.
  - destruct es as [|e es]; [discriminate|]. inversion HF as [|? ? HC HT]; subst. cbn [flip_cols combine map fst snd fold_left]. fold (flip_cols es t).
    rewrite sig_step_flip by assumption. destruct (sig_step (h1, h2, h3, h4) c) as [[[r1 r2] r3] r4] eqn:ES.
    destruct (sig_step_lt _ _ _ _ _ _ _ _ _ ES) as (R1 & R2 & R3 & R4).
    change r4 with (flip_if false r4) at 1. rewrite IH; try assumption; [|cbn in HL; lia|reflexivity].
    rewrite parity_cons. destruct (fold_left sig_step t (r1, r2, r3, r4)) as [[[q1 q2] q3] q4]. now rewrite xorb_assoc.
Qed.
(** flipping the top bits of an even number of columns does not change the row hash *)
Theorem C38_wide_hash_blind : forall es row, length es = length row -> 2 <= length row -> Forall (fun x => (x < 2 ^ 32)%N) row -> parity es = false ->
  sig_of (flip_cols es row) = sig_of row.
Proof.
  intros es row HL H2 HF HP. destruct row as [|c t]; [cbn in H2; lia|]. destruct es as [|e es]; [discriminate|].
  inversion HF as [|? ? HC HT]; subst. cbn [flip_cols combine map fst snd sig_of]. fold (flip_cols es t).
  rewrite (sig_fold_flip t es c c c c e e); try assumption; [|cbn in HL; lia|intros ->; cbn in H2; lia].
  rewrite parity_cons in HP. rewrite HP. destruct (fold_left sig_step t (c, c, c, c)) as [[[q1 q2] q3] q4]. reflexivity.
Qed.
(** so for every row of five or more columns there is a different row of which unique_mask
    keeps only the first *)
Theorem C38_wide_keys_merge : forall es row, length es = length row -> 5 <= length row -> Forall (fun x => (x < 2 ^ 32)%N) row ->
  parity es = false -> In true es ->
  flip_cols es row <> row /\ unique_mask false (length row) [row; flip_cols es row] None None = [true; false].
Proof.
  intros es row HL H5 HF HP HT. split.
  - clear H5 HP. revert es HL HT. induction row as [|c t IH]; intros [|e es] HL HT; cbn [length] in HL; try lia; [contradiction|].
    cbn [flip_cols combine map fst snd]. fold (flip_cols es t). destruct HT as [->|HT].
    + intros E. injection E as E1 _. exact (flip_top_neq c E1).
    + intros E. injection E as _ E2. inversion HF; subst. revert E2. apply IH; auto.
  - set (row' := flip_cols es row).
    assert (HL' : length row' = length row) by (unfold row', flip_cols; rewrite map_length, combine_length; lia).
    assert (HK : Forall (fun r => length r = length row) [row; row']) by (repeat constructor; exact HL').
    assert (HH : hash_to_wide false row' = hash_to_wide false row).
    { unfold hash_to_wide. rewrite HL'. replace (length row <=? 4) with false by (symmetry; apply Nat.leb_gt; lia).
      apply C38_wide_hash_blind; auto; lia. }
    pose proof (mask_len false (length row) [row; row'] None None) as ML.
    pose proof (mask_nocost false (length row) [row; row'] None None HK eq_refl 0 ltac:(cbn; lia)) as M0.
    pose proof (mask_nocost false (length row) [row; row'] None None HK eq_refl 1 ltac:(cbn; lia)) as M1.
    destruct (unique_mask false (length row) [row; row'] None None) as [|a [|b [|c l]]]; cbn [length nth] in *; try lia.
    assert (a = true) by (apply M0; split; [reflexivity|intros j Hj; lia]).
    assert (b <> true).
    { intros Hb. apply M1 in Hb. destruct Hb as [_ Hb]. destruct (Hb 0 ltac:(lia)) as [Hb' _]. apply Hb'; [reflexivity|]. cbn [nth]. now symmetry. }
    apply not_true_is_false in H0. now subst.
Qed.

(** ** x64 mode: three columns are still told apart, four are not *)
Lemma wide64_fold c a b x : (wide64_step c (wide64_step c a b) x = ((a * c + b) * c + x) mod 2 ^ 64)%N.
Proof.
  unfold wide64_step. change W64 with (2 ^ 64)%N.
  rewrite (N.add_mod_idemp_l (a * c) b) by discriminate. rewrite N.mul_mod_idemp_l by discriminate. now rewrite N.add_mod_idemp_l by discriminate.
Qed.
Lemma wide64_3 a b c : hash_to_wide true [a; b; c] =
  [((a * 0x9E3779B1 + b) * 0x9E3779B1 + c) mod 2 ^ 64; ((a * 0x85EBCA6B + b) * 0x85EBCA6B + c) mod 2 ^ 64]%N.
Proof. cbn [hash_to_wide length Nat.leb fold_left]. now rewrite !wide64_fold. Qed.
Lemma Nmod_eq_Z (x y m : N) : (m <> 0)%N -> (x mod m = y mod m)%N -> exists u : Z, (Z.of_N x - Z.of_N y = Z.of_N m * u)%Z.
Proof.
  intros Hm E. exists (Z.of_N (x / m) - Z.of_N (y / m))%Z. pose proof (N.div_mod x m Hm). pose proof (N.div_mod y m Hm).
  rewrite E in H. nia.
Qed.
Lemma small_solutions d0 d1 d2 u v : (Z.abs d0 < 2 ^ 32 -> Z.abs d1 < 2 ^ 32 -> Z.abs d2 < 2 ^ 32 ->
  (d0 * 0x9E3779B1 + d1) * 0x9E3779B1 + d2 = 2 ^ 64 * u ->
  (d0 * 0x85EBCA6B + d1) * 0x85EBCA6B + d2 = 2 ^ 64 * v -> d0 = 0 /\ d1 = 0 /\ d2 = 0)%Z.
Proof.
  intros B0 B1 B2 E1 E2.
  set (X := (d0 * (0x9E3779B1 + 0x85EBCA6B) + d1)%Z).
  assert (EX : ((0x9E3779B1 - 0x85EBCA6B) / 2 * X = 2 ^ 63 * (u - v))%Z).
  { change ((0x9E3779B1 - 0x85EBCA6B) / 2)%Z with 203806627%Z. unfold X. lia. }
  assert (DX : (2 ^ 63 | X)%Z).
  { apply (Z.gauss _ ((0x9E3779B1 - 0x85EBCA6B) / 2) X); [exists (u - v)%Z; lia|]. reflexivity. }
  destruct DX as [w EW]. unfold X in EW.
  assert (HW : (w = -2 \/ w = -1 \/ w = 0 \/ w = 1 \/ w = 2)%Z) by lia.
  change (2 ^ 32)%Z with 4294967296%Z in *. change (2 ^ 63)%Z with 9223372036854775808%Z in *. change (2 ^ 64)%Z with 18446744073709551616%Z in *.
  destruct HW as [->|[->|[->|[->| ->]]]].
  all: lia.
Qed.

Theorem C38_x64_three_columns : forall r r', length r = 3 -> length r' = 3 ->
  Forall (fun x => (x < 2 ^ 32)%N) r -> Forall (fun x => (x < 2 ^ 32)%N) r' -> hash_to_wide true r = hash_to_wide true r' -> r = r'.
Proof.
  intros [|a [|b [|c [|? ?]]]] [|a' [|b' [|c' [|? ?]]]] L L' F F'; cbn [length] in L, L'; try lia. intros E.
  rewrite !wide64_3 in E. injection E as E1 E2. apply Nmod_eq_Z in E1; [|discriminate]. apply Nmod_eq_Z in E2; [|discriminate].
  destruct E1 as [u E1], E2 as [v E2]. change (Z.of_N (2 ^ 64)) with (2 ^ 64)%Z in E1, E2.
  inversion F as [|? ? Fa Fb]; subst. inversion Fb as [|? ? Fb1 Fc]; subst. inversion Fc as [|? ? Fc1 _]; subst.
  inversion F' as [|? ? Fa' Fb']; subst. inversion Fb' as [|? ? Fb1' Fc']; subst. inversion Fc' as [|? ? Fc1' _]; subst.
  change (2 ^ 32)%N with 4294967296%N in *.
  destruct (small_solutions (Z.of_N a - Z.of_N a') (Z.of_N b - Z.of_N b') (Z.of_N c - Z.of_N c') u v) as (A & B & C);
    [change (2 ^ 32)%Z with 4294967296%Z; lia|change (2 ^ 32)%Z with 4294967296%Z; lia|change (2 ^ 32)%Z with 4294967296%Z; lia| | |].
  - transitivity (Z.of_N ((a * 0x9E3779B1 + b) * 0x9E3779B1 + c) - Z.of_N ((a' * 0x9E3779B1 + b') * 0x9E3779B1 + c'))%Z; [lia|exact E1].
  - transitivity (Z.of_N ((a * 0x85EBCA6B + b) * 0x85EBCA6B + c) - Z.of_N ((a' * 0x85EBCA6B + b') * 0x85EBCA6B + c'))%Z; [lia|exact E2].
  - f_equal; [lia|]. f_equal; [lia|]. f_equal. lia.
Qed.
Theorem C38_cheapest_x64_three : forall rows filled cost i,
  Forall (fun r => length r = 3 /\ Forall (fun x => (x < 2 ^ 32)%N) r) rows -> i < length rows ->
  (marked true 3 rows filled (Some cost) i <->
   selectable filled cost i /\
   forall j, j < length rows -> j <> i -> selectable filled cost j -> row_at rows j = row_at rows i -> beats cost i j).
Proof.
  intros rows filled cost i HF Hi. rewrite Forall_forall in HF.
  rewrite C38_cheapest_hash; [|apply Forall_forall; intros r Hr; apply HF, Hr|exact Hi].
  split; intros [HS HB]; (split; [exact HS|]); intros j Hj Hne Sj Eh; apply HB; auto.
  - now rewrite Eh.
  - destruct (HF (row_at rows j) (nth_In _ _ Hj)). destruct (HF (row_at rows i) (nth_In _ _ Hi)). now apply C38_x64_three_columns.
Qed.
Definition x64_a : list N := [1457673766; 0; 1431838566; 0]%N.
Definition x64_b : list N := [0; 248741271; 0; 3118705109]%N.
Definition horner (c : N) (l : list N) (h : N) : N := fold_left (fun h x => h * c + x)%N l h.
Lemma fold_horner c l : forall h, (h < 2 ^ 64)%N -> fold_left (wide64_step c) l h = (horner c l h mod 2 ^ 64)%N.
Proof.
  assert (G : forall l h h', (h mod 2 ^ 64 = h' mod 2 ^ 64 -> horner c l h mod 2 ^ 64 = horner c l h' mod 2 ^ 64)%N).
  { induction l0 as [|x l0 IH]; intros h h' E; [exact E|]. cbn [horner fold_left]. apply IH.
    rewrite <- (N.add_mod_idemp_l (h * c) x), <- (N.add_mod_idemp_l (h' * c) x) by discriminate. rewrite <- (N.mul_mod_idemp_l h c), <- (N.mul_mod_idemp_l h' c) by discriminate. now rewrite E. }
  induction l as [|x l IH]; intros h Hh; cbn [fold_left]; [symmetry; now apply N.mod_small|].
  assert (W : (wide64_step c h x < 2 ^ 64)%N) by (unfold wide64_step; apply N.mod_lt; discriminate).
  rewrite IH by exact W. unfold horner at 2. cbn [fold_left]. fold (horner c l (h * c + x)). apply G.
  unfold wide64_step. change W64 with (2 ^ 64)%N. rewrite N.mod_mod, N.add_mod_idemp_l by discriminate. reflexivity.
Qed.
Lemma horner_app c a b h : horner c (a ++ b) h = horner c b (horner c a h).
Proof. apply fold_left_app. Qed.
Lemma hash64_horner row : 3 <= length row -> Forall (fun x => (x < 2 ^ 32)%N) row ->
  hash_to_wide true row = [horner 0x9E3779B1 row 0 mod 2 ^ 64; horner 0x85EBCA6B row 0 mod 2 ^ 64]%N.
Proof.
  intros HL HF. unfold hash_to_wide. replace (length row <=? 2) with false by (symmetry; apply Nat.leb_gt; lia).
  destruct row as [|c0 t]; [cbn in HL; lia|]. inversion HF as [|? ? H0 _]; subst.
  assert (c0 < 2 ^ 64)%N by (eapply N.lt_trans; [exact H0|reflexivity]). rewrite !fold_horner by assumption. reflexivity.
Qed.
Lemma horner_pair c h : (horner c x64_a 0 mod 2 ^ 64 = horner c x64_b 0 mod 2 ^ 64 -> horner c x64_a h mod 2 ^ 64 = horner c x64_b h mod 2 ^ 64)%N.
Proof.
  assert (G : forall l, length l = 4 -> horner c l h = (h * c ^ 4 + horner c l 0)%N).
  { intros [|p [|q [|r [|t [|? ?]]]]] L; cbn [length] in L; try lia. unfold horner. cbn [fold_left]. replace (c ^ 4)%N with (c * (c * (c * c)))%N; [ring|]. change 4%N with (N.succ (N.succ (N.succ (N.succ 0)))). rewrite !N.pow_succ_r', N.pow_0_r. ring. }
  intros E. rewrite (G x64_a), (G x64_b) by reflexivity.
  rewrite <- (N.add_mod_idemp_r _ (horner c x64_a 0)), <- (N.add_mod_idemp_r _ (horner c x64_b 0)) by discriminate. now rewrite E.
Qed.
Theorem C38_x64_four_columns_merge : forall p, Forall (fun x => (x < 2 ^ 32)%N) p ->
  p ++ x64_a <> p ++ x64_b /\
  unique_mask true (length p + 4) [p ++ x64_a; p ++ x64_b] None None = [true; false].
Proof.
  intros p HP. split; [intros E; apply app_inv_head in E; discriminate|].
  set (A := p ++ x64_a). set (B := p ++ x64_b).
  assert (LA : length A = length p + 4) by (unfold A; rewrite app_length; reflexivity).
  assert (LB : length B = length p + 4) by (unfold B; rewrite app_length; reflexivity).
  assert (HH : hash_to_wide true B = hash_to_wide true A).
  { rewrite !hash64_horner; try lia; try (apply Forall_app; split; [exact HP|repeat constructor]).
    unfold A, B. rewrite !horner_app. f_equal; [|f_equal]; symmetry; apply horner_pair; reflexivity. }
  assert (HK : Forall (fun r => length r = length p + 4) [A; B]) by (constructor; [exact LA|constructor; [exact LB|constructor]]).
  pose proof (mask_len true (length p + 4) [A; B] None None) as ML.
  pose proof (mask_nocost true (length p + 4) [A; B] None None HK eq_refl 0 ltac:(cbn; lia)) as M0.
  pose proof (mask_nocost true (length p + 4) [A; B] None None HK eq_refl 1 ltac:(cbn; lia)) as M1.
  destruct (unique_mask true (length p + 4) [A; B] None None) as [|a [|b [|c l]]]; cbn [length nth] in *; try lia.
  assert (Ha : a = true) by (apply M0; split; [reflexivity|intros j Hj; lia]).
  assert (Hb : b <> true).
  { intros Hb. apply M1 in Hb. destruct Hb as [_ Hb]. destruct (Hb 0 ltac:(lia)) as [Hb' _]. apply Hb'; [reflexivity|]. cbn [nth]. now symmetry. }
  apply not_true_is_false in Hb. now subst.
Qed.

(** ** Packed types: the default key is only the whole 32-bit words of the packed form *)
Definition ex_packed_class : fields := FCons "a" (Leaf 32 1) (FCons "b" (Leaf 8 1) FNil).
Definition ex_packed_item (a b : N) : instance := ICons "a" (ILeaf [a]) (ICons "b" (ILeaf [b]) INil).
(** a field stored in the tail bytes is ignored: items differing only there are merged *)
Theorem C38_packed_tail_ignored : forall a b b',
  default_packed_key ex_packed_class (ex_packed_item a b) = default_packed_key ex_packed_class (ex_packed_item a b') /\
  length (default_packed_key ex_packed_class (ex_packed_item a b)) = 1.
Proof. intros. split; reflexivity. Qed.
(** and the key of a type of 1-16 bits is empty, which unique_mask rejects (IndexError) *)
Theorem C38_packed_small_key_empty : forall c i, 1 <= snd (agg_spec c) <= 16 -> default_packed_key c i = [].
Proof.
  intros c i H. unfold default_packed_key, pack_instance. destruct (agg_spec c) as [specs total]. cbn [snd] in H.
  assert (G : forall t, 1 <= t <= 16 -> exists n, word_tail_layout t = (1, 0, S n)).
  { intros t Ht. do 17 (destruct t as [|t]; [try lia; eexists; reflexivity|]). lia. }
  destruct (G total H) as [n E]. rewrite E. unfold store. rewrite E. cbn [Nat.eqb fst].
  assert (LC : forall specs k, length (contribs specs k) = k).
  { intros sp k. unfold contribs. assert (G2 : forall es cs, length (fold_left (fun cs (e : nat * contrib) => upd cs (fst e) (nth (fst e) cs [] ++ [snd e])) es cs) = length cs).
    { induction es as [|e es IH]; intros cs; cbn [fold_left]; [reflexivity|]. rewrite IH. apply upd_length. }
    rewrite G2. apply repeat_length. }
  assert (L1 : forall vals, length (pack_words specs 1 vals) = 1) by (intros vals; unfold pack_words, tables; rewrite !map_length; apply LC).
  match goal with |- removelast ?l = [] => assert (L2 : length l = 1) by apply L1; destruct l as [|x [|y q]]; cbn [length] in L2; [lia|reflexivity|lia] end.
Qed.
Example ex_tail_merge :
  let rows := map (fun b => default_packed_key ex_packed_class (ex_packed_item 7 b)) [1%N; 2%N] in
  unique_mask false 1 rows None None = [true; false].
Proof. vm_compute. reflexivity. Qed.

(** ** Non-vacuity *)
Example ex_unique :
  unique_mask false 2 [[1; 2]; [3; 4]; [1; 2]; [3; 4]; [5; 6]; [1; 2]]%N (Some [true; true; true; false; true; true])
    (Some [Fin 3; Fin 1; Fin 2; Fin 0; PInf; Fin 2]) = [false; true; true; false; false; false].
Proof. reflexivity. Qed.
Example ex_unique_index :
  unique_index false 2 [[3; 4]; [1; 2]; [3; 4]]%N None None = [1; 0] /\
  unique_index_sized false 2 [[3; 4]; [1; 2]; [3; 4]]%N None None 3 99 = [1; 0; 99] /\
  unique_inverse false 2 [[3; 4]; [1; 2]; [3; 4]]%N None None = [1; 0; 1]%Z.
Proof. repeat split. Qed.
Example ex_flip : flip_cols [true; false; false; true; false]%list [1; 2; 3; 4; 5]%N = [0x80000001; 2; 3; 0x80000004; 5]%N /\ parity [true; false; false; true; false] = false.
Proof. split; reflexivity. Qed.
