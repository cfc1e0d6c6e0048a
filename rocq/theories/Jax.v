(** * Jax.v — the JAX array primitives the models are written in.

    Arrays are lists.  [upd l i v] replaces position [i]; the [j...]
    functions follow JAX's documented indexing rules:
    - negative indices count from the end (added once to the length);
    - gathers ([x[i]]) clamp out-of-bounds indices;
    - scatters ([x.at[i].set(v)]) drop out-of-bounds updates.              *)
From Coq Require Export List Arith ZArith NArith Lia Bool Permutation Sorted.
From Coq Require Export ZifyBool ZifyNat ZifyN.
Export ListNotations.

Ltac Zify.zify_post_hook ::= Z.div_mod_to_equations.

Section Arr.
Context {A : Type}.

(** [l.at[i].set(v)] at a valid (or ignored) natural position. *)
Fixpoint upd (l : list A) (i : nat) (v : A) : list A :=
  match l, i with
  | [], _ => []
  | _ :: t, O => v :: t
  | x :: t, S i' => x :: upd t i' v
  end.

Lemma upd_length l i v : length (upd l i v) = length l.
Proof. revert i; induction l as [|x t IH]; intros [|i]; simpl; auto. Qed.

Lemma upd_oob l i v : (length l <= i)%nat -> upd l i v = l.
Proof.
  revert i; induction l as [|x t IH]; intros [|i] H; simpl in *; auto; try lia.
  f_equal; apply IH; lia.
Qed.

Lemma nth_upd_eq l i v d : (i < length l)%nat -> nth i (upd l i v) d = v.
Proof.
  revert i; induction l as [|x t IH]; intros [|i] H; simpl in *; try lia; auto.
  apply IH; lia.
Qed.

Lemma nth_upd_neq l i j v d : i <> j -> nth j (upd l i v) d = nth j l d.
Proof.
  revert i j; induction l as [|x t IH]; intros [|i] [|j] H; simpl; auto; try lia.
Qed.

Lemma nth_upd l i j v d :
  nth j (upd l i v) d = if (Nat.eqb i j && Nat.ltb i (length l))%bool then v else nth j l d.
Proof.
  destruct (Nat.eqb_spec i j) as [->|Hne]; simpl.
  - destruct (Nat.ltb_spec j (length l)) as [H|H].
    + apply nth_upd_eq; assumption.
    + rewrite upd_oob by assumption; reflexivity.
  - apply nth_upd_neq; assumption.
Qed.

Lemma nth_error_upd l i j v :
  nth_error (upd l i v) j =
  if (Nat.eqb i j && Nat.ltb i (length l))%bool then Some v else nth_error l j.
Proof.
  revert i j; induction l as [|x t IH]; intros [|i] [|j]; simpl; auto.
  - destruct (Nat.eqb i j); reflexivity.
  - rewrite IH. reflexivity.
Qed.

Lemma upd_upd l i v w : upd (upd l i v) i w = upd l i w.
Proof. revert i; induction l as [|x t IH]; intros [|i]; simpl; auto. f_equal; auto. Qed.

Lemma upd_comm l i j v w : i <> j -> upd (upd l i v) j w = upd (upd l j w) i v.
Proof.
  revert i j; induction l as [|x t IH]; intros [|i] [|j] H; simpl; auto; try lia.
  f_equal; apply IH; lia.
Qed.

Lemma upd_app_r l1 l2 i v : (length l1 <= i)%nat ->
  upd (l1 ++ l2) i v = l1 ++ upd l2 (i - length l1) v.
Proof.
  revert i; induction l1 as [|x t IH]; intros i H; simpl in *.
  - rewrite Nat.sub_0_r; reflexivity.
  - destruct i as [|i]; [lia|]. simpl. f_equal. apply IH; lia.
Qed.

Lemma upd_app_l l1 l2 i v : (i < length l1)%nat ->
  upd (l1 ++ l2) i v = upd l1 i v ++ l2.
Proof.
  revert i; induction l1 as [|x t IH]; intros [|i] H; simpl in *; try lia; auto.
  f_equal. apply IH; lia.
Qed.

Lemma upd_split l i v : (i < length l)%nat ->
  upd l i v = firstn i l ++ v :: skipn (S i) l.
Proof.
  revert i; induction l as [|x t IH]; intros [|i] H; simpl in *; try lia; auto.
  f_equal. apply IH; lia.
Qed.

Lemma nth_ext_len (l1 l2 : list A) d :
  length l1 = length l2 ->
  (forall i, (i < length l1)%nat -> nth i l1 d = nth i l2 d) -> l1 = l2.
Proof. intros H1 H2. eapply nth_ext; [exact H1| exact H2]. Qed.

(** JAX integer-index normalisation for signed indices. *)
Definition norm_idx (n : nat) (i : Z) : Z := if (i <? 0)%Z then (i + Z.of_nat n)%Z else i.

(** [x[i]] (single traced index): normalise then clamp. *)
Definition jget (d : A) (l : list A) (i : Z) : A :=
  let n := length l in
  nth (Z.to_nat (Z.max 0 (Z.min (norm_idx n i) (Z.of_nat n - 1)))) l d.

(** [x.at[i].set(v)]: normalise then drop when out of bounds. *)
Definition jset (l : list A) (i : Z) (v : A) : list A :=
  let n := length l in
  let j := norm_idx n i in
  if ((0 <=? j) && (j <? Z.of_nat n))%Z then upd l (Z.to_nat j) v else l.

(** [x.at[is].set(vs)] for an index vector (duplicates never occur at the use
    sites; the fold order is then irrelevant). *)
Definition jsets (l : list A) (is : list Z) (vs : list A) : list A :=
  fold_left (fun acc p => jset acc (fst p) (snd p)) (combine is vs) l.

Lemma jget_in d l i : (0 <= i < Z.of_nat (length l))%Z -> jget d l i = nth (Z.to_nat i) l d.
Proof. intros H; unfold jget, norm_idx. destruct (i <? 0)%Z eqn:E; [lia|]. f_equal. lia. Qed.

Lemma jset_in l i v : (0 <= i < Z.of_nat (length l))%Z -> jset l i v = upd l (Z.to_nat i) v.
Proof.
  intros H; unfold jset, norm_idx. destruct (i <? 0)%Z eqn:E; [lia|].
  destruct ((0 <=? i) && (i <? Z.of_nat (length l)))%Z eqn:E2; [reflexivity|lia].
Qed.

Lemma jset_oob l i v : (Z.of_nat (length l) <= i \/ i < - Z.of_nat (length l))%Z -> jset l i v = l.
Proof.
  intros H; unfold jset, norm_idx.
  destruct (i <? 0)%Z eqn:E;
  destruct ((0 <=? _) && (_ <? Z.of_nat (length l)))%Z eqn:E2; auto; lia.
Qed.

Lemma jset_length l i v : length (jset l i v) = length l.
Proof. unfold jset. destruct (_ && _)%bool; auto using upd_length. Qed.

Lemma jsets_length l is vs : length (jsets l is vs) = length l.
Proof.
  unfold jsets. generalize (combine is vs) as ps. intros ps. revert l.
  induction ps as [|p ps IH]; intros l; simpl; auto. rewrite IH. apply jset_length.
Qed.

End Arr.

(** uint32 and int32 machine words as integers. *)
Definition U32 : Z := (2 ^ 32)%Z.
Definition u32 (z : Z) : Z := (z mod U32)%Z.
(** reinterpretation of an integer as int32 (JAX promotes [uint32 + int32] to
    int32 when 64-bit mode is off, the library's default). *)
Definition i32 (z : Z) : Z := let r := (z mod U32)%Z in if (r <? 2 ^ 31)%Z then r else (r - U32)%Z.

Lemma u32_small z : (0 <= z < U32)%Z -> u32 z = z.
Proof. intros H; apply Z.mod_small; exact H. Qed.
Lemma u32_range z : (0 <= u32 z < U32)%Z.
Proof. apply Z.mod_pos_bound. reflexivity. Qed.
Lemma i32_small z : (0 <= z < 2 ^ 31)%Z -> i32 z = z.
Proof.
  intros H; unfold i32. rewrite Z.mod_small by (unfold U32; lia).
  destruct (z <? 2 ^ 31)%Z eqn:E; lia.
Qed.

Lemma skipn_skipn {A} (x y : nat) (l : list A) : skipn x (skipn y l) = skipn (x + y) l.
Proof.
  revert l; induction y as [|y IH]; intros l; simpl.
  - rewrite Nat.add_0_r; reflexivity.
  - rewrite Nat.add_succ_r. destruct l as [|a l]; simpl.
    + apply skipn_nil.
    + apply IH.
Qed.

#[global] Arguments firstn {A} !n l : simpl nomatch.
#[global] Arguments skipn {A} !n l : simpl nomatch.

Lemma nth_skipn {A} (n i : nat) (l : list A) d : nth i (skipn n l) d = nth (n + i) l d.
Proof.
  revert l; induction n as [|n IH]; intros [|a l]; simpl; auto.
  destruct i; reflexivity.
Qed.
Lemma nth_firstn {A} (n i : nat) (l : list A) d : i < n -> nth i (firstn n l) d = nth i l d.
Proof.
  revert i l; induction n as [|n IH]; intros [|i] [|a l] H; simpl; auto; try lia.
  apply IH; lia.
Qed.

(** [jax.lax.while_loop cond body s]; [None] = still running after [fuel]
    iterations (every use is proved to terminate within its fuel). *)
Fixpoint while {S : Type} (fuel : nat) (cond : S -> bool) (body : S -> S) (s : S) : option S :=
  if cond s then match fuel with O => None | Datatypes.S f => while f cond body (body s) end
  else Some s.

(** all-or-nothing map (used to collect the results of independent programs) *)
Fixpoint mapM {A B : Type} (f : A -> option B) (l : list A) : option (list B) :=
  match l with
  | [] => Some []
  | x :: t => match f x, mapM f t with Some y, Some ys => Some (y :: ys) | _, _ => None end
  end.

Lemma while_total {S : Type} (I : S -> Prop) (m : S -> nat) (cond : S -> bool) (body : S -> S) :
  (forall s, I s -> cond s = true -> I (body s) /\ m (body s) < m s) ->
  forall fuel s, I s -> m s <= fuel ->
  exists s', while fuel cond body s = Some s' /\ I s' /\ cond s' = false.
Proof.
  intros HB. induction fuel as [|f IH]; intros s Hs Hm; simpl.
  - destruct (cond s) eqn:E.
    + destruct (HB s Hs E) as [_ H]. lia.
    + exists s; auto.
  - destruct (cond s) eqn:E.
    + destruct (HB s Hs E) as [H1 H2]. apply IH; [exact H1|lia].
    + exists s; auto.
Qed.

(** [perm] proves a permutation of two concatenations of the same atoms. *)
Lemma perm_rotate {A : Type} (a b c : list A) : Permutation a (c ++ b) -> Permutation a (b ++ c).
Proof. intros H. rewrite H. apply Permutation_app_comm. Qed.
Ltac perm_norm := rewrite ?app_nil_r; rewrite <- ?app_assoc.
Ltac perm_go k n :=
  first [ apply Permutation_refl
        | apply Permutation_app_head; perm_go k k
        | lazymatch n with S ?m => apply perm_rotate; perm_norm; perm_go k m end ].
Ltac perm := perm_norm; perm_go 12 12.
