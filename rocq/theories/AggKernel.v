(** * AggKernel.v — the Pallas packing kernel computes the same words as the XLA code, for
      every tile size, grid order, interleaving and initial output. *)
From Coq Require Import String.
From Verif Require Import Jax HashModel BitpackModel BitpackProofs StructModel ArrayModel ArrayFacts AggModel.

(** a backend that can run: positive tile, every step of the grid once, output of the declared shape *)
Definition backend_ok (be : pack_backend) (n nwords : nat) : Prop :=
  match be with
  | PackXla => True
  | PackPallas tile order init => 0 < tile /\ Permutation order (grid_steps n nwords tile) /\ length init = n /\ Forall (fun r => length r = nwords) init
  end.
Definition get2 (m : list (list N)) (r w : nat) : N := nth w (nth r m []) 0%N.
Definition shaped (m : list (list N)) (n k : nat) : Prop := length m = n /\ Forall (fun r => length r = k) m.
Lemma shaped_row m n k r : shaped m n k -> r < n -> length (nth r m []) = k.
Proof. intros [HL HF] Hr. rewrite Forall_forall in HF. apply HF. apply nth_In. lia. Qed.
Lemma shaped_ext a b n k : shaped a n k -> shaped b n k -> (forall r w, r < n -> w < k -> get2 a r w = get2 b r w) -> a = b.
Proof.
  intros Ha Hb H. apply (nth_ext _ _ [] []); [destruct Ha, Hb; congruence|]. intros r Hr. assert (Hr' : r < n) by (destruct Ha; lia).
  apply (nth_ext _ _ 0%N 0%N); [rewrite (shaped_row a n k), (shaped_row b n k) by assumption; reflexivity|]. intros w Hw. rewrite (shaped_row a n k) in Hw by assumption. now apply H.
Qed.
Lemma set2_shaped m n k r w v : shaped m n k -> r < n -> w < k -> shaped (set2 m r w v) n k.
Proof.
  intros H Hr Hw. pose proof (shaped_row m n k r H Hr) as HR. destruct H as [HL HF]. unfold set2. split; [now rewrite upd_length|]. apply Forall_forall. intros x Hx. apply In_nth with (d := []) in Hx. destruct Hx as (j & Hj & <-).
  rewrite upd_length in Hj. rewrite nth_upd by lia. destruct (j =? r); [now rewrite upd_length|]. rewrite Forall_forall in HF. apply HF. now apply nth_In.
Qed.
Lemma get2_set2 m n k r w v r' w' : shaped m n k -> r < n -> w < k -> get2 (set2 m r w v) r' w' = if (r' =? r) && (w' =? w) then v else get2 m r' w'.
Proof.
  intros H Hr Hw. pose proof (shaped_row m n k r H Hr) as HR. destruct H as [HL HF]. unfold get2, set2. rewrite nth_upd by lia. destruct (Nat.eqb_spec r' r) as [->|]; [|reflexivity].
  cbn [andb]. rewrite nth_upd by lia. reflexivity.
Qed.
Section K.
Variables (specs : list leafspec) (nwords tile : nat) (rows : list (list N)).
Let n := length rows.
Let word_at (r w : nat) : N := fold_left (fun word t => N.lor word (part (nth r rows []) (total_values specs) (nth t (nth w (tables specs nwords) []) pad_entry))) (seq 0 (max_contrib specs nwords)) 0%N.
Definition hits (step : nat * nat * nat) (r w : nat) : Prop := fst (fst step) = r /\ snd (fst step) * tile + snd step = w.
Lemma steps_shaped order : forall init, (forall s, In s order -> fst (fst s) < n) -> shaped init n nwords -> shaped (fold_left (kernel_step specs nwords tile rows) order init) n nwords.
Proof.
  induction order as [|[[r b] o] order IH]; intros init HB HS; [exact HS|]. cbn [fold_left]. apply IH; [intros s Hs; apply HB; now right|]. unfold kernel_step.
  destruct (Nat.ltb_spec (b * tile + o) nwords); [|exact HS]. apply set2_shaped; [exact HS| |assumption]. apply (HB (r, b, o)). now left.
Qed.
Lemma steps_value order : forall init r w, (forall s, In s order -> fst (fst s) < n) -> shaped init n nwords -> r < n -> w < nwords ->
  ((exists s, In s order /\ hits s r w) \/ get2 init r w = word_at r w) -> get2 (fold_left (kernel_step specs nwords tile rows) order init) r w = word_at r w.
Proof.
  induction order as [|[[r0 b] o] order IH]; intros init r w HB HS Hr Hw H; cbn [fold_left].
  - destruct H as [(s & [] & _)|H]; exact H.
  - assert (Hr0 : r0 < n) by (apply (HB (r0, b, o)); now left). apply IH; auto.
    + intros s Hs. apply HB. now right.
    + unfold kernel_step. destruct (Nat.ltb_spec (b * tile + o) nwords); [|exact HS]. now apply set2_shaped.
    + unfold kernel_step. destruct (Nat.ltb_spec (b * tile + o) nwords) as [HL|HL].
      * rewrite (get2_set2 init n nwords) by assumption. destruct (Nat.eqb_spec r r0) as [->|NE].
        -- destruct (Nat.eqb_spec w (b * tile + o)) as [->|NE]; cbn [andb]; [now right|]. destruct H as [(s & [<-|HI] & [H1 H2])|H]; [cbn in H2; congruence|left; exists s; split; [exact HI|now split]|now right].
        -- cbn [andb]. destruct H as [(s & [<-|HI] & [H1 H2])|H]; [cbn in H1; congruence|left; exists s; split; [exact HI|now split]|now right].
      * destruct H as [(s & [<-|HI] & [H1 H2])|H]; [cbn in H2; lia|left; exists s; split; [exact HI|now split]|now right].
Qed.
Lemma table_row w : w < nwords -> length (nth w (tables specs nwords) []) = max_contrib specs nwords.
Proof.
  intros Hw. unfold tables. fold (max_contrib specs nwords). set (F := fun row : list contrib => row ++ repeat (MkCb None 0 0 0) (max_contrib specs nwords - length row)).
  assert (E : nth w (map F (contribs specs nwords)) [] = F (nth w (contribs specs nwords) [])).
  { rewrite nth_indep with (d' := F []) by (rewrite map_length, contribs_length; exact Hw). apply map_nth. }
  rewrite E. unfold F. rewrite app_length, repeat_length.
  assert (length (nth w (contribs specs nwords) []) <= max_contrib specs nwords); [|lia]. unfold max_contrib.
  assert (HM : Forall (fun k => k <= list_max (map (@length contrib) (contribs specs nwords))) (map (@length contrib) (contribs specs nwords))) by (apply list_max_le; lia).
  rewrite Forall_forall in HM. apply HM. apply in_map. apply nth_In. now rewrite contribs_length.
Qed.
Lemma fold_nth_seq {X Y} (f : Y -> X -> Y) (l : list X) d acc : fold_left (fun y t => f y (nth t l d)) (seq 0 (length l)) acc = fold_left f l acc.
Proof.
  assert (H : forall pre post y, fold_left (fun y t => f y (nth t (pre ++ post) d)) (seq (length pre) (length post)) y = fold_left f post y).
  { intros pre post. revert pre. induction post as [|x post IH]; intros pre y; [reflexivity|]. cbn [length seq fold_left]. rewrite app_nth2, Nat.sub_diag by lia. cbn [nth].
    specialize (IH (pre ++ [x]) (f y x)). rewrite <- app_assoc, app_length, Nat.add_1_r in IH. exact IH. }
  exact (H [] l acc).
Qed.
Lemma word_at_pack r w : w < nwords -> word_at r w = nth w (pack_words specs nwords (nth r rows [])) 0%N.
Proof.
  intros Hw. unfold word_at, pack_words. rewrite <- (table_row w Hw).
  rewrite (fold_nth_seq (fun word e => N.lor word (part (nth r rows []) (total_values specs) e))).
  set (G := fun row => or_reduce (map (part (nth r rows []) (total_values specs)) row)).
  rewrite (nth_indep _ _ (G [])) by (rewrite map_length, tables_length; exact Hw). rewrite (map_nth G). unfold G, or_reduce. clear. generalize (nth w (tables specs nwords) []) as l. intros l. generalize 0%N.
  induction l as [|x l IH]; intros acc; [reflexivity|]. cbn [fold_left map]. apply IH.
Qed.
End K.
Theorem pack_rows_correct be specs nwords rows : backend_ok be (length rows) nwords -> pack_rows be specs nwords rows = map (pack_words specs nwords) rows.
Proof.
  destruct be as [|tile order init]; [reflexivity|]. intros (Ht & HP & HL & HF). cbn [pack_rows]. destruct (Nat.eqb_spec nwords 0) as [->|HN].
  - apply map_ext. intros vals. assert (K := pack_words_length specs 0 vals). destruct (pack_words specs 0 vals); [reflexivity|discriminate].
  - destruct (Nat.eqb_spec (max_contrib specs nwords) 0) as [HM|HM].
    + apply map_ext. intros vals. unfold pack_words. assert (K : forall row, In row (tables specs nwords) -> row = []).
      { intros row HI. apply In_nth with (d := []) in HI. destruct HI as (w & Hw & <-). rewrite tables_length in Hw. pose proof (table_row specs nwords rows w Hw) as E. rewrite HM in E. now apply length_zero_iff_nil. }
      rewrite <- (tables_length specs nwords) at 1. revert K. generalize (tables specs nwords). intros l. induction l as [|row l IH]; intros K; [reflexivity|]. cbn [length repeat map]. f_equal; [rewrite (K row) by (now left); reflexivity|]. apply IH. intros x Hx. apply K. now right.
    + assert (HB : forall s, In s order -> fst (fst s) < length rows).
      { intros [[r b] o] Hs. apply (Permutation_in _ HP) in Hs. unfold grid_steps in Hs. rewrite !in_prod_iff, !in_seq in Hs. cbn. lia. }
      assert (HS : shaped init (length rows) nwords) by (split; assumption).
      apply (shaped_ext _ _ (length rows) nwords).
      * now apply steps_shaped.
      * split; [now rewrite map_length|]. apply Forall_forall. intros x Hx. apply in_map_iff in Hx. destruct Hx as (v & <- & _). apply pack_words_length.
      * intros r w Hr Hw. rewrite steps_value; auto.
        -- rewrite word_at_pack by exact Hw. unfold get2. rewrite (nth_indep (map _ rows) [] (pack_words specs nwords [])) by (rewrite map_length; exact Hr). now rewrite map_nth.
        -- left. exists (r, w / tile, w mod tile). pose proof (Nat.div_mod w tile ltac:(lia)) as E. pose proof (Nat.mod_upper_bound w tile ltac:(lia)) as HU. split; [|split; cbn; lia].
           apply (Permutation_in _ (Permutation_sym HP)). unfold grid_steps. rewrite !in_prod_iff, !in_seq. assert (HD : w / tile < ceil_div nwords tile); [|clear E; generalize dependent (w mod tile); generalize dependent (w / tile); intros; lia]. unfold ceil_div.
           pose proof (Nat.div_mod (nwords + tile - 1) tile ltac:(lia)) as E2. pose proof (Nat.mod_upper_bound (nwords + tile - 1) tile ltac:(lia)) as E3.
           set (q := (nwords + tile - 1) / tile) in *. apply Nat.div_lt_upper_bound; [lia|]. lia.
Qed.
