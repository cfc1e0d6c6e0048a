(** * PropHeapVals.v — property C65: what the slots returned by delete_mins can hold, padding included.

    docs/bgpq.md says the padding of a short delete_mins result carries default values.  It does not:
    a removed block keeps its values and only its keys are set to +inf (_delete.py 30-36, 206-220).
    Proved here: every returned value, padding included, is the default or was passed to an insert. *)
From Verif Require Import Jax KeyModel SortProofs HeapModel HeapSpec HeapProofs HeapInsert HeapInv HeapDelete PropHeap PropHeapLen.

Section P.
Context {V : Type}.
Notation item := (key * V)%type.
Notation row := (list item).
Implicit Types h : heap V.

(** ** Specification *)
(** the values passed in by the inserts of a history, real items and padding alike *)
Definition passed_in (ops : list (op V)) : list V :=
  concat (map (fun o => match o with Ins block => map snd block | Del => [] end) ops).
(** the slots handed back by its delete_mins calls *)
Definition handed_back (obs : list (row * Z)) : row := concat (map fst obs).

(** ** Proof: every operation only moves slots and raises keys to +inf *)
Variable P : V -> Prop.
Definition vrow (r : row) : Prop := forall x, In x r -> P (snd x).
Definition vrows (rs : list row) : Prop := forall r, In r rs -> vrow r.
Definition vheap h : Prop := vrows (rows h) /\ vrow (buf h).

Lemma vrow_perm r r' : Permutation r r' -> vrow r -> vrow r'.
Proof. intros HP H x Hx. apply H. eapply Permutation_in; [symmetry; exact HP|exact Hx]. Qed.
Lemma vrow_app a b : vrow a -> vrow b -> vrow (a ++ b).
Proof. intros Ha Hb x Hx. apply in_app_or in Hx as [Hx|Hx]; auto. Qed.
Lemma vrow_firstn n r : vrow r -> vrow (firstn n r).
Proof. intros H x Hx. apply H. rewrite <- (firstn_skipn n r). apply in_or_app. left. exact Hx. Qed.
Lemma vrow_skipn n r : vrow r -> vrow (skipn n r).
Proof. intros H x Hx. apply H. rewrite <- (firstn_skipn n r). apply in_or_app. right. exact Hx. Qed.
Lemma vrow_ssort r : vrow r -> vrow (ssort r).
Proof. apply vrow_perm. symmetry. apply ssort_perm. Qed.
Lemma vrow_msplit a b lo hi : msplit a b = (lo, hi) -> vrow a -> vrow b -> vrow lo /\ vrow hi.
Proof.
  unfold msplit. intros E Ha Hb. injection E as <- <-.
  pose proof (vrow_ssort _ (vrow_app _ _ Ha Hb)) as H. split; [apply vrow_firstn|apply vrow_skipn]; exact H.
Qed.
Lemma vrow_clear r : vrow r -> vrow (clear_keys r).
Proof. intros H x Hx. unfold clear_keys in Hx. apply in_map_iff in Hx as (y & <- & Hy). cbn [snd]. apply H; exact Hy. Qed.
Lemma vrow_at rs i : vrows rs -> vrow (row_at rs i).
Proof.
  intros H. unfold row_at. destruct (nth_in_or_default (Nat.min i (length rs - 1)) rs []) as [Hi|E].
  - apply H; exact Hi.
  - rewrite E. intros x [].
Qed.
Lemma vrows_upd rs i r : vrows rs -> vrow r -> vrows (upd rs i r).
Proof.
  revert i. induction rs as [|a t IH]; intros i H Hr; [destruct i; exact H|].
  destruct i as [|i]; cbn [upd]; intros b [<-|Hb].
  - exact Hr.
  - apply H. right. exact Hb.
  - apply H. left. reflexivity.
  - apply (IH i); auto. intros c Hc. apply H. right. exact Hc.
Qed.
Lemma vrows_scatter ups : forall rs, vrows rs -> (forall p, In p ups -> vrow (snd p)) -> vrows (scatter_rows rs ups).
Proof.
  unfold scatter_rows. induction ups as [|p t IH]; intros rs H Hu; cbn [fold_left]; [exact H|].
  apply IH; [|intros q Hq; apply Hu; right; exact Hq]. apply vrows_upd; [exact H|]. apply Hu. left. reflexivity.
Qed.
Lemma vrow_scan rs xs : vrows rs -> forall carry, vrow carry ->
  vrow (fst (scan_path rs xs carry)) /\ vrows (snd (scan_path rs xs carry)).
Proof.
  intros Hrs. induction xs as [|[i m] t IH]; intros carry Hc; cbn [scan_path].
  - cbn [fst snd]. split; [exact Hc|intros r []].
  - destruct m.
    + destruct (msplit (row_at rs i) carry) as [hd nx] eqn:EM.
      destruct (vrow_msplit _ _ _ _ EM (vrow_at rs i Hrs) Hc) as [H1 H2].
      specialize (IH nx H2). destruct (scan_path rs t nx) as [c out]. cbn [fst snd] in *.
      split; [exact (proj1 IH)|]. intros r Hr. destruct Hr as [<-|Hr]; [exact H1|exact (proj2 IH r Hr)].
    + specialize (IH carry Hc). destruct (scan_path rs t carry) as [c out]. cbn [fst snd] in *.
      split; [exact (proj1 IH)|]. intros r Hr. destruct Hr as [<-|Hr]; [apply vrow_at; exact Hrs|exact (proj2 IH r Hr)].
Qed.

Lemma v_insert_heapify h blk : vheap h -> vrow blk -> vheap (fst (insert_heapify h blk)).
Proof.
  intros [H1 H2] Hb. unfold insert_heapify. cbn [fst].
  destruct (insert_target h <? branch h); [|split; assumption].
  destruct (insert_target h =? 0).
  - unfold update_root_only. split; [|exact H2]. cbn [set_rows rows].
    apply vrows_upd; [exact H1|].
    destruct (msplit (row_at (rows h) 0) blk) as [lo hi] eqn:EM. cbn [fst].
    apply (vrow_msplit _ _ _ _ EM); [apply vrow_at; exact H1|exact Hb].
  - unfold update_path. pose proof (vrow_scan (rows h) (path (branch h) (insert_target h)) H1 blk Hb) as [_ HS].
    destruct (scan_path (rows h) (path (branch h) (insert_target h)) blk) as [c heads]. cbn [fst snd] in *.
    split; [|exact H2]. cbn [set_rows rows]. apply vrows_scatter; [exact H1|].
    intros [i r] Hp. apply in_combine_r in Hp. cbn [snd]. apply HS; exact Hp.
Qed.

Lemma v_insert h block : vheap h -> vrow block -> vheap (insert h block).
Proof.
  intros [H1 H2] Hb. unfold insert.
  destruct (msplit (row_at (rows h) 0) (ssort block)) as [root blk1] eqn:EM.
  destruct (vrow_msplit _ _ _ _ EM (vrow_at _ 0 H1) (vrow_ssort _ Hb)) as [Hr Hb1].
  unfold merge_buffer. cbn [set_rows buf batch rows hsize branch bsize].
  assert (Hs : vrow (ssort (blk1 ++ buf h))) by (apply vrow_ssort, vrow_app; assumption).
  set (s := ssort (blk1 ++ buf h)) in *. clearbody s.
  pose proof (vrows_upd _ 0 _ H1 Hr) as Hrs.
  destruct (batch h <=? nfin s).
  - match goal with |- context [insert_heapify ?H ?B] =>
      pose proof (v_insert_heapify H B) as HH; destruct (insert_heapify H B) as [h3 added] end.
    cbn [fst] in HH. apply HH.
    + split; [exact Hrs|]. cbn [buf]. apply vrow_skipn; exact Hs.
    + apply vrow_firstn; exact Hs.
  - split; [exact Hrs|]. cbn [buf]. apply vrow_firstn; exact Hs.
Qed.

Lemma v_sift_body mu rs s : vrows rs -> vrow (snd (fst s)) -> (forall p, In p (snd s) -> vrow (snd p)) ->
  vrow (snd (fst (sift_body mu rs s))) /\ (forall p, In p (snd (sift_body mu rs s)) -> vrow (snd p)).
Proof.
  destruct s as [[c cur] ups]. cbn [fst snd]. intros Hrs Hc Hu. unfold sift_body.
  destruct (if kgt (last_key (row_at rs (lc c))) (last_key (row_at rs (rc c))) then (lc c, rc c) else (rc c, lc c)) as [x y].
  destruct (msplit (row_at rs (lc c)) (row_at rs (rc c))) as [ky kx] eqn:E1.
  destruct (msplit cur ky) as [kc ky'] eqn:E2.
  destruct (vrow_msplit _ _ _ _ E1 (vrow_at rs _ Hrs) (vrow_at rs _ Hrs)) as [A1 A2].
  destruct (vrow_msplit _ _ _ _ E2 Hc A1) as [A3 A4].
  cbn [fst snd]. split; [exact A4|].
  assert (HW : forall u i r, (forall p, In p u -> vrow (snd p)) -> vrow r ->
    forall p, In p (write_update mu u i r) -> vrow (snd p)).
  { intros u i r Hu' Hr p Hp. unfold write_update in Hp. destruct (length u <? mu); [|auto].
    apply in_app_or in Hp as [Hp|[<-|[]]]; auto. }
  apply HW; [|exact A2]. apply HW; [exact Hu|exact A3].
Qed.

Lemma v_while mu rs : vrows rs -> forall fuel s s',
  vrow (snd (fst s)) -> (forall p, In p (snd s) -> vrow (snd p)) ->
  while fuel (sift_cond rs) (sift_body mu rs) s = Some s' ->
  vrow (snd (fst s')) /\ (forall p, In p (snd s') -> vrow (snd p)).
Proof.
  intros Hrs. induction fuel as [|f IH]; intros s s' H1 H2 E; cbn [while] in E; destruct (sift_cond rs s).
  - discriminate E.
  - injection E as <-. auto.
  - destruct (v_sift_body mu rs s Hrs H1 H2) as [H3 H4]. apply (IH _ _ H3 H4 E).
  - injection E as <-. auto.
Qed.

Lemma v_delete h h' out : vheap h -> delete_mins h = Some (h', out) -> vheap h' /\ vrow out.
Proof.
  intros [H1 H2] E. unfold delete_mins in E.
  destruct (hsize h =? 0).
  - injection E as <- <-. split; [|apply vrow_at; exact H1]. unfold make_empty.
    destruct (msplit (clear_keys (row_at (rows h) 0)) (buf h)) as [root buf'] eqn:EM.
    destruct (vrow_msplit _ _ _ _ EM (vrow_clear _ (vrow_at _ 0 H1)) H2) as [A1 A2].
    split; [cbn [rows]; apply vrows_upd; assumption|exact A2].
  - destruct (delete_heapify h) as [h1|] eqn:ED; [|discriminate E]. injection E as <- <-.
    split; [|apply vrow_at; exact H1]. unfold delete_heapify in ED.
    destruct (msplit (row_at (rows h) (hsize h)) (buf h)) as [root buf'] eqn:EM.
    destruct (vrow_msplit _ _ _ _ EM (vrow_at _ _ H1) H2) as [A1 A2].
    set (rs := upd (upd (rows h) (hsize h) (clear_keys (row_at (rows h) (hsize h)))) 0 root) in *.
    assert (Hrs : vrows rs).
    { unfold rs. apply vrows_upd; [|exact A1]. apply vrows_upd; [exact H1|]. apply vrow_clear, vrow_at; exact H1. }
    destruct (while (branch h) (sift_cond rs) (sift_body (max_depth (branch h) * 2 + 1) rs) (0, root, []))
      as [[[c cur] ups]|] eqn:EW; [|discriminate ED].
    destruct (v_while _ rs Hrs _ (0, root, []) _ A1 ltac:(intros p []) EW) as [A3 A4]. cbn [fst snd] in *.
    injection ED as <-. split; [|exact A2]. cbn [rows]. apply vrows_scatter; [exact Hrs|].
    intros p Hp. unfold write_update in Hp. destruct (length ups <? _); [|auto].
    apply in_app_or in Hp as [Hp|[<-|[]]]; auto.
Qed.

Lemma v_run ops : forall h hf obs, vheap h -> (forall v, In v (passed_in ops) -> P v) ->
  run h ops = Some (hf, obs) -> vheap hf /\ vrow (handed_back obs).
Proof.
  induction ops as [|[block|] t IH]; intros h hf obs Hh Hp E; cbn [run] in E.
  - injection E as <- <-. split; [exact Hh|intros x []].
  - destruct (run (insert h block) t) as [[h2 obs2]|] eqn:ER; [|discriminate E]. injection E as <- <-.
    assert (Hb : vrow block).
    { intros x Hx. apply Hp. unfold passed_in. cbn [map concat]. apply in_or_app. left. apply in_map; exact Hx. }
    apply (IH _ _ _ (v_insert h block Hh Hb)) in ER; [exact ER|].
    intros v Hv. apply Hp. unfold passed_in. cbn [map concat]. apply in_or_app. right. exact Hv.
  - destruct (delete_mins h) as [[h1 out]|] eqn:ED; [|discriminate E].
    destruct (run h1 t) as [[h2 obs2]|] eqn:ER; [|discriminate E]. injection E as <- <-.
    destruct (v_delete h h1 out Hh ED) as [H1 H2].
    destruct (IH _ _ _ H1 ltac:(intros v Hv; apply Hp; exact Hv) ER) as [H3 H4].
    split; [exact H3|]. unfold handed_back. cbn [map concat fst]. apply vrow_app; assumption.
Qed.
End P.

(** C65: every value handed back by delete_mins, in real and in padding slots, is the value class's default
    or a value passed to some insert - for blocks of any length, any capacity and batch size. *)
Theorem C65_returned_values_come_from_the_user :
  forall (V : Type) (dv : V) total B ops h obs,
    run (build dv total B) ops = Some (h, obs) ->
    forall x, In x (@handed_back V obs) -> snd x = dv \/ In (snd x) (passed_in ops).
Proof.
  intros V dv total B ops h obs ER x Hx.
  destruct (v_run (fun v => v = dv \/ In v (passed_in ops)) ops (build dv total B) h obs) as [_ H]; auto.
  unfold vheap, build. cbn [rows buf].
  assert (HR : forall n, vrow (fun v => v = dv \/ In v (passed_in ops)) (repeat (PInf, dv) n)).
  { intros n y Hy. apply repeat_spec in Hy. subst y. left. reflexivity. }
  split; [|apply HR]. intros r Hr. apply repeat_spec in Hr. subst r. apply HR.
Qed.

(** C65: the documented "values with their defaults" is false: after one insert of two items the second
    delete_mins returns only padding, carrying the values already handed out (default 0). *)
Theorem C65_padding_is_not_the_default_refuted :
  exists h obs,
    run (build 0 4 2) [Ins [kv 1; kv 2]; Del; Del] = Some (h, obs) /\
    obs = [([], 2%Z); ([kv 1; kv 2], 0%Z); ([(PInf, 1); (PInf, 2)], 0%Z)].
Proof. do 2 eexists. split; [vm_compute; reflexivity|reflexivity]. Qed.

(** C65: a fresh queue's padding is the default; so is [make_batched]'s (C15). *)
Theorem C65_fresh_queue_returns_defaults :
  forall (V : Type) (dv : V) total B h out, 1 <= B -> 1 <= total ->
    delete_mins (build dv total B) = Some (h, out) -> out = repeat (PInf, dv) B.
Proof.
  intros V dv total B h out HB Ht E. unfold delete_mins, build in E. cbn [hsize] in E.
  change (0 =? 0) with true in E. injection E as _ <-. cbn [rows].
  set (br := if total mod B =? 0 then total / B else total / B + 1).
  assert (Hbr : 1 <= br).
  { unfold br. pose proof (Nat.div_mod total B ltac:(lia)) as HD. pose proof (Nat.mod_upper_bound total B ltac:(lia)).
    destruct (Nat.eqb_spec (total mod B) 0); nia. }
  unfold row_at. cbn [Nat.min]. destruct br as [|br']; [lia|]. reflexivity.
Qed.
Print Assumptions C65_returned_values_come_from_the_user.
Print Assumptions C65_padding_is_not_the_default_refuted.
Print Assumptions C65_fresh_queue_returns_defaults.
