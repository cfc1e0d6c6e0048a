(** * PropHeapLen.v — property C64: BGPQ.insert with blocks of any length.

    bgpq.py 166-179 [insert] accepts keys and values of any common length; nothing checks
    that it is batch_size.  This file proves what happens then, about the same model
    ([HeapModel.insert], [delete_mins], [size]).  The key buffer is reallocated by every
    such insert (_insert.py 49-56): after a block of m slots it has
    (old length + m - batch_size) slots.                                                 *)
From Verif Require Import Jax KeyModel SortProofs HeapModel HeapSpec HeapProofs HeapInsert HeapInv HeapDelete PropHeap.

Section L.
Context {V : Type}.
Notation item := (key * V)%type.
Notation row := (list item).
Implicit Types r a b lo hi s carry c : list (key * V).
Implicit Types rs T : list (list (key * V)).
Implicit Types h : heap V.

(** ** Specification: on bags, no reference to blocks or buffer. *)

(** Any block without -inf keys may be inserted. *)
Definition any_op (o : op V) : Prop :=
  match o with Ins block => forall x, In x block -> fst x <> NInf | Del => True end.
Definition block_len (P : nat -> Prop) (o : op V) : Prop :=
  match o with Ins block => P (length block) | Del => True end.

(** One insert of a block of any length.  [dropped]: the items silently lost. *)
Record any_ins (B : nat) (bag block bag' dropped : row) : Prop := {
  ai_account : Permutation (bag' ++ dropped) (bag ++ fin block);
  ai_smallest : exists low rest,
    Permutation bag' (low ++ rest) /\ length low = Nat.min B (length bag + length (fin block)) /\
    below low (rest ++ dropped) }.

(** The generalised trace.  [keeps bag block dropped]: a further guarantee on what an insert may drop;
    [near n sz]: what a reported size [sz] says about a queue of [n] items after a delete. *)
Inductive any_trace (B : nat) (keeps : row -> row -> row -> Prop) (near : nat -> Z -> Prop) :
  row -> list (op V) -> list (row * Z) -> row -> Prop :=
| at_nil bag : any_trace B keeps near bag [] [] bag
| at_ins bag block bag' dropped ops obs bag'' :
    any_ins B bag block bag' dropped -> keeps bag block dropped ->
    any_trace B keeps near bag' ops obs bag'' ->
    any_trace B keeps near bag (Ins block :: ops) (([], Z.of_nat (length bag')) :: obs) bag''
| at_del bag out bag' ops obs sz bag'' :
    del_spec B bag out bag' -> near (length bag') sz ->
    any_trace B keeps near bag' ops obs bag'' ->
    any_trace B keeps near bag (Del :: ops) ((out, sz) :: obs) bag''.

Lemma any_trace_mono B (k1 k2 : row -> row -> row -> Prop) (n1 n2 : nat -> Z -> Prop) :
  (forall x y z, k1 x y z -> k2 x y z) -> (forall n sz, n1 n sz -> n2 n sz) ->
  forall bag ops obs bag', any_trace B k1 n1 bag ops obs bag' -> any_trace B k2 n2 bag ops obs bag'.
Proof.
  intros Hk Hn bag ops obs bag' H.
  induction H as [|? ? ? ? ? ? ? H1 H2 H3 IH|? ? ? ? ? ? ? H1 H2 H3 IH];
    [constructor|eapply at_ins; eauto|eapply at_del; eauto].
Qed.

(** number of items offered by the inserts of a history *)
Definition offered_items (ops : list (op V)) : nat :=
  list_sum (map (fun o => match o with Ins block => length (fin block) | Del => 0 end) ops).

(** ** Invariant: [HeapInv.Inv] without the buffer length, and with a buffer counter that may undercount. *)
Record GInv h : Prop := {
  g_B : 1 <= batch h;
  g_len : length (rows h) = branch h;
  g_rows : RInv (batch h) (hsize h) (rows h);
  g_buf : sorted (buf h) /\ nonn (buf h);
  g_rb : below (rowi (rows h) 0) (buf h);
  g_bs : bsize h <= nfin (buf h);
  g_small : small (branch h) }.

Lemma insert_any h block : GInv h -> nonn block ->
  GInv (insert h block) /\ batch (insert h block) = batch h /\ branch (insert h block) = branch h /\
  length (buf (insert h block)) = length (buf h) + length block - batch h /\
  bsize (insert h block) = nfin (buf (insert h block)) /\
  exists dropped, any_ins (batch h) (contents h) block (contents (insert h block)) dropped /\
    (2 * batch h - 1 <= length (buf h) + length block ->
     (length (contents h) + length (fin block) < max_size h + batch h -> dropped = []) /\ length dropped <= batch h).
Proof.
  intros [HB HL HR Hbuf Hrb Hbs Hsm] Hnn.
  pose proof HR as [HG Hn HF HE HO].
  unfold insert. rewrite row_at_in by lia.
  pose proof (good_ssort (length block) block eq_refl Hnn) as (G1 & G2 & G3).
  destruct (msplit (rowi (rows h) 0) (ssort block)) as [root blk1] eqn:EM.
  pose proof (HG 0 ltac:(lia)) as (G4 & G5 & G6).
  pose proof (msplit_spec _ _ _ _ EM) as (M1 & M2 & M3 & M4).
  pose proof (msplit_parts _ _ _ _ EM) as (M5 & M6 & M7).
  pose proof (msplit_nonn _ _ _ _ EM G6 G3) as (M8 & M9).
  assert (Groot : good (batch h) root) by (repeat split; [lia|assumption|assumption]).
  assert (Hrb1 : below root (buf h)) by (eapply msplit_below_l; eassumption).
  set (rs1 := upd (rows h) 0 root).
  assert (HL1 : length rs1 = length (rows h)) by apply upd_length.
  assert (Hr1 : rowi rs1 0 = root) by (unfold rs1; rewrite rowi_upd by lia; reflexivity).
  assert (Hri : forall i, 1 <= i -> rowi rs1 i = rowi (rows h) i).
  { intros i Hi. unfold rs1. rewrite rowi_upd by lia. destruct (Nat.eqb_spec 0 i); [lia|reflexivity]. }
  assert (HO1 : ordered rs1).
  { apply ordered_upd; auto; [lia|lia|]. intros c Hc1 Hc2. eapply msplit_below_l; [exact EM|].
    rewrite <- Hc2. apply HO; exact Hc1. }
  assert (HR1 : RInv (batch h) (hsize h) rs1).
  { constructor; auto.
    - apply goodrows_upd; assumption.
    - lia.
    - intros i Hi. rewrite Hri by lia. apply HF; lia.
    - intros i Hi. rewrite Hri by lia. apply HE; lia. }
  unfold merge_buffer. cbn [set_rows buf batch rows hsize branch bsize].
  set (s := ssort (blk1 ++ buf h)).
  assert (Ps : Permutation s (blk1 ++ buf h)) by apply ssort_perm.
  assert (Ss : sorted s) by apply ssort_sorted.
  destruct Hbuf as (B2 & B3).
  assert (Ns : nonn s) by (eapply nonn_perm; [symmetry; exact Ps|apply nonn_app; auto]).
  assert (Ls : length s = length (buf h) + length block).
  { rewrite (Permutation_length Ps), app_length. lia. }
  assert (Hrs : below root s).
  { eapply below_perm_r; [symmetry; exact Ps|]. apply below_app_r; auto. }
  (* accounting *)
  assert (Hacc : Permutation (contents h ++ fin block) (fin (concat rs1) ++ fin s)).
  { unfold contents. rewrite !fin_app. rewrite (fin_perm _ _ Ps), fin_app.
    destruct (concat_upd (rows h) 0 ltac:(lia)) as [rest Hrest].
    unfold rs1. rewrite (fin_perm _ _ (Hrest root)).
    rewrite <- (upd_same _ (rows h) 0 []) at 1. rewrite (fin_perm _ _ (Hrest (nth 0 (rows h) []))).
    change (nth 0 (rows h) []) with (rowi (rows h) 0).
    pose proof (fin_perm _ _ M1) as M1'. rewrite !fin_app in M1'. rewrite !fin_app.
    rewrite (fin_perm _ _ (ssort_perm block)) in M1'.
    transitivity ((fin (rowi (rows h) 0) ++ fin block) ++ fin rest ++ fin (buf h)).
    - rewrite <- !app_assoc. apply Permutation_app_head. rewrite app_assoc. apply Permutation_app_comm.
    - rewrite <- M1'. rewrite <- !app_assoc. apply Permutation_app_head.
      rewrite !app_assoc. apply Permutation_app_tail. apply Permutation_app_comm. }
  assert (Hcount : length (contents h) + length (fin block)
                   = length (fin root) + hsize h * batch h + nfin s).
  { rewrite <- app_length, (Permutation_length Hacc), app_length.
    rewrite (rinv_count _ _ _ HR1), Hr1. rewrite nfin_fin. lia. }
  pose proof (fin_le_length root) as Hfr. pose proof (fin_le_length s) as Hfs.
  rewrite <- nfin_fin in Hfs. unfold max_size.
  destruct (Nat.leb_spec (batch h) (nfin s)) as [Hov|Hov].
  - (* the buffer overflows *)
    set (blk2 := firstn (batch h) s). set (buf2 := skipn (batch h) s).
    assert (Es : blk2 ++ buf2 = s) by apply firstn_skipn.
    assert (L2 : length blk2 = batch h) by (unfold blk2; rewrite firstn_length; lia).
    assert (L3 : length buf2 = length s - batch h) by (unfold buf2; rewrite skipn_length; lia).
    assert (S2 : sorted blk2 /\ sorted buf2 /\ below blk2 buf2) by (apply sorted_app; rewrite Es; exact Ss).
    destruct S2 as (S2 & S3 & S4).
    assert (N2 : nonn blk2 /\ nonn buf2) by (apply nonn_app; rewrite Es; exact Ns).
    assert (F2 : allfin blk2) by (apply sorted_firstn_fin; auto).
    assert (Hb2 : below root blk2 /\ below root buf2) by (apply below_app_r; rewrite Es; exact Hrs).
    set (h2 := MkHeap rs1 buf2 (hsize h) (nfin buf2) (branch h) (batch h)).
    pose proof (heapify_ok h2 blk2) as HH. cbn [h2 rows batch hsize branch] in HH. fold h2 in HH.
    specialize (HH HB ltac:(lia) HR1 Hsm ltac:(repeat split; tauto) F2
                  ltac:(rewrite Hr1; tauto)).
    destruct HH as (rs' & ev & E1 & E2 & E3 & E4 & E5 & E6 & E7 & E8 & E9 & E10).
    destruct (insert_heapify h2 blk2) as [h3 added] eqn:EI. cbn [fst snd] in *. subst h3.
    cbn [set_rows rows buf hsize bsize branch batch h2] in *.
    split; [|split; [reflexivity|split; [reflexivity|]]].
    { constructor; cbn [rows buf hsize bsize branch batch]; auto; try lia; [tauto|].
      rewrite E4, Hr1. tauto. }
    cbn [buf bsize]. split; [lia|]. split; [reflexivity|].
    unfold contents at 2. cbn [rows buf].
    assert (EF : is_full h2 = (branch h - 1 <=? hsize h)) by reflexivity.
    assert (Hrf : allfin root).
    { apply (below_fin _ blk2); [apply (good_nonempty (batch h)); [lia|repeat split; tauto]|tauto|tauto|tauto]. }
    assert (Hacc2 : Permutation (fin (concat rs' ++ buf2) ++ fin ev) (contents h ++ fin block)).
    { rewrite Hacc. rewrite <- Es. rewrite !fin_app.
      pose proof (fin_perm _ _ E5) as E5'. rewrite !fin_app in E5'.
      rewrite (app_assoc (fin (concat rs1))), <- E5'. rewrite <- !app_assoc.
      apply Permutation_app_head. apply Permutation_app_comm. }
    exists (fin ev). split.
    { constructor; [exact Hacc2|]. exists root, (fin (concat (tl rs') ++ buf2)). split; [|split].
      - destruct rs' as [|r0 t]; [cbn [length] in *; lia|]. unfold rowi in E4 at 1. cbn [nth] in E4.
        subst r0. cbn [tl concat]. rewrite <- app_assoc, fin_app, Hr1, (fin_all root Hrf). reflexivity.
      - rewrite (fin_all root Hrf) in Hcount. destruct Groot as (Gl & _). lia.
      - apply below_app_r. split.
        + apply (below_sub root root (concat (tl rs') ++ buf2)); auto; [apply fin_sub|].
          apply below_app_r. split; [|tauto].
          rewrite <- Hr1, <- E4. destruct E3. apply (root_below_rest (batch h)); auto.
        + apply (below_sub root root ev); auto; [apply fin_sub|]. rewrite <- Hr1, <- E4. exact E6. }
    intros _. split.
    + intros Hc. destruct (is_full h2) eqn:Ef; [|apply fin_none; exact E8].
      symmetry in EF. apply Nat.leb_le in EF. rewrite (fin_all root Hrf) in Hcount.
      destruct Groot as (Gl & _). assert (Hh : hsize h = branch h - 1) by lia. rewrite Hh in Hcount. nia.
    + destruct E7 as (E7 & _). pose proof (fin_le_length ev). lia.
  - (* no overflow *)
    set (k := length s - batch h).
    set (buf2 := firstn k s). set (blk2 := skipn k s).
    assert (Es : buf2 ++ blk2 = s) by apply firstn_skipn.
    assert (L3 : length buf2 = length s - batch h) by (unfold buf2, k; rewrite firstn_length; lia).
    assert (S2 : sorted buf2 /\ sorted blk2 /\ below buf2 blk2) by (apply sorted_app; rewrite Es; exact Ss).
    assert (N2 : nonn buf2 /\ nonn blk2) by (apply nonn_app; rewrite Es; exact Ns).
    assert (Hb2 : below root buf2 /\ below root blk2) by (apply below_app_r; rewrite Es; exact Hrs).
    cbn [rows buf hsize bsize branch batch]. rewrite Nat.add_0_r.
    split; [|split; [reflexivity|split; [reflexivity|]]].
    { constructor; cbn [rows buf hsize bsize branch batch]; auto; try lia; [tauto|].
      rewrite Hr1. tauto. }
    split; [lia|]. split; [reflexivity|].
    unfold contents at 2. cbn [rows buf].
    exists (fin blk2). split.
    { constructor.
      - rewrite Hacc, <- Es, !fin_app, <- app_assoc. reflexivity.
      - exists (fin root), (fin (concat (tl rs1) ++ buf2)). split; [|split].
        + destruct rs1 as [|r0 t]; [cbn [length] in *; lia|]. unfold rowi in Hr1. cbn [nth] in Hr1. subst r0.
          cbn [tl concat]. rewrite <- app_assoc, !fin_app. reflexivity.
        + destruct (Nat.eq_dec (length (fin root)) (batch h)) as [Ee|Ee]; [lia|].
          destruct Groot as (Gl & Gs & Gn).
          assert (Hz : allinf s) by (apply (below_inf_tail (batch h) root); [repeat split; assumption|lia|exact Hrs]).
          assert (Hz0 : hsize h = 0).
          { destruct (Nat.eq_dec (hsize h) 0) as [E0|E0]; [exact E0|]. exfalso. apply Ee.
            pose proof (rinv_root_full _ _ _ HB HR1 ltac:(lia)) as Hf. rewrite Hr1 in Hf.
            rewrite (fin_all root Hf). exact Gl. }
          rewrite nfin_fin, (fin_none s Hz), Hz0 in Hcount. cbn [length] in Hcount. lia.
        + apply (below_sub root (fin root) ((concat (tl rs1) ++ buf2) ++ blk2)).
          * apply fin_sub.
          * intros x Hx. rewrite <- fin_app in Hx. apply fin_sub. exact Hx.
          * apply below_app_r. split; [|tauto]. apply below_app_r. split; [|tauto].
            rewrite <- Hr1. destruct HR1. apply (root_below_rest (batch h)); auto. }
    intros Hlong.
    assert (I2 : allinf blk2) by (apply sorted_skipn_inf; auto; unfold k; lia).
    rewrite (fin_none blk2 I2). split; [reflexivity|cbn [length]; lia].
Qed.

Lemma del_heapify_any h : GInv h -> 1 <= hsize h ->
  exists h', delete_heapify h = Some h' /\ GInv h' /\ length (buf h') = length (buf h) /\
    (bsize h = nfin (buf h) -> bsize h' = nfin (buf h')) /\ batch h' = batch h /\ branch h' = branch h /\
    Permutation (contents h) (rowi (rows h) 0 ++ contents h').
Proof.
  intros [HB HL HR Hbuf Hrb Hbs Hsm] Hn1. pose proof HR as [HG Hn HF HE HO].
  unfold delete_heapify. rewrite row_at_in by lia.
  set (lr := rowi (rows h) (hsize h)).
  assert (Glr : good (batch h) lr) by (apply HG; lia).
  assert (Flr : allfin lr) by (apply HF; lia).
  destruct (msplit lr (buf h)) as [root buf'] eqn:EM.
  pose proof (msplit_spec _ _ _ _ EM) as (M1 & M2 & M3 & M4).
  pose proof (msplit_parts _ _ _ _ EM) as (M5 & M6 & M7).
  pose proof (msplit_nonn _ _ _ _ EM (proj2 (proj2 Glr)) (proj2 Hbuf)) as (M8 & M9).
  assert (Froot : allfin root).
  { apply (msplit_lo_fin _ _ _ _ EM); [apply Glr|apply Hbuf|]. rewrite fin_app, (fin_all lr Flr), app_length. lia. }
  assert (Groot : good (batch h) root) by (destruct Glr as (? & _); split; [lia|split; assumption]).
  set (rs1 := upd (rows h) (hsize h) (clear_keys lr)).
  set (rs := upd rs1 0 root).
  assert (L1 : length rs1 = length (rows h)) by apply upd_length.
  assert (L2 : length rs = length (rows h)) by (unfold rs; rewrite upd_length; exact L1).
  assert (R : forall i, rowi rs i = if 0 =? i then root else if hsize h =? i then clear_keys lr else rowi (rows h) i).
  { intros i. unfold rs. rewrite rowi_upd by lia. unfold rs1. rewrite rowi_upd by lia. reflexivity. }
  assert (Ro : forall i, i <> 0 -> i <> hsize h -> rowi rs i = rowi (rows h) i).
  { intros i H1 H2. rewrite R. destruct (Nat.eqb_spec 0 i); [congruence|]. destruct (Nat.eqb_spec (hsize h) i); [congruence|reflexivity]. }
  assert (R0 : rowi rs 0 = root) by (rewrite R; reflexivity).
  assert (Gclear : good (batch h) (clear_keys lr)).
  { split; [rewrite clear_length; apply Glr|]. split; [apply sorted_allinf, allinf_clear|apply allinf_nonn, allinf_clear]. }
  assert (Hgood : goodrows (batch h) rs).
  { apply goodrows_upd; [|exact Groot]. apply goodrows_upd; assumption. }
  assert (Hfull : forall i, 1 <= i <= hsize h - 1 -> allfin (rowi rs i)).
  { intros i Hi. rewrite Ro by lia. apply HF; lia. }
  assert (Hempty : forall i, hsize h - 1 < i < length rs -> allinf (rowi rs i)).
  { intros i Hi. rewrite R. destruct (Nat.eqb_spec 0 i); [lia|].
    destruct (Nat.eqb_spec (hsize h) i); [apply allinf_clear|]. apply HE; lia. }
  assert (HI0 : SInv (batch h) (hsize h - 1) rs buf' (0, root, [])).
  { assert (EG : ghost rs (0, root, []) = rs).
    { unfold ghost, scatter_rows. cbn [fold_left]. rewrite <- R0. unfold rowi. apply upd_same. }
    constructor; rewrite ?EG; cbn [fst snd]; auto; try lia.
    - intros i Hi Hp. pose proof (par_lt i ltac:(lia)) as Hlt.
      destruct (Nat.eq_dec i (hsize h)) as [->|Hne].
      + apply below_allinf. apply Hempty; lia.
      + destruct (Nat.eq_dec (par i) (hsize h)) as [E|E].
        * apply below_allinf. apply Hempty; lia.
        * rewrite !Ro by lia. apply HO; lia.
    - rewrite R0. exact M7.
    - intros p [].
    - constructor.
    - exists 0. split; [reflexivity|cbn [Nat.pow]; lia]. }
  rewrite <- HL, <- L2.
  destruct (while_total (SInv (batch h) (hsize h - 1) rs buf') (fun st => length rs - fst (fst st))
             (sift_cond rs) (sift_body (max_depth (length rs) * 2 + 1) rs)
             ltac:(intros st Hst Hcnd; apply (sift_step (batch h) (hsize h - 1) rs buf'); auto; lia)
             (length rs) (0, root, []) HI0 ltac:(cbn [fst]; lia)) as (st & EW & HI & HC).
  rewrite EW.
  assert (HRI : RInv (batch h) (hsize h - 1) (ghost rs st)).
  { apply (sift_done (batch h) (hsize h - 1) rs buf'); auto; lia. }
  destruct st as [[c cur] ups].
  pose proof HI as [I1 I2 I3 I4 I5 I6 I7 I8 I9 I10 I11 I12]. cbn [fst snd] in *.
  destruct I12 as (k & K1 & K2).
  assert (Kd : k < max_depth (length rs)).
  { unfold max_depth. apply (Nat.pow_lt_mono_r_iff 2); [lia|].
    pose proof (Nat.log2_log2_up_spec (length rs + 1) ltac:(lia)) as [_ HH]. lia. }
  unfold write_update. destruct (Nat.ltb_spec (length ups) (max_depth (length rs) * 2 + 1)) as [_|]; [|lia].
  assert (EG : scatter_rows rs (ups ++ [(c, cur)]) = ghost rs (c, cur, ups)).
  { rewrite scatter_app. reflexivity. }
  rewrite EG. set (T := ghost rs (c, cur, ups)) in *.
  assert (HT : length T = length (rows h)) by (unfold T, ghost; rewrite upd_length, scatter_length; exact L2).
  assert (Hnf : nfin buf' = nfin (buf h)).
  { rewrite !nfin_fin.
    pose proof (Permutation_length (fin_perm _ _ M1)) as HH. rewrite !fin_app, !app_length in HH.
    rewrite (fin_all root Froot), (fin_all lr Flr) in HH. lia. }
  eexists. split; [reflexivity|]. split; [|split; [cbn [buf]; lia|split; [cbn [buf bsize]; lia|split; [reflexivity|split; [cbn [branch]; lia|]]]]].
  - constructor; cbn [rows buf hsize bsize branch batch]; auto; try lia.
    unfold small in *. lia.
  - unfold contents. cbn [rows buf]. rewrite !fin_app. rewrite (fin_perm _ _ I8).
    assert (Hs : Permutation (concat rs ++ rowi rs1 0 ++ rowi (rows h) (hsize h)) (concat (rows h) ++ root ++ clear_keys lr)).
    { pose proof (concat_swap (rows h) (hsize h) (clear_keys lr) ltac:(lia)) as S1. fold rs1 in S1.
      pose proof (concat_swap rs1 0 root ltac:(lia)) as S2. fold rs in S2.
      exact (perm_chain _ _ _ _ _ _ _ S1 S2). }
    assert (E1 : rowi rs1 0 = rowi (rows h) 0).
    { unfold rs1. rewrite rowi_upd by lia. destruct (Nat.eqb_spec (hsize h) 0); [lia|reflexivity]. }
    rewrite E1 in Hs. fold lr in Hs. apply fin_perm in Hs. rewrite !fin_app in Hs.
    rewrite (fin_none (clear_keys lr)), app_nil_r in Hs by apply allinf_clear.
    pose proof (rinv_root_full _ _ _ HB HR Hn1) as Fr0.
    rewrite (fin_all _ Fr0) in Hs.
    apply (Permutation_app_inv_r (fin root)).
    transitivity (rowi (rows h) 0 ++ fin (concat rs) ++ fin lr ++ fin (buf h)).
    + transitivity ((fin (concat (rows h)) ++ fin root) ++ fin (buf h)); [perm|]. rewrite <- Hs. perm.
    + pose proof (fin_perm _ _ M1) as M1'. rewrite !fin_app in M1'.
      transitivity (rowi (rows h) 0 ++ fin (concat rs) ++ (fin root ++ fin buf')).
      * do 2 apply Permutation_app_head. symmetry. exact M1'.
      * perm.
Qed.


Lemma delete_any h : GInv h ->
  exists h' out, delete_mins h = Some (h', out) /\ GInv h' /\ length (buf h') = length (buf h) /\
    (bsize h = nfin (buf h) -> length (buf h) <= batch h -> bsize h' = nfin (buf h')) /\ batch h' = batch h /\ branch h' = branch h /\
    del_spec (batch h) (contents h) out (contents h').
Proof.
  intros HI. pose proof HI as [HB HL HR Hbuf Hrb Hbs Hsm]. pose proof HR as [HG Hn HF HE HO].
  unfold delete_mins. rewrite row_at_in by lia.
  assert (HbR : below (rowi (rows h) 0) (concat (tl (rows h)) ++ buf h)).
  { apply below_app_r. split; [|exact Hrb]. apply (root_below_rest (batch h)); assumption. }
  assert (HcR : contents h = fin (rowi (rows h) 0) ++ fin (concat (tl (rows h)) ++ buf h)).
  { rewrite contents_root by lia. rewrite fin_app. reflexivity. }
  destruct (Nat.eqb_spec (hsize h) 0) as [E|E].
  - unfold make_empty. rewrite row_at_in by lia.
    destruct (msplit (clear_keys (rowi (rows h) 0)) (buf h)) as [root buf'] eqn:EM.
    pose proof (msplit_spec _ _ _ _ EM) as (M1 & M2 & M3 & M4). rewrite clear_length in M3.
    pose proof (msplit_parts _ _ _ _ EM) as (M5 & M6 & M7).
    pose proof (HG 0 ltac:(lia)) as (G1 & G2 & G3). destruct Hbuf as (B2 & B3).
    pose proof (msplit_nonn _ _ _ _ EM (allinf_nonn _ (allinf_clear _)) B3) as (M8 & M9).
    assert (Hempty : forall i, 1 <= i < length (rows h) -> allinf (rowi (rows h) i)) by (intros i Hi; apply HE; lia).
    eexists. exists (rowi (rows h) 0). split; [reflexivity|].
    split; [|split; [cbn [buf]; lia|split; [|split; [reflexivity|split; [reflexivity|]]]]].
    + constructor; cbn [rows buf hsize bsize branch batch]; auto.
      * rewrite upd_length. exact HL.
      * constructor.
        -- apply goodrows_upd; [exact HG|]. split; [lia|split; assumption].
        -- rewrite upd_length. exact Hn.
        -- intros i Hi. lia.
        -- intros i Hi. rewrite upd_length in Hi. rewrite rowi_upd by lia.
           destruct (Nat.eqb_spec 0 i); [lia|]. apply Hempty; lia.
        -- apply ordered_upd; auto; [lia|lia|]. intros c Hc _. apply below_allinf. apply Hempty; lia.
      * rewrite rowi_upd by lia. exact M7.
      * lia.
    + cbn [bsize buf]. intros _ Hlen. symmetry. rewrite nfin_fin.
      rewrite (fin_none buf'); [reflexivity|].
      apply (msplit_hi_inf _ _ _ _ EM (allinf_nonn _ (allinf_clear _)) B3).
      rewrite fin_app, (fin_none (clear_keys _)), clear_length by apply allinf_clear. cbn [app].
      pose proof (fin_le_length (buf h)). lia.
    + assert (Hrest : fin (concat (tl (rows h))) = []).
      { apply fin_none. intros x Hx. apply In_concat_tl in Hx as (i & Hi & Hx). exact (Hempty i Hi x Hx). }
      apply (del_out _ _ _ (concat (tl (rows h)) ++ buf h)); auto.
      * apply HG; lia.
      * unfold contents. cbn [rows buf]. destruct (rows h) as [|r0 t]; [cbn [length] in *; lia|].
        cbn [upd concat tl] in *. rewrite !fin_app, Hrest, !app_nil_r. cbn [app].
        pose proof (fin_perm _ _ M1) as M1'. rewrite !fin_app in M1'.
        rewrite (fin_none (clear_keys _)) in M1' by apply allinf_clear. exact M1'.
      * rewrite HcR. reflexivity.
  - destruct (del_heapify_any h HI ltac:(lia)) as (h' & E1 & E2 & E2a & E2b & E3 & E4 & E5).
    rewrite E1. exists h', (rowi (rows h) 0). split; [reflexivity|]. split; [exact E2|].
    split; [exact E2a|]. split; [intros Hb _; exact (E2b Hb)|]. split; [exact E3|]. split; [exact E4|].
    pose proof (rinv_root_full _ _ _ HB HR ltac:(lia)) as Fr0.
    apply (del_out _ _ _ (concat (tl (rows h)) ++ buf h)); auto.
    + apply HG; lia.
    + rewrite HcR in E5. rewrite (fin_all _ Fr0) in E5. apply Permutation_app_inv_l in E5. symmetry. exact E5.
    + rewrite HcR. reflexivity.
Qed.


Lemma contents_count h : GInv h ->
  length (contents h) = length (fin (rowi (rows h) 0)) + hsize h * batch h + nfin (buf h).
Proof. intros HI. destruct HI. unfold contents. rewrite fin_app, app_length, (rinv_count _ _ _ g_rows0), nfin_fin. reflexivity. Qed.

Lemma size_any h : GInv h -> (Z.of_nat (length (contents h)) < 2 ^ 31)%Z ->
  size h = Z.of_nat (length (contents h) - nfin (buf h) + bsize h).
Proof.
  intros HI Hc32. pose proof (contents_count h HI) as Hc. destruct HI as [HB HL HR Hbuf Hrb Hbs Hsm].
  pose proof HR as [HG Hn HF HE HO].
  unfold size. rewrite row_at_in by lia.
  destruct (HG 0 ltac:(lia)) as (G1 & _).
  destruct (Nat.eqb_spec (hsize h) 0) as [E|E].
  - rewrite E in Hc. pose proof (nfin_fin (rowi (rows h) 0)) as Hr. rewrite i32_small; lia.
  - rewrite (fin_all (rowi (rows h) 0)) in Hc by (apply (rinv_root_full _ _ _ HB HR); lia).
    rewrite G1 in Hc.
    assert (He : ((Z.of_nat (hsize h) + 1) * Z.of_nat (batch h) + Z.of_nat (nfin (buf h)) = Z.of_nat (length (contents h)))%Z) by nia.
    set (p := ((Z.of_nat (hsize h) + 1) * Z.of_nat (batch h))%Z) in *.
    assert (Hp : (0 <= p)%Z) by (unfold p; nia). clearbody p.
    rewrite (u32_small p) by (unfold U32; lia).
    rewrite u32_small by (unfold U32; lia). rewrite i32_small by lia. lia.
Qed.

Lemma size_near h : GInv h -> (Z.of_nat (length (contents h)) < 2 ^ 31)%Z ->
  (Z.of_nat (Nat.min (batch h) (length (contents h))) <= size h <= Z.of_nat (length (contents h)))%Z.
Proof.
  intros HI Hc32. rewrite (size_any h HI Hc32). pose proof (contents_count h HI) as Hc.
  destruct HI as [HB HL HR Hbuf Hrb Hbs Hsm]. pose proof HR as [HG Hn HF HE HO].
  pose proof (HG 0 ltac:(lia)) as GR. pose proof GR as (G1 & G2 & G3).
  pose proof (fin_le_length (rowi (rows h) 0)) as Hfl.
  destruct (Nat.eq_dec (length (fin (rowi (rows h) 0))) (batch h)) as [E|E]; [nia|].
  assert (Hz : allinf (buf h)) by (apply (below_inf_tail (batch h) (rowi (rows h) 0)); [exact GR|lia|exact Hrb]).
  assert (Hn0 : nfin (buf h) = 0) by (rewrite nfin_fin, (fin_none _ Hz); reflexivity). lia.
Qed.

Lemma any_ins_count B bag block bag' dropped : any_ins B bag block bag' dropped ->
  length bag' <= length bag + length (fin block).
Proof. intros [H _]. apply Permutation_length in H. rewrite !app_length in H. lia. Qed.

Definition keeps_if (long : bool) (B cap : nat) (bag block dropped : row) : Prop :=
  long = true ->
  (length bag + length (fin block) < cap + B -> dropped = []) /\ length dropped <= B.
Definition near_if (short : bool) (B : nat) (n : nat) (sz : Z) : Prop :=
  (Z.of_nat (Nat.min B n) <= sz <= Z.of_nat n)%Z /\ (short = true -> sz = Z.of_nat n).

Lemma run_any long short ops : forall h, GInv h ->
  (Z.of_nat (length (contents h) + offered_items ops) < 2 ^ 31)%Z ->
  Forall any_op ops ->
  (long = true -> batch h - 1 <= length (buf h) /\ Forall (block_len (fun m => batch h <= m)) ops) ->
  (short = true -> length (buf h) <= batch h /\ bsize h = nfin (buf h) /\
     Forall (block_len (fun m => m <= batch h)) ops) ->
  exists h' obs, run h ops = Some (h', obs) /\ GInv h' /\ batch h' = batch h /\
    length (contents h') <= length (contents h) + offered_items ops /\
    any_trace (batch h) (keeps_if long (batch h) (max_size h)) (near_if short (batch h))
      (contents h) ops obs (contents h').
Proof.
  induction ops as [|o ops IH]; intros h HI H32 HF HLg HSh.
  - exists h, []. split; [reflexivity|]. split; [exact HI|]. split; [reflexivity|]. split; [lia|constructor].
  - inversion HF as [|? ? Ho HF']; subst. destruct o as [block|]; cbn [run].
    + change (offered_items (Ins block :: ops)) with (length (fin block) + offered_items ops) in *.
      cbn [any_op] in Ho.
      destruct (insert_any h block HI Ho) as (I1 & I2 & I3 & I4 & I5 & dropped & I6 & I7).
      pose proof (any_ins_count _ _ _ _ _ I6) as Hcnt.
      destruct (IH (insert h block) I1 ltac:(lia) HF') as (h' & obs & E1 & E2 & E3 & E4 & E5).
      { intros Hl. destruct (HLg Hl) as (Hb & Hall). inversion Hall as [|? ? Hm Hall']; subst. cbn [block_len] in Hm.
        rewrite I2, I4. split; [lia|exact Hall']. }
      { intros Hl. destruct (HSh Hl) as (Hb & _ & Hall). inversion Hall as [|? ? Hm Hall']; subst. cbn [block_len] in Hm.
        rewrite I2, I4. split; [lia|]. split; [exact I5|exact Hall']. }
      rewrite E1. do 2 eexists. split; [reflexivity|]. split; [exact E2|]. split; [congruence|].
      split; [lia|].
      rewrite (size_any _ I1) by lia. rewrite I5.
      assert (Hle : nfin (buf (insert h block)) <= length (contents (insert h block))).
      { rewrite (contents_count _ I1). lia. }
      rewrite Nat.sub_add by exact Hle.
      apply (at_ins _ _ _ _ _ (contents (insert h block)) dropped); [exact I6| |].
      * intros Hl. destruct (HLg Hl) as (Hb & Hall). inversion Hall as [|? ? Hm Hall']; subst. cbn [block_len] in Hm.
        apply I7. lia.
      * unfold max_size in *. rewrite I2, I3 in E5. exact E5.
    + change (offered_items (Del :: ops)) with (offered_items ops) in *.
      destruct (delete_any h HI) as (h1 & out & D0 & I1 & I2 & I3 & I4 & I5 & I6). rewrite D0.
      assert (Hcnt : length (contents h1) <= length (contents h)).
      { destruct I6 as (ret & pad & _ & _ & _ & _ & _ & HP & _). apply Permutation_length in HP. rewrite app_length in HP. lia. }
      destruct (IH h1 I1 ltac:(lia) HF') as (h' & obs & E1 & E2 & E3 & E4 & E5).
      { intros Hl. destruct (HLg Hl) as (Hb & Hall). inversion Hall as [|? ? Hm Hall']; subst.
        rewrite I4, I2. split; [lia|exact Hall']. }
      { intros Hl. destruct (HSh Hl) as (Hb & Hbs & Hall). inversion Hall as [|? ? Hm Hall']; subst.
        rewrite I4, I2. split; [lia|]. split; [exact (I3 Hbs Hb)|exact Hall']. }
      rewrite E1. do 2 eexists. split; [reflexivity|]. split; [exact E2|]. split; [congruence|].
      split; [lia|].
      apply (at_del _ _ _ _ _ (contents h1)); [exact I6| |].
      * split; [rewrite <- I4; apply size_near; [exact I1|lia]|].
        intros Hl. destruct (HSh Hl) as (Hb & Hbs & Hall). rewrite (size_any _ I1) by lia. rewrite (I3 Hbs Hb).
        f_equal. rewrite (contents_count _ I1). lia.
      * unfold max_size in *. rewrite I4, I5 in E5. exact E5.
Qed.

Lemma build_any (dv : V) total B : params_ok total B ->
  GInv (build dv total B) /\ contents (build dv total B) = [] /\ batch (build dv total B) = B /\
  max_size (build dv total B) = (total + B - 1) / B * B /\ length (buf (build dv total B)) = B - 1 /\
  bsize (build dv total B) = nfin (buf (build dv total B)).
Proof.
  intros HP. destruct (build_fits dv total B HP) as [_ Hsm]. destruct HP as (HB & Ht & _).
  destruct (build_ok dv total B HB Ht Hsm) as ([J1 J2 J3 J4 J5 J6 J7] & E0 & E1 & E2).
  split; [constructor; auto; [destruct J4; tauto|lia]|]. split; [exact E0|]. split; [exact E1|].
  unfold max_size. rewrite E1, E2. split; [reflexivity|]. split; [|exact J6].
  destruct J4 as (J4 & _). rewrite J4, E1. reflexivity.
Qed.

(** C64: insert blocks of any lengths, in any history.  No insert invents or duplicates an item and the
    batch_size smallest items always survive it; delete_mins still returns exactly the smallest items, in
    order; the reported size is exact after every insert, and after a delete lies between
    min(batch_size, number stored) and the number stored. *)
Theorem C64_blocks_of_any_length :
  forall (dv : V) total B ops, params_ok total B -> Forall any_op ops ->
    (Z.of_nat (offered_items ops) < 2 ^ 31)%Z ->
    exists h obs, run (build dv total B) ops = Some (h, obs) /\
      any_trace B (fun _ _ _ => True)
        (fun n sz => (Z.of_nat (Nat.min B n) <= sz <= Z.of_nat n)%Z) [] ops obs (contents h).
Proof.
  intros dv total B ops HP HF H32. destruct (build_any dv total B HP) as (HI & E0 & E1 & E2 & E3 & E4).
  destruct (run_any false false ops _ HI ltac:(rewrite E0; exact H32) HF ltac:(discriminate) ltac:(discriminate))
    as (h & obs & R1 & R2 & R3 & R4 & R5).
  exists h, obs. split; [exact R1|]. rewrite E0, E1 in R5. 
  eapply any_trace_mono; [| |exact R5]; cbv beta; unfold keeps_if, near_if; tauto.
Qed.

(** C64: if every block has at least batch_size slots, nothing is lost while the items fit, and an insert
    into a full queue loses at most batch_size items. *)
Theorem C64_long_blocks_lose_nothing :
  forall (dv : V) total B ops, params_ok total B -> Forall any_op ops ->
    (Z.of_nat (offered_items ops) < 2 ^ 31)%Z ->
    Forall (block_len (fun m => B <= m)) ops ->
    let cap := (total + B - 1) / B * B in
    exists h obs, run (build dv total B) ops = Some (h, obs) /\
      any_trace B
        (fun bag block dropped => (length bag + length (fin block) < cap + B -> dropped = []) /\ length dropped <= B)
        (fun n sz => (Z.of_nat (Nat.min B n) <= sz <= Z.of_nat n)%Z) [] ops obs (contents h).
Proof.
  intros dv total B ops HP HF H32 HB cap. destruct (build_any dv total B HP) as (HI & E0 & E1 & E2 & E3 & E4).
  destruct (run_any true false ops _ HI ltac:(rewrite E0; exact H32) HF
    ltac:(intros _; rewrite E1, E3; split; [lia|exact HB]) ltac:(discriminate))
    as (h & obs & R1 & R2 & R3 & R4 & R5).
  exists h, obs. split; [exact R1|]. rewrite E0, E1, E2 in R5. 
  eapply any_trace_mono; [| |exact R5]; cbv beta; unfold keeps_if, near_if; tauto.
Qed.

(** C64: if no block exceeds batch_size slots, the reported size is always exact. *)
Theorem C64_size_exact_without_oversize_blocks :
  forall (dv : V) total B ops, params_ok total B -> Forall any_op ops ->
    (Z.of_nat (offered_items ops) < 2 ^ 31)%Z ->
    Forall (block_len (fun m => m <= B)) ops ->
    exists h obs, run (build dv total B) ops = Some (h, obs) /\
      any_trace B (fun _ _ _ => True) (fun n sz => sz = Z.of_nat n) [] ops obs (contents h).
Proof.
  intros dv total B ops HP HF H32 HB. destruct (build_any dv total B HP) as (HI & E0 & E1 & E2 & E3 & E4).
  destruct (run_any false true ops _ HI ltac:(rewrite E0; exact H32) HF ltac:(discriminate)
    ltac:(intros _; rewrite E1, E3, E4; split; [lia|split; [reflexivity|exact HB]]))
    as (h & obs & R1 & R2 & R3 & R4 & R5).
  exists h, obs. split; [exact R1|]. rewrite E0, E1 in R5. 
  eapply any_trace_mono; [| |exact R5]; cbv beta; unfold keeps_if, near_if; tauto.
Qed.

(** [while queue.size > 0: queue, keys, vals = queue.delete_mins()] *)
Fixpoint drain (fuel : nat) h : option (list row) :=
  if (0 <? size h)%Z then
    match fuel with
    | O => None
    | S f => match delete_mins h with
             | None => None
             | Some (h', out) => match drain f h' with Some outs => Some (out :: outs) | None => None end
             end
    end
  else Some [].

Lemma drain_any fuel : forall h, GInv h -> (Z.of_nat (length (contents h)) < 2 ^ 31)%Z ->
  length (contents h) <= fuel ->
  exists outs, drain fuel h = Some outs /\ sorted (fin (concat outs)) /\ Permutation (fin (concat outs)) (contents h).
Proof.
  induction fuel as [|f IH]; intros h HI H32 Hf; cbn [drain];
    pose proof (size_near h HI H32) as Hs; pose proof (g_B _ HI) as HB;
    destruct (Z.ltb_spec 0 (size h)) as [Hp|Hp].
  - lia.
  - exists []. split; [reflexivity|]. destruct (contents h); [|cbn [length] in Hf; lia].
    split; constructor.
  - destruct (delete_any h HI) as (h1 & out & D0 & I1 & _ & _ & I4 & I5 & I6). rewrite D0.
    destruct I6 as (ret & pad & P1 & P2 & P3 & P4 & P5 & P6 & P7).
    pose proof (Permutation_length P6) as HL. rewrite app_length in HL.
    destruct (IH h1 I1 ltac:(lia) ltac:(lia)) as (outs & O1 & O2 & O3). rewrite O1.
    exists (out :: outs). split; [reflexivity|]. cbn [concat]. rewrite fin_app.
    assert (Hret : fin out = ret).
    { rewrite P1, fin_app, (fin_none pad) by exact P4. rewrite app_nil_r.
      apply fin_all. intros x Hx.
      assert (Hin : In x (contents h)) by (eapply Permutation_in; [symmetry; exact P6|apply in_or_app; left; exact Hx]).
      unfold contents in Hin. apply fin_In in Hin. apply Hin. }
    rewrite Hret. split.
    + apply sorted_app. split; [exact P5|]. split; [exact O2|].
      eapply below_perm_r; [symmetry; exact O3|exact P7].
    + rewrite O3. symmetry. exact P6.
  - exists []. split; [reflexivity|].
    assert (Hz : length (contents h) = 0) by lia. destruct (contents h); [|cbn [length] in Hz; lia].
    split; constructor.
Qed.

(** C64: whatever the block lengths, [size > 0] tells whether something is stored, so the usual drain loop
    ends, returns every stored item, and returns them in order. *)
Theorem C64_drain_loop_returns_everything :
  forall (dv : V) total B ops h obs, params_ok total B -> Forall any_op ops ->
    (Z.of_nat (offered_items ops) < 2 ^ 31)%Z ->
    run (build dv total B) ops = Some (h, obs) ->
    ((0 < size h)%Z <-> contents h <> []) /\
    exists outs, drain (length (contents h)) h = Some outs /\
      sorted (fin (concat outs)) /\ Permutation (fin (concat outs)) (contents h).
Proof.
  intros dv total B ops h obs HP HF H32 HR. destruct (build_any dv total B HP) as (HI & E0 & E1 & E2 & E3 & E4).
  destruct (run_any false false ops _ HI ltac:(rewrite E0; exact H32) HF ltac:(discriminate) ltac:(discriminate))
    as (h' & obs' & R1 & R2 & R3 & R4 & _).
  rewrite HR in R1. injection R1 as <- <-. rewrite E0 in R4. cbn [length] in R4.
  assert (Hc : (Z.of_nat (length (contents h)) < 2 ^ 31)%Z) by lia.
  split; [|apply drain_any; [exact R2|exact Hc|lia]].
  pose proof (size_near h R2 Hc) as Hs. pose proof (g_B _ R2) as HB.
  split.
  - intros Hp Hn. rewrite Hn in Hs. cbn [length] in Hs. lia.
  - intros Hn. destruct (contents h) as [|x t]; [congruence|]. cbn [length] in *. lia.
Qed.
End L.

(** ** Refutations: what insert's signature suggests but is false. *)

Definition kv (k : Z) : key * nat := (Fin k, Z.to_nat k).

(** C64: a block shorter than batch_size can lose items of a nearly empty queue: batch_size 4, capacity 40,
    three inserts of two items each; the last two are gone.  (Padding with [make_batched] avoids it: C15.) *)
Theorem C64_short_blocks_lose_items :
  exists h obs,
    run (build 0 40 4) [Ins [kv 1; kv 2]; Ins [kv 3; kv 4]; Ins [kv 5; kv 6]] = Some (h, obs) /\
    map snd obs = [2%Z; 4%Z; 4%Z] /\ max_size h = 40 /\
    contents h = [kv 1; kv 2; kv 3; kv 4].
Proof. do 2 eexists. split; [vm_compute; reflexivity|]. vm_compute. auto. Qed.

(** C64: after a block longer than batch_size the reported size can be too small: 9 items, two
    delete_mins of 2; 5 are stored, the queue reports 2. *)
Theorem C64_oversize_blocks_make_size_undercount :
  exists h obs,
    run (build 0 40 2) [Ins (map kv [1; 2; 3; 4; 5; 6; 7; 8; 9]%Z); Del; Del] = Some (h, obs) /\
    map snd obs = [9%Z; 7%Z; 2%Z] /\ length (contents h) = 5.
Proof. do 2 eexists. split; [vm_compute; reflexivity|]. vm_compute. auto. Qed.

(** C64: ... and the drain loop still returns all of them. *)
Example C64_nonvacuous :
  params_ok 40 2 /\
  Forall (block_len (fun m => 2 <= m)) [Ins (map kv [9; 3; 7; 1; 5]%Z); Del; Ins (map kv [4; 4; 2]%Z)] /\
  Forall (block_len (fun m => m <= 2)) [Ins [kv 3]; Del; Ins (map kv [4; 2]%Z)] /\
  match run (build 0 40 2) [Ins (map kv [1; 2; 3; 4; 5; 6; 7; 8; 9]%Z); Del; Del] with
  | Some (h, _) => match drain 5 h with
                   | Some outs => map fst (fin (concat outs)) = map Fin [5; 6; 7; 8; 9]%Z
                   | None => False
                   end
  | None => False
  end.
Proof.
  split; [unfold params_ok; lia|]. split; [repeat constructor; cbn; lia|].
  split; [repeat constructor; cbn; lia|]. vm_compute. reflexivity.
Qed.
Print Assumptions C64_blocks_of_any_length.
Print Assumptions C64_long_blocks_lose_nothing.
Print Assumptions C64_size_exact_without_oversize_blocks.
Print Assumptions C64_drain_loop_returns_everything.
Print Assumptions C64_short_blocks_lose_items.
Print Assumptions C64_oversize_blocks_make_size_undercount.
