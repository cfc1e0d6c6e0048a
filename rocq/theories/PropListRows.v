(** * PropListRows.v — property C89: a flat batch is the list of its rows, and the batch operations
      along its axis are the operations of lists.

    The statements use only lists: [rows n o] is [o[0], …, o[n-1]] (PropSoa.v), and the right-hand
    sides are functions of Coq's List library. *)
From Coq Require Import String Sorting.Permutation Sorting.Sorted.
From Verif Require Import Jax StructModel ArrayModel ArrayFacts ShapeModel PropShape RowsModel RowsLift PropRows PropRows2 PropRows3 PropRows5 PropRows6 RowsModel2 PropInverse.
From Verif Require Import QueueModel UpdateModel SoaModel PropSoa PropSoa2 PropSoa3 PropSoa4 SliceModel PropSlice.
From Verif Require PropHeapArrays.

(** ** Lists *)
Lemma concat_nth {X} (d : X) ls : forall l, length l = list_sum (map (@length X) ls) ->
  (forall j i, j < length ls -> i < length (nth j ls []) -> nth (list_sum (firstn j (map (@length X) ls)) + i) l d = nth i (nth j ls []) d) -> l = concat ls.
Proof.
  induction ls as [|x ls IH]; intros l HL HN; [destruct l; [reflexivity|discriminate]|]. cbn [map concat] in *. change (list_sum (length x :: map (@length X) ls)) with (length x + list_sum (map (@length X) ls)) in HL.
  rewrite <- (firstn_skipn (length x) l). f_equal.
  - apply (nth_ext _ _ d d); [rewrite firstn_length; lia|]. intros i Hi. rewrite firstn_length in Hi. specialize (HN 0 i ltac:(cbn; lia)). cbn [nth firstn] in HN. change (list_sum [] + i) with i in HN.
    rewrite <- HN by lia. rewrite <- (firstn_skipn (length x) l) at 2. now rewrite app_nth1 by (rewrite firstn_length; lia).
  - apply IH; [rewrite skipn_length; lia|]. intros j i Hj Hi. specialize (HN (S j) i ltac:(cbn; lia) Hi). cbn [firstn map nth] in HN. change (list_sum (length x :: firstn j (map (@length X) ls))) with (length x + list_sum (firstn j (map (@length X) ls))) in HN.
    rewrite <- HN. rewrite <- (firstn_skipn (length x) l) at 2. assert (HX : length x <= length l) by lia. rewrite app_nth2; rewrite firstn_length, Nat.min_l by exact HX; [f_equal; lia|lia].
Qed.
Lemma rows_concat n o ls : n = list_sum (map (@length obj) ls) ->
  (forall j i, j < length ls -> i < length (nth j ls []) -> elem [list_sum (firstn j (map (@length obj) ls)) + i] o = nth i (nth j ls []) ONil) -> rows n o = concat ls.
Proof.
  intros HN H. apply (concat_nth ONil); [now rewrite rows_length|]. intros j i Hj Hi. rewrite rows_nth; [now apply H|]. rewrite HN.
  assert (K : forall ls' j', j' < length ls' -> i < length (nth j' ls' []) -> list_sum (firstn j' (map (@length obj) ls')) + i < list_sum (map (@length obj) ls')).
  { induction ls' as [|x ls' IH]; intros j' H1 H2; [cbn in H1; lia|]. destruct j'; cbn [nth] in H2; cbn [map firstn].
    - change (list_sum []) with 0. change (list_sum (length x :: map (@length obj) ls')) with (length x + list_sum (map (@length obj) ls')). lia.
    - change (list_sum (length x :: ?t)) with (length x + list_sum t). cbn [length] in H1. specialize (IH j' ltac:(lia) H2). lia. }
  now apply K.
Qed.
Lemma firstn_repeat {X} (x : X) k n : firstn k (repeat x n) = repeat x (min k n).
Proof. revert n. induction k as [|k IH]; intros [|n]; cbn [firstn repeat Nat.min]; auto. now rewrite IH. Qed.
Lemma sum_repeat k n : list_sum (repeat n k) = k * n.
Proof. induction k as [|k IH]; [reflexivity|]. cbn [repeat]. change (list_sum (n :: repeat n k)) with (n + list_sum (repeat n k)). lia. Qed.

(** batches with the same rows are the same batch *)
Theorem C89_rows_determine : forall c n o q, batched c [n] o -> batched c [n] q -> rows n o = rows n q -> o = q.
Proof.
  intros c n o q HB HQ HE. apply (ext c [n] _ _ HB HQ). intros b Hb. inversion Hb as [|i a b' t Hi Hb']; subst. inversion Hb'; subst. rewrite <- (rows_nth n o i ONil Hi), <- (rows_nth n q i ONil Hi). now rewrite HE.
Qed.

(** ** concat, stack, repeat, tile *)
Theorem C89_concat : forall c ns os, c <> CNil -> solid c -> 2 <= length ns -> Forall2 (fun o n => batched c [n] o) os ns ->
  exists o', obj_concat c 0 os = Some o' /\ batched c [list_sum ns] o' /\
    rows (list_sum ns) o' = concat (map (fun p => rows (snd p) (fst p)) (combine os ns)).
Proof.
  intros c ns os HN HS HL HO. destruct (C41_concat c [0] 0 ns os HN HS HL ltac:(cbn; lia) HO) as (o' & E & B & F & _). exists o'. split; [exact E|]. split; [exact B|].
  pose proof (Forall2_len _ _ _ HO) as LO. cbn [upd] in F.
  assert (LS : map (@length obj) (map (fun p => rows (snd p) (fst p)) (combine os ns)) = ns).
  { rewrite map_map. clear - LO. revert ns LO. induction os as [|o os IH]; intros [|n ns] LO; cbn [length] in LO; try lia; [reflexivity|]. cbn [combine map fst snd]. rewrite rows_length. f_equal. apply IH. lia. }
  apply rows_concat; [now rewrite LS|]. rewrite LS. intros j i Hj Hi. rewrite map_length, combine_length, LO, Nat.min_id in Hj.
  assert (G : nth j (map (fun p => rows (snd p) (fst p)) (combine os ns)) [] = rows (nth j ns 0) (nth j os ONil)).
  { rewrite (nth_map_any _ _ j (ONil, 0)) by (rewrite combine_length; lia). rewrite combine_nth by exact LO. reflexivity. }
  rewrite G in *. rewrite rows_length in Hi. rewrite rows_nth by exact Hi. apply (F j [i]); [lia|constructor; [exact Hi|constructor]].
Qed.
(** single instances stacked along axis 0 are a batch of them *)
Theorem C89_stack : forall c os, c <> CNil -> solid c -> os <> [] -> (forall o, In o os -> batched c [] o) ->
  exists o', obj_stack c 0 os = Some o' /\ batched c [length os] o' /\ rows (length os) o' = os.
Proof.
  intros c os HN HS H0 HO. destruct os as [|o [|o2 os]]; [congruence| |].
  - destruct (C41_stack_one c [] o 0 (HO o (or_introl eq_refl)) (Nat.le_refl 0)) as (o' & E & B & F). exists o'. split; [exact E|]. split; [exact B|]. apply rows_eq; [reflexivity|]. intros i d Hi. cbn [length] in Hi. assert (i = 0) by lia. subst i. cbn [nth].
    specialize (F [] inb_nil). cbn [insert firstn skipn app] in F. rewrite (single_elem c o) in F by (apply HO; now left). symmetry. exact F.
  - destruct (C41_stack c [] (o :: o2 :: os) 0 HN HS ltac:(cbn; lia) HO (Nat.le_refl 0)) as (o' & E & B & F). exists o'. split; [exact E|]. split; [exact B|]. apply rows_eq; [reflexivity|]. intros i d Hi.
    specialize (F i [] Hi inb_nil). cbn [insert firstn skipn app] in F. change (insert 0 i []) with [i] in F. rewrite F. rewrite (nth_indep _ d ONil Hi). symmetry. apply (single_elem c). apply HO. now apply nth_In.
Qed.
(** each row [r] times; each row its own number of times *)
Theorem C89_repeat : forall c n o r, batched c [n] o ->
  exists o', obj_repeat r 0 o = Some o' /\ batched c [n * r] o' /\ rows (n * r) o' = flat_map (fun x => repeat x r) (rows n o).
Proof.
  intros c n o r HB. destruct (C41_repeat c [n] o r 0 HB ltac:(cbn; lia)) as (o' & E & B & F). exists o'. split; [exact E|]. split; [exact B|]. rewrite flat_map_concat_map.
  assert (LS : map (@length obj) (map (fun x => repeat x r) (rows n o)) = repeat r n).
  { rewrite map_map. rewrite (map_ext _ (fun _ => r)) by (intros x; apply repeat_length). rewrite <- (rows_length n o) at 2. generalize (rows n o). induction l as [|x l IH]; [reflexivity|]. cbn [map length repeat]. now f_equal. }
  apply rows_concat; [rewrite LS, sum_repeat; lia|]. rewrite LS. intros j i Hj Hi. rewrite map_length, rows_length in Hj.
  assert (G : nth j (map (fun x => repeat x r) (rows n o)) [] = repeat (elem [j] o) r) by (rewrite (nth_map_any _ _ j ONil) by (now rewrite rows_length); now rewrite rows_nth).
  rewrite G in *. rewrite repeat_length in Hi. rewrite nth_repeat_lt by exact Hi. rewrite firstn_repeat, sum_repeat, Nat.min_l by lia. apply (F [j] i); [constructor; [exact Hj|constructor]|exact Hi].
Qed.
Theorem C89_repeat_counts : forall c n o rs, batched c [n] o -> length rs = n ->
  exists o', obj_repeats rs 0 o = Some o' /\ batched c [list_sum rs] o' /\ rows (list_sum rs) o' = concat (map (fun p => repeat (fst p) (snd p)) (combine (rows n o) rs)).
Proof.
  intros c n o rs HB HL. destruct (C52_repeat_counts c [n] o rs 0 HB ltac:(cbn; lia) HL) as (o' & E & B & F). exists o'. split; [exact E|]. split; [exact B|].
  assert (LS : map (@length obj) (map (fun p => repeat (fst p) (snd p)) (combine (rows n o) rs)) = rs).
  { rewrite map_map. rewrite (map_ext _ snd) by (intros [x k]; apply repeat_length). assert (LL : length (rows n o) = length rs) by (now rewrite rows_length). revert LL. generalize (rows n o). clear. induction rs as [|r rs IH]; intros [|x l] LL; cbn [length] in LL; try lia; [reflexivity|]. cbn [combine map snd]. f_equal. apply IH. lia. }
  apply rows_concat; [now rewrite LS|]. rewrite LS. intros j i Hj Hi. rewrite map_length, combine_length, rows_length in Hj.
  assert (G : nth j (map (fun p => repeat (fst p) (snd p)) (combine (rows n o) rs)) [] = repeat (elem [j] o) (nth j rs 0)).
  { rewrite (nth_map_any _ _ j (ONil, 0)) by (rewrite combine_length, rows_length; exact Hj). rewrite combine_nth by (now rewrite rows_length). cbn [fst snd]. now rewrite rows_nth by lia. }
  rewrite G in *. rewrite repeat_length in Hi. rewrite nth_repeat_lt by exact Hi. apply (F [j] i); [constructor; [lia|constructor]|exact Hi].
Qed.
(** the whole batch [r] times over, for classes whose fields are scalars *)
Theorem C89_tile : forall c n o r, scalar_leaves c -> batched c [n] o ->
  exists o', obj_tile [r] o = Some o' /\ batched c [n * r] o' /\ rows (n * r) o' = concat (repeat (rows n o) r).
Proof.
  intros c n o r HSL HB. destruct (C52_tile c [n] o [r] HSL HB) as (o' & E & B & F). exists o'. split; [exact E|]. split; [exact B|].
  assert (LS : map (@length obj) (repeat (rows n o) r) = repeat n r).
  { rewrite <- (rows_length n o) at 2. induction r as [|r IH]; [reflexivity|]. clear. generalize (S r). induction n0 as [|k IH]; [reflexivity|]. cbn [repeat map]. now f_equal. }
  apply rows_concat; [rewrite LS, sum_repeat; lia|]. rewrite LS. intros j i Hj Hi. rewrite repeat_length in Hj. rewrite nth_repeat_lt in * by exact Hj. rewrite rows_length in Hi. rewrite rows_nth by exact Hi.
  rewrite firstn_repeat, sum_repeat, Nat.min_l by lia. rewrite (F [j * n + i]).
  - cbn [length Nat.max Nat.sub skipn padl repeat app combine map fst snd]. rewrite Nat.add_comm, Nat.mod_add by lia. now rewrite Nat.mod_small by exact Hi.
  - constructor; [|constructor]. cbn [fst snd]. nia.
Qed.

(** ** flip, roll *)
Theorem C89_flip : forall c n o, batched c [n] o -> exists o', obj_flip 0 o = Some o' /\ batched c [n] o' /\ rows n o' = rev (rows n o).
Proof.
  intros c n o HB. destruct (C41_flip c [n] o 0 HB ltac:(cbn; lia)) as (o' & E & B & F). exists o'. split; [exact E|]. split; [exact B|]. apply rows_eq; [now rewrite rev_length, rows_length|]. intros i d Hi.
  rewrite rev_nth by (now rewrite rows_length). rewrite rows_length, rows_nth by lia. rewrite (F [i]) by (constructor; [exact Hi|constructor]). cbn [upd nth firstn skipn app]. f_equal. f_equal. lia.
Qed.
(** the last [s mod n] rows come first; a negative [s] turns the other way *)
Theorem C89_roll : forall c n o s, batched c [n] o ->
  let k := Z.to_nat (s mod Z.of_nat n) in
  exists o', obj_roll s 0 o = Some o' /\ batched c [n] o' /\ rows n o' = skipn (n - k) (rows n o) ++ firstn (n - k) (rows n o).
Proof.
  intros c n o s HB k. destruct (C41_roll c [n] o s 0 HB ltac:(cbn; lia)) as (o' & E & B & F). exists o'. split; [exact E|]. split; [exact B|].
  destruct (Nat.eq_dec n 0) as [->|HN]; [reflexivity|]. pose proof (Z.mod_pos_bound s (Z.of_nat n) ltac:(lia)) as HM. assert (HK : k < n) by (unfold k; lia).
  apply rows_eq; [rewrite app_length, skipn_length, firstn_length, rows_length; lia|]. intros i d Hi.
  set (p := if i <? k then n - k + i else i - k). assert (HP : p < n) by (unfold p; destruct (Nat.ltb_spec i k); lia).
  transitivity (elem [p] o).
  - unfold p. destruct (Nat.ltb_spec i k).
    + rewrite app_nth1 by (rewrite skipn_length, rows_length; lia). rewrite <- (rows_nth n o (n - k + i) d) by lia. rewrite <- (firstn_skipn (n - k) (rows n o)) at 2. rewrite app_nth2; rewrite firstn_length, rows_length, Nat.min_l by lia; [f_equal; lia|lia].
    + rewrite app_nth2; rewrite skipn_length, rows_length; [|lia]. replace (i - (n - (n - k))) with (i - k) by lia. rewrite <- (rows_nth n o (i - k) d) by lia. rewrite <- (firstn_skipn (n - k) (rows n o)) at 2. rewrite app_nth1 by (rewrite firstn_length, rows_length; lia). reflexivity.
  - specialize (F [p] ltac:(constructor; [exact HP|constructor])). cbn [upd nth firstn skipn app] in F. rewrite <- F. f_equal. f_equal.
    rewrite <- Zplus_mod_idemp_r. assert (K : (s mod Z.of_nat n = Z.of_nat k)%Z) by (unfold k; lia). rewrite K. unfold p. destruct (Nat.ltb_spec i k).
    + replace (Z.of_nat (n - k + i) + Z.of_nat k)%Z with (Z.of_nat i + 1 * Z.of_nat n)%Z by lia. rewrite Z_mod_plus_full, Z.mod_small by lia. lia.
    + replace (Z.of_nat (i - k) + Z.of_nat k)%Z with (Z.of_nat i) by lia. rewrite Z.mod_small by lia. lia.
Qed.

(** ** take, split, pad *)
(** an index reads the row it names, counting from the end when negative, and a row of fill
    values when it names none *)
Theorem C89_take : forall c n o zs, batched c [n] o -> 0 < n \/ zs = [] ->
  exists o', obj_take (ivec zs) 0 o = Some o' /\ batched c [length zs] o' /\
    rows (length zs) o' = map (fun z => let p := if (z <? 0)%Z then (z + Z.of_nat n)%Z else z in
                                        if (0 <=? p)%Z then nth (Z.to_nat p) (rows n o) (const_obj take_fill [] c) else const_obj take_fill [] c) zs.
Proof.
  intros c n o zs HB HE. destruct (C41_take c [n] o (ivec zs) 0 HB ltac:(cbn; lia)) as (o' & E & B & F).
  { destruct HE as [HE| ->]; [left; exact HE|right; reflexivity]. }
  exists o'. split; [exact E|]. split; [exact B|]. apply rows_eq; [apply map_length|]. intros i d Hi. rewrite (nth_map_any _ _ i 0%Z) by exact Hi.
  specialize (F [] [i] [] inb_nil ltac:(constructor; [exact Hi|constructor]) inb_nil). cbn [app nth] in F. rewrite F. rewrite get_ivec. cbv zeta. set (z := nth i zs 0%Z).
  set (p := if (z <? 0)%Z then (z + Z.of_nat n)%Z else z). destruct (norm_index z n) as [q|] eqn:EN.
  - apply norm_index_norm in EN. destruct EN as [EN HQ]. assert (P : p = Z.of_nat q).
    { unfold p. rewrite <- EN. unfold norm_idx. destruct (Z.ltb_spec z 0); lia. }
    rewrite P. destruct (Z.leb_spec 0 (Z.of_nat q)); [|lia]. rewrite Nat2Z.id. now apply rows_nth.
  - destruct (Z.leb_spec 0 p); [|reflexivity]. apply nth_overflow. rewrite rows_length. destruct (Nat.le_gt_cases n (Z.to_nat p)) as [|HC]; [assumption|]. exfalso.
    assert (K : norm_index z n = Some (Z.to_nat p)); [|congruence]. apply norm_index_norm. split; [|exact HC]. unfold norm_idx, p in *. destruct (Z.ltb_spec z 0); lia.
Qed.
(** the pieces of [split], glued, are the rows *)
Theorem C89_split : forall c n o k, c <> CNil -> solid c -> batched c [n] o -> k <> 0 -> n mod k = 0 ->
  exists l, obj_split (inl k) 0 o = Some l /\ length l = k /\ Forall (batched c [n / k]) l /\ concat (map (rows (n / k)) l) = rows n o.
Proof.
  intros c n o k HN HS HB HK HM. set (w := n / k). assert (HW : n = k * w) by (unfold w; pose proof (Nat.div_mod n k HK); lia).
  assert (EC : cut_points (nth 0 [n] 0) (inl k) = Some (map (fun i => (i * w, w)) (seq 0 k))).
  { unfold cut_points. cbn [nth]. destruct (Nat.eqb_spec k 0); [contradiction|]. now rewrite HM. }
  destruct (C41_split c [n] o 0 (inl k) _ HN HS HB ltac:(cbn; lia) EC) as (l & E & L & F). rewrite map_length, seq_length in L, F. exists l. split; [exact E|]. split; [exact L|].
  assert (G : forall i, i < k -> nth i (map (fun i => (i * w, w)) (seq 0 k)) (0, 0) = (i * w, w)).
  { intros i Hi. rewrite (nth_map_any _ _ i 0) by (now rewrite seq_length). now rewrite seq_nth. }
  split.
  - apply Forall_forall. intros x Hx. destruct (In_nth _ _ ONil Hx) as (i & Hi & <-). rewrite L in Hi. destruct (F i Hi) as [H _]. rewrite G in H by exact Hi. exact H.
  - symmetry. assert (LS : map (@length obj) (map (rows w) l) = repeat w k).
    { rewrite map_map. rewrite (map_ext _ (fun _ => w)) by (intros x; apply rows_length). rewrite <- L. clear. induction l as [|x l IH]; [reflexivity|]. cbn [map length repeat]. now f_equal. }
    apply rows_concat; [rewrite LS, sum_repeat; exact HW|]. rewrite LS. intros j i Hj Hi. rewrite map_length, L in Hj. rewrite (nth_map_any _ l j ONil) in * by (rewrite L; exact Hj). rewrite rows_length in Hi. rewrite rows_nth by exact Hi.
    destruct (F j Hj) as [_ H]. rewrite G in H by exact Hj. cbn [fst snd upd nth firstn skipn app] in H. rewrite firstn_repeat, sum_repeat, Nat.min_l by lia. symmetry. apply (H [i]). constructor; [exact Hi|constructor].
Qed.
(** padding puts default rows in front and behind *)
Theorem C89_pad : forall c n o x y, c <> CNil -> solid c -> batched c [n] o ->
  exists o', obj_pad c [(x, y)] o = Some o' /\ batched c [x + n + y] o' /\
    rows (x + n + y) o' = repeat (default_obj [] c) x ++ rows n o ++ repeat (default_obj [] c) y.
Proof.
  intros c n o x y HN HS HB. destruct (C41_pad c [n] o [(x, y)] HN HS HB ltac:(discriminate) eq_refl) as (o' & E & B & F1 & F2). exists o'. split; [exact E|].
  assert (PS : pad_shape [n] [(x, y)] = [x + n + y]) by (unfold pad_shape; cbn [combine map fst snd]; f_equal; lia). rewrite PS in B, F2. split; [exact B|].
  apply rows_eq; [rewrite !app_length, !repeat_length, rows_length; lia|]. intros i d Hi. destruct (Nat.lt_ge_cases i x) as [H1|H1].
  - rewrite app_nth1 by (rewrite repeat_length; exact H1). rewrite nth_repeat_lt by exact H1. symmetry. apply F2; [constructor; [lia|constructor]|]. intros s Hs K. inversion Hs as [|a b s' t Ha Hb]; subst. inversion Hb; subst. unfold shifted in K. cbn [combine map fst snd] in K. injection K as K. lia.
  - rewrite app_nth2; rewrite repeat_length; [|exact H1]. destruct (Nat.lt_ge_cases (i - x) n) as [H2|H2].
    + rewrite app_nth1 by (rewrite rows_length; exact H2). rewrite rows_nth by exact H2. symmetry. rewrite <- (F1 [i - x]) by (constructor; [exact H2|constructor]). unfold shifted. cbn [combine map fst snd]. f_equal. f_equal. lia.
    + rewrite app_nth2; rewrite rows_length; [|exact H2]. rewrite nth_repeat_lt by lia. symmetry. apply F2; [constructor; [lia|constructor]|]. intros s Hs K. inversion Hs as [|a b s' t Ha Hb]; subst. inversion Hb; subst. unfold shifted in K. cbn [combine map fst snd] in K. injection K as K. lia.
Qed.

(** ** Reordering *)
Lemma map_nth_perm {X} (l : list X) d p : Permutation p (seq 0 (length l)) -> Permutation (map (fun i => nth i l d) p) l.
Proof.
  intros HP. transitivity (map (fun i => nth i l d) (seq 0 (length l))); [now apply Permutation_map|]. assert (E : map (fun i => nth i l d) (seq 0 (length l)) = l); [|now rewrite E].
  apply (nth_ext _ _ d d); [now rewrite map_length, seq_length|]. intros i Hi. rewrite map_length, seq_length in Hi. rewrite (nth_map_any _ _ i 0) by (now rewrite seq_length). now rewrite seq_nth.
Qed.
(** indexing by a permutation moves whole rows: none is lost, duplicated or torn *)
Theorem C89_reorder : forall c n o p, batched c [n] o -> n <> 0 -> Permutation p (seq 0 n) ->
  exists o', obj_index_array (ivec (map Z.of_nat p)) o = Some o' /\ batched c [n] o' /\
    rows n o' = map (fun i => nth i (rows n o) ONil) p /\ Permutation (rows n o') (rows n o).
Proof.
  intros c n o p HB HN HP. assert (LP : length p = n) by (rewrite (Permutation_length HP); apply seq_length).
  destruct (C41_index_array c n [] o (ivec (map Z.of_nat p)) HB HN) as (o' & E & B & F). cbn [ivec ashape app] in B, F. rewrite map_length, LP in B, F. exists o'. split; [exact E|]. split; [exact B|].
  assert (K : rows n o' = map (fun i => nth i (rows n o) ONil) p).
  { apply rows_eq; [now rewrite map_length|]. intros i d Hi. rewrite (nth_map_any _ _ i 0) by (now rewrite LP). specialize (F [i] [] ltac:(constructor; [exact Hi|constructor]) inb_nil). cbn [app] in F. fold (ivec (map Z.of_nat p)) in F.
    assert (HQ : nth i p 0 < n) by (assert (In (nth i p 0) (seq 0 n)) by (apply (Permutation_in _ HP), nth_In; lia); apply in_seq in H; lia).
    rewrite rows_nth by exact HQ. rewrite F. rewrite <- LP in F. change (MkArr (DInt 32) [n] (map Z.of_nat p)) with (MkArr (DInt 32) [n] (map Z.of_nat p)). f_equal. f_equal.
    replace (MkArr (DInt 32) [n] (map Z.of_nat p)) with (ivec (map Z.of_nat p)) by (unfold ivec; now rewrite map_length, LP). rewrite get_ivec. rewrite (nth_map_any Z.of_nat p i 0) by (now rewrite LP). unfold clamp_index. destruct (Z.ltb_spec (Z.of_nat (nth i p 0)) 0); lia. }
  split; [exact K|]. rewrite K. apply map_nth_perm. now rewrite rows_length.
Qed.
(** writing at distinct positions: row [p_j] becomes the [j]-th row of the values, the others stay *)
Lemma get_places p j : j < length p -> get (ivec (map Z.of_nat p)) [j] = Z.of_nat (nth j p 0).
Proof. intros H. rewrite get_ivec. now apply (nth_map_any Z.of_nat p j 0). Qed.
Theorem C89_write : forall c n o p v, batched c [n] o -> batched c [length p] v -> NoDup p -> (forall i, In i p -> i < n) ->
  let o' := obj_at_set (ivec (map Z.of_nat p)) o v in
  batched c [n] o' /\
  (forall j, j < length p -> nth (nth j p 0) (rows n o') ONil = nth j (rows (length p) v) ONil) /\
  (forall i, i < n -> ~ In i p -> nth i (rows n o') ONil = nth i (rows n o) ONil).
Proof.
  intros c n o p v HO HV HN HL o'. assert (HA : ashape (ivec (map Z.of_nat p)) = [length p]) by (cbn [ivec ashape]; now rewrite map_length).
  destruct (C86_set c n [] o (ivec (map Z.of_nat p)) v [length p] HO) as [B F].
  { unfold wfa. rewrite HA. cbn [ivec adata]. rewrite map_length. unfold prod. cbn [fold_right]. lia. }
  { exact HV. }
  { rewrite HA. split; [reflexivity|]. cbn [length Nat.sub skipn app]. apply bcast_ok_refl. }
  fold o' in B, F. split; [exact B|]. unfold addresses in F. rewrite HA in F.
  assert (A : forall u i, inb u [length p] /\ norm_index (get (ivec (map Z.of_nat p)) u) n = Some i -> exists j, u = [j] /\ j < length p /\ nth j p 0 = i).
  { intros u i [Hu Hi]. inversion Hu as [|j a u' t Hj Hu']; subst. inversion Hu'; subst. exists j. split; [reflexivity|]. split; [exact Hj|]. rewrite get_places in Hi by exact Hj. apply norm_index_norm in Hi. destruct Hi as [Hi _]. unfold norm_idx in Hi. destruct (Z.ltb_spec (Z.of_nat (nth j p 0)) 0); lia. }
  split.
  - intros j Hj. assert (HI : nth j p 0 < n) by (apply HL, nth_In; exact Hj). rewrite !rows_nth by assumption. destruct (F _ HI) as [(u & Hu & Hq)|[Hno _]].
    + destruct (A u _ Hu) as (k & -> & Hk & Ek). assert (k = j) by (apply (proj1 (NoDup_nth p 0) HN); [exact Hk|exact Hj|exact Ek]). subst k. specialize (Hq [] inb_nil). cbn [app] in Hq. rewrite Hq. f_equal. unfold bcast_src. cbn [length Nat.sub skipn combine map fst snd app]. f_equal. destruct (Nat.eqb_spec (length p) 1); lia.
    + exfalso. apply (Hno [j]). split; [constructor; [exact Hj|constructor]|]. rewrite get_places by exact Hj. apply norm_index_norm. split; [|exact HI]. unfold norm_idx. destruct (Z.ltb_spec (Z.of_nat (nth j p 0)) 0); lia.
  - intros i Hi Hno. rewrite !rows_nth by assumption. destruct (F _ Hi) as [(u & Hu & _)|[_ Hq]]; [|exact (Hq [] inb_nil)]. exfalso. destruct (A u _ Hu) as (k & _ & Hk & <-). apply Hno, nth_In, Hk.
Qed.
(** what was written is read back, and a reordering is undone by writing where it was read *)
Theorem C89_read_back : forall c n o p v, batched c [n] o -> n <> 0 -> batched c [length p] v -> NoDup p -> (forall i, In i p -> i < n) ->
  obj_index_array (ivec (map Z.of_nat p)) (obj_at_set (ivec (map Z.of_nat p)) o v) = Some v.
Proof.
  intros c n o p v HO Hn HV HN HL. destruct (C89_write c n o p v HO HV HN HL) as (B & F & _). destruct (C41_index_array c n [] _ (ivec (map Z.of_nat p)) B Hn) as (o2 & E & B2 & F2).
  assert (HA : ashape (ivec (map Z.of_nat p)) = [length p]) by (cbn [ivec ashape]; now rewrite map_length). rewrite HA in *. cbn [app] in B2. rewrite E. f_equal. apply (ext c _ _ _ B2 HV).
  intros b Hb. inversion Hb as [|j a b' t Hj Hb']; subst. inversion Hb'; subst. specialize (F2 [j] [] Hb inb_nil). cbn [app] in F2. rewrite F2, get_places by exact Hj. assert (HI : nth j p 0 < n) by (apply HL, nth_In; exact Hj).
  specialize (F j Hj). rewrite !rows_nth in F by assumption. rewrite <- F. f_equal. f_equal. unfold clamp_index. destruct (Z.ltb_spec (Z.of_nat (nth j p 0)) 0); lia.
Qed.
Theorem C89_reorder_undone : forall c n o z p, batched c [n] o -> n <> 0 -> batched c [n] z -> Permutation p (seq 0 n) ->
  exists o', obj_index_array (ivec (map Z.of_nat p)) o = Some o' /\ obj_at_set (ivec (map Z.of_nat p)) z o' = o.
Proof.
  intros c n o z p HO Hn HZ HP. assert (LP : length p = n) by (rewrite (Permutation_length HP); apply seq_length). destruct (C89_reorder c n o p HO Hn HP) as (o' & E & B & K & _). exists o'. split; [exact E|].
  assert (HN : NoDup p) by (apply (Permutation_NoDup (Permutation_sym HP)), seq_NoDup). assert (HL : forall i, In i p -> i < n) by (intros i Hi; apply (Permutation_in _ HP) in Hi; apply in_seq in Hi; lia).
  destruct (C89_write c n z p o' HZ ltac:(rewrite LP; exact B) HN HL) as (B2 & F & _). apply (C89_rows_determine c n _ _ B2 HO). apply (nth_ext _ _ ONil ONil); [now rewrite !rows_length|]. intros i Hi. rewrite rows_length in Hi.
  assert (HI : In i p) by (apply (Permutation_in _ (Permutation_sym HP)), in_seq; lia). destruct (In_nth _ _ 0 HI) as (j & Hj & <-). rewrite F by exact Hj. rewrite LP, K. now rewrite (nth_map_any _ p j 0) by exact Hj.
Qed.
(** sorting a batch by a key: if [p] lists the positions so that the keys rise, the rows of
    [x[p]] are the same rows, in rising order of their keys *)
Theorem C89_sort_by : forall c n o p (key : obj -> Z), batched c [n] o -> n <> 0 -> Permutation p (seq 0 n) ->
  StronglySorted Z.le (map (fun i => key (elem [i] o)) p) ->
  exists o', obj_index_array (ivec (map Z.of_nat p)) o = Some o' /\ Permutation (rows n o') (rows n o) /\ StronglySorted Z.le (map key (rows n o')).
Proof.
  intros c n o p key HB HN HP HS. destruct (C89_reorder c n o p HB HN HP) as (o' & E & _ & K & HQ). exists o'. split; [exact E|]. split; [exact HQ|]. rewrite K, map_map.
  erewrite map_ext_in; [exact HS|]. intros i Hi. cbn beta. rewrite rows_nth; [reflexivity|]. apply (Permutation_in _ HP) in Hi. apply in_seq in Hi. lia.
Qed.

(** ** where *)
(** choosing between two batches row by row, for classes whose fields are scalars *)
Theorem C89_where : forall c n x y bs, scalar_leaves c -> batched c [n] x -> batched c [n] y -> length bs = n ->
  exists o', obj_where (flags bs) x y = Some o' /\ batched c [n] o' /\
    rows n o' = map (fun t => if fst t : bool then fst (snd t) else snd (snd t)) (combine bs (combine (rows n x) (rows n y))).
Proof.
  intros c n x y bs HSL HX HY HL. destruct (C41_where c [n] x y (flags bs) HSL HX HY) as (o' & E & B & F); [cbn [flags ashape]; now rewrite HL|]. exists o'. split; [exact E|]. split; [exact B|].
  apply rows_eq; [rewrite map_length, !combine_length, !rows_length; lia|]. intros i d Hi. rewrite (nth_map_any _ _ i (false, (ONil, ONil))) by (rewrite !combine_length, !rows_length; lia).
  rewrite combine_nth by (rewrite combine_length, !rows_length; lia). rewrite combine_nth by (now rewrite !rows_length). cbn [fst snd]. rewrite !rows_nth by exact Hi. rewrite (F [i]) by (constructor; [exact Hi|constructor]).
  assert (G : get (flags bs) [i] = Z.b2z (nth i bs false)).
  { unfold get, flags. cbn [ashape adata ravel]. unfold prod. cbn [fold_right]. rewrite Nat.mul_1_r, Nat.add_0_r. change 0%Z with (Z.b2z false). apply map_nth. }
  rewrite G. destruct (nth i bs false); reflexivity.
Qed.
(** ** The operations against each other, as lists: reversing twice, rolling, gluing the pieces *)
Theorem C89_append_assoc : forall c n m k o q r, c <> CNil -> solid c -> batched c [n] o -> batched c [m] q -> batched c [k] r ->
  exists a b u, obj_concat c 0 [o; q] = Some a /\ obj_concat c 0 [q; r] = Some b /\ obj_concat c 0 [a; r] = Some u /\ obj_concat c 0 [o; b] = Some u.
Proof.
  intros c n m k o q r HN HS HO HQ HR.
  destruct (C89_concat c [n; m] [o; q] HN HS ltac:(cbn; lia)) as (a & Ea & Ba & Fa); [constructor; [exact HO|constructor; [exact HQ|constructor]]|].
  destruct (C89_concat c [m; k] [q; r] HN HS ltac:(cbn; lia)) as (b & Eb & Bb & Fb); [constructor; [exact HQ|constructor; [exact HR|constructor]]|].
  destruct (C89_concat c [list_sum [n; m]; k] [a; r] HN HS ltac:(cbn; lia)) as (u & Eu & Bu & Fu); [constructor; [exact Ba|constructor; [exact HR|constructor]]|].
  destruct (C89_concat c [n; list_sum [m; k]] [o; b] HN HS ltac:(cbn; lia)) as (v & Ev & Bv & Fv); [constructor; [exact HO|constructor; [exact Bb|constructor]]|].
  exists a, b, u. split; [exact Ea|]. split; [exact Eb|]. split; [exact Eu|]. rewrite Ev. f_equal.
  assert (S1 : list_sum [n; list_sum [m; k]] = list_sum [list_sum [n; m]; k]) by (cbn [list_sum fold_right]; lia). rewrite S1 in Bv, Fv.
  apply (C89_rows_determine c _ _ _ Bv Bu). rewrite Fu, Fv. cbn [combine map fst snd concat]. rewrite !app_nil_r, Fa, Fb. cbn [combine map fst snd concat]. rewrite !app_nil_r. now rewrite app_assoc.
Qed.
(** non-vacuity: a class with a scalar and a vector field, three rows, sorted by their ids *)
Definition id_of (o : obj) : Z := match o with OCons _ (VArr a) _ => hd 0%Z (adata a) | _ => 0%Z end.
Theorem C89_witness : let o := PropSoa2.cells [3] [8; 9; 7]%Z in let p := [2; 0; 1] in
  batched PropSoa2.cell [3] o /\ Permutation p (seq 0 3) /\ StronglySorted Z.le (map (fun i => id_of (elem [i] o)) p) /\ map id_of (rows 3 o) = [8; 9; 7]%Z /\
  obj_index_array (ivec (map Z.of_nat p)) o = Some (PropSoa2.cells [3] [7; 8; 9]%Z).
Proof.
  cbn zeta. split; [split; vm_compute; repeat split|]. split; [|split; [|split; vm_compute; reflexivity]].
  - apply NoDup_Permutation; [repeat (constructor; [cbn; lia|]); constructor|apply seq_NoDup|]. intros x. rewrite in_seq. cbn. lia.
  - change (map _ _) with [7; 8; 9]%Z. repeat (constructor; [|repeat (constructor; [lia|]); constructor]). constructor.
Qed.
Print Assumptions C89_sort_by. Print Assumptions C89_split. Print Assumptions C89_where.
