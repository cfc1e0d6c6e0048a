(** * PropHash.v — C17-C20: the hash of a dataclass instance. *)
From Verif Require Import Jax HashModel HashProofs.
Local Open Scope N_scope.

(** ** C17 — streaming vs concatenated hashing.
    [leaves] are the 32-bit words of each array leaf; [hash_mode m] is what
    [instance.hash(seed)] computes under XTRUCTURE_HASH_STREAM = m. *)
Theorem C17_stream_eq_concat : forall (leaves : list (list N)) (seed : N),
  concat leaves <> [] \/ leaves = [] ->
  hash_stream leaves seed = hash_fast (concat leaves) seed /\
  hash_pair_stream leaves seed = hash_fast_pair (concat leaves) seed.
Proof.
  intros leaves seed [H | ->]; [|split; reflexivity].
  assert (leaves <> []) as HL by (intros ->; apply H; reflexivity).
  unfold hash_stream, hash_pair_stream. destruct leaves as [|lf t]; [congruence|].
  rewrite stream_go_spec, !N.lxor_0_l, Nat.add_0_l, hash_fast_eq, hash_fast_pair_eq by exact H. split; reflexivity.
Qed.
Print Assumptions C17_stream_eq_concat.

(** every mode gives the same hash, for every split of the words over fields;
    [Off] and [Auto] agree unconditionally. *)
Theorem C17_modes_agree : forall m1 m2 (leaves leaves' : list (list N)) seed,
  concat leaves = concat leaves' -> concat leaves <> [] ->
  hash_mode m1 leaves seed = hash_mode m2 leaves' seed /\
  hash_pair_mode m1 leaves seed = hash_pair_mode m2 leaves' seed.
Proof.
  assert (forall m ls s, concat ls <> [] -> hash_mode m ls s = hash_fast (concat ls) s /\ hash_pair_mode m ls s = hash_fast_pair (concat ls) s) as HM.
  { intros m ls s H. destruct (C17_stream_eq_concat ls s (or_introl H)) as [A B].
    destruct m as [| |th]; cbn [hash_mode hash_pair_mode]; [split; reflexivity|split; assumption|].
    destruct (Nat.leb _ th); split; auto. }
  intros m1 m2 l1 l2 s E H. destruct (HM m1 l1 s H) as [-> ->]. rewrite E in H. destruct (HM m2 l2 s H) as [-> ->].
  rewrite E. split; reflexivity.
Qed.
Print Assumptions C17_modes_agree.

Theorem C17_auto_eq_off : forall th (leaves : list (list N)) seed,
  hash_mode (Auto th) leaves seed = hash_mode Off leaves seed /\
  hash_pair_mode (Auto th) leaves seed = hash_pair_mode Off leaves seed.
Proof.
  intros th leaves seed. cbn [hash_mode hash_pair_mode].
  destruct (Nat.leb_spec (length (concat leaves)) th) as [H|H]; [split; reflexivity|].
  destruct (C17_stream_eq_concat leaves seed) as [-> ->]; [|split; reflexivity].
  left. intros E. rewrite E in H. cbn in H. lia.
Qed.
Print Assumptions C17_auto_eq_off.

(** the exception: at least one field and all of them empty — the forced
    streaming mode then gives a different first hash for EVERY seed. *)
Theorem C17_empty_fields_differ : forall (leaves : list (list N)) seed,
  seed < 2 ^ 32 -> leaves <> [] -> concat leaves = [] ->
  hash_mode On leaves seed <> hash_mode Off leaves seed.
Proof.
  intros leaves seed Hs HL HE. cbn [hash_mode]. rewrite HE. unfold hash_stream, hash_fast.
  destruct leaves as [|lf t]; [congruence|]. rewrite stream_go_spec, HE.
  change (xor_reduce (lanes 0 [] seed)) with 0. change (length_mix (0 + length (@nil N))) with 0.
  rewrite N.lxor_0_r, !N.lxor_0_l. intros E. apply avalanche32_inj in E; [|exact Hs|apply lxor_word; [exact Hs|reflexivity]].
  assert (N.lxor seed 0 = N.lxor seed PHI) as E' by (rewrite N.lxor_0_r; exact E).
  apply lxor_cancel_l in E'. discriminate E'.
Qed.
Print Assumptions C17_empty_fields_differ.

(** concrete: three fields (one empty) of words, forced streaming = one buffer *)
Example C17_case : concat [[1; 2]; []; [3]] <> [] /\
  hash_mode On [[1; 2]; []; [3]] 7 = hash_mode Off [[1]; [2; 3]] 7 /\
  hash_mode On [[]; []] 7 <> hash_mode Off [[]; []] 7.
Proof. vm_compute. repeat split; intros H; discriminate H. Qed.

(** ** C18 — mixing is bijective; changing one word changes the hash. *)
Theorem C18_mixer_bijective : forall y, y < 2 ^ 32 ->
  exists x, x < 2 ^ 32 /\ avalanche32 x = y /\ (forall x', x' < 2 ^ 32 -> avalanche32 x' = y -> x' = x).
Proof.
  intros y Hy. exists (avalanche32_inv y). split; [apply avalanche32_inv_word; exact Hy|].
  split; [apply avalanche32_right; exact Hy|]. intros x' Hx <-. symmetry. apply avalanche32_left. exact Hx.
Qed.
Print Assumptions C18_mixer_bijective.

Lemma lanes_split pre w post s : 
  xor_reduce (lanes 0 (pre ++ w :: post) s) =
  N.lxor (avalanche32 (N.lxor (N.lxor w (mul32 (w32 (N.of_nat (length pre))) PHI)) s))
         (N.lxor (xor_reduce (lanes 0 pre s)) (xor_reduce (lanes (length pre + 1) post s))).
Proof.
  change (w :: post) with ([w] ++ post). rewrite !lanes_app, !xor_reduce_app, Nat.add_0_l.
  change (length [w]) with 1%nat.
  assert (xor_reduce (lanes (length pre) [w] s) = avalanche32 (N.lxor (N.lxor w (mul32 (w32 (N.of_nat (length pre))) PHI)) s)) as ->.
  { unfold lanes, salts. cbn [length seq map combine fst snd]. unfold xor_reduce. cbn [fold_left]. apply N.lxor_0_l. }
  rewrite <- !N.lxor_assoc, (N.lxor_comm (xor_reduce (lanes 0 pre s))). reflexivity.
Qed.
Lemma lanes_split_neq pre w w' post s : w < 2 ^ 32 -> w' < 2 ^ 32 -> s < 2 ^ 32 -> w <> w' ->
  xor_reduce (lanes 0 (pre ++ w :: post) s) <> xor_reduce (lanes 0 (pre ++ w' :: post) s).
Proof.
  intros Hw Hw' Hs Hne E. rewrite !lanes_split in E. apply lxor_cancel_r in E.
  apply avalanche32_inj in E; [|word_tac|word_tac].
  apply lxor_cancel_r in E. apply lxor_cancel_r in E. contradiction.
Qed.

Theorem C18_one_word_change : forall (pre post : list N) (w w' seed : N),
  Forall (fun x => x < 2 ^ 32) pre -> Forall (fun x => x < 2 ^ 32) post ->
  w < 2 ^ 32 -> w' < 2 ^ 32 -> seed < 2 ^ 32 -> w <> w' ->
  hash_fast (pre ++ w :: post) seed <> hash_fast (pre ++ w' :: post) seed /\
  fst (hash_fast_pair (pre ++ w :: post) seed) <> fst (hash_fast_pair (pre ++ w' :: post) seed) /\
  snd (hash_fast_pair (pre ++ w :: post) seed) <> snd (hash_fast_pair (pre ++ w' :: post) seed).
Proof.
  intros pre post w w' s Hpre Hpost Hw Hw' Hs Hne.
  pose proof (lanes_split_neq pre w w' post s Hw Hw' Hs Hne) as HN.
  assert (forall v, v < 2 ^ 32 -> word (xor_reduce (lanes 0 (pre ++ v :: post) s))) as HW.
  { intros v Hv. apply xor_reduce_word, lanes_word; [|exact Hs]. apply Forall_app. split; [exact Hpre|]. constructor; assumption. }
  assert (length (pre ++ w :: post) = length (pre ++ w' :: post)) as HL by (rewrite !app_length; reflexivity).
  assert (forall v, pre ++ v :: post <> []) as Hnil by (intros v; destruct pre; discriminate).
  rewrite !hash_fast_eq, !hash_fast_pair_eq by apply Hnil. cbn [fst snd]. rewrite <- HL. rewrite !lanes1_lanes, <- HL.
  pose proof (HW w Hw). pose proof (HW w' Hw'). pose proof (length_mix_word (length (pre ++ w :: post))).
  pose proof (saltK_word (length (pre ++ w :: post))). assert (word CC) by reflexivity.
  assert (word s) by exact Hs.
  split; [|split]; intros E; apply avalanche32_inj in E; [|word_tac|word_tac| |word_tac|word_tac| |word_tac|word_tac];
    repeat apply lxor_cancel_r in E; contradiction.
Qed.
Print Assumptions C18_one_word_change.

(** one-word types never collide *)
Theorem C18_one_word_types : forall w w' seed, w < 2 ^ 32 -> w' < 2 ^ 32 -> seed < 2 ^ 32 ->
  (hash_fast [w] seed = hash_fast [w'] seed <-> w = w').
Proof.
  intros w w' s Hw Hw' Hs. split; [|intros ->; reflexivity]. intros E.
  destruct (N.eq_dec w w') as [Heq|Hne]; [exact Heq|].
  destruct (C18_one_word_change [] [] w w' s) as [H _]; auto. contradiction.
Qed.
Print Assumptions C18_one_word_types.
(** the fingerprint stored in a hash table loses nothing that one of its inputs has: with
    the other two fixed it is one-to-one in each hash and in the length *)
Lemma xorshift_inj k x y : 0 < k -> N.lxor x (N.shiftr x k) = N.lxor y (N.shiftr y k) -> x = y.
Proof.
  intros Hk E. apply N.lxor_eq. set (d := N.lxor x y).
  assert (D : d = N.shiftr d k).
  { unfold d. rewrite N.shiftr_lxor. apply N.lxor_eq. rewrite <- (N.lxor_nilpotent (N.lxor x (N.shiftr x k))). rewrite E at 2. apply N.bits_inj. intros i. rewrite !N.lxor_spec.
    destruct (N.testbit x i), (N.testbit y i), (N.testbit (N.shiftr x k) i), (N.testbit (N.shiftr y k) i); reflexivity. }
  destruct (N.eq_dec d 0) as [Z0|NZ]; [exact Z0|exfalso]. rewrite N.shiftr_div_pow2 in D. assert (d / 2 ^ k < d); [|lia].
  apply N.div_lt; [lia|]. apply N.pow_gt_1; lia.
Qed.
Lemma mul32_inj x y a b : word x -> word y -> (a * b) mod W32 = 1 -> mul32 x a = mul32 y a -> x = y.
Proof. intros Hx Hy HI E. rewrite <- (mul32_inv x a b Hx HI), <- (mul32_inv y a b Hy HI). now rewrite E. Qed.
Lemma add32_inj x y c : word x -> word y -> w32 (x + c) = w32 (y + c) -> x = y.
Proof.
  unfold word, w32. rewrite W32_val in *. change (2 ^ 32) with 4294967296. intros Hx Hy E. pose proof (N.div_mod (x + c) 4294967296). pose proof (N.div_mod (y + c) 4294967296).
  pose proof (N.mod_lt (x + c) 4294967296). pose proof (N.mod_lt (y + c) 4294967296). lia.
Qed.
Theorem C18_fingerprint : forall p p' s s' n n', p < 2 ^ 32 -> p' < 2 ^ 32 -> s < 2 ^ 32 -> s' < 2 ^ 32 -> n < 2 ^ 32 -> n' < 2 ^ 32 ->
  mix_fingerprint p s n < 2 ^ 32 /\
  (mix_fingerprint p s n = mix_fingerprint p' s n <-> p = p') /\
  (mix_fingerprint p s n = mix_fingerprint p s' n <-> s = s') /\
  (mix_fingerprint p s n = mix_fingerprint p s n' <-> n = n').
Proof.
  intros p p' s s' n n' Hp Hp' Hs Hs' Hn Hn'.
  assert (K : forall x y, word x -> word y -> N.lxor (mul32 (N.lxor x (N.shiftr x 16)) 0x7FEB352D) (N.shiftr (mul32 (N.lxor x (N.shiftr x 16)) 0x7FEB352D) 15) =
                          N.lxor (mul32 (N.lxor y (N.shiftr y 16)) 0x7FEB352D) (N.shiftr (mul32 (N.lxor y (N.shiftr y 16)) 0x7FEB352D) 15) -> x = y).
  { intros x y Hx Hy E. apply xorshift_inj in E; [|lia]. apply (mul32_inj _ _ _ 493478565) in E; [|word_tac|word_tac|reflexivity]. apply xorshift_inj in E; [exact E|lia]. }
  unfold mix_fingerprint. split; [word_tac|]. split; [|split]; (split; [intros E; apply K in E; [|apply w32_word|apply w32_word]|now intros ->]).
  - rewrite <- !N.add_assoc in E. apply add32_inj in E; [now apply lxor_cancel_r in E|word_tac; reflexivity|word_tac; reflexivity].
  - rewrite <- !N.add_assoc, !(N.add_comm (N.lxor p _)), <- !N.add_assoc in E. apply add32_inj in E; [|apply mul32_word|apply mul32_word]. apply (mul32_inj _ _ _ 2781581891) in E; [exact E|exact Hs|exact Hs'|reflexivity].
  - rewrite !(N.add_comm _ (mul32 _ 3266489909)) in E. apply add32_inj in E; [|apply mul32_word|apply mul32_word]. apply (mul32_inj _ _ _ 2127672349) in E; [exact E|exact Hn|exact Hn'|reflexivity].
Qed.
Print Assumptions C18_fingerprint.
Example C18_case : hash_fast [1; 5; 3] 9 <> hash_fast [1; 6; 3] 9. Proof. vm_compute. discriminate. Qed.
(** two-word changes can collide: the premise "exactly one word" is needed. *)
Example C18_two_words_collide : exists a b c d, a <> c /\ b <> d /\
  Forall (fun x => x < 2 ^ 32) [a; b; c; d] /\ hash_fast [a; b] 0 = hash_fast [c; d] 0.
Proof.
  (* swap the two lanes: a^0 and b^salt1 *)
  exists 1, 2, (N.lxor 2 (mul32 1 PHI)), (N.lxor 1 (mul32 1 PHI)).
  split; [vm_compute; discriminate|]. split; [vm_compute; discriminate|].
  split; [repeat apply Forall_cons; try apply Forall_nil; reflexivity|vm_compute; reflexivity].
Qed.

(** ** C19 — the second hash of a pair is determined by the first. *)
Theorem C19_pair_collapse : forall (n : nat) (seed : N), seed < 2 ^ 32 ->
  exists G : N -> N, forall ws, length ws = n -> Forall (fun x => x < 2 ^ 32) ws ->
    snd (hash_fast_pair ws seed) = G (fst (hash_fast_pair ws seed)).
Proof.
  intros n s Hs. destruct n as [|n].
  - exists (fun _ => avalanche32 (N.lxor s CB)). intros [|w ws] HL _; [reflexivity|discriminate].
  - exists (fun h => avalanche32 (N.lxor (avalanche32_inv h) (N.lxor (saltK (S n)) CC))).
    intros ws HL Hw. assert (ws <> []) as Hne by (intros ->; discriminate).
    rewrite hash_fast_pair_eq by exact Hne. cbn [fst snd].
    assert (word (xor_reduce (lanes 0 ws s))) by (apply xor_reduce_word, lanes_word; assumption).
    pose proof (length_mix_word (length ws)). assert (word s) by exact Hs.
    rewrite avalanche32_left by word_tac. rewrite lanes1_lanes, HL. f_equal.
    apply N.bits_inj. intros i. rewrite !N.lxor_spec.
    destruct (N.testbit (xor_reduce (lanes 0 ws s)) i), (N.testbit (saltK (S n)) i), (N.testbit (length_mix (S n)) i),
      (N.testbit s i), (N.testbit CC i); reflexivity.
Qed.
Print Assumptions C19_pair_collapse.
Theorem C19_collide_iff : forall ws ws' seed, seed < 2 ^ 32 -> length ws = length ws' ->
  Forall (fun x => x < 2 ^ 32) ws -> Forall (fun x => x < 2 ^ 32) ws' ->
  (fst (hash_fast_pair ws seed) = fst (hash_fast_pair ws' seed) <->
   snd (hash_fast_pair ws seed) = snd (hash_fast_pair ws' seed)).
Proof.
  intros ws ws' s Hs HL Hw Hw'. destruct ws as [|w t].
  { destruct ws'; [tauto|discriminate]. }
  assert (w :: t <> []) as H1 by discriminate. remember (w :: t) as ws eqn:Ews. clear Ews w t.
  assert (ws' <> []) as H2 by (intros ->; destruct ws; [congruence|discriminate]).
  rewrite !hash_fast_pair_eq by assumption. cbn [fst snd]. rewrite !lanes1_lanes, <- HL.
  assert (word (xor_reduce (lanes 0 ws s))) by (apply xor_reduce_word, lanes_word; assumption).
  assert (word (xor_reduce (lanes 0 ws' s))) by (apply xor_reduce_word, lanes_word; assumption).
  pose proof (length_mix_word (length ws)). pose proof (saltK_word (length ws)). assert (word s) by exact Hs. assert (word CC) by reflexivity.
  split; intros E; (apply avalanche32_inj in E; [|word_tac|word_tac]); repeat apply lxor_cancel_r in E; rewrite E; reflexivity.
Qed.
Print Assumptions C19_collide_iff.
(** consequently the whole (pair, fingerprint) triple collides as soon as the
    first hash does: the fingerprint adds no discrimination either. *)
Theorem C19_fingerprint_collapse : forall ws ws' seed, seed < 2 ^ 32 -> length ws = length ws' ->
  Forall (fun x => x < 2 ^ 32) ws -> Forall (fun x => x < 2 ^ 32) ws' ->
  fst (hash_fast_pair ws seed) = fst (hash_fast_pair ws' seed) ->
  forall len, mix_fingerprint (fst (hash_fast_pair ws seed)) (snd (hash_fast_pair ws seed)) len =
              mix_fingerprint (fst (hash_fast_pair ws' seed)) (snd (hash_fast_pair ws' seed)) len.
Proof.
  intros ws ws' s Hs HL Hw Hw' E len. rewrite E. f_equal. apply C19_collide_iff; assumption.
Qed.
Print Assumptions C19_fingerprint_collapse.
Example C19_case : [1; 2] <> [N.lxor 2 (mul32 1 PHI); N.lxor 1 (mul32 1 PHI)] /\
  hash_fast_pair [1; 2] 0 = hash_fast_pair [N.lxor 2 (mul32 1 PHI); N.lxor 1 (mul32 1 PHI)] 0.
Proof. vm_compute. split; [discriminate|reflexivity]. Qed.

(** ** C20 — serialisation of fields is injective.
    A leaf is its element width and the bit patterns of its elements. *)
Theorem C20_words_injective : forall a b : list leaf,
  Forall (fun l => Forall (fun x => x < 2 ^ wbits (lwidth l)) (lelems l)) a ->
  Forall (fun l => Forall (fun x => x < 2 ^ wbits (lwidth l)) (lelems l)) b ->
  Forall2 (fun x y => lwidth x = lwidth y /\ length (lelems x) = length (lelems y)) a b ->
  (uint32ed a = uint32ed b <-> a = b) /\ (bytes a = bytes b <-> a = b) /\
  Forall (fun x => x < 2 ^ 32) (uint32ed a).
Proof.
  intros a b Ha Hb HL. split; [|split].
  - split; [apply uint32ed_inj; assumption|intros ->; reflexivity].
  - split; [apply bytes_inj; assumption|intros ->; reflexivity].
  - apply uint32ed_word. exact Ha.
Qed.
Print Assumptions C20_words_injective.
(** the layout hypothesis is needed: padding makes different layouts collide *)
Example C20_layout_needed : uint32ed [MkLeaf B8 [7]] = uint32ed [MkLeaf B8 [7; 0]].
Proof. reflexivity. Qed.
Example C20_case : 
  uint32ed [MkLeaf B8 [1; 2; 3; 4; 5]; MkLeaf B16 [65535]; MkLeaf B64 [2 ^ 63 + 1]] = [67305985; 5; 65535; 1; 2147483648].
Proof. reflexivity. Qed.
