(** * PropMerge.v — property theorems C06-C08 (block merge). *)
From Verif Require Import Jax KeyModel SortProofs MergeModel MergeProofs.

(** C06: the smaller half and the larger half, nothing lost, values stay with keys. *)
Theorem C06_merge_split_keeps_pairs :
  forall (V : Type) (dflt : V) ak (av : list V) bk bv lk lv hk hv,
    length ak = length av -> length bk = length bv ->
    merge_sort_split dflt ak av bk bv = (lk, lv, hk, hv) ->
    Permutation (combine lk lv ++ combine hk hv) (combine ak av ++ combine bk bv) /\
    StronglySorted (fun x y => kle x y = true) (lk ++ hk) /\
    length lk = length ak /\ length lv = length ak /\ length hk = length bk /\ length hv = length bk.
Proof. intros V dflt. exact (merge_sort_split_spec dflt). Qed.
Print Assumptions C06_merge_split_keeps_pairs.

(** C06: the array-level operation is the stable sort of the (key,value) pairs, cut
    at the first block's length (the form the heap model uses). *)
Theorem C06_merge_split_is_stable_sort_of_pairs :
  forall (V : Type) (dflt : V) ak (av : list V) bk bv,
    length ak = length av -> length bk = length bv ->
    let s := ssort (combine ak av ++ combine bk bv) in
    merge_sort_split dflt ak av bk bv =
    (map fst (firstn (length ak) s), map snd (firstn (length ak) s),
     map fst (skipn (length ak) s), map snd (skipn (length ak) s)).
Proof. intros V dflt. exact (merge_sort_split_pairs dflt). Qed.
Print Assumptions C06_merge_split_is_stable_sort_of_pairs.

(** C06: both value-reordering modes return the same values. *)
Theorem C06_value_reorder_modes_agree :
  forall (V : Type) (dflt : V) (av bv : list V) idx,
    (forall i, In i idx -> i < length av + length bv) ->
    gather_select dflt av bv idx = gather_concat dflt av bv idx.
Proof. intros V dflt. exact (gather_select_concat dflt). Qed.
Print Assumptions C06_value_reorder_modes_agree.

Example C06_nonvacuous :
  merge_sort_split 0%Z [Fin 1; Fin 5; Fin 5] [10; 11; 12]%Z [Fin 0; Fin 5] [20; 21]%Z
  = ([Fin 0; Fin 1; Fin 5], [20; 10; 11]%Z, [Fin 5; Fin 5], [12; 21]%Z).
Proof. vm_compute. reflexivity. Qed.

(** C07: sequential kernel = sort backend. *)
Theorem C07_loop_backend_agrees :
  forall a b,
    StronglySorted (fun x y => kle x y = true) a -> StronglySorted (fun x y => kle x y = true) b ->
    merge_loop_idx a b = Some (merge_sort_idx a b).
Proof. exact loop_eq_sort. Qed.
Print Assumptions C07_loop_backend_agrees.

(** C07: merge-path kernel = sort backend, for every block size and every
    sentinel pair. *)
Theorem C07_parallel_backend_agrees :
  forall a b,
    StronglySorted (fun x y => kle x y = true) a -> StronglySorted (fun x y => kle x y = true) b ->
    forall smin smax block_size, 0 < block_size ->
    merge_parallel_idx a b smin smax block_size = Some (merge_sort_idx a b).
Proof. exact parallel_eq_sort. Qed.
Print Assumptions C07_parallel_backend_agrees.

(** C07: the fused key/value kernel. *)
Theorem C07_parallel_kv_backend_agrees :
  forall (V : Type) (dflt : V) smin smax block_size ak (av : list V) bk bv,
    StronglySorted (fun x y => kle x y = true) ak -> StronglySorted (fun x y => kle x y = true) bk ->
    length ak = length av -> length bk = length bv ->
    0 < length ak -> 0 < length bk -> 0 < block_size ->
    merge_parallel_kv dflt smin smax block_size ak av bk bv
    = Some (ssort (combine ak av ++ combine bk bv)).
Proof. intros V dflt. exact (merge_kv_pairs dflt). Qed.
Print Assumptions C07_parallel_kv_backend_agrees.

Definition exA := [Fin 1; Fin 3; Fin 3; Fin 7; PInf].
Definition exB := [Fin 0; Fin 3; Fin 8].
Example C07_nonvacuous :
  StronglySorted (fun x y => kle x y = true) exA /\ StronglySorted (fun x y => kle x y = true) exB /\
  merge_parallel_idx exA exB (Fin (-9)) (Fin 9) 3
  = Some [(Fin 0, 5); (Fin 1, 0); (Fin 3, 1); (Fin 3, 2); (Fin 3, 6); (Fin 7, 3); (Fin 8, 7); (PInf, 4)].
Proof. repeat split; try (repeat constructor). Qed.

(** C08: the partition at output offset [k] says exactly which inputs make up the
    first [k] merged elements: [i] first elements of a and [j] first elements of b. *)
Theorem C08_partition_is_correct :
  forall a b,
    StronglySorted (fun x y => kle x y = true) a -> StronglySorted (fun x y => kle x y = true) b ->
    forall smin smax k, k <= length a + length b ->
    exists i j, partition_at a b smin smax k = Some (i, j) /\ i + j = k /\
      filter (fun x => x <? length a) (map snd (firstn k (merge_sort_idx a b))) = seq 0 i /\
      filter (fun x => length a <=? x) (map snd (firstn k (merge_sort_idx a b))) = seq (length a) j.
Proof. exact partition_meaning. Qed.
Print Assumptions C08_partition_is_correct.

(** C08: successive offsets give consecutive (hence disjoint) input ranges. *)
Theorem C08_partition_is_monotone :
  forall a b,
    StronglySorted (fun x y => kle x y = true) a -> StronglySorted (fun x y => kle x y = true) b ->
    forall smin smax k k', k <= k' -> k' <= length a + length b ->
    exists i j i' j', partition_at a b smin smax k = Some (i, j) /\
      partition_at a b smin smax k' = Some (i', j') /\ i <= i' /\ j <= j'.
Proof. exact partition_monotone. Qed.
Print Assumptions C08_partition_is_monotone.

Example C08_nonvacuous :
  map (partition_at exA exB (Fin (-9)) (Fin 9)) [0; 3; 5; 8]
  = [Some (0, 0); Some (2, 1); Some (3, 2); Some (5, 3)].
Proof. vm_compute. reflexivity. Qed.
