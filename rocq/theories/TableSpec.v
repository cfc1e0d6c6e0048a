(** * TableSpec.v — vocabulary for the hash-table properties: stored types, settings,
      histories of operations, and what they reported (definitions only). *)
From Verif Require Import Jax KeyModel HashModel StableSort TableModel DedupeModel DedupeSpec ParInsertModel TritonModel PallasModel.

(** A type of stored items: equality, the default instance, the uint32 words of an item
    (core/xtructure_decorators/hash.py [uint32ed]) and the hash pair as a function of the
    words (any function: all collision patterns).  [dc_inj]: items with equal words are
    equal (this leaves out floats with NaN or signed zero). *)
Record dataclass (item : Type) := {
  dc_eqb : item -> item -> bool;
  dc_default : item;
  dc_words : item -> list N;
  dc_nwords : nat;
  dc_hash : list N -> N * N;
  dc_eq : forall x y, dc_eqb x y = true <-> x = y;
  dc_inj : forall x y, dc_words x = dc_words y -> x = y;
  dc_len : forall x, length (dc_words x) = dc_nwords }.
Arguments dc_eqb {item}. Arguments dc_default {item}. Arguments dc_words {item}. Arguments dc_nwords {item}.
Arguments dc_hash {item}. Arguments dc_eq {item}. Arguments dc_inj {item}. Arguments dc_len {item}.

(** Environment settings: XTRUCTURE_HASHTABLE_DEDUPE_MODE and ..._SORT_BACKEND (any
    function that sorts the hash pairs of the batch). *)
Record settings := {
  s_mode : dmode;
  s_sort : list bool -> list (N * N) -> list nat;
  s_sort_ok : forall filled pairs, length pairs = length filled ->
      sorting [] (pairs_keys filled pairs) (s_sort filled pairs) }.

(** Which implementation assigns slots in a batch (insert.py 440-483): the default XLA
    code, the GPU kernel with any schedule, the TPU kernel with any grid order;
    [maxb] = the maximal number of buckets probed (default: all). *)
Inductive backend := XLA | Triton (maxb : nat) | Pallas (maxb : nat) (order : nat -> list nat).

Section Spec.
Context {item : Type} (T : dataclass item) (C : settings).
Notation table := (@table item).
Notation d := (dc_default T).
Definition hash_pair (x : item) : N * N := dc_hash T (dc_words T x).

(** the public operations on a table *)
Definition Build (capacity bucket_size mult : nat) (max_probes : option N) : table := build d capacity bucket_size mult max_probes.
Definition Lookup (t : table) (x : item) : option (nat * bool) := lookup (dc_eqb T) d hash_pair t x.
Definition LookupParallel (t : table) (xs : list item) (f : fillarg) := lookup_parallel (dc_eqb T) d hash_pair t xs f.
Definition Insert (t : table) (x : item) : option (table * bool * nat) := insert (dc_eqb T) d hash_pair t x.
Definition GetItem (t : table) (i : nat) : item := getitem d t i.
(** [x] is found at index [i] *)
Definition found (t : table) (x : item) (i : nat) : Prop := Lookup t x = Some (i, true).
Definition absent (t : table) (x : item) : Prop := exists i, Lookup t x = Some (i, false).

Definition assigns (be : backend) (t : table) (rows : list irow) (t' : table) (res : list (bool * (nat * nat))) : Prop :=
  match be with
  | XLA => xla hash_pair t rows = Some (t', res)
  | Triton maxb => bsz t <= 32 /\ triton_result d hash_pair t rows maxb t' res
  | Pallas maxb order => bsz t <= 32 /\ (forall r, Permutation (order r) (seq 0 (length rows))) /\
      pallas d hash_pair t rows maxb order = Some (t', res)
  end.
(** parallel_insert(inputs, filled, unique_key) = (table, inserted, unique, indices) *)
Definition ParallelInsert (be : backend) (t : table) (xs : list item) (f : fillarg) (uk : option (list costval))
  (out : table * list bool * list bool * list nat) : Prop :=
  match f with
  | FScalar false => out = (t, repeat false (length xs), repeat false (length xs), repeat 0 (length xs))
  | _ => exists uniq reps rs t' res,
      par_prepare (dc_eqb T) d hash_pair (dc_words T) (dc_nwords T) (s_mode C) (s_sort C) t xs (mask_list (length xs) f) uk = Some (uniq, reps, rs) /\
      assigns be t (par_rows xs uniq rs) t' res /\
      out = (t', map fst res, uniq, par_idx t rs res reps)
  end.
(** the mask has one entry per input *)
Definition mask_ok (xs : list item) (f : fillarg) : Prop := length (mask_list (length xs) f) = length xs.
Definition is_filled (xs : list item) (f : fillarg) (q : nat) : Prop := q < length xs /\ nth q (mask_list (length xs) f) false = true.

(** what an operation reports to the caller *)
Inductive event :=
  | EInsert (x : item) (inserted : bool) (idx : nat)
  | EBatch (xs : list item) (inserted : list bool) (idx : list nat).
Inductive op : table -> event -> table -> Prop :=
  | op_insert t x t' ok i : Insert t x = Some (t', ok, i) -> op t (EInsert x ok i) t'
  | op_batch t be xs f uk t' ins uniq idx : mask_ok xs f -> ParallelInsert be t xs f uk (t', ins, uniq, idx) ->
      op t (EBatch xs ins idx) t'.
(** any sequence of operations *)
Inductive run : table -> list event -> table -> Prop :=
  | run_nil t : run t [] t
  | run_cons t e t1 es t2 : op t e t1 -> run t1 es t2 -> run t (e :: es) t2.

(** Supported configurations: buckets of at most 255 slots, slot indices in int32, and
    the default probe limit or a larger one that does not wrap. *)
Definition config_ok (capacity bucket_size mult : nat) (max_probes : option N) : Prop :=
  let c := cap (Build capacity bucket_size mult max_probes) in
  0 < bucket_size < 256 /\ (N.of_nat ((c + 1) * bucket_size) < 2 ^ 31)%N /\
  match max_probes with None => True | Some p => (N.of_nat (c * bucket_size) <= p)%N /\ (p + N.of_nat bucket_size <= 2 ^ 32)%N end.
(** the tables that can arise *)
Definition history (es : list event) (t : table) : Prop :=
  exists capacity bucket_size mult max_probes, config_ok capacity bucket_size mult max_probes /\
    run (Build capacity bucket_size mult max_probes) es t.
Definition slots (t : table) : nat := cap t * bsz t.

(** [x] was reported as inserted at index [i]; how many insertions were reported *)
Definition event_reports (e : event) (x : item) (i : nat) : Prop :=
  match e with
  | EInsert y ok j => ok = true /\ y = x /\ j = i
  | EBatch xs ins idx => exists q, q < length xs /\ nth q ins false = true /\ nth q xs d = x /\ nth q idx 0 = i
  end.
Definition reported (es : list event) (x : item) (i : nat) : Prop := exists e, In e es /\ event_reports e x i.
Definition event_count (e : event) : nat :=
  match e with EInsert _ ok _ => Nat.b2n ok | EBatch _ ins _ => length (filter (fun b => b) ins) end.
Definition count (es : list event) : nat := list_sum (map event_count es).

(** the j-th bucket an item's probe sequence visits: start at [hash & mask], then keep
    adding the step (lookup.py 106, 228; insert.py 149-150) *)
Fixpoint probe_seq (t : table) (x : item) (j : nat) : nat :=
  match j with
  | O => start_of hash_pair (cap t) x
  | S j' => next_bucket (cap t) (step_of hash_pair (cap t) x) (probe_seq t x j')
  end.

(** How many rounds a batch may need on the default backend.  Walking an item's probe
    sequence costs one round per full bucket and one per free slot passed; an item passes
    at most as many free slots as there are items before it in the batch. *)
Definition free_slots (t : table) (x : item) (j : nat) : nat := list_sum (map (fun j' => bsz t - fillOf t (probe_seq t x j')) (seq 0 j)).
Definition full_met (t : table) (x : item) (j : nat) : nat := length (filter (fun j' => fillOf t (probe_seq t x j') =? bsz t) (seq 0 j)).
(** [x] meets at most [F] full buckets before the [m]-th free slot of its sequence *)
Definition meets_full (t : table) (x : item) (m F : nat) : Prop := forall j, j < cap t -> free_slots t x j < m -> full_met t x j <= F.
Definition rounds_needed (m F : nat) : nat := m * F + m * (m - 1) / 2.
(** the number of full buckets of the table *)
Definition full_buckets (t : table) : nat := length (filter (fun b => fillOf t b =? bsz t) (seq 0 (cap t))).

(** The rows handed to a slot-assignment backend by parallel_insert. *)
Definition prepared_rows (t : table) (rows : list irow) : Prop :=
  exists xs filled uk uniq reps rs, length filled = length xs /\
    par_prepare (dc_eqb T) d hash_pair (dc_words T) (dc_nwords T) (s_mode C) (s_sort C) t xs filled uk = Some (uniq, reps, rs) /\
    rows = par_rows xs uniq rs.
(** A correct assignment of slots: [res] gives (inserted, (bucket, slot)) per row. *)
Record assigned (t : table) (rows : list irow) (t' : table) (res : list (bool * (nat * nat))) : Prop := {
  a_len : length res = length rows;
  (* only rows that asked for a slot get one *)
  a_asked : forall i p, i < length rows -> nth i res (false, (0, 0)) = (true, p) -> iupd (nth i rows (MkI d false 0 0 false)) = true;
  (* no slot is handed out twice *)
  a_distinct : forall i i' p, i < length rows -> i' < length rows ->
     nth i res (false, (0, 0)) = (true, p) -> nth i' res (false, (0, 0)) = (true, p) -> i = i';
  (* handed-out slots were free, and a bucket's occupied slots stay a prefix *)
  a_free : forall i b s, i < length rows -> nth i res (false, (0, 0)) = (true, (b, s)) ->
     b < cap t /\ fillOf t b <= s < fillOf t' b /\ fillOf t' b <= bsz t;
  a_prefix : forall b s, b < cap t -> fillOf t b <= s < fillOf t' b ->
     exists i, i < length rows /\ nth i res (false, (0, 0)) = (true, (b, s));
  (* the bucket is on the row's probe sequence and all earlier buckets are full *)
  a_chain : forall i b s, i < length rows -> nth i res (false, (0, 0)) = (true, (b, s)) ->
     exists j, probe_seq t (ix (nth i rows (MkI d false 0 0 false))) j = b /\
       forall j', j' < j -> fillOf t' (probe_seq t (ix (nth i rows (MkI d false 0 0 false))) j') = bsz t;
  (* the item is written there, every other slot keeps its contents *)
  a_written : forall i b s, i < length rows -> nth i res (false, (0, 0)) = (true, (b, s)) ->
     GetItem t' (b * bsz t + s) = ix (nth i rows (MkI d false 0 0 false));
  a_kept : forall i, (forall q b s, q < length rows -> nth q res (false, (0, 0)) = (true, (b, s)) -> i <> b * bsz t + s) ->
     GetItem t' i = GetItem t i;
  (* occupancy words record exactly the occupied prefix *)
  a_occ : bsz t <= 32 -> forall b, b < cap t -> nth b (occ t') 0%N = N.ones (N.of_nat (fillOf t' b)) }.

(** Batches on which in-batch deduplication is exact.  Unfilled entries are given an
    all-ones hash pair / signature / row; a filled input with the same pattern may be
    confused with them, so either there are no unfilled entries or no such input. *)
Definition clean {A : Type} (f : item -> A) (reserved : A) (xs : list item) (filled : list bool) : Prop :=
  (forall q, q < length xs -> nth q filled false = true) \/
  (forall q, q < length xs -> nth q filled false = true -> f (nth q xs d) <> reserved).
Definition clean_pairs := clean hash_pair (sentinel, sentinel).
Definition clean_sigs xs filled := dc_nwords T <= 8 \/ clean (fun x => sig_of (dc_words T x)) (repeat sentinel 4) xs filled.
Definition clean_rows xs filled (uk : option (list costval)) :=
  uk = None \/ (forall q, q < length xs -> nth q filled false = true -> costof uk q <> Cost PInf) \/
  clean (dc_words T) (repeat sentinel (dc_nwords T)) xs filled.
(** grouping by item is exact *)
Definition grouping_reliable (xs : list item) (filled : list bool) (uk : option (list costval)) : Prop :=
  match s_mode C with
  | Safe => clean_pairs xs filled /\ clean_sigs xs filled /\ clean_rows xs filled uk
  | Exact => clean_rows xs filled uk
  | Approx => clean_pairs xs filled /\
      (forall q q', q < length xs -> q' < length xs -> nth q filled false = true -> nth q' filled false = true ->
         hash_pair (nth q xs d) = hash_pair (nth q' xs d) -> nth q xs d = nth q' xs d)
  end.
(** no filled entry has a NaN cost *)
Definition costs_ok (n : nat) (filled : list bool) (uk : option (list costval)) : Prop :=
  forall q, q < n -> nth q filled false = true -> costof uk q <> CNaN.
Definition dedupe_reliable (xs : list item) (filled : list bool) (uk : option (list costval)) : Prop :=
  costs_ok (length xs) filled uk /\ grouping_reliable xs filled uk.
End Spec.
