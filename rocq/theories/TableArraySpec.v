(** * TableArraySpec.v — vocabulary for property C47: histories of a hash table whose items are
      the rows of an instance with one array per field (definitions only). *)
From Coq Require Import String.
From Verif Require Import Jax KeyModel HashModel StableSort TableModel DedupeModel DedupeSpec ParInsertModel TableSpec.
From Verif Require Import StructModel ArrayModel ShapeModel PropShape RowsModel RowsLift PropRows SoaModel PropSoa EqModel HeapArrays TableArrays.

Section S.
Variable c : class.
Variable ok : obj -> Prop.        (* the single instances the table may hold *)
Variable hp : obj -> N * N.
Variable rowof : obj -> list N.
Variable w : nat.
Variable C : settings.

(** a batch of [k] such instances *)
Definition batch_of (k : nat) (inputs : obj) : Prop := batched c [k] inputs /\ Forall ok (rows k inputs).
Definition amask_ok (k : nat) (f : fillarg) : Prop := length (mask_list k f) = k.
(** the public operations *)
Definition ALookup := alookup hp.
Definition ALookupParallel := alookup_parallel hp.
Definition AInsert := ainsert hp.
Definition AParallelInsert := aparallel_insert c hp rowof w (s_mode C) (s_sort C).

(** what was called and reported *)
Inductive aevent :=
  | AEInsert (x : obj) (inserted : bool) (idx : nat)
  | AEBatch (k : nat) (inputs : obj) (inserted : list bool) (idx : list nat).
Inductive aop : atable -> aevent -> atable -> Prop :=
  | aop_insert t x t' b i : ok x -> AInsert t x = Some (t', b, i) -> aop t (AEInsert x b i) t'
  | aop_batch t be k inputs f uk t' ins uniq idx : batch_of k inputs -> amask_ok k f ->
      AParallelInsert be t inputs f uk (t', ins, uniq, idx) -> aop t (AEBatch k inputs ins idx) t'.
Inductive arun : atable -> list aevent -> atable -> Prop :=
  | arun_nil t : arun t [] t
  | arun_cons t e t1 es t2 : aop t e t1 -> arun t1 es t2 -> arun t (e :: es) t2.
(** supported configurations, as in TableSpec.v *)
Definition aconfig_ok (capacity bucket_size mult : nat) (max_probes : option N) : Prop :=
  let n := a_cap (abuild c capacity bucket_size mult max_probes) in
  0 < bucket_size < 256 /\ (N.of_nat ((n + 1) * bucket_size) < 2 ^ 31)%N /\
  match max_probes with None => True | Some p => (N.of_nat (n * bucket_size) <= p)%N /\ (p + N.of_nat bucket_size <= 2 ^ 32)%N end.
Definition ahistory (es : list aevent) (t : atable) : Prop :=
  exists capacity bucket_size mult max_probes, aconfig_ok capacity bucket_size mult max_probes /\
    arun (abuild c capacity bucket_size mult max_probes) es t.
Definition aslots (t : atable) : nat := a_cap t * a_bsz t.
(** the number of full buckets *)
Definition afull_buckets (t : atable) : nat := length (filter (fun b => nth b (a_fill t) 0 =? a_bsz t) (seq 0 (a_cap t))).
(** instance [x] was reported as inserted at index [i] *)
Definition aevent_reports (e : aevent) (x : obj) (i : nat) : Prop :=
  match e with
  | AEInsert y b j => b = true /\ y = x /\ j = i
  | AEBatch k inputs ins idx => exists q, q < k /\ nth q ins false = true /\ elem [q] inputs = x /\ nth q idx 0 = i
  end.
Definition areported (es : list aevent) (x : obj) (i : nat) : Prop := exists e, In e es /\ aevent_reports e x i.
Definition aevent_count (e : aevent) : nat :=
  match e with AEInsert _ b _ => Nat.b2n b | AEBatch _ _ ins _ => length (filter (fun b => b) ins) end.
Definition acount (es : list aevent) : nat := list_sum (map aevent_count es).
Definition aabsent (t : atable) (x : obj) : Prop := exists i, ALookup t x = Some (i, false).
Definition afilled (k : nat) (f : fillarg) (q : nat) : Prop := q < k /\ nth q (mask_list k f) false = true.

(** batches on which in-batch deduplication is exact, as in TableSpec.v *)
Definition aclean {A : Type} (g : obj -> A) (reserved : A) (k : nat) (inputs : obj) (filled : list bool) : Prop :=
  (forall q, q < k -> nth q filled false = true) \/
  (forall q, q < k -> nth q filled false = true -> g (elem [q] inputs) <> reserved).
Definition adedupe_reliable (k : nat) (inputs : obj) (filled : list bool) (uk : option (list costval)) : Prop :=
  let clean_pairs := aclean hp (sentinel, sentinel) k inputs filled in
  let clean_sigs := w <= 8 \/ aclean (fun x => sig_of (rowof x)) (repeat sentinel 4) k inputs filled in
  let clean_rows := uk = None \/ (forall q, q < k -> nth q filled false = true -> costof uk q <> Cost PInf) \/
    aclean rowof (repeat sentinel w) k inputs filled in
  costs_ok k filled uk /\
  match s_mode C with
  | Safe => clean_pairs /\ clean_sigs /\ clean_rows
  | Exact => clean_rows
  | Approx => clean_pairs /\
      (forall q q', q < k -> q' < k -> nth q filled false = true -> nth q' filled false = true ->
         hp (elem [q] inputs) = hp (elem [q'] inputs) -> elem [q] inputs = elem [q'] inputs)
  end.
End S.
