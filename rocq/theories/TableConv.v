(** * TableConv.v — the hash table given items whose dtypes are not the declared ones
      (definitions only).

    Nothing in hashtable/ checks the dtypes of an input.  An input is hashed, fingerprinted and
    deduplicated by its own bytes (insert.py 396-437, lookup.py 125, 312: all through [uint32ed]
    of the input as given); it is compared with a stored item by [==], which converts both to a
    common dtype (lookup.py 62, 79, 208, 233); and writing it into the table's arrays converts it
    to the dtype of those arrays (insert.py 42-51, 92-94: [.at[...].set]). *)
From Verif Require Import Jax KeyModel HashModel StableSort TableModel DedupeModel DedupeSpec ParInsertModel TritonModel PallasModel TableSpec.

(** what the table sees of the items: [==] of a stored item and a given one, the conversion on
    writing, the default instance that fills an empty table, the words of an item, how many
    words the given items have, and the hash of words *)
Record lenient (O : Type) := {
  le_eq : O -> O -> bool;
  le_conv : O -> O;
  le_default : O;
  le_words : O -> list N;
  le_nwords : nat;
  le_hash : list N -> N * N }.
Arguments le_eq {O}. Arguments le_conv {O}. Arguments le_default {O}. Arguments le_words {O}. Arguments le_nwords {O}. Arguments le_hash {O}.

Section Spec.
Context {O : Type} (L : lenient O) (C : settings).
Notation table := (@table O).
Notation d := (le_default L).
Definition lhash (x : O) : N * N := le_hash L (le_words L x).
(** the table after writing: what was written is converted.  (Everything that was there before
    is of the declared dtypes; converting it again changes nothing.) *)
Definition declared (t : table) : table :=
  MkT (cap t) (bsz t) (maxp t) (size t) (map (le_conv L) (tab t)) (fill t) (occ t) (fps t).

(** the operations of TableSpec.v *)
Definition LBuild (capacity bucket_size mult : nat) (max_probes : option N) : table := build d capacity bucket_size mult max_probes.
Definition LLookup (t : table) (x : O) : option (nat * bool) := lookup (le_eq L) d lhash t x.
Definition LLookupParallel (t : table) (xs : list O) (f : fillarg) := lookup_parallel (le_eq L) d lhash t xs f.
Definition LInsert (t : table) (x : O) : option (table * bool * nat) :=
  option_map (fun r => (declared (fst (fst r)), snd (fst r), snd r)) (insert (le_eq L) d lhash t x).
Definition LGetItem (t : table) (i : nat) : O := getitem d t i.
Definition lassigns (be : backend) (t : table) (rows : list irow) (t' : table) (res : list (bool * (nat * nat))) : Prop :=
  match be with
  | XLA => xla lhash t rows = Some (t', res)
  | Triton maxb => bsz t <= 32 /\ triton_result d lhash t rows maxb t' res
  | Pallas maxb order => bsz t <= 32 /\ (forall r, Permutation (order r) (seq 0 (length rows))) /\
      pallas d lhash t rows maxb order = Some (t', res)
  end.
Definition LParallelInsert (be : backend) (t : table) (xs : list O) (f : fillarg) (uk : option (list costval))
  (out : table * list bool * list bool * list nat) : Prop :=
  match f with
  | FScalar false => out = (t, repeat false (length xs), repeat false (length xs), repeat 0 (length xs))
  | _ => exists uniq reps rs t' res,
      par_prepare (le_eq L) d lhash (le_words L) (le_nwords L) (s_mode C) (s_sort C) t xs (mask_list (length xs) f) uk = Some (uniq, reps, rs) /\
      lassigns be t (par_rows xs uniq rs) t' res /\
      out = (declared t', map fst res, uniq, par_idx t rs res reps)
  end.
Inductive lop : table -> @event O -> table -> Prop :=
  | lop_insert t x t' ok i : LInsert t x = Some (t', ok, i) -> lop t (EInsert x ok i) t'
  | lop_batch t be xs f uk t' ins uniq idx : mask_ok xs f -> LParallelInsert be t xs f uk (t', ins, uniq, idx) ->
      lop t (EBatch xs ins idx) t'.
Inductive lrun : table -> list (@event O) -> table -> Prop :=
  | lrun_nil t : lrun t [] t
  | lrun_cons t e t1 es t2 : lop t e t1 -> lrun t1 es t2 -> lrun t (e :: es) t2.
(** [TableSpec.config_ok], which looks at the sizes only *)
Definition lconfig_ok (capacity bucket_size mult : nat) (max_probes : option N) : Prop :=
  let c := cap (LBuild capacity bucket_size mult max_probes) in
  0 < bucket_size < 256 /\ (N.of_nat ((c + 1) * bucket_size) < 2 ^ 31)%N /\
  match max_probes with None => True | Some p => (N.of_nat (c * bucket_size) <= p)%N /\ (p + N.of_nat bucket_size <= 2 ^ 32)%N end.
Definition lhistory (es : list (@event O)) (t : table) : Prop :=
  exists capacity bucket_size mult max_probes, lconfig_ok capacity bucket_size mult max_probes /\
    lrun (LBuild capacity bucket_size mult max_probes) es t.

(** the items handed to the operations *)
Definition event_inputs (e : @event O) : list O := match e with EInsert x _ _ => [x] | EBatch xs _ _ => xs end.
Definition inputs (es : list (@event O)) : list O := flat_map event_inputs es.
(** an item with the bytes of [x] was reported as inserted at index [i] *)
Definition same_bytes (x y : O) : Prop := le_words L x = le_words L y.
Definition event_reports (e : @event O) (x : O) (i : nat) : Prop :=
  match e with
  | EInsert y ok j => ok = true /\ same_bytes y x /\ j = i
  | EBatch xs ins idx => exists q y, nth_error xs q = Some y /\ nth q ins false = true /\ same_bytes y x /\ nth q idx 0 = i
  end.
Definition reported (es : list (@event O)) (x : O) (i : nat) : Prop := exists e, In e es /\ event_reports e x i.

(** A family of items a table can be given: they have as many words as each other, and a stored
    (converted) item [==] a given one exactly when the item it was converted from has the same
    bytes as the given one. *)
Record family (F : O -> Prop) : Prop := {
  fm_some : 0 < le_nwords L;
  fm_len : forall o, F o -> length (le_words L o) = le_nwords L;
  fm_word : forall o, F o -> Forall (fun a => a < 2 ^ 32)%N (le_words L o);
  fm_default : le_conv L d = d;
  fm_idem : forall o, F o -> le_conv L (le_conv L o) = le_conv L o;
  fm_conv : forall o p, F o -> F p -> same_bytes o p -> le_conv L o = le_conv L p;
  fm_eq : forall o p, F o -> F p -> (le_eq L (le_conv L o) p = true <-> same_bytes o p) }.
End Spec.
