(** * TableFloat.v — the hash table on items that contain IEEE floats (definitions only).

    hashtable/lookup.py 71-75, 84-96, 206-211, 222-233 compare a stored item with the query
    by [==], which on float fields is IEEE equality: NaN differs from itself and 0.0 equals
    -0.0.  Hash, fingerprint and in-batch deduplication use the bit patterns (hash.py
    [uint32ed]).  TableSpec.v assumes the two relations are the same; here they differ. *)
From Verif Require Import Jax KeyModel HashModel StableSort TableModel DedupeModel DedupeSpec ParInsertModel TritonModel PallasModel TableSpec.

(** [T]: the items as bit patterns ([dc_eqb] = same bits).  [ie_eq]: the [==] of the code;
    [ie_self]: an item that [==] some item [==] itself. *)
Record ieee {item : Type} (T : dataclass item) := {
  ie_eq : item -> item -> bool;
  ie_self : forall x y, ie_eq x y = true -> ie_eq x x = true /\ ie_eq y y = true;
  ie_word : forall x, Forall (fun a => a < 2 ^ 32)%N (dc_words T x);
  ie_words : 0 < dc_nwords T }.
Arguments ie_eq {item T}. Arguments ie_self {item T}. Arguments ie_word {item T}. Arguments ie_words {item T}.

Section Spec.
Context {item : Type} (T : dataclass item) (E : ieee T) (C : settings).
Notation table := (@table item).
Notation d := (dc_default T).
Notation hp := (hash_pair T).
(** no field of the item is a NaN *)
Definition numeric (x : item) : Prop := ie_eq E x x = true.

(** the operations of TableSpec.v with [ie_eq] as the comparison *)
Definition FLookup (t : table) (x : item) : option (nat * bool) := lookup (ie_eq E) d hp t x.
Definition FLookupParallel (t : table) (xs : list item) (f : fillarg) := lookup_parallel (ie_eq E) d hp t xs f.
Definition FInsert (t : table) (x : item) : option (table * bool * nat) := insert (ie_eq E) d hp t x.
Definition FParallelInsert (be : backend) (t : table) (xs : list item) (f : fillarg) (uk : option (list costval))
  (out : table * list bool * list bool * list nat) : Prop :=
  match f with
  | FScalar false => out = (t, repeat false (length xs), repeat false (length xs), repeat 0 (length xs))
  | _ => exists uniq reps rs t' res,
      par_prepare (ie_eq E) d hp (dc_words T) (dc_nwords T) (s_mode C) (s_sort C) t xs (mask_list (length xs) f) uk = Some (uniq, reps, rs) /\
      assigns T be t (par_rows xs uniq rs) t' res /\
      out = (t', map fst res, uniq, par_idx t rs res reps)
  end.
Inductive fop : table -> @event item -> table -> Prop :=
  | fop_insert t x t' ok i : FInsert t x = Some (t', ok, i) -> fop t (EInsert x ok i) t'
  | fop_batch t be xs f uk t' ins uniq idx : mask_ok xs f -> FParallelInsert be t xs f uk (t', ins, uniq, idx) ->
      fop t (EBatch xs ins idx) t'.
Inductive frun : table -> list (@event item) -> table -> Prop :=
  | frun_nil t : frun t [] t
  | frun_cons t e t1 es t2 : fop t e t1 -> frun t1 es t2 -> frun t (e :: es) t2.
Definition fhistory (es : list (@event item)) (t : table) : Prop :=
  exists capacity bucket_size mult max_probes, config_ok T capacity bucket_size mult max_probes /\
    frun (Build T capacity bucket_size mult max_probes) es t.

(** the items handed to the operations *)
Definition event_inputs (e : @event item) : list item := match e with EInsert x _ _ => [x] | EBatch xs _ _ => xs end.
Definition inputs (es : list (@event item)) : list item := flat_map event_inputs es.
(** no two of the items [==] each other, have the same 32-bit fingerprint, and differ in
    their bits.  It holds when no -0.0 occurs, since then [==] items have the same bits. *)
Definition separated (l : list item) : Prop :=
  forall x y, In x l -> In y l -> ie_eq E x y = true -> fp_of hp x = fp_of hp y -> x = y.
End Spec.
