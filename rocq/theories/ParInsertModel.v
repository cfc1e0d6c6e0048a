(** * ParInsertModel.v — HashTable.parallel_insert (definitions only). *)
From Verif Require Import Jax KeyModel HashModel StableSort TableModel DedupeModel.

Section PI.
Context {item : Type}.
Variable eqb : item -> item -> bool.
Variable d : item.
Variable hp : item -> N * N.          (* x.hash_pair(seed) *)
Variable rowof : item -> list N.      (* x.uint32ed *)
Variable w : nat.                     (* words per item *)
Variable m : dmode.                   (* XTRUCTURE_HASHTABLE_DEDUPE_MODE *)
Variable sortp : list bool -> list (N * N) -> list nat. (* XTRUCTURE_HASHTABLE_SORT_BACKEND *)
Notation table := (@table item).
(** what a slot-assignment backend returns for one row: (inserted, (bucket, slot)) *)
Notation bres := (bool * (nat * nat))%type.

(** insert.py 385-436: dedupe, then look up the unique filled rows *)
Definition par_prepare (t : table) (xs : list item) (filled : list bool) (uk : option (list costval))
  : option (list bool * list nat * list prow) :=
  let pairs := map hp xs in
  let '(uniq, reps) := dedupe_pairs m w (sortp filled pairs) pairs (map rowof xs) filled uk in
  match lookup_rows eqb d hp t (combine xs (combine (map negb uniq) filled)) with
  | None => None
  | Some rs => Some (uniq, reps, rs)
  end.
(** insert.py 438: the rows that want a slot *)
Definition par_rows (xs : list item) (uniq : list bool) (rs : list prow) : list (@irow item) :=
  map (fun p => MkI (fst (fst p)) (negb (pfound (snd p)) && snd (fst p)) (pb (snd p)) (ps (snd p)) false)
      (combine (combine xs uniq) rs).
(** insert.py 485-527: the reported index of every row (bucket and slot are combined
    before the gather by representative instead of after it) *)
Definition par_idx (t : table) (rs : list prow) (res : list bres) (reps : list nat) : list nat :=
  let prov := map (fun p : prow * bres =>
      if pfound (fst p) || negb (fst (snd p)) then pb (fst p) * bsz t + ps (fst p)
      else fst (snd (snd p)) * bsz t + snd (snd (snd p))) (combine rs res) in
  map (fun i => nth i prov 0) reps.

(** insert.py 474-483 with the XLA backend 135-277 *)
Definition xla (t : table) (rows : list irow) : option (table * list bres) :=
  match rounds hp t rows with
  | None => None
  | Some rows' => Some (commit hp t rows', map (fun r => (succ_row t r, (ib r, is_ r))) rows')
  end.

(** insert.py 385-552 [_hashtable_parallel_insert_jit]; result (table, inserted,
    unique_filled, indices).  [backend] assigns slots. *)
Definition parallel_insert_with (backend : table -> list irow -> option (table * list bres))
  (t : table) (xs : list item) (f : fillarg) (uk : option (list costval))
  : option (table * list bool * list bool * list nat) :=
  let n := length xs in
  let run filled :=
    match par_prepare t xs filled uk with
    | None => None
    | Some (uniq, reps, rs) =>
        match backend t (par_rows xs uniq rs) with
        | None => None
        | Some (t', res) => Some (t', map fst res, uniq, par_idx t rs res reps)
        end
    end in
  match f with
  | FScalar false => Some (t, repeat false n, repeat false n, repeat 0 n)
  | _ => run (mask_list n f)
  end.
Definition parallel_insert := parallel_insert_with xla.
End PI.
