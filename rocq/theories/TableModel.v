(** * TableModel.v — xtructure/hashtable: build, lookup, insert, parallel_insert
      (default XLA backend) as functions on the stored arrays (definitions only).

    Modelling conventions.
    - [item] is the stored dataclass; [eqb] its [==]; [hp x] is [x.hash_pair(seed)]
      (any function: every collision pattern is covered).
    - bucket and flat slot indices are [nat]: the code's uint32/int32 arithmetic on
      them never wraps because arrays are indexable by int32 ((_capacity+1)*bucket_size
      < 2^31).  The 8-bit slot arithmetic and the 32-bit probe counter and probe-step
      arithmetic ARE modelled with their wrap-around ([u8], [w32]).
    - gathers are in bounds at every use (proved invariants), so [nth] with a default
      stands for them.
    - a batch is one list of records instead of several arrays of equal length.        *)
From Verif Require Import Jax HashModel StableSort.

Definition u8 (n : nat) : nat := n mod 256.

Section Table.
Context {item : Type}.
Variable eqb : item -> item -> bool.
Variable d : item.
Variable hp : item -> N * N.

(** hashtable/table.py 63-83 [HashTable] (seed is inside [hp]) *)
Record table := MkT {
  cap : nat;      (* _capacity *)
  bsz : nat;      (* bucket_size *)
  maxp : N;       (* max_probes *)
  size : N;
  tab : list item;
  fill : list nat;
  occ : list N;
  fps : list N }.

(** table.py 23-61 [_hashtable_build_jit].  [target] is int(hash_size_multiplier *
    capacity / bucket_size); 1 << (target-1).bit_length() is the next power of two. *)
Definition table_cap (target : nat) : nat :=
  if target <=? 1 then 1 else 2 ^ N.to_nat (N.size (N.of_nat (target - 1))).
Definition build (capacity bucket_size mult : nat) (max_probes : option N) : table :=
  let c := table_cap (mult * capacity / bucket_size) in
  {| cap := c; bsz := bucket_size;
     maxp := match max_probes with None => N.of_nat (c * bucket_size) | Some m => m end;
     size := 0; tab := repeat d ((c + 1) * bucket_size); fill := repeat 0 (c + 1);
     occ := repeat 0%N (c + 1); fps := repeat 0%N ((c + 1) * bucket_size) |}.

(** hash_utils.py 507-519 [_normalize_probe_step], 548-594 [get_new_idx_byterized],
    [get_new_idx_hashed].  The modulus is always a power of two (table.py 33-38), so the
    [%] branch of the select is never taken. *)
Definition mask_of (c : nat) : N := (N.of_nat c - 1)%N.
Definition start_of (c : nat) (x : item) : nat := N.to_nat (N.land (fst (hp x)) (mask_of c)).
Definition step_of (c : nat) (x : item) : N := N.lor (N.land (snd (hp x)) (mask_of c)) 1.
Definition fp_of (x : item) : N := mix_fingerprint (fst (hp x)) (snd (hp x)) 0.
(** lookup.py 106, 228, insert.py 149-150: (bucket + step) & mask in uint32 *)
Definition next_bucket (c : nat) (step : N) (b : nat) : nat :=
  N.to_nat (N.land (w32 (N.of_nat b + step)) (mask_of c)).

Definition fillOf (t : table) (b : nat) : nat := nth b (fill t) 0.
Definition tabAt (t : table) (i : nat) : item := nth i (tab t) d.
Definition fpAt (t : table) (i : nat) : N := nth i (fps t) 0%N.
Definition any (l : list bool) : bool := existsb (fun b => b) l.

(** lookup.py 45-103 (sequential, act = true) and 176-244 (parallel, one row with
    act = step_active): scan of one bucket; result (found, match_slot). *)
Definition scan (t : table) (x : item) (fp : N) (act : bool) (b : nat) : bool * nat :=
  let limit := u8 (fillOf t b) in
  let offs := map u8 (seq 0 (bsz t)) in
  let fpm := map (fun o => act && (o <? limit) && (fpAt t (b * bsz t + o) =? fp)%N) offs in
  let first := u8 (argmax fpm) in
  let fast := any fpm && eqb (tabAt t (b * bsz t + first)) x in
  let other := map (fun p => fst p && negb (snd p =? first)) (combine fpm offs) in
  let need := negb fast && any other in
  let sq := map (fun p => fst p && eqb (tabAt t (b * bsz t + snd p)) x) (combine other offs) in
  let fb := if need then (any sq, u8 (argmax sq)) else (false, 0) in
  (fast || fst fb, if fast then first else snd fb).

(** lookup.py 20-124 [_hashtable_lookup_internal]: state (bucket, slot, found, probes) *)
Definition lst := (nat * nat * bool * N)%type.
Definition lk_cond (t : table) (s : lst) : bool :=
  let '(_, _, found, probes) := s in negb found && (probes <? maxp t)%N.
Definition lk_body (t : table) (x : item) (step fp : N) (s : lst) : lst :=
  let '(b, _, _, probes) := s in
  let limit := u8 (fillOf t b) in
  let '(found, mslot) := scan t x fp true b in
  let full := limit =? bsz t in
  let stop := found || negb full in
  let out := if found then mslot else limit in
  (if stop then b else next_bucket (cap t) step b,
   if stop then out else 0,
   found,
   if stop then maxp t else w32 (probes + N.of_nat (bsz t))).
(** lookup.py 127-141 [_hashtable_lookup_bucket_jit]; [None] = does not terminate. *)
Definition lookup_bucket (t : table) (x : item) : option (nat * nat * bool) :=
  match while (S (N.to_nat (maxp t))) (lk_cond t) (lk_body t x (step_of (cap t) x) (fp_of x))
              (start_of (cap t) x, 0, false, 0%N) with
  | Some (b, s, f, _) => Some (b, s, f)
  | None => None
  end.
(** lookup.py 144-148 [_hashtable_lookup_jit]: [HashTable.lookup] *)
Definition lookup (t : table) (x : item) : option (nat * bool) :=
  option_map (fun r => let '(b, s, f) := r in (b * bsz t + s, f)) (lookup_bucket t x).
(** lookup.py 351-353 [HashTable.__getitem__] *)
Definition getitem (t : table) (i : nat) : item := tabAt t i.

(** lookup.py 151-304 [_hashtable_lookup_parallel_internal]: one row of the batch. *)
Record prow := MkP { pb : nat; ps : nat; pfound : bool; pprobes : N; pact : bool }.
Definition pl_step (t : table) (x : item) (s : prow) : prow :=
  let b := pb s in
  let limit := u8 (fillOf t b) in
  let under := (pprobes s <? maxp t)%N in
  let act := pact s && (negb (pfound s) && under) in
  let '(fnd, mslot) := scan t x (fp_of x) act b in
  let founds := pfound s || fnd in
  let full := limit =? bsz t in
  let out := if fnd then mslot else limit in
  let probes := if act then w32 (pprobes s + N.of_nat (bsz t)) else pprobes s in
  let cont := act && (negb fnd && (full && (probes <? maxp t)%N)) in
  {| pb := if act then (if cont then next_bucket (cap t) (step_of (cap t) x) b else b) else b;
     ps := if act then (if cont then 0 else out) else ps s;
     pfound := founds; pprobes := probes; pact := cont |}.
Definition pl_cond (l : list (item * prow)) : bool := existsb (fun r => pact (snd r)) l.
Definition pl_body (t : table) (l : list (item * prow)) : list (item * prow) :=
  map (fun r => (fst r, pl_step t (fst r) (snd r))) l.
(** rows start at (hash & mask, slot 0); [founds]/[active] as passed by the caller *)
Definition pl_init (t : table) (x : item) (found active : bool) : prow :=
  {| pb := start_of (cap t) x; ps := 0; pfound := found; pprobes := 0; pact := active |}.
Definition lookup_rows (t : table) (q : list (item * (bool * bool))) : option (list prow) :=
  option_map (map snd)
    (while (S (N.to_nat (maxp t))) pl_cond (pl_body t)
       (map (fun r => (fst r, pl_init t (fst r) (fst (snd r)) (snd (snd r)))) q)).
(** the [filled] argument: None / scalar / mask (lookup.py 306-348, insert.py 538-552) *)
Inductive fillarg := FScalar (b : bool) | FMask (l : list bool).
Definition mask_list (n : nat) (f : fillarg) : list bool :=
  match f with FScalar b => repeat b n | FMask l => l end.
(** lookup.py 306-348 [_hashtable_lookup_parallel_jit]: [HashTable.lookup_parallel] *)
Definition lookup_parallel (t : table) (xs : list item) (f : fillarg) : option (list (nat * bool)) :=
  let run l := option_map (map (fun s => (pb s * bsz t + ps s, pfound s)))
                 (lookup_rows t (map (fun p => (fst p, (false, snd p))) (combine xs l))) in
  match f with
  | FScalar false => Some (repeat (0, false) (length xs))
  | _ => run (mask_list (length xs) f)
  end.

(** insert.py 79-128 [_hashtable_insert_jit]: [HashTable.insert] *)
Definition write (t : table) (x : item) (b s : nat) : table :=
  let i := b * bsz t + s in
  {| cap := cap t; bsz := bsz t; maxp := maxp t; size := w32 (size t + 1);
     tab := upd (tab t) i x; fill := upd (fill t) b (fillOf t b + 1);
     occ := if bsz t <=? 32 then upd (occ t) b (N.lor (nth b (occ t) 0%N) (N.shiftl 1 (N.of_nat s))) else occ t;
     fps := upd (fps t) i (fp_of x) |}.
Definition insert (t : table) (x : item) : option (table * bool * nat) :=
  match lookup_bucket t x with
  | None => None
  | Some (b, s, found) =>
      let can := negb found && (fillOf t b <=? s) in
      Some (if can then write t x b s else t, can, b * bsz t + s)
  end.

(** insert.py 53-76 [_resolve_slot_conflicts]: stable sort of (key, batch index) by
    key; the first row of each run of equal keys wins; scatter back. *)
Definition sentinel : N := 0xFFFFFFFF.
Definition resolve (flats : list nat) (active : list bool) : list bool :=
  let n := length flats in
  let keys := map (fun p => if snd p : bool then N.of_nat (fst p) else sentinel) (combine flats active) in
  let sorted := isort (fun p q => (fst p <=? fst q)%N) (combine keys (seq 0 n)) in
  let starts := group_start N.eqb (map fst sorted) in
  fold_left (fun acc r => upd acc (snd (fst r)) (snd r && negb (fst (fst r) =? sentinel)%N))
            (combine sorted starts) (repeat false n).

(** one row of the parallel insertion batch *)
Record irow := MkI { ix : item; iupd : bool; ib : nat; is_ : nat; ipend : bool }.
(** insert.py 143-165 [_advance] *)
Definition advance (t : table) (x : item) (p : nat * nat) : nat * nat :=
  let '(b, s) := p in
  if bsz t - 1 <=? s
  then let nb := next_bucket (cap t) (step_of (cap t) x) b in (nb, u8 (fillOf t nb))
  else (b, u8 (s + 1)).
(** insert.py 177-189 and 206-222: winners among the valid candidate rows, and the
    new pending mask *)
Definition settle (t : table) (rows : list irow) : list irow :=
  let win := resolve (map (fun r => ib r * bsz t + is_ r) rows)
                     (map (fun r => iupd r && (is_ r <? bsz t)) rows) in
  map (fun p => let r := fst p in
         {| ix := ix r; iupd := iupd r; ib := ib r; is_ := is_ r;
            ipend := (iupd r && negb (snd p)) || (iupd r && negb (is_ r <? bsz t)) |})
      (combine rows win).
(** insert.py 167-175 [_next_idx] *)
Definition move (t : table) (r : irow) : irow :=
  if ipend r then
    let '(b, s) := advance t (ix r) (ib r, is_ r) in
    {| ix := ix r; iupd := iupd r; ib := b; is_ := s; ipend := ipend r |}
  else r.
(** insert.py 191-228: the conflict-resolution loop *)
Definition rd_cond (t : table) (s : list irow * N) : bool :=
  existsb ipend (fst s) && (snd s <? maxp t)%N.
Definition rd_body (t : table) (s : list irow * N) : list irow * N :=
  (settle t (map (move t) (fst s)), w32 (snd s + 1)).
Definition rounds (t : table) (rows : list irow) : option (list irow) :=
  option_map fst (while (S (N.to_nat (maxp t))) (rd_cond t) (rd_body t) (settle t rows, 0%N)).
(** insert.py 230-231 *)
Definition succ_row (t : table) (r : irow) : bool := iupd r && negb (ipend r) && (is_ r <? bsz t).
(** insert.py 233-277: scatter the winners into the arrays *)
Definition commit (t : table) (rows : list irow) : table :=
  let ok := filter (succ_row t) rows in
  {| cap := cap t; bsz := bsz t; maxp := maxp t;
     size := w32 (size t + N.of_nat (length ok));
     tab := fold_left (fun a r => upd a (ib r * bsz t + is_ r) (ix r)) ok (tab t);
     fill := fold_left (fun a r => upd a (ib r) (nth (ib r) a 0 + 1)) ok (fill t);
     occ := if bsz t <=? 32
            then fold_left (fun a r => upd a (ib r) (w32 (nth (ib r) a 0%N + N.shiftl 1 (N.of_nat (is_ r))))) ok (occ t)
            else occ t;
     fps := fold_left (fun a r => upd a (ib r * bsz t + is_ r) (fp_of (ix r))) ok (fps t) |}.
End Table.
