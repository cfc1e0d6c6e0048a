(** * PallasModel.v — TPU insertion (hashtable/insert_pallas.py and insert.py 328-382)
      as a function on the stored arrays (definitions only).

    The kernel's grid is the list [order r] of program ids run one after the other in
    round [r]; a TPU grid runs [0 .. batch-1] in order, the theorems hold for every
    order.  The fill levels never exceed 32, so the uint32 arithmetic on them is exact. *)
From Verif Require Import Jax HashModel StableSort TableModel ParInsertModel TritonModel.

(** [jnp.zeros(...).at[idx].set(vals)] with distinct in-range indices *)
Definition scatter {A} (z : A) (n : nat) (idx : list nat) (vals : list A) : list A :=
  fold_left (fun acc p => upd acc (fst p) (snd p)) (combine idx vals) (repeat z n).

Section Pallas.
Context {item : Type}.
Variable d : item.
Variable hp : item -> N * N.
Notation table := (@table item).
Notation irow := (@irow item).
Notation bres := (bool * (nat * nat))%type.

(** one row of the loop state (insert_pallas.py 143-147): current bucket, result
    bucket and slot, inserted, pending *)
Record pst := MkPS { qcur : nat; qb : nat; qs : nat; qins : bool; qpend : bool }.
(** the shared arrays: fill levels and occupancy words *)
Notation shared := (list nat * list N)%type.

Variable t : table.
Variable rows : list irow.
Variable maxb : nat.                  (* max_probe_buckets *)
Variable order : nat -> list nat.
Notation n := (length rows).
Notation row i := (nth i rows (MkI d false 0 0 false)).

(** 81-91: one iteration of the unrolled offset loop; state (fill, out_slot, out_inserted) *)
Definition kstore (pid len : nat) (s : nat * list nat * list bool) (off : nat) : nat * list nat * list bool :=
  let '(f, sl, il) := s in
  if (off <? len) && (f <? bsz t) then (S f, upd sl (pid + off) f, upd il (pid + off) true) else s.
(** 47-101 [bucket_owner_kernel] for program [pid] *)
Definition kprog (sb : list nat) (gs : list bool) (gl : list nat)
    (s : shared * (list nat * list bool)) (pid : nat) : shared * (list nat * list bool) :=
  let '((fl, oc), (sl, il)) := s in
  let b := nth pid sb 0 in
  if nth pid gs false && (b <? cap t) then
    let '(f, sl', il') := fold_left (kstore pid (nth pid gl 0)) (seq 0 (bsz t)) (Nat.min (nth b fl 0) (bsz t), sl, il) in
    let o := if bsz t <=? f then full_mask (bsz t) else (N.shiftl 1 (N.of_nat f) - 1)%N in
    ((upd fl b f, upd oc b o), (sl', il'))
  else s.

(** 156-166: sort the pending rows by bucket (others get the sentinel [capacity]) *)
Definition psorted (st : list pst) : list (nat * nat) :=
  let keys := map (fun s => if qpend s then qcur s else cap t) st in
  isort (fun p q : nat * nat => fst p <=? fst q) (combine keys (seq 0 n)).
(** 168-177: group starts, group ids, group lengths (segment_sum of ones by group id) *)
Definition group_len (sb : list nat) : list nat :=
  let gid := group_id Nat.eqb sb in
  map (fun p => if nth p (group_start Nat.eqb sb) false
                then length (filter (fun q => nth q gid 0 =? nth p gid 0) (seq 0 (length sb))) else 0)
      (seq 0 (length sb)).
(** 153-232 [_body]; state (fill, occ, rows, rounds) *)
Definition pbody (s : shared * list pst * nat) : shared * list pst * nat :=
  let '(sh, st, r) := s in
  let sorted := psorted st in
  let sb := map fst sorted in
  let si := map snd sorted in
  let '(sh', (sl, il)) := fold_left (kprog sb (group_start Nat.eqb sb) (group_len sb)) (order r)
                            (sh, (repeat 0 n, repeat false n)) in
  let insr := scatter false n si il in
  let slotr := scatter 0 n si sl in
  let bucketr := scatter 0 n si sb in
  let row' i :=
    let p := nth i st (MkPS 0 0 0 false false) in
    let newly := qpend p && nth i insr false in
    let pend := qpend p && negb (nth i insr false) in
    {| qcur := if pend then next_bucket (cap t) (step_of hp (cap t) (ix (row i))) (qcur p) else qcur p;
       qb := if newly then nth i bucketr 0 else qb p;
       qs := if newly then nth i slotr 0 else qs p;
       qins := qins p || newly;
       qpend := pend |} in
  (sh', map row' (seq 0 n), S r).
(** 149-151 [_cond] *)
Definition pcond (s : shared * list pst * nat) : bool :=
  let '(_, st, r) := s in existsb qpend st && (r <? maxb).
Definition pinit : shared * list pst * nat :=
  ((fill t, occ t), map (fun x => MkPS (ib x) (ib x) 0 false (iupd x)) rows, 0).
(** 124-250 [_reserve_slots] *)
Definition preserve : option (shared * list bres) :=
  match while (S maxb) pcond pbody pinit with
  | Some (sh, st, _) => Some (sh, map (fun s => (qins s, (qb s, qs s))) st)
  | None => None
  end.
(** insert.py 328-382 [_hashtable_parallel_insert_internal_pallas] *)
Definition pallas : option (table * list bres) :=
  match preserve with
  | None => None
  | Some ((fl, oc), res) =>
      let ok := filter (fun p : irow * bres => fst (snd p)) (combine rows res) in
      let flat (p : irow * bres) := fst (snd (snd p)) * bsz t + snd (snd (snd p)) in
      Some ({| cap := cap t; bsz := bsz t; maxp := maxp t;
               size := w32 (size t + N.of_nat (length ok));
               tab := fold_left (fun a p => upd a (flat p) (ix (fst p))) ok (tab t);
               fill := fl; occ := oc;
               fps := fold_left (fun a p => upd a (flat p) (fp_of hp (ix (fst p)))) ok (fps t) |}, res)
  end.
End Pallas.
