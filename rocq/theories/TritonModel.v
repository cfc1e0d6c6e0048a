(** * TritonModel.v — GPU insertion (hashtable/insert_triton.py and insert.py 258-325):
      the kernel as a small-step semantics of concurrent programs (definitions only).

    One program per batch row; the programs share the occupancy words.  A plain load may
    return ANY value the word has had since the launch (arbitrarily stale); [atomic_or]
    acts on the current value.  Loop bookkeeping that touches no shared state is merged
    into the neighbouring memory step; the GPU's scheduling is the free choice of which
    program steps next. *)
From Verif Require Import Jax HashModel TableModel ParInsertModel.

(** insert_triton.py 54-57 [_full_mask_u32] *)
Definition full_mask (n : nat) : N := if 32 <=? n then 0xFFFFFFFF%N else (N.shiftl 1 (N.of_nat n) - 1)%N.
(** 100-103: free bits and the lowest one, in uint32 arithmetic *)
Definition free_of (n : nat) (occ : N) : N := N.land (N.lxor occ 0xFFFFFFFF) (full_mask n).
Definition lsb_of (free : N) : N := N.land free (w32 (2 ^ 32 - free)).
(** 114: 31 - clz(lsb) *)
Definition clz32 (v : N) : N := (32 - N.size v)%N.
Definition slot_of (l : N) : nat := N.to_nat (31 - clz32 l).
(** jax.lax.population_count on uint32 *)
Definition popcount (v : N) : nat := length (filter (fun i => N.testbit v (N.of_nat i)) (seq 0 32)).

Section Triton.
Context {item : Type}.
Variable d : item.
Variable hp : item -> N * N.
Notation table := (@table item).
Notation irow := (@irow item).
Notation bres := (bool * (nat * nat))%type.

(** program counter of one program: before the load of a bucket (87-93), in the claim
    loop of a bucket with a private view of its word (95-124), or finished (131-139). *)
Inductive pc :=
  | Outer (probe b : nat)
  | Inner (probe b attempt : nat) (view : N)
  | Done (ins : bool) (b s : nat).
(** shared memory, its earlier contents, and the programs *)
Record cfg := MkC { mem : list N; past : list (list N); pcs : list pc }.

Variable t : table.
Variable rows : list irow.
Variable maxb : nat.   (* max_probe_buckets, 158 and 209-219 *)
Notation row i := (nth i rows (MkI d false 0 0 false)).

Definition start : cfg := MkC (occ t) [] (map (fun r => Outer 0 (ib r)) rows).

(** 60-139 [reserve_slots_kernel] *)
Inductive tstep (c : cfg) : cfg -> Prop :=
  | s_exit i p b : i < length (pcs c) -> nth i (pcs c) (Done false 0 0) = Outer p b ->
      iupd (row i) = false \/ maxb <= p ->
      tstep c (MkC (mem c) (past c) (upd (pcs c) i (Done false b 0)))
  | s_load i p b m : i < length (pcs c) -> nth i (pcs c) (Done false 0 0) = Outer p b ->
      iupd (row i) = true -> p < maxb -> In m (mem c :: past c) ->
      tstep c (MkC (mem c) (past c) (upd (pcs c) i (Inner p b 0 (nth b m 0%N))))
  | s_claim i p b a v : i < length (pcs c) -> nth i (pcs c) (Done false 0 0) = Inner p b a v -> a < bsz t ->
      free_of (bsz t) v <> 0%N ->
      let l := lsb_of (free_of (bsz t) v) in let old := nth b (mem c) 0%N in
      N.land old l = 0%N ->
      tstep c (MkC (upd (mem c) b (N.lor old l)) (mem c :: past c) (upd (pcs c) i (Done true b (slot_of l))))
  | s_retry i p b a v : i < length (pcs c) -> nth i (pcs c) (Done false 0 0) = Inner p b a v -> a < bsz t ->
      free_of (bsz t) v <> 0%N ->
      let l := lsb_of (free_of (bsz t) v) in let old := nth b (mem c) 0%N in
      N.land old l <> 0%N ->
      tstep c (MkC (upd (mem c) b (N.lor old l)) (mem c :: past c) (upd (pcs c) i (Inner p b (S a) (N.lor old l))))
  | s_nofree i p b a v : i < length (pcs c) -> nth i (pcs c) (Done false 0 0) = Inner p b a v -> a < bsz t ->
      free_of (bsz t) v = 0%N ->
      tstep c (MkC (mem c) (past c) (upd (pcs c) i (Inner p b (bsz t) v)))
  | s_next i p b a v : i < length (pcs c) -> nth i (pcs c) (Done false 0 0) = Inner p b a v -> bsz t <= a ->
      tstep c (MkC (mem c) (past c) (upd (pcs c) i (Outer (S p) (next_bucket (cap t) (step_of hp (cap t) (ix (row i))) b)))).
Inductive treach : cfg -> Prop :=
  | r_start : treach start
  | r_step c c' : treach c -> tstep c c' -> treach c'.

Definition res_of (p : pc) : bres := match p with Done i b s => (i, (b, s)) | _ => (false, (0, 0)) end.
Definition finished (c : cfg) : Prop := forall i, i < length (pcs c) -> exists ins b s, nth i (pcs c) (Done false 0 0) = Done ins b s.

(** insert.py 281-325: write the claimed rows; fill levels from the population count of
    the claimed buckets' words *)
Definition commit_gpu (occ' : list N) (res : list bres) : table :=
  let ok := filter (fun p : irow * bres => fst (snd p)) (combine rows res) in
  let bk (p : irow * bres) := fst (snd (snd p)) in
  let flat (p : irow * bres) := bk p * bsz t + snd (snd (snd p)) in
  {| cap := cap t; bsz := bsz t; maxp := maxp t;
     size := w32 (size t + N.of_nat (length ok));
     tab := fold_left (fun a p => upd a (flat p) (ix (fst p))) ok (tab t);
     fill := fold_left (fun a p => upd a (bk p) (popcount (N.land (nth (bk p) occ' 0%N) (full_mask (bsz t))))) ok (fill t);
     occ := occ';
     fps := fold_left (fun a p => upd a (flat p) (fp_of hp (ix (fst p)))) ok (fps t) |}.
(** a run of the kernel to completion followed by the writes *)
Definition triton_result (t' : table) (res : list bres) : Prop :=
  exists c, treach c /\ finished c /\ res = map res_of (pcs c) /\ t' = commit_gpu (mem c) res.
End Triton.
