(** * TableArrays.v — the hash table as it is stored: the items are rows of an instance with
      one array per field (definitions only).

    hashtable/{table,lookup,insert}.py with the field [table] an instance of batch shape
    ((_capacity+1)*bucket_size,).  TableModel.v has the same functions on a list of items;
    PropTableArrays.v proves the two agree.  The remaining arrays (fill levels, occupancy
    words, fingerprints) and index arithmetic are as in TableModel.v; code that does not
    touch the stored instances (conflict rounds, GPU and TPU kernels) is used from there.
    [None] is a raised exception or a loop that does not end. *)
From Coq Require Import String.
From Verif Require Import Jax KeyModel HashModel StableSort TableModel DedupeModel ParInsertModel TritonModel PallasModel TableSpec.
From Verif Require Import StructModel ArrayModel ShapeModel RowsModel SoaModel EqModel HeapArrays.

(** table.py 63-83 *)
Record atable := MkAT {
  a_cap : nat; a_bsz : nat; a_maxp : N; a_size : N;
  a_tab : obj;
  a_fill : list nat; a_occ : list N; a_fps : list N }.
(** everything but the stored instances, for the functions that do not touch them *)
Definition meta (t : atable) : @table obj := MkT (a_cap t) (a_bsz t) (a_maxp t) (a_size t) [] (a_fill t) (a_occ t) (a_fps t).

Section A.
Variable c : class.
Variable hp : obj -> N * N.       (* x.hash_pair(seed) of a single instance *)
Variable rowof : obj -> list N.   (* x.uint32ed *)
Variable w : nat.                 (* its length *)
Variable m : dmode.
Variable sortp : list bool -> list (N * N) -> list nat.
Notation bres := (bool * (nat * nat))%type.
Notation irow := (@irow obj).

(** table.py 23-61 *)
Definition abuild (capacity bucket_size mult : nat) (max_probes : option N) : atable :=
  let k := table_cap (mult * capacity / bucket_size) in
  {| a_cap := k; a_bsz := bucket_size;
     a_maxp := match max_probes with None => N.of_nat (k * bucket_size) | Some p => p end;
     a_size := 0; a_tab := default_obj [(k + 1) * bucket_size] c; a_fill := repeat 0 (k + 1);
     a_occ := repeat 0%N (k + 1); a_fps := repeat 0%N ((k + 1) * bucket_size) |}.

(** lookup.py 65, 83, 204, 231: [table.table[flat] == input].  JAX traces the comparison
    once on shapes and dtypes, so it raises for every slot or for none ([comparable]). *)
Definition eq_at (t : atable) (x : obj) (i : nat) : option bool := bind e <- obj_index_array (iscal (Z.of_nat i)) (a_tab t) ;; obj_eq e x.
Definition comparable (t : atable) (x : obj) : bool := match eq_at t x 0 with Some _ => true | None => false end.
Definition same_at (t : atable) (x : obj) (i : nat) : bool := match eq_at t x i with Some b => b | None => false end.

(** lookup.py 45-103, 176-244 *)
Definition ascan (t : atable) (x : obj) (fp : N) (act : bool) (b : nat) : bool * nat :=
  let limit := u8 (nth b (a_fill t) 0) in
  let offs := map u8 (seq 0 (a_bsz t)) in
  let fpm := map (fun o => act && (o <? limit) && (nth (b * a_bsz t + o) (a_fps t) 0 =? fp)%N) offs in
  let first := u8 (argmax fpm) in
  let fast := any fpm && same_at t x (b * a_bsz t + first) in
  let other := map (fun p => fst p && negb (snd p =? first)) (combine fpm offs) in
  let need := negb fast && any other in
  let sq := map (fun p => fst p && same_at t x (b * a_bsz t + snd p)) (combine other offs) in
  let fb := if need then (any sq, u8 (argmax sq)) else (false, 0) in
  (fast || fst fb, if fast then first else snd fb).
(** lookup.py 20-148 *)
Definition alk_body (t : atable) (x : obj) (step fp : N) (s : lst) : lst :=
  let '(b, _, _, probes) := s in
  let limit := u8 (nth b (a_fill t) 0) in
  let '(found, mslot) := ascan t x fp true b in
  let full := limit =? a_bsz t in
  let stop := found || negb full in
  let out := if found then mslot else limit in
  (if stop then b else next_bucket (a_cap t) step b,
   if stop then out else 0,
   found,
   if stop then a_maxp t else w32 (probes + N.of_nat (a_bsz t))).
Definition alookup_bucket (t : atable) (x : obj) : option (nat * nat * bool) :=
  if comparable t x then
    match while (S (N.to_nat (a_maxp t))) (lk_cond (meta t)) (alk_body t x (step_of hp (a_cap t) x) (fp_of hp x))
                (start_of hp (a_cap t) x, 0, false, 0%N) with
    | Some (b, s, f, _) => Some (b, s, f)
    | None => None
    end
  else None.
Definition alookup (t : atable) (x : obj) : option (nat * bool) :=
  option_map (fun r => let '(b, s, f) := r in (b * a_bsz t + s, f)) (alookup_bucket t x).
(** lookup.py 351-353: one index, or a vector of indices *)
Definition agetitem (t : atable) (i : nat) : option obj := obj_index_array (iscal (Z.of_nat i)) (a_tab t).
Definition agetitems (t : atable) (is : list nat) : option obj := obj_index_array (ivec (map Z.of_nat is)) (a_tab t).

(** jax.vmap over the leading axis of a batch: function number [i] sees row [i] *)
Definition vrows (inputs : obj) : option (list obj) :=
  bind n <- leading inputs ;; sequence (map (fun i => obj_index_array (iscal (Z.of_nat i)) inputs) (seq 0 n)).
(** lookup.py 151-304 *)
Definition apl_step (t : atable) (x : obj) (s : prow) : prow :=
  let b := pb s in
  let limit := u8 (nth b (a_fill t) 0) in
  let under := (pprobes s <? a_maxp t)%N in
  let act := pact s && (negb (pfound s) && under) in
  let '(fnd, mslot) := ascan t x (fp_of hp x) act b in
  let founds := pfound s || fnd in
  let full := limit =? a_bsz t in
  let out := if fnd then mslot else limit in
  let probes := if act then w32 (pprobes s + N.of_nat (a_bsz t)) else pprobes s in
  let cont := act && (negb fnd && (full && (probes <? a_maxp t)%N)) in
  {| pb := if act then (if cont then next_bucket (a_cap t) (step_of hp (a_cap t) x) b else b) else b;
     ps := if act then (if cont then 0 else out) else ps s;
     pfound := founds; pprobes := probes; pact := cont |}.
Definition alookup_rows (t : atable) (q : list (obj * (bool * bool))) : option (list prow) :=
  if forallb (fun r => comparable t (fst r)) q then
    option_map (map snd)
      (while (S (N.to_nat (a_maxp t))) pl_cond (map (fun r => (fst r, apl_step t (fst r) (snd r))))
         (map (fun r => (fst r, pl_init hp (meta t) (fst r) (fst (snd r)) (snd (snd r)))) q))
  else None.
(** lookup.py 306-348; a batch shape that is not one-dimensional is not modelled *)
Definition alookup_parallel (t : atable) (inputs : obj) (f : fillarg) : option (list (nat * bool)) :=
  bind xs <- vrows inputs ;;
  let run l := option_map (map (fun s => (pb s * a_bsz t + ps s, pfound s)))
                 (alookup_rows t (map (fun p => (fst p, (false, snd p))) (combine xs l))) in
  match f with
  | FScalar false => Some (repeat (0, false) (length xs))
  | _ => run (mask_list (length xs) f)
  end.

(** insert.py 79-128 *)
Definition awrite (t : atable) (x : obj) (b s : nat) : atable :=
  let i := b * a_bsz t + s in
  {| a_cap := a_cap t; a_bsz := a_bsz t; a_maxp := a_maxp t; a_size := w32 (a_size t + 1);
     a_tab := obj_at_set (iscal (Z.of_nat i)) (a_tab t) x; a_fill := Jax.upd (a_fill t) b (nth b (a_fill t) 0 + 1);
     a_occ := if a_bsz t <=? 32 then Jax.upd (a_occ t) b (N.lor (nth b (a_occ t) 0%N) (N.shiftl 1 (N.of_nat s))) else a_occ t;
     a_fps := Jax.upd (a_fps t) i (fp_of hp x) |}.
Definition ainsert (t : atable) (x : obj) : option (atable * bool * nat) :=
  bind (b, s, found) <- alookup_bucket t x ;;
  let can := negb found && (nth b (a_fill t) 0 <=? s) in
  Some (if can then awrite t x b s else t, can, b * a_bsz t + s).

(** insert.py 29-38 [_scatter_safe_indices] *)
Definition safe_flat (n : nat) (sel : list (bool * nat)) : list Z := map (fun p => if fst p : bool then Z.of_nat (snd p) else Z.of_nat n) sel.
(** insert.py 41-50 [_scatter_set_xtructurable_drop] *)
Definition scatter_drop (o : obj) (safe : list Z) (values : obj) : option obj :=
  tree_mapn (on_two (fun field value => a_at_set (ivec safe) value field)) [o; values].

(** insert.py 385-438 *)
Definition apar_prepare (t : atable) (xs : list obj) (filled : list bool) (uk : option (list costval))
  : option (list bool * list nat * list prow) :=
  let pairs := map hp xs in
  let '(uniq, reps) := dedupe_pairs m w (sortp filled pairs) pairs (map rowof xs) filled uk in
  bind rs <- alookup_rows t (combine xs (combine (map negb uniq) filled)) ;; Some (uniq, reps, rs).

(** the arrays after a batch: [t'] holds the new metadata *)
Definition with_tab (t' : @table obj) (o : obj) : atable :=
  MkAT (cap t') (bsz t') (maxp t') (size t') o (fill t') (occ t') (fps t').
(** insert.py 233-277, 281-325, 328-382: the scatter of the accepted inputs *)
Definition store_batch (t : atable) (inputs : obj) (res : list bres) (t' : @table obj) : option atable :=
  bind o <- scatter_drop (a_tab t) (safe_flat (length (a_fps t)) (map (fun r : bres => (fst r, fst (snd r) * a_bsz t + snd (snd r))) res)) inputs ;;
  Some (with_tab t' o).
(** the three backends ([backend] of TableSpec.v): reservation and metadata as in TableModel.v, TritonModel.v and
    PallasModel.v (none of which reads the stored instances), then the scatter *)
Definition reserves (be : backend) (t : atable) (rows : list irow) (t' : @table obj) (res : list bres) : Prop :=
  match be with
  | XLA => xla hp (meta t) rows = Some (t', res)
  | Triton maxb => a_bsz t <= 32 /\ triton_result (default_obj [] c) hp (meta t) rows maxb t' res
  | Pallas maxb order => a_bsz t <= 32 /\ (forall r, Permutation (order r) (seq 0 (length rows))) /\
      pallas (default_obj [] c) hp (meta t) rows maxb order = Some (t', res)
  end.
(** insert.py 385-552 [parallel_insert(inputs, filled, unique_key)] *)
Definition aparallel_insert (be : backend) (t : atable) (inputs : obj) (f : fillarg) (uk : option (list costval))
  (out : atable * list bool * list bool * list nat) : Prop :=
  exists xs, vrows inputs = Some xs /\
  match f with
  | FScalar false => out = (t, repeat false (length xs), repeat false (length xs), repeat 0 (length xs))
  | _ => exists uniq reps rs t' ta res,
      apar_prepare t xs (mask_list (length xs) f) uk = Some (uniq, reps, rs) /\
      reserves be t (par_rows xs uniq rs) t' res /\
      store_batch t inputs res t' = Some ta /\
      out = (ta, map fst res, uniq, par_idx (meta t) rs res reps)
  end.
(** the default backend as a function *)
Definition aparallel_insert_xla (t : atable) (inputs : obj) (f : fillarg) (uk : option (list costval))
  : option (atable * list bool * list bool * list nat) :=
  bind xs <- vrows inputs ;;
  match f with
  | FScalar false => Some (t, repeat false (length xs), repeat false (length xs), repeat 0 (length xs))
  | _ =>
    bind (uniq, reps, rs) <- apar_prepare t xs (mask_list (length xs) f) uk ;;
    bind (t', res) <- xla hp (meta t) (par_rows xs uniq rs) ;;
    bind ta <- store_batch t inputs res t' ;;
    Some (ta, map fst res, uniq, par_idx (meta t) rs res reps)
  end.
End A.
