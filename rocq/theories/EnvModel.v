(** * EnvModel.v — the settings read from environment variables, and the back ends of the
      priority queue they select (definitions only).

    Strings are ASCII; Python's [str.strip] and [str.lower] are modelled on ASCII
    (non-ASCII blanks and letters are not).  [None] = the code raises (ValueError unless
    said otherwise).  The variables are read while the module is imported (_constants.py,
    hash_utils.py, hash.py) or while a function is traced for the first time; here they
    are read together, so [None] means: raised at the latest by the first insertion. *)
From Coq Require Import String Ascii.
From Verif Require Import Jax KeyModel HashModel MergeModel KvModel HeapSpec TieModel DedupeModel.
Local Open Scope list_scope.

Definition env := string -> option string.
Inductive platform := Cpu | Gpu | Tpu.
Definition is_gpu (p : platform) : bool := match p with Gpu => true | _ => false end.
Definition is_tpu (p : platform) : bool := match p with Tpu => true | _ => false end.

(** ** Python's string functions *)
Definition blank (c : ascii) : bool :=
  let n := nat_of_ascii c in ((9 <=? n) && (n <=? 13)) || ((28 <=? n) && (n <=? 32)).
Fixpoint skip_blanks (l : list ascii) : list ascii :=
  match l with [] => [] | c :: t => if blank c then skip_blanks t else l end.
Definition strip_chars (l : list ascii) : list ascii := rev (skip_blanks (rev (skip_blanks l))).
(** [s.strip()] *)
Definition strip (s : string) : string := string_of_list_ascii (strip_chars (list_ascii_of_string s)).
Definition lower_char (c : ascii) : ascii :=
  let n := nat_of_ascii c in if (65 <=? n) && (n <=? 90) then ascii_of_nat (n + 32) else c.
(** [s.lower()] *)
Definition lower (s : string) : string := string_of_list_ascii (map lower_char (list_ascii_of_string s)).
(** [s.strip().lower()] *)
Definition word (s : string) : string := lower (strip s).
(** [s in {...}] *)
Definition one_of (s : string) (l : list string) : bool := existsb (String.eqb s) l.

(** [int(s)]: blanks around, a sign, digits with single underscores between them (the
    limit of 4300 digits is not modelled) *)
Definition digit (c : ascii) : option Z :=
  let n := nat_of_ascii c in if (48 <=? n) && (n <=? 57) then Some (Z.of_nat (n - 48)) else None.
Fixpoint digits (l : list ascii) (after_digit : bool) (acc : Z) : option Z :=
  match l with
  | [] => if after_digit then Some acc else None
  | c :: t => match digit c with
              | Some d => digits t true (10 * acc + d)
              | None => if (nat_of_ascii c =? 95) && after_digit then digits t false acc else None
              end
  end.
Definition py_int (s : string) : option Z :=
  match strip_chars (list_ascii_of_string s) with
  | [] => None
  | c :: t => if nat_of_ascii c =? 43 then digits t false 0
              else if nat_of_ascii c =? 45 then option_map Z.opp (digits t false 0)
              else digits (c :: t) false 0
  end.
Definition bind {A B} (x : option A) (f : A -> option B) : option B := match x with Some a => f a | None => None end.
(** [os.environ.get(name, default)] *)
Definition get (e : env) (name dflt : string) : string := match e name with Some s => s | None => dflt end.
Definition at_least (lo : Z) (z : option Z) : option Z := bind z (fun z => if (lo <=? z)%Z then Some z else None).

Local Open Scope string_scope.
(** ** Readers *)
(** hash_utils.py 18-27 [_parse_bool_env] *)
Definition bool_env (e : env) (name : string) (dflt : bool) : option bool :=
  match e name with
  | None => Some dflt
  | Some s => if one_of (word s) ["1"; "true"; "yes"; "y"; "on"]%list then Some true
              else if one_of (word s) ["0"; "false"; "no"; "n"; "off"]%list then Some false else None
  end.
(** hash_utils.py 30-43, aggregate_bitpack/__init__.py 96-109 [_parse_int_env]; with
    default None also parallel.py 52-64 [_parse_triton_param], insert_triton.py 30-42 *)
Definition int_env (e : env) (name : string) : option (option Z) :=
  match e name with
  | None => Some None
  | Some s => if one_of (word s) [""; "none"; "auto"]%list then Some None else option_map Some (at_least 1 (py_int (word s)))
  end.
(** parallel.py 21-36 [_parse_block_size_override] *)
Definition block_override (e : env) : option (option Z) :=
  match e "XTRUCTURE_BGPQ_MERGE_BLOCK_SIZE" with
  | None => Some None
  | Some s => if String.eqb (word s) "auto" then Some None else option_map Some (at_least 1 (py_int s))
  end.
(** parallel.py 39-49 [_parse_unroll_max] (the value only selects a Python loop or
    [fori_loop] over the same body, 160-173) *)
Definition unroll_max (e : env) : option Z := at_least 0 (py_int (get e "XTRUCTURE_BGPQ_MERGE_UNROLL_MAX" "32")).
(** parallel.py 67-74 [_parse_value_packing] *)
Definition value_packing (e : env) : option packing :=
  let w := word (get e "XTRUCTURE_BGPQ_MERGE_VALUE_PACKING" "auto") in
  if String.eqb w "auto" then Some PAuto else if String.eqb w "pad" then Some PPad
  else if String.eqb w "scalar" then Some PScalar else if String.eqb w "shard" then Some PShard else None.
(** parallel.py 77-89 [_parse_value_scalar_max] *)
Definition scalar_max (e : env) : option Z := at_least 1 (py_int (get e "XTRUCTURE_BGPQ_MERGE_VALUE_SCALAR_MAX" "16")).
(** parallel.py 92-103 [_select_block_size] *)
Definition block_size (p : platform) (override : option Z) (total : nat) : nat :=
  match override with
  | Some b => Z.to_nat b
  | None => if is_gpu p then if (N.of_nat total <=? 2 ^ 15)%N then 16 else 64 else 64
  end.
(** _utils.py 13-30 [_use_kv_backend] *)
Definition use_kv (e : env) (s : string) (batch_size : nat) : option bool :=
  let w := word s in
  if one_of w [""; "off"; "0"; "false"; "none"]%list then Some false
  else if one_of w ["on"; "true"; "parallel"; "pallas"; "kv"; "kv_parallel"]%list then Some true
  else if one_of w ["auto"; "kv_auto"]%list then
    option_map (fun th => (0 <? th)%Z && (th <=? Z.of_nat batch_size)%Z) (py_int (get e "XTRUCTURE_BGPQ_MERGE_VALUE_AUTO_MIN_BATCH" "0"))
  else None.
(** _constants.py 12-13: [.lower()] without [.strip()], everything else means true *)
Definition sort_stable (e : env) : bool := negb (one_of (lower (get e "XTRUCTURE_BGPQ_SORT_STABLE" "true")) ["0"; "false"; "off"]%list).
(** _constants.py 24-36: true = the parallel merge *)
Definition parallel_merge (p : platform) (e : env) : option bool :=
  let w := lower (get e "XTRUCTURE_BGPQ_MERGE_BACKEND" (if is_gpu p then "parallel" else "sort")) in
  if one_of w ["sort"; "xla"]%list then Some false else if one_of w ["parallel"; "pallas"]%list then Some true else None.
(** _merge.py 23-32: true = concat_gather *)
Definition reorder_concat (e : env) : option bool :=
  let w := word (get e "XTRUCTURE_BGPQ_VALUE_REORDER" "gather") in
  if one_of w ["concat"; "concat_gather"]%list then Some true else if one_of w ["gather"; "direct"]%list then Some false else None.

(** ** The queue's merges *)
Inductive how :=
  | BySort (concat : bool)                                        (* merge_sort_split_idx, then reorder *)
  | ByParallel (override : option Z) (concat : bool)               (* merge_arrays_parallel, then reorder *)
  | ByFused (override : option Z) (pk : packing) (smax : nat).     (* merge_arrays_parallel_kv *)
(** the variables of the two kernels, parallel.py 371-374, 472-475 *)
Definition kernel_env (e : env) : option (option Z) :=
  bind (block_override e) (fun o =>
  bind (unroll_max e) (fun _ =>
  bind (int_env e "XTRUCTURE_BGPQ_MERGE_NUM_WARPS") (fun _ =>
  bind (int_env e "XTRUCTURE_BGPQ_MERGE_NUM_STAGES") (fun _ => Some o)))).
(** _merge.py 79-106 (with [var] = ..._SORTSPLIT) and _insert.py 26-42 (..._BUFFER).  The
    index kernel needs a GPU (Pallas refuses to compile it elsewhere); [sizes] are the
    sizes of the leaves of a value: _batch_size (_merge.py 17-19) fails without leaves. *)
Definition site (p : platform) (e : env) (var : string) (batch_size : nat) (sizes : list nat) : option how :=
  let s := match e var with Some s => s | None => get e "XTRUCTURE_BGPQ_MERGE_VALUE_BACKEND" "" end in
  bind (parallel_merge p e) (fun par =>
  bind (use_kv e s batch_size) (fun kv =>
  if kv && is_gpu p then
    bind (value_packing e) (fun pk =>
    bind (scalar_max e) (fun m =>
    bind (kernel_env e) (fun o =>
    if forallb layout_ok (map (layout_of pk (Z.to_nat m)) sizes) then Some (ByFused o pk (Z.to_nat m)) else None)))
  else
    bind (reorder_concat e) (fun c =>
    if match sizes with []%list => negb c | _ => false end then None
    else if par then bind (kernel_env e) (fun o => if is_gpu p then Some (ByParallel o c) else None)
    else Some (BySort c)))).
(** what an environment says about a queue with blocks of [batch_size] values *)
Record queue_env := { q_stable : bool; q_split : how; q_buffer : how }.
Definition queue_settings (p : platform) (e : env) (batch_size : nat) (sizes : list nat) : option queue_env :=
  bind (site p e "XTRUCTURE_BGPQ_MERGE_VALUE_BACKEND_SORTSPLIT" batch_size sizes) (fun sp =>
  bind (site p e "XTRUCTURE_BGPQ_MERGE_VALUE_BACKEND_BUFFER" batch_size sizes) (fun bu =>
  Some {| q_stable := sort_stable e; q_split := sp; q_buffer := bu |})).

Section Queue.
Context {E : Type} (zero : E) (smin smax : key) (p : platform) (sizes : list nat).
Notation value := (list (list E)).
Notation row := (list (key * value)).
(** _merge.py 22-54 *)
Definition gather (concat : bool) (av bv : list value) (idx : list nat) : list value :=
  if concat then gather_concat [] av bv idx else gather_select [] av bv idx.
(** _merge.py 86-106, _insert.py 31-42: one merge.  An unfinished loop is never reached. *)
Definition merge_by (h : how) (a b : row) : row :=
  let ak := map fst a in let av := map snd a in let bk := map fst b in let bv := map snd b in
  let total := length a + length b in
  match h with
  | BySort c => let s := merge_sort_idx ak bk in combine (map fst s) (gather c av bv (map snd s))
  | ByParallel o c =>
      match merge_parallel_idx ak bk smin smax (block_size p o total) with
      | Some s => combine (map fst s) (gather c av bv (map snd s))
      | None => []
      end
  | ByFused o pk m =>
      match merge_fused zero smin smax (block_size p o total) pk m sizes ak av bk bv with Some r => r | None => [] end
  end.
(** One call on the queue under the settings [q]; [unstable] is whatever the unstable
    sort of _utils.py 33-38 does.  Site 1 of an insertion is the merge with the buffer. *)
Definition call_with (unstable : row -> row) (q : queue_env) (o : op value) : impl value * op value :=
  (MkImpl (if q_stable q then ssort else unstable)
          (fun s a b => merge_by (match o with Ins _ => if Nat.eqb s 1 then q_buffer q else q_split q | Del => q_split q end) a b), o).
End Queue.

(** ** Hashing: hash.py 125-161, read when a class is decorated *)
(** [None] in the second position: hash the aggregate-packed form *)
Definition hash_settings (p : platform) (e : env) (has_layout : bool) : option (option stream_mode) :=
  let agg := word (get e "XTRUCTURE_HASH_AGG_MODE" "raw") in
  let stream := word (get e "XTRUCTURE_HASH_STREAM" "auto") in
  if negb (one_of agg ["raw"; "packed"; "auto"]%list) then None
  else if negb (one_of stream ["off"; "on"; "auto"]%list) then None
  else bind (at_least 0 (py_int (get e "XTRUCTURE_HASH_STREAM_THRESHOLD_U32" "8192"))) (fun th =>
    let packed := has_layout && (String.eqb agg "packed" || (String.eqb agg "auto" && is_tpu p)) in
    Some (if packed then None
          else Some (if String.eqb stream "off" then Off else if String.eqb stream "on" then On else Auto (Z.to_nat th)))).

(** ** Hash table: hash_utils.py 46-73, insert.py 456-491, insert_triton.py 206-240,
    insert_pallas.py 17-26; the limit is cut to the number of buckets (insert_triton.py 159,
    insert_pallas.py 111) *)
Inductive sorter := StableArgsort | LaxUnstable | LaxStable.
Inductive assigner := OnXla | OnTriton (max_probe_buckets : nat) | OnPallas (max_probe_buckets : nat).
Definition max_probe (e : env) (name : string) (capacity : nat) : option nat :=
  option_map (fun o => match o with Some z => Nat.min (Z.to_nat z) capacity | None => capacity end) (int_env e name).
Definition table_settings (p : platform) (e : env) (bucket_size capacity : nat) : option (dmode * sorter * assigner) :=
  let m := word (get e "XTRUCTURE_HASHTABLE_DEDUPE_MODE" "safe") in
  let s := word (get e "XTRUCTURE_HASHTABLE_SORT_BACKEND" "stable_argsort") in
  bind (if one_of m ["fast"; "safe"]%list then Some Safe else if String.eqb m "exact" then Some Exact else if String.eqb m "approx" then Some Approx else None) (fun mode =>
  bind (if String.eqb s "stable_argsort" then Some StableArgsort else if String.eqb s "lax_unstable" then Some LaxUnstable
        else if String.eqb s "lax_stable" then Some LaxStable else None) (fun sort =>
  match p with
  | Gpu => if Nat.leb bucket_size 32 then
             bind (bool_env e "XTRUCTURE_HASHTABLE_TRITON_INSERT" true) (fun on =>
             if on then bind (max_probe e "XTRUCTURE_HASHTABLE_TRITON_INSERT_MAX_PROBE_BUCKETS" capacity) (fun n =>
                        bind (int_env e "XTRUCTURE_HASHTABLE_TRITON_INSERT_NUM_WARPS") (fun _ =>
                        bind (int_env e "XTRUCTURE_HASHTABLE_TRITON_INSERT_NUM_STAGES") (fun _ =>
                        Some (mode, sort, OnTriton n))))
             else Some (mode, sort, OnXla))
           else Some (mode, sort, OnXla)
  | Tpu => if Nat.leb bucket_size 32 then
             bind (bool_env e "XTRUCTURE_HASHTABLE_PALLAS_INSERT" true) (fun on =>
             if on then bind (max_probe e "XTRUCTURE_HASHTABLE_PALLAS_INSERT_MAX_PROBE_BUCKETS" capacity) (fun n => Some (mode, sort, OnPallas n))
             else Some (mode, sort, OnXla))
           else Some (mode, sort, OnXla)
  | Cpu => Some (mode, sort, OnXla)
  end)).
