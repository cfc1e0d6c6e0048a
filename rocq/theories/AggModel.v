(** * AggModel.v — aggregate bit-packing of dataclass instances with a batch shape:
    xtructure_decorators/__init__.py (bitpack policy), aggregate_bitpack/__init__.py
    ([packed], [unpacked], [unpack]), spec.py, kernels.py (definitions only).

    BitpackModel.v has the layout and the packing of one row; here are the classes and
    instances of StructModel.v, the batch, and the Pallas kernel.  [None] is a raised
    exception. *)
From Coq Require Import String.
From Verif Require Import Jax HashModel BitpackModel StructModel ArrayModel ShapeModel.

(** ** Policy *)
(** spec.py 146-199 [_build_agg_spec]: every primitive leaf needs [bits] (ValueError), nested
    fields must be scalar (NotImplementedError) *)
Fixpoint agg_d (d : desc) : option field :=
  match d with
  | Prim _ ish (Some b) _ _ => Some (Leaf b (prod ish))
  | Prim _ _ None _ _ => None
  | Nest c [] => option_map Nested (agg_c c)
  | Nest _ _ => None
  end
with agg_c (c : class) : option fields :=
  match c with
  | CNil => Some FNil
  | CCons n d r => match agg_d d, agg_c r with Some f, Some fs => Some (FCons n f fs) | _, _ => None end
  end.
(** xtructure_decorators/__init__.py 92-112 [_all_bits_no_nested_arrays] *)
Fixpoint all_bits_d (d : desc) : bool :=
  match d with
  | Prim _ _ (Some _) _ _ => true
  | Prim _ _ None _ _ => false
  | Nest c [] => all_bits c
  | Nest _ _ => false
  end
with all_bits (c : class) : bool :=
  match c with CNil => true | CCons _ d r => all_bits_d d && all_bits r end.
Inductive bitpack_arg := BAuto | BAggregate | BField | BOff.
(** 49-68, 92-121: (has [.packed], has packed-field accessors) *)
Definition decorate (aggregate : bool) (bitpack : bitpack_arg) (c : class) : option (bool * bool) :=
  let mode := match aggregate, bitpack with
              | true, BAuto => Some BAggregate
              | true, BField => None
              | true, BOff => None
              | _, m => Some m
              end in
  match mode with
  | None => None
  | Some m =>
      let auto := match m, c with BAuto, CCons _ _ _ => all_bits c | _, _ => false end in
      let wants := match m with BAggregate => true | _ => auto end in
      if wants then match agg_c c with
                    | Some _ => Some (true, match m with BOff => false | _ => true end)
                    | None => None
                    end
      else Some (false, match m with BOff => false | _ => true end)
  end.

(** ** Packing kernels on a batch of rows *)
(** spec.py 116-139: the common length of the table rows *)
Definition max_contrib (specs : list leafspec) (nwords : nat) : nat := list_max (map (@length contrib) (contribs specs nwords)).
Definition pad_entry : contrib := MkCb None 0 0 0.
(** kernels.py 26-56 [pack_words_all_xla] *)
Definition pack_xla (specs : list leafspec) (nwords : nat) (rows : list (list N)) : list (list N) :=
  map (pack_words specs nwords) rows.
Definition set2 (out : list (list N)) (r w : nat) (v : N) : list (list N) := upd r (upd w v (nth r out [])) out.
(** kernels.py 112-138 [_kernel]: what the program at (row, block) does for one offset of
    its tile; [part] reads the row padded with a zero column *)
Definition kernel_step (specs : list leafspec) (nwords tile : nat) (rows out : list (list N)) (step : nat * nat * nat) : list (list N) :=
  let '(row, block, off) := step in
  let w := block * tile + off in
  if w <? nwords then
    set2 out row w
      (fold_left (fun word t => N.lor word (part (nth row rows []) (total_values specs) (nth t (nth w (tables specs nwords) []) pad_entry)))
                 (seq 0 (max_contrib specs nwords)) 0%N)
  else out.
(** kernels.py 140-176: grid (flat_n, ceil(words/tile)); the steps of all programs in any
    order; [init] is the uninitialized output *)
Definition grid_steps (n nwords tile : nat) : list (nat * nat * nat) :=
  list_prod (list_prod (seq 0 n) (seq 0 (ceil_div nwords tile))) (seq 0 tile).
Inductive pack_backend := PackXla | PackPallas (tile : nat) (order : list (nat * nat * nat)) (init : list (list N)).
Definition pack_rows (be : pack_backend) (specs : list leafspec) (nwords : nat) (rows : list (list N)) : list (list N) :=
  match be with
  | PackXla => pack_xla specs nwords rows
  | PackPallas tile order init =>
      if nwords =? 0 then map (fun _ => []) rows
      else if max_contrib specs nwords =? 0 then map (fun _ => repeat 0%N nwords) rows
      else fold_left (kernel_step specs nwords tile rows) order init
  end.

(** ** Instances *)
(** [.astype(uint32)] of a boolean or integer element *)
Definition u32 (z : Z) : N := Z.to_N (z mod 2 ^ 32).
Fixpoint get_attr_o (o : obj) (n : string) : option value :=
  match o with ONil => None | OCons m v r => if String.eqb n m then Some v else get_attr_o r n end.
Fixpoint get_path_v (v : value) (p : list string) : option value :=
  match p with
  | [] => Some v
  | n :: p' => match v with
               | VArr _ => None
               | VObj o => match get_attr_o o n with Some w => get_path_v w p' | None => None end
               end
  end.
(** the Packed class (aggregate_bitpack/__init__.py 54-63) *)
Definition packed_class (total : nat) : class :=
  let '(_, stored, tail) := word_tail_layout total in
  CCons "words" (Prim (DUInt 32) [stored] None false 0) (CCons "tail" (Prim (DUInt 8) [tail] None false 0) CNil).
(** aggregate_bitpack/__init__.py 152-155: reshape((flat_n, nvalues)).astype(uint32) *)
Definition leaf_rows (n : nat) (o : obj) (s : leafspec) : option (list (list N)) :=
  match get_path_v (VObj o) (lpath s) with
  | Some (VArr a) => if prod (ashape a) =? n * lnvalues s then Some (chunks n (lnvalues s) (map u32 (adata a))) else None
  | _ => None
  end.
Fixpoint seq_opt {X} (l : list (option X)) : option (list X) :=
  match l with
  | [] => Some []
  | Some x :: r => match seq_opt r with Some y => Some (x :: y) | None => None end
  | None :: _ => None
  end.
(** 134-219 [_pack_instance], [packed] *)
Definition pack_obj (be : pack_backend) (c : class) (o : obj) : option obj :=
  match agg_c c, get_batch c o with
  | Some fs, Some (Batch B) =>
      let '(specs, total) := agg_spec fs in
      let '(nwords, stored, tail) := word_tail_layout total in
      let n := prod B in
      match seq_opt (map (leaf_rows n o) specs) with
      | None => None
      | Some leaves =>
          let rows := map (fun r => flat_map (fun l => nth r l []) leaves) (seq 0 n) in
          let words := if total_values specs =? 0 then map (fun _ => repeat 0%N nwords) rows else pack_rows be specs nwords rows in
          let st := map (store total) words in
          Some (OCons "words" (VArr (MkArr (DUInt 32) (B ++ [stored]) (map Z.of_N (flat_map fst st))))
               (OCons "tail" (VArr (MkArr (DUInt 8) (B ++ [tail]) (map Z.of_N (flat_map snd st)))) ONil))
      end
  | _, _ => None
  end.
(** spec.py 53-58 [_default_unpack_dtype] *)
Definition unpack_dtype (bits : nat) : dtype := if bits =? 1 then DBool else if bits <=? 8 then DUInt 8 else DUInt 32.
(** 247-268 [_words_all_from_packed] *)
Definition words_all (total n : nat) (p : obj) : option (list (list N)) :=
  let '(_, stored, tail) := word_tail_layout total in
  match p with
  | OCons _ (VArr w) (OCons _ (VArr t) ONil) =>
      if (prod (ashape w) =? n * stored) && (prod (ashape t) =? n * tail) then
        Some (map (load_words total) (combine (chunks n stored (map Z.to_N (adata w))) (chunks n tail (map Z.to_N (adata t)))))
      else None
  | _ => None
  end.
(** 362-396 [unpacked]: the logical view, every leaf with its default dtype *)
Fixpoint view_d (dict : list (list string * list N)) (B : list nat) (prefix : list string) (d : desc) : value :=
  match d with
  | Prim _ ish bits _ _ => VArr (MkArr (unpack_dtype (match bits with Some b => b | None => 0 end)) (B ++ ish) (map Z.of_N (dict_get dict prefix)))
  | Nest c _ => VObj (view_c dict B prefix c)
  end
with view_c (dict : list (list string * list N)) (B : list nat) (prefix : list string) (c : class) : obj :=
  match c with CNil => ONil | CCons n d r => OCons n (view_d dict B (prefix ++ [n]) d) (view_c dict B prefix r) end.
Definition unpack_obj (c : class) (p : obj) : option obj :=
  match agg_c c with
  | Some fs =>
      let '(specs, total) := agg_spec fs in
      match get_batch (packed_class total) p with
      | Some (Batch B) =>
          match words_all total (prod B) p with
          | Some rows => Some (view_c (map (fun s => (lpath s, flat_map (fun ws => decode_field ws s (all_indices s)) rows)) specs) B [] c)
          | None => None
          end
      | _ => None
      end
  | None => None
  end.
(** 457-497 [unpack(dtype_policy="declared")], [as_original] (casts to float: not modelled) *)
Fixpoint declared_v (d : desc) (v : value) : value :=
  match d, v with
  | Prim dt _ _ _ _, VArr a => VArr (MkArr dt (ashape a) (map (cast dt) (adata a)))
  | Nest c _, VObj o => VObj (declared c o)
  | _, _ => v
  end
with declared (c : class) (o : obj) : obj :=
  match c, o with
  | CCons _ d r, OCons n v q => OCons n (declared_v d v) (declared r q)
  | _, _ => o
  end.
Definition as_original (c : class) (p : obj) : option obj := option_map (declared c) (unpack_obj c p).

(** ** Hashing in packed mode *)
(** hash.py 300-334: uint32ed and bytes of one instance under XTRUCTURE_HASH_AGG_MODE=packed *)
Definition packed_words (be : pack_backend) (c : class) (o : obj) : option (list N) :=
  match agg_c c, pack_obj be c o with
  | Some fs, Some (OCons _ (VArr w) (OCons _ (VArr t) ONil)) =>
      Some (load_words (snd (agg_spec fs)) (map Z.to_N (adata w), map Z.to_N (adata t)))
  | _, _ => None
  end.
Definition packed_bytes (be : pack_backend) (c : class) (o : obj) : option (list N) :=
  match pack_obj be c o with
  | Some (OCons _ (VArr w) (OCons _ (VArr t) ONil)) => Some (flat_map word_bytes (map Z.to_N (adata w)) ++ map Z.to_N (adata t))
  | _ => None
  end.
(** hash.py 342-345, 362-365, 382-394: all hashes are computed from these words *)
Definition packed_hash_pair (be : pack_backend) (c : class) (seed : N) (o : obj) : option (N * N) :=
  option_map (fun ws => hash_fast_pair ws seed) (packed_words be c o).
