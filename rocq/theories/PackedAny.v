(** * PackedAny.v — hashing under XTRUCTURE_HASH_AGG_MODE=packed of instances of any dtype, and
      what a hash table in this mode sees of its items (definitions only).

    AggModel.v models this mode for boolean and integer leaves; here the leaves are converted to
    uint32 by [astype] from any dtype (SchemaModel.pack_any). *)
From Coq Require Import String.
From Verif Require Import Jax HashModel BitpackModel StructModel ArrayModel ShapeModel RowsModel EqModel RowsModel2 PromoteModel PropMixed AggModel SchemaModel TableConv.

(** xtructure_decorators/hash.py 300-313, 329-332: [uint32ed] of one instance: the words of
    [x.packed], the tail bytes as one more word *)
Definition packed_words_any (be : pack_backend) (c : class) (o : obj) : option (list N) :=
  match agg_c c, pack_any be c o with
  | Some fs, Some (OCons _ (VArr w) (OCons _ (VArr t) ONil)) =>
      Some (load_words (snd (agg_spec fs)) (map Z.to_N (adata w), map Z.to_N (adata t)))
  | _, _ => None
  end.
(** hash.py 315-327: [bytes] *)
Definition packed_bytes_any (be : pack_backend) (c : class) (o : obj) : option (list N) :=
  match pack_any be c o with
  | Some (OCons _ (VArr w) (OCons _ (VArr t) ONil)) => Some (flat_map word_bytes (map Z.to_N (adata w)) ++ map Z.to_N (adata t))
  | _ => None
  end.
(** hash.py 362-365, 382-385: the hash pair is computed from these words *)
Definition packed_hash_pair_any (be : pack_backend) (c : class) (seed : N) (o : obj) : option (N * N) :=
  option_map (fun ws => hash_fast_pair ws seed) (packed_words_any be c o).
(** What a table of the class [c] sees of an item in this mode: [==] with promotion (a comparison
    that raises counts as false), the conversion on writing (hashtable/insert.py 42-51, 92-94),
    the class's default and the packed words, [nw] of them (hash_utils.py 547-565, insert.py
    405-437) *)
Definition packed_items (x64 : bool) (c : class) (nw : nat) (seed : N) : lenient obj := {|
  le_eq := fun o p => match obj_eq_p x64 o p with Some b => b | None => false end;
  le_conv := fun p => match tree_mapn conv_like [default_obj [] c; p] with Some v => v | None => p end;
  le_default := default_obj [] c;
  le_words := fun o => match packed_words_any PackXla c o with Some ws => ws | None => [] end;
  le_nwords := nw;
  le_hash := fun ws => hash_fast_pair ws seed |}.
