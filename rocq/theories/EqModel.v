(** * EqModel.v — [==], [!=] (core/xtructure_decorators/ops.py) and [uint32ed]/[hash_pair]
    (core/xtructure_decorators/hash.py) of dataclass instances (definitions only).

    [None] is a raised exception.  A float is its bit pattern (binary16/32/64). *)
From Coq Require Import String.
From Verif Require Import Jax HashModel StructModel ArrayModel.

(** IEEE-754 binary formats *)
Definition man_bits (w : nat) : Z := if w =? 16 then 10%Z else if w =? 32 then 23%Z else 52%Z.
(** the pattern without its sign bit; the pattern of +infinity *)
Definition fmag (w : nat) (z : Z) : Z := (z mod 2 ^ (Z.of_nat w - 1))%Z.
Definition inf_pat (w : nat) : Z := (2 ^ (Z.of_nat w - 1) - 2 ^ man_bits w)%Z.
Definition is_nan (w : nat) (z : Z) : bool := (inf_pat w <? fmag w z)%Z.
(** [x == y] on two elements of one dtype; [x != y] is its negation, also for NaN *)
Definition elt_eqb (dt : dtype) (x y : Z) : bool :=
  match dt with
  | DFloat w => negb (is_nan w x) && negb (is_nan w y) && ((x =? y)%Z || ((fmag w x =? 0)%Z && (fmag w y =? 0)%Z))
  | _ => (x =? y)%Z
  end.
(** NumPy broadcasting of two shapes *)
Definition bdim (d e : nat) : option nat := if d =? e then Some d else if d =? 1 then Some e else if e =? 1 then Some d else None.
Fixpoint bzip (s t : list nat) : option (list nat) :=
  match s, t with
  | [], [] => Some []
  | d :: s', e :: t' => match bdim d e, bzip s' t' with Some x, Some r => Some (x :: r) | _, _ => None end
  | _, _ => None
  end.
Definition bshape (s t : list nat) : option (list nat) :=
  let n := Nat.max (length s) (length t) in bzip (repeat 1 (n - length s) ++ s) (repeat 1 (n - length t) ++ t).
(** elementwise comparison with broadcasting; different dtypes: see PromoteModel.v *)
Definition a_compare (f : dtype -> Z -> Z -> bool) (a b : array) : option (list bool) :=
  if dtype_eqb (adtype a) (adtype b) then
    match bshape (ashape a) (ashape b) with
    | Some s => match a_broadcast_to s a, a_broadcast_to s b with
                | Some x, Some y => Some (map (fun p => f (adtype a) (fst p) (snd p)) (combine (adata x) (adata y)))
                | _, _ => None
                end
    | None => None
    end
  else None.
(** ops.py 41, 49: the lambdas given to tree_map *)
Definition leaf_eq (a b : array) : option bool := option_map (forallb (fun x => x)) (a_compare elt_eqb a b).
Definition leaf_ne (a b : array) : option bool := option_map (existsb (fun x => x)) (a_compare (fun dt x y => negb (elt_eqb dt x y)) a b).
(** jax.tree_util.tree_map over two instances: the result of every leaf, in tree order *)
Fixpoint zip_v (f : array -> array -> option bool) (v w : value) {struct v} : option (list bool) :=
  match v, w with
  | VArr a, VArr b => option_map (fun r => [r]) (f a b)
  | VObj o, VObj q => zip_obj f o q
  | _, _ => None
  end
with zip_obj (f : array -> array -> option bool) (o q : obj) {struct o} : option (list bool) :=
  match o, q with
  | ONil, ONil => Some []
  | OCons n v r, OCons m w s =>
      if String.eqb n m then match zip_v f v w, zip_obj f r s with Some x, Some y => Some (x ++ y)%list | _, _ => None end else None
  | _, _ => None
  end.
(** jax.tree_util.tree_reduce without an initial value *)
Definition tree_reduce (f : bool -> bool -> bool) (l : list bool) : option bool :=
  match l with [] => None | b :: r => Some (fold_left f r b) end.
(** ops.py 25-42 [__eq__], 44-50 [__ne__] for two instances of one class *)
Definition obj_eq (o q : obj) : option bool := match zip_obj leaf_eq o q with Some l => tree_reduce andb l | None => None end.
Definition obj_ne (o q : obj) : option bool := match zip_obj leaf_ne o q with Some l => tree_reduce orb l | None => None end.

(** hash.py 203-231: which of the conversions a dtype uses; [None]: the generic byte path *)
Definition dwidth (dt : dtype) : option width :=
  let wid (w : nat) := if w =? 8 then Some B8 else if w =? 16 then Some B16 else if w =? 32 then Some B32 else if w =? 64 then Some B64 else None in
  match dt with
  | DBool => Some B8
  | DUInt w | DInt w => wid w
  | DFloat w => if w =? 8 then None else wid w
  end.
(** astype(unsigned) / bitcast of one element *)
Definition pattern (wd : width) (z : Z) : N := Z.to_N (z mod 2 ^ Z.of_N (wbits wd)).
Definition array_leaf (a : array) : leaf :=
  let wd := match dwidth (adtype a) with Some w => w | None => B8 end in MkLeaf wd (map (pattern wd) (adata a)).
(** jax.tree_util.tree_flatten (TreeModel.v): the arrays in field order *)
Fixpoint arrays_v (v : value) : list array := match v with VArr a => [a] | VObj o => arrays o end
with arrays (o : obj) : list array := match o with ONil => [] | OCons _ v r => (arrays_v v ++ arrays r)%list end.
Definition obj_words (o : obj) : list N := uint32ed (map array_leaf (arrays o)).
Definition obj_hash_pair (m : stream_mode) (seed : N) (o : obj) : N * N := hash_pair_mode m (map leaf_words (map array_leaf (arrays o))) seed.
