(** * BitpackSpec.v — vocabulary for the bit-packing properties (C32-C35), independent of
      how the code packs: a packed value is a string of bits, least significant first, and
      a packed record is the concatenation of those strings in declaration order. *)
From Verif Require Import Jax BitpackModel.
Notation string := String.string.
Local Open Scope nat_scope.

(** the [n] low bits of [v], least significant first *)
Definition bits_of (n : nat) (v : N) : list bool := map (fun k => N.testbit v (N.of_nat k)) (seq 0 n).
(** values with their widths, laid out one after the other *)
Definition stream (l : list (nat * N)) : list bool := flat_map (fun q => bits_of (fst q) (snd q)) l.

(** bit [p] of a list of 32-bit words / of a list of bytes *)
Definition word_bit (ws : list N) (p : nat) : bool := N.testbit (nth (p / 32) ws 0%N) (N.of_nat (p mod 32)).
Definition byte_bit (bs : list N) (p : nat) : bool := N.testbit (nth (p / 8) bs 0%N) (N.of_nat (p mod 8)).

(** ** Classes *)
(** number of bits of one instance *)
Fixpoint field_bits (f : field) : nat :=
  match f with Leaf b n => n * b | Nested fs => class_bits fs end
with class_bits (c : fields) : nat :=
  match c with FNil => 0 | FCons _ f rest => field_bits f + class_bits rest end.
Fixpoint names (c : fields) : list string :=
  match c with FNil => [] | FCons n _ rest => n :: names rest end.
(** what the decorator accepts: 1..32 bits per leaf, distinct field names in every class *)
Fixpoint good_field (f : field) : Prop :=
  match f with Leaf b _ => 1 <= b <= 32 | Nested fs => good_class fs end
with good_class (c : fields) : Prop :=
  match c with FNil => True | FCons n f rest => ~ In n (names rest) /\ good_field f /\ good_class rest end.
(** an instance of a class: same fields in the same order, [n] elements in every leaf *)
Fixpoint is_field (f : field) (x : ifield) : Prop :=
  match f, x with
  | Leaf _ n, ILeaf v => length v = n
  | Nested fs, INested i => is_instance fs i
  | _, _ => False
  end
with is_instance (c : fields) (i : instance) : Prop :=
  match c, i with
  | FNil, INil => True
  | FCons n f rest, ICons m x irest => n = m /\ is_field f x /\ is_instance rest irest
  | _, _ => False
  end.
(** the instance with every element of every leaf replaced by [h bits element] *)
Fixpoint map_field (h : nat -> N -> N) (f : field) (x : ifield) : ifield :=
  match f, x with
  | Leaf b _, ILeaf v => ILeaf (map (h b) v)
  | Nested fs, INested i => INested (map_instance h fs i)
  | _, _ => x
  end
with map_instance (h : nat -> N -> N) (c : fields) (i : instance) : instance :=
  match c, i with
  | FCons _ f rest, ICons m x irest => ICons m (map_field h f x) (map_instance h rest irest)
  | _, _ => i
  end.
(** the low bits of every element *)
Definition truncated : fields -> instance -> instance := map_instance (fun b v => (v mod 2 ^ N.of_nat b)%N).
(** every element fits in the bits of its field *)
Fixpoint fits_field (f : field) (x : ifield) : Prop :=
  match f, x with
  | Leaf b _, ILeaf v => Forall (fun e => (e < 2 ^ N.of_nat b)%N) v
  | Nested fs, INested i => fits fs i
  | _, _ => True
  end
with fits (c : fields) (i : instance) : Prop :=
  match c, i with
  | FCons _ f rest, ICons _ x irest => fits_field f x /\ fits rest irest
  | _, _ => True
  end.
(** all (width, element) pairs of an instance, in declaration order *)
Fixpoint field_elems (f : field) (x : ifield) : list (nat * N) :=
  match f, x with
  | Leaf b _, ILeaf v => map (fun e => (b, e)) v
  | Nested fs, INested i => elems fs i
  | _, _ => []
  end
with elems (c : fields) (i : instance) : list (nat * N) :=
  match c, i with
  | FCons _ f rest, ICons _ x irest => field_elems f x ++ elems rest irest
  | _, _ => []
  end.
(** follow a path of field names: the width of the leaf and its elements *)
Fixpoint leaf_at_field (f : field) (x : ifield) (p : list string) : option (nat * list N) :=
  match f, x, p with
  | Leaf b _, ILeaf v, [] => Some (b, v)
  | Nested fs, INested i, n :: p' => leaf_at fs i n p'
  | _, _, _ => None
  end
with leaf_at (c : fields) (i : instance) (n : string) (p : list string) : option (nat * list N) :=
  match c, i with
  | FCons m f rest, ICons _ x irest => if String.eqb n m then leaf_at_field f x p else leaf_at rest irest n p
  | _, _ => None
  end.
Definition lookup (c : fields) (i : instance) (path : list string) : option (nat * list N) :=
  match path with [] => None | n :: p => leaf_at c i n p end.
