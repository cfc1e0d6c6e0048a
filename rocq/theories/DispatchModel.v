(** * DispatchModel.v — which of its two readings an [xnp] function gives a call: the arguments as
      instances (field by field) or as arrays (definitions only).

    core/xtructure_numpy/__init__.py, core/type_utils.py 14-16 and the functions of
    core/xtructure_numpy/dataclass_ops it forwards to.  Arguments are pytrees whose leaves are
    arrays, numbers and other Python objects; what the jax functions do with leaves is a
    parameter.  [None] is a raised exception. *)
From Coq Require Import String List Bool Arith.
Import ListNotations.

(** an instance of the [c]-th structured class, or a container of Python's *)
Inductive kind := KInst (c : nat) | KList | KTuple | KNone.
Inductive tree (A : Type) := Leaf (a : A) | Node (k : kind) (l : list (tree A)).
Arguments Leaf {A}. Arguments Node {A}.
Definition kind_eq_dec (a b : kind) : {a = b} + {a <> b}.
Proof. decide equality. apply Nat.eq_dec. Defined.
(** type_utils.py 14-16 *)
Definition is_inst {A} (t : tree A) : bool := match t with Node (KInst _) _ => true | _ => false end.
Definition is_none {A} (t : tree A) : bool := match t with Node KNone _ => true | _ => false end.
Fixpoint leaves {A} (t : tree A) : list A := match t with Leaf a => [a] | Node _ l => flat_map leaves l end.

Fixpoint all_some {X Y} (f : X -> option Y) (l : list X) : option (list Y) :=
  match l with [] => Some [] | x :: r => match f x, all_some f r with Some y, Some ys => Some (y :: ys) | _, _ => None end end.
Definition children {A} (k : kind) (n : nat) (t : tree A) : option (list (tree A)) :=
  match t with Node k' l => if kind_eq_dec k k' then (if length l =? n then Some l else None) else None | Leaf _ => None end.
Definition heads {A} (ts : list (list (tree A))) : list (tree A) := flat_map (fun l => firstn 1 l) ts.
(** jax.tree_util.tree_map(f, x, *rest): the structure is that of [x]; wherever [x] has a leaf, [f]
    gets what the other trees have there, which may be whole trees *)
Fixpoint tree_map {A B} (f : A -> list (tree A) -> option B) (x : tree A) (rest : list (tree A)) {struct x} : option (tree B) :=
  match x with
  | Leaf a => option_map Leaf (f a rest)
  | Node k l =>
      match all_some (children k (length l)) rest with
      | None => None
      | Some chs =>
          option_map (Node k)
            ((fix go (l : list (tree A)) (chs : list (list (tree A))) {struct l} : option (list (tree B)) :=
                match l with
                | [] => Some []
                | c :: r => match tree_map f c (heads chs), go r (map (@tl _) chs) with Some c', Some r' => Some (c' :: r') | _, _ => None end
                end) l chs)
      end
  end.
(** a jax function of arrays refuses trees *)
Definition as_leaf {A} (t : tree A) : option A := match t with Leaf a => Some a | Node _ _ => None end.
Definition jnp {A B} (g : list A -> option B) (a : A) (rest : list (tree A)) : option B :=
  match all_some as_leaf rest with Some l => g (a :: l) | None => None end.
Definition jnp_all {A B} (g : list A -> option B) (ts : list (tree A)) : option (tree B) :=
  match all_some as_leaf ts with Some l => option_map Leaf (g l) | None => None end.

(** __init__.py 285-333 equal, not_equal, isclose, 354-360 broadcast_arrays (the call on the
    leaves), 504-507 result_type: as instances as soon as one argument is one *)
Definition xnp_any {A B} (g : list A -> option B) (x : tree A) (rest : list (tree A)) : option (tree B) :=
  if existsb is_inst (x :: rest) then tree_map (jnp g) x rest else jnp_all g (x :: rest).
(** __init__.py 318-336, comparison_ops.py 38-67 allclose *)
Definition xnp_allclose {A} (g : list A -> option bool) (x y : tree A) : option bool :=
  if is_inst x || is_inst y then option_map (fun t => forallb (fun b => b) (leaves t)) (tree_map (jnp g) x [y])
  else match jnp_all g [x; y] with Some (Leaf b) => Some b | _ => None end.
(** __init__.py 22-30 [_check_homogeneous_inputs]: [None]: raises; [Some true]: instances *)
Definition homogeneous {A} (l : list (tree A)) : option bool :=
  match l with
  | [] => None
  | _ => if existsb is_inst l && negb (forallb is_inst l) then None else Some (forallb is_inst l)
  end.
(** vstack, hstack, dstack, column_stack (__init__.py 378-411) and, with [axis=None], concat and
    concatenate (42-69) *)
Definition xnp_list {A B} (g : list A -> option B) (l : list (tree A)) : option (tree B) :=
  match homogeneous l with
  | None => None
  | Some true => match l with [] => None | x :: rest => tree_map (jnp g) x rest end
  | Some false => jnp_all g l
  end.

Fixpoint kinds {A} (t : tree A) : tree unit := match t with Leaf _ => Leaf tt | Node k l => Node k (map kinds l) end.
Fixpoint tree_eqb (s t : tree unit) {struct s} : bool :=
  match s, t with
  | Leaf _, Leaf _ => true
  | Node k l, Node k' l' =>
      (if kind_eq_dec k k' then true else false) &&
      (fix go (l l' : list (tree unit)) {struct l} : bool :=
         match l, l' with [], [] => true | c :: r, c' :: r' => tree_eqb c c' && go r r' | _, _ => false end) l l'
  | _, _ => false
  end.
(** __init__.py 111-126 where and logical_ops.py 15-68; [asarray]: jnp.asarray on what is not an
    instance; [g] the selection of one field (with the condition).  jnp.where on arrays is left out *)
Definition xnp_where {A B} (asarray : tree A -> option A) (g : list A -> option B) (x y : tree A) : option (tree B) :=
  if is_none x && is_none y then None
  else if is_inst x || is_inst y then
    if is_none x || is_none y then None
    else if is_inst y && negb (is_inst x) then None
    else if is_inst x && is_inst y && negb (tree_eqb (kinds x) (kinds y)) then None
    else if (1 <? length (leaves y)) || ((length (leaves y) =? 1) && is_inst y) then tree_map (jnp g) x [y]
    else if is_inst y then None
    else match asarray y with Some b => tree_map (jnp (fun l => g (l ++ [b]))) x [] | None => None end
  else jnp_all g [x; y].
(** __init__.py 225-243 update_on_condition and logical_ops.py 111-138 (at least one update: with
    none the arrays are returned before the values are looked at) *)
Definition xnp_update {A B} (asarray : tree A -> option A) (g : list A -> option B) (x v : tree A) : option (tree B) :=
  if is_inst x then
    if is_inst v && negb (tree_eqb (kinds v) (kinds x)) then None
    else if (1 <? length (leaves v)) || ((length (leaves v) =? 1) && is_inst v) then tree_map (jnp g) x [v]
    else tree_map (jnp (fun l => match asarray v with Some b => g (l ++ [b]) | None => None end)) x []
  else if is_inst v then None else jnp_all g [x; v].
(** type_ops.py 42-73 can_cast for an instance: on any mismatch of the structures [to] is taken
    for one dtype *)
Definition xnp_can_cast {A} (g : list A -> option bool) (from to : tree A) : option bool :=
  let r := match tree_map (jnp g) from [to] with
           | Some t => Some t
           | None => tree_map (jnp (fun l => match to with Leaf b => g (l ++ [b]) | Node _ _ => None end)) from []
           end in
  option_map (fun t => forallb (fun b => b) (leaves t)) r.
