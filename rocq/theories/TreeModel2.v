(** * TreeModel2.v — core/dataclass.py: key paths of leaves, and [jax.tree_util.tree_map] over
      two trees (definitions only).

    [eqA] is Python's [==] on the values that static fields hold.  JAX flattens the second
    tree "up to" the definition of the first: custom nodes must have the same class and
    equal auxiliary data, and where the first tree has a leaf the whole subtree is taken. *)
From Coq Require Import String.
From Verif Require Import Jax TreeModel.

Section Tree2.
Context {A : Type} (eqA : A -> A -> bool).
Variables (fields_of static_of : string -> list string).
Notation pval := (pval A). Notation pattrs := (pattrs A). Notation tdef := (tdef A).

(** 197-228 [_flatten_with_path], 256-289 [flatten_with_keys]: every leaf with the attribute
    names that lead to it *)
Fixpoint flatten_paths (v : pval) : list (list string * A) :=
  match v with
  | PLeaf a => [([], a)]
  | PNode cls d =>
      let pl := path_attrs d in
      flat_map (fun k => match find_key pl k with Some l => map (fun e => (k :: fst e, snd e)) l | None => [] end) (child_keys fields_of static_of cls d)
  end
with path_attrs (d : pattrs) : list (string * list (list string * A)) :=
  match d with PNil => [] | PCons n v r => (n, flatten_paths v) :: path_attrs r end.

(** equality of auxiliary data: tuples of names and of (name, value) pairs *)
Fixpoint pval_eqb (v w : pval) : bool :=
  match v, w with
  | PLeaf a, PLeaf b => eqA a b
  | PNode c d, PNode c' d' => String.eqb c c' && pattrs_eqb d d'
  | _, _ => false
  end
with pattrs_eqb (d e : pattrs) : bool :=
  match d, e with
  | PNil, PNil => true
  | PCons n v r, PCons n' v' r' => String.eqb n n' && pval_eqb v v' && pattrs_eqb r r'
  | _, _ => false
  end.
Fixpoint list_eqb {X} (eqb : X -> X -> bool) (l m : list X) : bool :=
  match l, m with [], [] => true | x :: l', y :: m' => eqb x y && list_eqb eqb l' m' | _, _ => false end.
Definition static_eqb (x y : string * option pval) : bool :=
  String.eqb (fst x) (fst y) && match snd x, snd y with Some v, Some w => pval_eqb v w | None, None => true | _, _ => false end.

(** [treedef.flatten_up_to(w)] *)
Fixpoint up_to (t : tdef) (w : pval) {struct t} : option (list pval) :=
  match t with
  | TLeaf => Some [w]
  | TNode cls ks st ch =>
      match w with
      | PLeaf _ => None
      | PNode cls' d =>
          if String.eqb cls' cls && list_eqb String.eqb (child_keys fields_of static_of cls' d) ks && list_eqb static_eqb (static_items fields_of static_of cls' d) st then
            (fix go (ch : list tdef) (ks : list string) : option (list pval) :=
               match ch, ks with
               | [], [] => Some []
               | t' :: ch', k :: ks' =>
                   match lookup d k with
                   | Some w' => match up_to t' w', go ch' ks' with Some l, Some m => Some (l ++ m) | _, _ => None end
                   | None => None
                   end
               | _, _ => None
               end) ch ks
          else None
      end
  end.
(** [jax.tree_util.tree_map(f, v, w)] *)
Definition tree_map2 (f : A -> pval -> option A) (v w : pval) : option pval :=
  let '(ls, t) := tree_flatten fields_of static_of v in
  match up_to t w with
  | Some ws => match all_some (map (fun p => f (fst p) (snd p)) (combine ls ws)) with
               | Some ls' => match tree_unflatten fields_of t ls' with Some (r, []) => Some r | _ => None end
               | None => None
               end
  | None => None
  end.
(** a function of two arrays, which raises when it is given an instance instead *)
Definition on_arrays (f : A -> A -> A) (a : A) (w : pval) : option A := match w with PLeaf b => Some (f a b) | PNode _ _ => None end.
End Tree2.
