(** * TreeModel.v — core/dataclass.py: dataclass instances as JAX pytrees (definitions only).

    An instance is its class (a name in [reg]) and its [__dict__]: attribute names with
    values, in insertion order.  A value is an array (a leaf, of any type [A]) or another
    instance.  [fields_of] lists the declared fields in order, [static_of] the
    [static_fields] of the class. [__post_init__] hooks are not modelled. *)
From Coq Require Import String.
From Verif Require Import Jax.

Section Tree.
Context {A : Type}.
Inductive pval := PLeaf (a : A) | PNode (cls : string) (attrs : pattrs)
with pattrs := PNil | PCons (name : string) (v : pval) (rest : pattrs).
Variables (fields_of static_of : string -> list string).

Fixpoint keys_of (d : pattrs) : list string := match d with PNil => [] | PCons n _ r => n :: keys_of r end.
Fixpoint lookup (d : pattrs) (k : string) : option pval :=
  match d with PNil => None | PCons n v r => if String.eqb n k then Some v else lookup r k end.
Definition mem (k : string) (l : list string) : bool := existsb (String.eqb k) l.

(** 13-15 *)
Definition internal_caches : list string := ["_shape_cache"; "_dtype_cache"; "_structured_type_cache"]%string.
(** list.sort() on strings *)
Fixpoint sinsert (x : string) (l : list string) : list string :=
  match l with [] => [x] | y :: t => if String.leb x y then x :: l else y :: sinsert x t end.
Definition ssort (l : list string) : list string := fold_right sinsert [] l.
(** 197-228, 291-305: declared fields that are present, then the other attributes sorted *)
Definition ordered_keys (cls : string) (d : pattrs) : list string :=
  let declared := filter (fun n => mem n (keys_of d)) (fields_of cls) in
  declared ++ ssort (filter (fun k => negb (mem k declared) && negb (mem k internal_caches)) (keys_of d)).
Definition child_keys (cls : string) (d : pattrs) : list string :=
  filter (fun k => negb (mem k (static_of cls))) (ordered_keys cls d).
Definition static_items (cls : string) (d : pattrs) : list (string * option pval) :=
  map (fun k => (k, lookup d k)) (filter (fun k => mem k (static_of cls)) (ordered_keys cls d)).

(** jax.tree_util.tree_flatten over the registered nodes: leaves in child order, and the
    tree definition with the auxiliary data (child keys, static items) of every node.
    Children are flattened first and then selected by key, which is the same as
    flattening [dct[k]] for every key. *)
Inductive tdef := TLeaf | TNode (cls : string) (keys : list string) (statics : list (string * option pval)) (children : list tdef).
Fixpoint find_key {X} (l : list (string * X)) (k : string) : option X :=
  match l with [] => None | (n, x) :: r => if String.eqb n k then Some x else find_key r k end.
Definition sel {X} (l : list (string * X)) (ks : list string) : list X :=
  flat_map (fun k => match find_key l k with Some x => [x] | None => [] end) ks.
Fixpoint tree_flatten (v : pval) : list A * tdef :=
  match v with
  | PLeaf a => ([a], TLeaf)
  | PNode cls d =>
      let fl := flatten_attrs d in
      let ks := child_keys cls d in
      (concat (map fst (sel fl ks)), TNode cls ks (static_items cls d) (map snd (sel fl ks)))
  end
with flatten_attrs (d : pattrs) : list (string * (list A * tdef)) :=
  match d with PNil => [] | PCons n v r => (n, tree_flatten v) :: flatten_attrs r end.

(** 179-194, 336-367: rebuild the declared fields from dict(zip(child_keys, children))
    updated with the static items *)
Definition attr_dict (keys : list string) (vals : list pval) (statics : list (string * option pval)) (n : string) : option pval :=
  match find_key (rev statics) n with
  | Some v => v
  | None => find_key (rev (combine keys vals)) n
  end.
Fixpoint build (names : list string) (get : string -> option pval) : pattrs :=
  match names with
  | [] => PNil
  | n :: r => match get n with Some v => PCons n v (build r get) | None => build r get end
  end.
(** jax.tree_util.tree_unflatten *)
Fixpoint tree_unflatten (t : tdef) (ls : list A) : option (pval * list A) :=
  match t with
  | TLeaf => match ls with a :: r => Some (PLeaf a, r) | [] => None end
  | TNode cls ks st ch =>
      match (fix go (ch : list tdef) (ls : list A) : option (list pval * list A) :=
               match ch with
               | [] => Some ([], ls)
               | t :: r => match tree_unflatten t ls with
                           | Some (v, ls1) => match go r ls1 with Some (vs, ls2) => Some (v :: vs, ls2) | None => None end
                           | None => None
                           end
               end) ch ls with
      | Some (vs, rest) => Some (PNode cls (build (fields_of cls) (attr_dict ks vs st)), rest)
      | None => None
      end
  end.
(** jax.tree_util.tree_map with one tree *)
Definition tree_map (f : A -> A) (v : pval) : option pval :=
  let '(ls, t) := tree_flatten v in
  match tree_unflatten t (map f ls) with Some (w, []) => Some w | _ => None end.

(** 124-131: to_tuple, from_tuple, replace.  The constructor takes exactly one value per
    declared field (fields have no defaults). *)
Definition construct (cls : string) (args : list pval) : option pval :=
  if length args =? length (fields_of cls) then Some (PNode cls (build (fields_of cls) (find_key (combine (fields_of cls) args)))) else None.
Fixpoint all_some {X} (l : list (option X)) : option (list X) :=
  match l with [] => Some [] | Some x :: r => option_map (cons x) (all_some r) | None :: _ => None end.
Definition to_tuple (cls : string) (d : pattrs) : option (list pval) := all_some (map (lookup d) (fields_of cls)).
(** [dcls(zip(names, args))]: the zip object itself is the only argument *)
Definition from_tuple (cls : string) (zip_object : list pval -> pval) (args : list pval) : option pval := construct cls [zip_object args].
(** [dataclasses.replace]: unknown names are a TypeError *)
Definition replace (cls : string) (d : pattrs) (changes : list (string * pval)) : option pval :=
  if forallb (fun c => mem (fst c) (fields_of cls)) changes then
    match all_some (map (fun n => match find_key changes n with Some v => Some v | None => lookup d n end) (fields_of cls)) with
    | Some args => construct cls args
    | None => None
    end
  else None.
End Tree.
Arguments pval : clear implicits.
Arguments pattrs : clear implicits.
Arguments tdef : clear implicits.
Scheme pval_mut := Induction for pval Sort Prop with pattrs_mut := Induction for pattrs Sort Prop.
Combined Scheme pval_pattrs_ind from pval_mut, pattrs_mut.
