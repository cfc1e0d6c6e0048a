(** * KeyModel.v — priority keys and stable sorting (definitions only).

    Keys are floating-point numbers used only through comparison, movement and
    [jnp.isfinite]; a set of non-NaN floats is order-isomorphic to a set of
    integers extended with the two infinities.                               *)
From Verif Require Import Jax.

Inductive key := NInf | Fin (z : Z) | PInf.

(** [a <= b] on keys *)
Definition kle (a b : key) : bool :=
  match a, b with
  | NInf, _ => true
  | _, PInf => true
  | Fin x, Fin y => (x <=? y)%Z
  | _, _ => false
  end.
(** [a > b] on keys *)
Definition kgt (a b : key) : bool := negb (kle a b).
(** [jnp.minimum] *)
Definition kmin (a b : key) : key := if kle a b then a else b.
(** [jnp.isfinite] *)
Definition finite (k : key) : bool := match k with Fin _ => true | _ => false end.

(** Costs of in-batch deduplication: a float that may be NaN.  [cle] is the order used by
    [minimum], which returns NaN whenever an argument is NaN: NaN is below everything;
    [ceq] is [==], false on NaN. *)
Inductive costval := CNaN | Cost (k : key).
Definition cle (a b : costval) : bool :=
  match a, b with
  | CNaN, _ => true
  | Cost x, Cost y => kle x y
  | Cost _, CNaN => false
  end.
Definition ceq (a b : costval) : bool :=
  match a, b with Cost x, Cost y => kle x y && kle y x | _, _ => false end.

(** Stable sort by key: [jax.lax.sort_key_val(keys, payload, is_stable=True)]
    (bgpq/_utils.py 33-38 [sort_arrays]; merge_split/split.py 7-14).  Any stable
    sort computes the same result; the model uses insertion sort. *)
Section Sort.
Context {W : Type}.
Notation item := (key * W)%type.
Fixpoint sinsert (x : item) (l : list item) : list item :=
  match l with
  | [] => [x]
  | y :: t => if kle (fst x) (fst y) then x :: y :: t else y :: sinsert x t
  end.
Definition ssort (l : list item) : list item := fold_right sinsert [] l.
End Sort.
