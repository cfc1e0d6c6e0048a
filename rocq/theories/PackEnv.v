(** * PackEnv.v — the environment variables of aggregate packing (definitions only). *)
From Coq Require Import String.
From Verif Require Import Jax EnvModel.
Local Open Scope string_scope.

(** aggregate_bitpack/__init__.py 89-94 [_parse_backend_env], 111-125 [_pack_backend], 126-127
    [_pack_word_tile], 164-178.  The result: the XLA expression, or the Pallas kernel with a tile
    size.  Pallas has no CPU backend ("mosaic_tpu" is refused there).  [instances without values
    read no variable: not modelled] *)
Inductive pack_choice := ChooseXla | ChoosePallas (tile : nat).
Definition backend_env (e : env) : option string :=
  let w := word (get e "XTRUCTURE_AGG_BITPACK_PACK_BACKEND" "auto") in
  if one_of w ["auto"; "pallas"; "xla"; "off"]%list then Some w else None.
Definition pack_settings (p : platform) (e : env) : option pack_choice :=
  bind (backend_env e) (fun w =>
  let pallas := String.eqb w "pallas" || (String.eqb w "auto" && is_tpu p) in
  if pallas then
    bind (int_env e "XTRUCTURE_AGG_BITPACK_PACK_WORD_TILE") (fun t =>
    match p with Cpu => None | _ => Some (ChoosePallas (match t with Some z => Z.to_nat z | None => 4 end)) end)
  else Some ChooseXla).
