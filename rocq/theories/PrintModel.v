(** * PrintModel.v — core/xtructure_decorators/string_format.py (definitions only).

    The text of a batched instance is a table of cells drawn by the [rich] library; the drawing is not
    modelled, only the cells, their order, the title and the printed shape. *)
From Coq Require Import String Ascii.
From Verif Require Import Jax StructModel ArrayModel ShapeModel RowsModel.

(** annotate.py 1-2 *)
Definition MAX_PRINT_BATCH_SIZE : nat := 4.
Definition SHOW_BATCH_SIZE : nat := 2.

(** A cell shows one element, or "...". *)
Inductive cell := Elt (text : string) | Dots.
(** What [str(instance)] returns. *)
Inductive printed :=
| PSingle (text : string)
| PTable (cells : list (list cell)) (shape : list nat)
| PUnstructured.

(** string_format.py 72-86: the row (column) indices of a grid; [None] is the "..." row (column) *)
Definition show_indices (n : nat) : list (option nat) :=
  if n <=? SHOW_BATCH_SIZE * 2 then map Some (seq 0 n)
  else map Some (seq 0 SHOW_BATCH_SIZE) ++ [None] ++ map Some (seq (n - SHOW_BATCH_SIZE) SHOW_BATCH_SIZE).

(** 56-63 [get_slice_str(self[index])]; [None] is a raised exception *)
Definition slice_text (fmt : obj -> string) (o : obj) (idx : list nat) : option cell :=
  option_map (fun e => Elt (fmt e)) (obj_index (map (fun i => IInt (Z.of_nat i)) idx) o).

(** 88-109: the grid of a 2-dimensional batch *)
Definition grid_cells (fmt : obj -> string) (o : obj) (r c : nat) : option (list (list cell)) :=
  sequence (map (fun i => match i with
    | None => Some (map (fun _ => Dots) (show_indices c))
    | Some i => sequence (map (fun j => match j with
        | None => Some Dots
        | Some j => slice_text fmt o [i; j]
        end) (show_indices c))
    end) (show_indices r)).

(** 112-129: the single row of any other batch, elements in row-major order *)
Definition line_cells (fmt : obj -> string) (o : obj) (B : list nat) : option (list cell) :=
  let n := prod B in
  let at_ i := slice_text fmt o (unravel B i) in
  if n <=? MAX_PRINT_BATCH_SIZE then sequence (map at_ (seq 0 n))
  else sequence (map at_ (seq 0 SHOW_BATCH_SIZE) ++ [Some Dots] ++ map at_ (seq (n - SHOW_BATCH_SIZE) SHOW_BATCH_SIZE)).

(** 40-141 [get_str]; [fmt] is the single-item formatter with its keyword arguments applied *)
Definition get_str (c : class) (fmt : obj -> string) (o : obj) : option printed :=
  match get_batch c o with
  | None => None
  | Some Unstr => Some PUnstructured
  | Some (Batch []) => Some (PSingle (fmt o))
  | Some (Batch [r; k]) => option_map (fun t => PTable t [r; k]) (grid_cells fmt o r k)
  | Some (Batch B) => option_map (fun l => PTable [l] B) (line_cells fmt o B)
  end.

(** 143-146: [__str__] ignores its keyword arguments, [str] hands them to the formatter.
    [fmt kw o]: the formatter with keyword arguments [kw]; [no_kw]: none. *)
Section Kw.
Context {KW : Type} (no_kw : KW) (fmt : KW -> obj -> string).
Definition dunder_str (c : class) (o : obj) (kw : KW) : option printed := get_str c (fmt no_kw) o.
Definition method_str (c : class) (o : obj) (kw : KW) : option printed := get_str c (fmt kw) o.
End Kw.

(** ** 150-182 [_custom_pretty_formatter]: [fs] = the fields in declaration order with [str(value)] *)
Definition nl : ascii := Ascii.ascii_of_nat 10.
Definition nls : string := String nl EmptyString.
(** [s.split("\n")] *)
Fixpoint lines (s : string) : list string :=
  match s with
  | EmptyString => [EmptyString]
  | String c r =>
      if Ascii.eqb c nl then EmptyString :: lines r
      else match lines r with [] => [String c EmptyString] | l :: ls => String c l :: ls end
  end.
(** ["\n" in s] *)
Fixpoint has_nl (s : string) : bool :=
  match s with EmptyString => false | String c r => Ascii.eqb c nl || has_nl r end.
(** [sep.join(l)] *)
Fixpoint join (sep : string) (l : list string) : string :=
  match l with
  | [] => EmptyString
  | [a] => a
  | a :: r => (a ++ sep ++ join sep r)%string
  end.
Definition field_part (f : string * string) : string :=
  let '(name, v) := f in
  if has_nl v then ("  " ++ name ++ ": " ++ nls ++ join nls (map (fun l => "    " ++ l) (lines v)))%string
  else ("  " ++ name ++ ": " ++ v)%string.
Definition pretty (cls : string) (fs : list (string * string)) : string :=
  match fs with
  | [] => (cls ++ "()")%string
  | _ => (cls ++ "(" ++ nls ++ join ("," ++ nls) (map field_part fs) ++ nls ++ ")")%string
  end.
