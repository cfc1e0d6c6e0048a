(** * FilesModel.v — saved files over time (definitions only).

    io/io.py [save] 78-107, [load] 152-187; core/xtructure_decorators/io.py 18-31.
    IOModel.v models the contents of one complete file; here are the path that is written,
    the file a save leaves behind when it does not run to the end, and loading such a file.

    np.savez_compressed(path, **data) opens the file for writing (which empties it), writes
    one archive member per key in the order of the dictionary and then the archive's
    directory.  A Python exception while it runs (KeyboardInterrupt, disk full, ...) closes
    the archive, so that the members written so far are readable and the member being
    written is there but cut short; a process that is killed leaves no directory, so the
    file is not an archive at all.  Not modelled: links and relative paths that make two
    strings name one file, concurrent writers, and what a file system loses after a
    completed write. *)
From Coq Require Import String.
From Verif Require Import Jax StructModel BitpackModel EqModel PromoteModel IOModel.
Local Open Scope string_scope.

(** numpy's _savez: [if not file.endswith('.npz'): file = file + '.npz'] (called at 107) *)
Fixpoint ends_npz (p : string) : bool :=
  String.eqb p ".npz" || match p with EmptyString => false | String _ t => ends_npz t end.
Definition written_path (p : string) : string := if ends_npz p then p else p ++ ".npz".

(** an archive's members, the last written first; [None]: a member that was cut short *)
Definition archive := list (string * option entry).
Definition aget (d : archive) (k : string) : option (option entry) :=
  match find (fun e => String.eqb (fst e) k) d with Some e => Some (snd e) | None => None end.
Definition complete (d : dict) : archive := map (fun e => (fst e, Some (snd e))) d.
(** the members of dictionary [d] (last written first) when an exception stops the writing
    after [k] members, the next one having been started or not *)
Definition stopped (d : dict) (k : nat) (started : bool) : archive :=
  let order := rev d in
  let whole := rev (map (fun e => (fst e, Some (snd e))) (firstn k order)) in
  match nth_error order k with
  | Some e => if started then (fst e, None) :: whole else whole
  | None => whole
  end.

(** 110-149 on an archive: [key in data] looks at the directory, [data[key]] raises for a
    member that was cut short *)
Definition aload_array (key : string) (dt : dtype) (data : archive) : option array :=
  match aget data (bp_key key "data"), aget data (bp_key key "shape"), aget data (bp_key key "bits") with
  | Some x, Some y, Some z =>
      match x, y, z with
      | Some (EArr bytes), Some (EArr shp), Some (EArr b) =>
          let bits := Z.to_nat (hd 0%Z (adata b)) in
          let shape := map Z.to_nat (adata shp) in
          Some (MkArr dt shape (map (fun v => conv (loaded_dtype bits) dt (Z.of_N v)) (from_uint8 bits (map Z.to_N (adata bytes)) (prod shape))))
      | _, _, _ => None
      end
  | _, _, _ => match aget data key with Some (Some (EArr a)) => Some a | _ => None end
  end.
Fixpoint aload_v (key : string) (d : desc) (data : archive) : option value :=
  match d with
  | Prim dt _ _ _ _ => option_map VArr (aload_array key dt data)
  | Nest c _ => option_map VObj (aload_obj (key ++ ".") c data)
  end
with aload_obj (prefix : string) (c : class) (data : archive) : option obj :=
  match c with
  | CNil => Some ONil
  | CCons n d r => match aload_v (prefix ++ n) d data, aload_obj prefix r data with
                   | Some v, Some q => Some (OCons n v q)
                   | _, _ => None
                   end
  end.
(** 165-187; also returns the class that was looked up *)
Definition aload (env : string -> string -> option class) (data : archive) : option ((string * string) * obj) :=
  match aget data module_key, aget data name_key with
  | Some (Some (EStr m)), Some (Some (EStr n)) =>
      match env m n with Some c => option_map (fun o => ((m, n), o)) (aload_obj "" c data) | None => None end
  | _, _ => None
  end.

(** ** Files *)
Inductive file := Archive (d : archive) | Damaged.
Definition disk := string -> option file.
Definition write (f : disk) (p : string) (x : file) : disk := fun q => if String.eqb p q then Some x else f q.

(** how far a call of [save] gets *)
Inductive outcome :=
  | Finished
  | StoppedBefore             (* an exception or a kill before the file is opened *)
  | StoppedAt (k : nat) (started : bool) (* an exception while writing *)
  | Killed.                   (* the process dies after opening, before the directory is written *)
Record call := Save { c_path : string; c_packed : bool; c_mod : string; c_name : string; c_class : class; c_obj : obj; c_out : outcome }.
(** 78-107: everything that can raise by itself (flattening, packing, the "file" keyword)
    comes before the file is opened *)
Definition run_save (f : disk) (c : call) : disk :=
  match save (c_packed c) (c_mod c) (c_name c) (c_class c) (c_obj c) with
  | None => f
  | Some d =>
      match c_out c with
      | StoppedBefore => f
      | Finished => write f (written_path (c_path c)) (Archive (complete d))
      | StoppedAt k s => write f (written_path (c_path c)) (Archive (stopped d k s))
      | Killed => write f (written_path (c_path c)) Damaged
      end
  end.
Definition run_saves (f : disk) (h : list call) : disk := fold_left run_save h f.

(** 152-187 [load(path)]: np.load opens exactly [path] *)
Definition load_path (env : string -> string -> option class) (f : disk) (p : string) : option ((string * string) * obj) :=
  match f p with Some (Archive d) => aload env d | _ => None end.
(** xtructure_decorators/io.py 22-31 [Cls.load(path)]; [issub x y]: class x is y or derives
    from it *)
Definition class_load (issub : string * string -> string * string -> bool) (env : string -> string -> option class)
  (cls : string * string) (f : disk) (p : string) : option obj :=
  match load_path env f p with
  | Some (k, o) => if issub k cls then Some o else None
  | None => None
  end.
