(** Model of the staging classes of pizza_cutter/files.py.

    Paths are pairs (directory, base name) as they come out of [expandpath]:
    symbolic links are resolved there, so that equal paths mean the same file.
    The methods return the list of elementary file operations they perform,
    in order; a crash, or an operating system error, stops after any prefix
    of that list. *)
From Coq Require Import ZArith List Bool String.
From Verif Require Import Lib.Base.
Import ListNotations.
Open Scope string_scope.

Definition path : Type := (string * string)%type.

Definition path_eqb (p q : path) : bool :=
  (fst p =? fst q) && (snd p =? snd q).

Section Files.
Context {C : Type}.   (* contents of a file *)

Record fsys : Type := mk_fsys {
  file : path -> option C;
  isdir : string -> bool
}.

(** Elementary operations. *)
Inductive op : Type :=
| Remove (p : path)            (* os.remove *)
| Mkdir (d : string)           (* os.makedirs *)
| Rename (p q : path)          (* os.rename *)
| Put (p : path) (c : C).      (* the file p exists now, with contents c *)

Definition set_file (f : path -> option C) (p : path) (v : option C) : path -> option C :=
  fun q => if path_eqb p q then v else f q.

Definition apply (s : fsys) (o : op) : fsys :=
  match o with
  | Remove p => mk_fsys (set_file (file s) p None) (isdir s)
  | Mkdir d => mk_fsys (file s) (fun e => (d =? e) || isdir s e)
  | Rename p q => mk_fsys (set_file (set_file (file s) q (file s p)) p None) (isdir s)
  | Put p c => mk_fsys (set_file (file s) p (Some c)) (isdir s)
  end.

Definition run (s : fsys) (ops : list op) : fsys := fold_left apply ops s.

Definition exists_file (s : fsys) (p : path) : bool :=
  match file s p with Some _ => true | None => false end.

(** shutil.move renames when source and destination are on one device, and
    otherwise copies and unlinks. Copying leaves incomplete contents at the
    destination for a while: [partial] lists them. *)
Inductive device : Type :=
| SameDevice
| OtherDevice (partial : list C).

(** shutil.copy, with the incomplete contents it goes through. *)
Definition copy_ops (s : fsys) (p q : path) (partial : list C) : list op :=
  match file s p with
  | Some c => (map (Put q) partial ++ [Put q c])%list
  | None => []
  end.

Definition move_ops (s : fsys) (dev : device) (p q : path) : list op :=
  match dev with
  | SameDevice => [Rename p q]
  | OtherDevice partial => (copy_ops s p q partial ++ [Remove p])%list
  end.

(** try_makedir, files.py:45-53: errors are ignored there; they show up as an
    error of the following operation. *)
Definition try_makedir (s : fsys) (d : string) : list op :=
  if isdir s d then [] else [Mkdir d].

(** ** StagedOutFile *)

Record staged_out : Type := mk_so {
  so_must_exist : bool;
  so_was_staged_out : bool;
  so_final : path;
  so_path : path;
  so_is_temp : bool
}.

(** StagedOutFile.__init__ and _set_paths, files.py:80-112. [fname] and
    [tmpdir] are already expanded. *)
Definition so_init (s : fsys) (fname : path) (tmpdir : option string) (must_exist : bool)
  : list op * staged_out :=
  match tmpdir with
  | None => ([], mk_so must_exist false fname fname false)
  | Some d =>
      (if isdir s d then [] else [Mkdir d],
       mk_so must_exist false fname (d, snd fname) (negb (d =? fst fname)))
  end.

Definition staged (st : staged_out) : staged_out :=
  mk_so (so_must_exist st) true (so_final st) (so_path st) (so_is_temp st).

(** StagedOutFile.stage_out, files.py:114-138; also what [__exit__] does,
    whether or not there was an exception (files.py:143-144). *)
Definition stage_out (s : fsys) (dev : device) (st : staged_out) : list op * result staged_out :=
  if so_is_temp st && negb (so_was_staged_out st)
  then
    if negb (exists_file s (so_path st))
    then if so_must_exist st then ([], Raise IOError) else ([], Ok st)
    else
      let rm := if exists_file s (so_final st) then [Remove (so_final st)] else [] in
      let mk := try_makedir s (fst (so_final st)) in
      ((rm ++ mk ++ move_ops s dev (so_path st) (so_final st))%list, Ok (staged st))
  else ([], Ok (staged st)).

(** ** StagedInFile *)

Record staged_in : Type := mk_si {
  si_original : path;
  si_path : path;
  si_stage_in : bool;
  si_was_staged_in : bool
}.

(** StagedInFile._set_paths, files.py:174-198. *)
Definition si_set_paths (fname : path) (tmpdir : option string) : staged_in :=
  match tmpdir with
  | Some d => mk_si fname (d, snd fname) (negb (d =? fst fname)) false
  | None => mk_si fname fname false false
  end.

(** StagedInFile.stage_in, files.py:200-219; called by [__init__]. *)
Definition stage_in (s : fsys) (partial : list C) (st : staged_in) : list op * result staged_in :=
  if si_stage_in st
  then
    if negb (exists_file s (si_original st)) then ([], Raise IOError)
    else
      let pre := if exists_file s (si_path st) then [Remove (si_path st)]
                 else try_makedir s (fst (si_path st)) in
      ((pre ++ copy_ops s (si_original st) (si_path st) partial)%list,
       Ok (mk_si (si_original st) (si_path st) true true))
  else ([], Ok st).

(** StagedInFile.cleanup, files.py:221-225; also [__exit__]. *)
Definition cleanup (s : fsys) (st : staged_in) : list op * staged_in :=
  if si_was_staged_in st && exists_file s (si_path st)
  then ([Remove (si_path st)], mk_si (si_original st) (si_path st) (si_stage_in st) false)
  else ([], st).

(** ** The output files of make_des_pizza_slices, _pizza_cutter.py:180-238 *)

(** What the external parts of a run do. *)
Record world : Type := mk_world {
  w_fits : result C;            (* writing the FITS file: contents, or an exception *)
  w_partial_fits : option C;    (* what is left of it when there is an exception *)
  w_fpack_ok : bool;            (* check_call(fpack) returns 0 *)
  w_fpack_out : option C;       (* what fpack leaves at the .fz path *)
  w_valid : C -> bool;          (* validate_meds accepts these contents *)
  w_device : device             (* tmpdir and final directory *)
}.

(** [meds_path] is (dir, base); the compressed file is (dir, base ++ ".fz").
    Metadata construction (before the files are touched) is part of [w_fits].
    validate_meds on a missing file raises. *)
Definition make_slices_files (s : fsys) (w : world) (meds_path : path) (tmpdir : option string)
  (remove_fits_file : bool) : fsys * result unit :=
  let fz := (fst meds_path, snd meds_path ++ ".fz") in
  let mk := try_makedir s (fst meds_path) in          (* makedirs_fromfile *)
  let s := run s mk in
  let '(ops, st) := so_init s fz tmpdir false in
  let s := run s ops in
  let staged_fz := so_path st in
  let staged_fits := (fst staged_fz, snd meds_path) in  (* sf.path[:-3] *)
  match w_fits w with
  | Raise e =>
      let s := match w_partial_fits w with
               | Some c => apply s (Put staged_fits c)
               | None => s
               end in
      let '(ops, r) := stage_out s (w_device w) st in    (* __exit__ *)
      (run s ops, Raise (match r with Raise e' => e' | Ok _ => e end))
  | Ok c =>
      let s := apply s (Put staged_fits c) in
      let s := if exists_file s staged_fz then apply s (Remove staged_fz) else s in
      let s := match w_fpack_out w with
               | Some d => apply s (Put staged_fz d)
               | None => s
               end in
      let s := if w_fpack_ok w && remove_fits_file then apply s (Remove staged_fits) else s in
      let '(ops, r) := stage_out s (w_device w) st in    (* __exit__ *)
      let s := run s ops in
      match r with
      | Raise e => (s, Raise e)
      | Ok _ =>
          match file s fz with
          | Some d => (s, if w_valid w d then Ok tt else Raise OtherError)
          | None => (s, Raise IOError)
          end
      end
  end.

End Files.
Arguments fsys C : clear implicits.
Arguments op C : clear implicits.
Arguments device C : clear implicits.
Arguments world C : clear implicits.
