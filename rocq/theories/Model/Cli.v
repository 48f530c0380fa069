(** Model of the path and flag handling of bin/des-pizza-cutter, of
    _hash_to_int in _pizza_cutter.py and of addLoggingLevel in __init__.py. *)
From Coq Require Import ZArith Bool String Ascii List.
From Verif Require Import Lib.Base Lib.PyStr Lib.PyDict Lib.PyText.
Import ListNotations.
Open Scope string_scope.
Open Scope list_scope.
Open Scope Z_scope.

(** bin/des-pizza-cutter:54-61. *)
Definition range_end (slice_range : option string) : result string :=
  match slice_range with
  | Some s =>
      match split_on ":" s with
      | [a; b] =>
          start <- py_int a ;;
          stop <- py_int b ;;
          Ok ("-range" ++ dec_pad 4 start ++ "-" ++ dec_pad 4 stop)%string
      | _ => Raise AssertionError
      end
  | None => Ok ""
  end.

(** 62-64. *)
Definition config_name (config : string) (tag : option string) : string :=
  let sname := remove_all ".yaml" (basename config) in
  match tag with None => sname | Some t => (sname ++ "-" ++ t)%string end.

(** 48-73: the path of the uncompressed MEDS file. *)
Definition meds_path (output_path config : string) (tag slice_range : option string)
  (tilename band : string) : result string :=
  if endswith ".fits" output_path then Ok output_path
  else if endswith ".fits.fz" output_path then
    Ok (String.substring 0 (String.length output_path - 3) output_path)
  else
    rend <- range_end slice_range ;;
    Ok (path_join output_path
          (tilename ++ "_" ++ band ++ "_" ++ config_name config tag ++ "_meds-pizza-slices" ++ rend ++ ".fits")%string).

(** 91-95. *)
Definition remove_fits_file (log_level : string) (tmpdir : option string) : bool :=
  if String.eqb (upper log_level) "DEBUG" && match tmpdir with None => true | Some _ => false end
  then false else true.

(** main, 168-172: the temporary directory that [go] is given; [make dir] is
    the name of the directory made inside [dir], or in the default place. *)
Definition main_tmpdir (use_tmpdir : bool) (tmpdir : option string) (make : option string -> string) : option string :=
  if use_tmpdir || match tmpdir with None => false | Some _ => true end
  then Some (make tmpdir) else tmpdir.

(** _hash_to_int, _pizza_cutter.py:64-70; [sha1] is the hexadecimal digest. *)
Definition hash_to_int (sha1 : string -> string) (s : string) : result Z :=
  h <- int16 (sha1 s) ;;
  Ok (Z.min (Z.max 1 (Z.abs h mod 10 ^ 4)) 9999).

(** The fpack command, 222-225. *)
Definition fpack_command (sha1 : string -> string) (tilename band path : string) : result string :=
  seed <- hash_to_int sha1 (tilename ++ band)%string ;;
  Ok ("fpack -qz" ++ dec seed ++ " 16 " ++ path)%string.

(** The parts of the logging module that addLoggingLevel touches: the
    attributes of the module and of the logger class, and the two tables of
    level names that logging.addLevelName fills (logging/__init__.py of the
    standard library: _levelToName[level] = name, _nameToLevel[name] = level). *)
Inductive attribute : Type :=
| LevelNumber (n : Z)
| LogForLevel (n : Z)
| LogToRoot (n : Z)
| Other (tag : Z).

Record logging := mklogging {
  module_attrs : dict attribute;
  class_attrs : dict attribute;
  level_names : Z -> option string;
  name_levels : dict Z
}.

Definition hasattr (d : dict attribute) (k : string) : bool :=
  match dget d k with Some _ => true | None => false end.

(** addLoggingLevel, __init__.py:15-63. *)
Definition add_logging_level (st : logging) (level_name : string) (level_num : Z) (method_name : option string)
  : result logging :=
  let method := match method_name with None | Some "" => lower level_name | Some m => m end in
  if hasattr (module_attrs st) level_name then Raise AttributeError else
  if hasattr (module_attrs st) method then Raise AttributeError else
  if hasattr (class_attrs st) method then Raise AttributeError else
  Ok (mklogging
        (dset (dset (module_attrs st) level_name (LevelNumber level_num)) method (LogToRoot level_num))
        (dset (class_attrs st) method (LogForLevel level_num))
        (fun n => if n =? level_num then Some level_name else level_names st n)
        (dset (name_levels st) level_name level_num)).
