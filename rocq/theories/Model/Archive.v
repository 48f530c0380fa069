(** Model of the functions of _des_info.py that talk to the archive:
    make_coaddtile_geom_fits (316-349), get_gaia_path (416-447) and
    download_archive_file (450-488). get_coaddtile_geom is in [TileInfo]. The
    tables of the database, the shell and the programs it runs are parameters. *)
From Coq Require Import ZArith List Bool String Ascii.
From Coq Require Import List.
From Verif Require Import Lib.Base Lib.PyStr.
Import ListNotations.
Open Scope string_scope.

(** [s LIKE p] of SQL: a percent sign stands for any characters, an underscore
    for one. *)
Fixpoint like (p s : string) {struct p} : bool :=
  match p with
  | EmptyString => match s with EmptyString => true | _ => false end
  | String c p =>
      if Ascii.eqb c "%"
      then (fix any (s : string) : bool :=
              like p s || match s with EmptyString => false | String _ s => any s end) s
      else match s with
           | EmptyString => false
           | String d s => (Ascii.eqb c "_" || Ascii.eqb c d) && like p s
           end
  end.

(** Rows of the tables desfile and file_archive_info, the columns used here. *)
Record desfile := mkdf { df_filename : string; df_filetype : string }.
Record archive_info := mkai { ai_path : string; ai_filename : string }.

(** The query of get_gaia_path, 431-441, with "LIKE" the pattern made of the name
    of the tile and the version. Quotes in these are not modelled. The rows come
    in the order of the tables; [in_order] is what the database makes of it. *)
Definition gaia_rows (in_order : list (string * string) -> list (string * string))
  (files : list desfile) (archive : list archive_info) (tilename version : string)
  : list (string * string) :=
  in_order (flat_map (fun d =>
    if String.eqb (df_filetype d) "cat_tile_gaia" &&
       like (tilename ++ "%" ++ version ++ ".fits") (df_filename d)
    then flat_map (fun a =>
           if String.eqb (df_filename d) (ai_filename a) then [(ai_path a, ai_filename a)] else [])
         archive
    else []) files).

(** get_gaia_path, 416-447; the default of the version is "v1". *)
Definition get_gaia_path in_order files archive tilename (version : option string) : result string :=
  match gaia_rows in_order files archive tilename (match version with Some v => v | None => "v1" end) with
  | [] => Raise RuntimeError
  | (path, name) :: _ => Ok (path_join path name)
  end.

(** [os.path.dirname(s)]: everything up to the last slash, without slashes at its
    end unless it consists of slashes. *)
Fixpoint rev_string (s acc : string) : string :=
  match s with EmptyString => acc | String c s => rev_string s (String c acc) end.

Fixpoint drop_slashes (s : string) : string :=
  match s with
  | String "/" s => drop_slashes s
  | s => s
  end.

Fixpoint drop_to_slash (s : string) : string :=
  match s with
  | EmptyString => EmptyString
  | String "/" s => String "/" s
  | String _ s => drop_to_slash s
  end.

Definition dirname (s : string) : string :=
  let head := drop_to_slash (rev_string s "") in
  match drop_slashes head with
  | EmptyString => rev_string head ""
  | rest => rev_string rest ""
  end.

(** What is done to the outside world, in order. *)
Inductive effect : Type :=
| Makedirs (dir : string)
| Tempdir (dir : string)
| WriteText (path text : string)
| Shell (cwd : option string) (command : string)
| Rmtree (dir : string).

Section Effects.
(** Whether an effect succeeds: the operating system, and the exit status of a
    command, which [check=True] turns into an exception. *)
Variable world : effect -> result unit.

(** Effects so far and the exception, if any. *)
Definition trace : Type := list effect * option pyexc.

Definition act (e : effect) (k : trace) : trace :=
  match world e with
  | Ok _ => (e :: fst k, snd k)
  | Raise x => ([e], Some x)
  end.

Definition newline : string := String (ascii_of_nat 10) EmptyString.

(** download_archive_file, 450-488. [user_env]: the variable DESREMOTE_RSYNC_USER.
    The lines of the command are joined by the backslashes at their ends. *)
Definition rsync_command (user_env : option string) (archive_path source_dir : string) : string :=
  let user := match user_env with Some u => u ++ "@" | None => "" end in
  "rsync     -av     --password-file ${DES_RSYNC_PASSFILE}     " ++ user ++ "${DESREMOTE_RSYNC}/" ++
  archive_path ++ "     " ++ source_dir ++ "/" ++ archive_path ++ newline.

Definition download_archive_file (user_env : option string) (archive_path source_dir : string) : trace :=
  act (Makedirs (dirname (path_join source_dir archive_path)))
  (act (Shell None (rsync_command user_env archive_path source_dir))
  ([], None)).

(** make_coaddtile_geom_fits, 316-349. [tmpdir] is the name of the temporary
    directory, which is removed at the end also if there was an exception. *)
Definition geom_query (tilename tmpdir : string) : string :=
  "
SELECT ID, PIXELSCALE, NAXIS1, NAXIS2,
    RA_CENT, DEC_CENT,
    RA_SIZE,DEC_SIZE,
    RAC1, RAC2, RAC3, RAC4,
    DECC1, DECC2, DECC3, DECC4,
    RACMIN,RACMAX,DECCMIN,DECCMAX,
    CROSSRA0
FROM coaddtile_geom
    WHERE tilename='" ++ tilename ++ "';>" ++ tmpdir ++ "/ctg.fits" ++ newline.

Definition make_coaddtile_geom_fits (tmpdir tilename ofile : string) : trace :=
  act (Tempdir tmpdir)
  (let body :=
     act (WriteText (path_join tmpdir "sql.txt") (geom_query tilename tmpdir))
     (act (Shell (Some tmpdir) "easyaccess --db desoper -l sql.txt")
     (act (Shell None ("cp " ++ tmpdir ++ "/ctg.fits " ++ ofile))
     ([], None))) in
   match world (Rmtree tmpdir) with
   | Ok _ => ((fst body ++ [Rmtree tmpdir])%list, snd body)
   | Raise x => ((fst body ++ [Rmtree tmpdir])%list, Some x)
   end).

End Effects.
